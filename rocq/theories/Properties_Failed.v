(** Properties_Failed.v -- C52: declaration calls that throw. *)
From Coq Require Import Permutation Sorted.
From Verif Require Import Base Model_Utils Model_Number Model_Types Model_Argument Model_Usage Model_Args Model_Api
  Spec_Order Spec_Names Spec_Reading Spec_Parse Spec_Decl Spec_Finish Spec_History Spec_Api Spec_Result
  Proofs_Base Proofs_Order Proofs_Frame Proofs_Inv Proofs_ReadFacts Proofs_Reading Proofs_Parse Proofs_Decl Proofs_Finish
  Proofs_Meth Proofs_History Proofs_Config Proofs_Names Proofs_Check Proofs_Central Proofs_Dyn Proofs_Fresh Proofs_Redecl
  Demo Properties_Parse Proofs_Swap Properties_Decl Proofs_Alike Properties_Final.

(** Not true in general.  Each of these calls on the argument [n] throws and the argument
    is not as before; the observers below tell the difference:
    - nargs(0) on a positional: it throws, and the positional has nargs 0 afterwards; with
      INFINITE the next parse does not end (C10);
    - defaults() with a wrong number of values: the earlier defaults are lost;
    - nargs(2) on an option with one default value: the call is refused because of the
      defaults, but the option takes 2 values afterwards and has lost its default;
    - action(HELP), when there is a help option already: the option says it is a help
      option;
    - action(VERSION), when there is a version option, on an option with a refused
      action(HELP): the help option -a is not the help option any more;
    - action(STORE_TRUE) on a variable-length positional: getAction() changes;
    - action(HELP) on a variable-length option, when there is a help option: the usage text
      changes. *)
Definition after_refusal (pre : list op) (n : str) (m : meth) (before after : argument -> Prop) : Prop :=
  let s := history pre in
  exists a s' e a', getArgument s n = Ok a /\ before a /\ step (OpUpdate n [m]) s = (s', Throw e) /\ getArgument s' n = Ok a' /\ after a'.
Theorem C52_refuted :
  after_refusal [OpAdd ["P"] [MAction INFINITE; MNargs 2]] "P" (MNargs 0) (fun a => getNargs a = 2%N) (fun a => getNargs a = 0%N) /\
  after_refusal [OpAdd ["-o"] [MNargs 2; MDefaults ["x"; "y"]]] "-o" (MDefaults ["z"])
     (fun a => to_vector a = Ok ["x"; "y"]) (fun a => to_vector a = Ok []) /\
  after_refusal [OpAdd ["-o"] [MDefaults ["x"]]] "-o" (MNargs 2)
     (fun a => behaviour a = (SIMPLE_OPTION, 1%N, NONE)) (fun a => behaviour a = (NUMBER_OPTION, 2%N, NONE)) /\
  after_refusal [OpAdd ["-a"] [MAction HELP]; OpAdd ["-b"] []] "-b" (MAction HELP) (fun a => getAction a = NONE) (fun a => getAction a = HELP) /\
  (let s := history [OpAdd ["-a"] [MAction HELP]; OpAdd ["-c"] [MAction VERSION]; OpAdd ["-b"] [MAction HELP]] in
   is_help s (pick "-a" s) /\ exists s' e, step (OpUpdate "-b" [MAction VERSION]) s = (s', Throw e) /\ forall x, ~ is_help s' x) /\
  after_refusal [OpAdd ["P"] [MAction INFINITE]] "P" (MAction STORE_TRUE) (fun a => getAction a = INFINITE) (fun a => getAction a = STORE_TRUE) /\
  (let s := history [OpAdd ["-a"] [MAction HELP]; OpAdd ["-o"] [MAction INFINITE]] in
   exists s' e, step (OpUpdate "-o" [MAction HELP]) s = (s', Throw e) /\ usage_of s' <> usage_of s).
Proof.
  assert (R : forall pre n m B A, (exists a s' e a', getArgument (history pre) n = Ok a /\ B a /\ step (OpUpdate n [m]) (history pre) = (s', Throw e) /\ getArgument s' n = Ok a' /\ A a') -> after_refusal pre n m B A) by (intros; assumption).
  split; [|split; [|split; [|split; [|split; [split|split]]]]].
  1-4, 7 : apply R; do 4 eexists; repeat (split; [vm_compute; reflexivity|]); vm_compute; reflexivity.
  - split; [apply pick_In; vm_compute; reflexivity | vm_compute; reflexivity].
  - eexists. eexists. split; [vm_compute; reflexivity|]. intros x [_ X]. vm_compute in X. discriminate X.
  - eexists. eexists. split; [vm_compute; reflexivity|]. intro X. apply (f_equal String.length) in X. vm_compute in X. discriminate X.
Qed.
Print Assumptions C52_refuted.

(** What is kept, whatever the call (on an existing argument; the exception stops the
    chain of calls at the refused one).  The exception is an ArgumentException. *)
Definition untouched (a a' : argument) : Prop :=
  a_id a' = a_id a /\ getNameOrFlags a' = getNameOrFlags a /\ isPositional a' = isPositional a /\ isRequired a' = isRequired a /\
  c_help (a_cfg a') = c_help (a_cfg a) /\ c_metavar (a_cfg a') = c_metavar (a_cfg a) /\
  c_valid (a_cfg a') = c_valid (a_cfg a) /\ c_dest (a_cfg a') = c_dest (a_cfg a) /\ isExists a' = isExists a /\ count a' = count a.
Lemma declared_fails : forall b s s' e, declared b s = (s', Some e) -> x_kind e = KArgument /\
  s_map s' = s_map s /\ s_help s' = s_help s /\ s_version s' = s_version s /\
  exists b', s_args s' = s_args (put b' s) /\ untouched b b' /\ a_gen b' = a_gen b.
Proof.
  assert (DF : forall b x e, defaults_arg b = (x, Some e) -> x_kind e = KArgument /\ untouched b x /\ a_gen x = a_gen b).
  { intros b x e E. unfold defaults_arg in E. destruct (no_defaults _); [discriminate E|]. destruct (size_fits _ _); [discriminate E|]. injection E as <- <-. repeat split. }
  intros b s s' e E. unfold declared in E. destruct (kind_of (a_cfg b)) as [k|] eqn:K.
  - destruct (defaults_arg (arg_cfg b (retyped (a_cfg b) k))) as [x [e'|]] eqn:D.
    + destruct (DF _ _ _ D) as [KA [UT GE]].
      assert (ND : fst (fst k) <> HELP_OPTION /\ fst (fst k) <> VERSION_OPTION).
      { split; intros T; unfold defaults_arg in D; (assert (Z : no_defaults (a_cfg (arg_cfg b (retyped (a_cfg b) k))) = true); [|rewrite Z in D; discriminate D]);
          destruct k as [[kt kn] ka]; cbn [fst] in T; subst kt; unfold no_defaults; cbn; (assert (Z : kn = 0%N); [|now subst kn]);
          unfold kind_of in K; destruct (is_positional _); unfold positional_kind, option_kind in K; destruct (c_action (a_cfg b)); try discriminate K;
          repeat (match type of K with context [N.eqb ?u ?v] => destruct (N.eqb u v) end; try discriminate K); now injection K. }
      assert (PO : is_positional (fst (fst k)) = isPositional b) by (exact (Proofs_Config.kind_pos _ _ K)).
      assert (UT' : untouched b x). { destruct k as [[kt kn] ka]. destruct UT as [U1 [U2 [U3 [U4 [U5 [U6 [U7 [U8 [U9 U10]]]]]]]]]. repeat split; try assumption. rewrite U3. exact PO. }
      assert (E2 : (put x s, Some e') = (s', Some e)). { destruct (fst (fst k)) eqn:T; try exact E; exfalso; [exact (proj1 ND eq_refl) | exact (proj2 ND eq_refl)]. }
      injection E2 as <- <-. split; [exact KA|]. split; [reflexivity|]. split; [reflexivity|]. split; [reflexivity|]. exists x. split; [reflexivity|]. now split.
    + cbn [fst snd] in E. destruct (fst (fst k)); try discriminate E.
      * destruct (claims _ _); [discriminate E|]. injection E as <- <-. repeat split. exists b. repeat split.
      * destruct (claims _ _); [discriminate E|]. injection E as <- <-. repeat split. exists b. repeat split.
  - injection E as <- <-. repeat split. exists b. repeat split.
Qed.
Lemma meth_fails : forall m a s s' e, wf0 s -> In a (s_args s) -> meth_state m a s = (s', Some e) -> x_kind e = KArgument /\
  s_map s' = s_map s /\ (getAction a <> HELP -> s_help s' = s_help s) /\ (getAction a <> VERSION -> s_version s' = s_version s) /\
  exists b, s_args s' = s_args (put b s) /\ untouched a b /\ a_gen b = a_gen a /\ (forall vs, m = MDefaults vs -> behaviour b = behaviour a).
Proof.
  intros m a s s' e W Ia E.
  assert (SELF : (s, Some e) = (s', Some e) -> x_kind e = KArgument -> x_kind e = KArgument /\
  s_map s' = s_map s /\ (getAction a <> HELP -> s_help s' = s_help s) /\ (getAction a <> VERSION -> s_version s' = s_version s) /\
  exists b, s_args s' = s_args (put b s) /\ untouched a b /\ a_gen b = a_gen a /\ (forall vs, m = MDefaults vs -> behaviour b = behaviour a)).
  { intros Q KA. injection Q as <-. repeat split; try assumption. exists a. rewrite put_same by (try apply (wf_ids s W); assumption). repeat split. }
  destruct m; cbn [meth_state] in E; try discriminate E.
  - destruct (is_positional _); [injection E as <- <-; now apply SELF|]. destruct (validFormatFlag f); [injection E as <- <-; now apply SELF|].
    destruct (mem_key f (s_map s)); [injection E as <- <-; now apply SELF | discriminate E].
  - destruct (declared_fails _ _ _ _ E) as [KA [EM [EH [EV [b [EA [UT GE]]]]]]]. split; [exact KA|].
    assert (RS : s_map (released a s) = s_map s /\ s_args (released a s) = s_args s /\ (getAction a <> HELP -> s_help (released a s) = s_help s) /\ (getAction a <> VERSION -> s_version (released a s) = s_version s)).
    { unfold released. destruct (getAction a); repeat split; intros; try reflexivity; contradiction. }
    destruct RS as [R1 [R2 [R3 R4]]]. split; [congruence|]. split; [intros N; rewrite EH; auto|]. split; [intros N; rewrite EV; auto|].
    exists b. split; [rewrite EA; unfold put, with_args; cbn [s_args]; now rewrite R2|]. split; [exact UT|]. split; [exact GE|]. discriminate.
  - destruct (declared_fails _ _ _ _ E) as [KA [EM [EH [EV [b [EA [UT GE]]]]]]]. split; [exact KA|]. split; [exact EM|]. split; [auto|]. split; [auto|].
    exists b. split; [exact EA|]. split; [exact UT|]. split; [exact GE|]. discriminate.
  - unfold defaults_arg in E. destruct (no_defaults _); [discriminate E|]. destruct (size_fits _ _); [discriminate E|]. injection E as <- <-. repeat split.
    exists (arg_dyn (arg_cfg a (cfg_defaults (a_cfg a) v)) (dyn_elems (a_dyn a) [])). repeat split.
Qed.
Lemma put_split : forall s a b, NoDup (map a_id (s_args s)) -> In a (s_args s) -> a_id b = a_id a ->
  exists l1 l2, s_args s = l1 ++ a :: l2 /\ s_args (put b s) = l1 ++ b :: l2.
Proof.
  intros s a b ND Ia E. apply in_split in Ia. destruct Ia as [l1 [l2 EL]]. exists l1, l2. split; [exact EL|]. unfold put, with_args. cbn [s_args]. rewrite EL in *.
  unfold upd_id. rewrite map_app. cbn [map]. rewrite E, Nat.eqb_refl. rewrite map_app in ND. cbn [map] in ND. apply NoDup_remove_2 in ND.
  f_equal; [|f_equal]; rewrite <- (map_id l1) at 2 || rewrite <- (map_id l2) at 2; apply map_ext_in; intros x Ix; (destruct (Nat.eqb_spec (a_id x) (a_id a)) as [Q|Q]; [|reflexivity]);
    exfalso; apply ND; rewrite in_app_iff; [left | right]; rewrite <- Q; now apply in_map.
Qed.
Theorem C52_others_partial : forall s n a m s' e, reach s -> getArgument s n = Ok a -> step (OpUpdate n [m]) s = (s', Throw e) ->
  x_kind e = KArgument /\
  (exists l1 l2 a', arguments s = l1 ++ a :: l2 /\ arguments s' = l1 ++ a' :: l2 /\ untouched a a' /\
     (forall vs, m = MDefaults vs -> behaviour a' = behaviour a)) /\
  (forall n', argumentExists s' n' = argumentExists s n') /\
  (forall n' b, getArgument s n' = Ok b -> b <> a -> getArgument s' n' = Ok b) /\
  (getAction a <> HELP -> forall h, h <> a -> is_help s h -> is_help s' h) /\
  (getAction a <> VERSION -> forall h, h <> a -> is_version s h -> is_version s' h).
Proof.
  intros s n a m s' e R G E. pose proof (proj1 (reach_wf s R)) as W. destruct (getArgument_inv s n a W G) as [Ia _].
  assert (R' : reach s') by (eapply reach_step; [exact R | exact E | exact I]). pose proof (proj1 (reach_wf s' R')) as W'.
  rewrite (update_get s n a _ W G), (one_meth _ s a W Ia) in E.
  destruct (meth_state m a s) as [t [x|]] eqn:M; cbn [outcome] in E; [|discriminate E]. assert (t = s' /\ x = e) as [-> ->] by (injection E; auto).
  destruct (meth_fails m a s s' e W Ia M) as [KA [EM [EH [EV [b [EA [UT [GE BE]]]]]]]].
  split; [exact KA|].
  assert (OT : forall y, In y (s_args s) -> y <> a -> In y (s_args s')).
  { intros y Iy Ny. rewrite EA. apply put_In_other; [exact Iy|]. rewrite (proj1 UT). intros Q. apply Ny. now apply (wf_unique s y a W Iy Ia). }
  split; [|split; [|split; [|split]]].
  - destruct (put_split s a b (wf_ids s W) Ia (proj1 UT)) as [l1 [l2 [E1 E2]]]. exists l1, l2, b. rewrite EA. repeat split; try assumption; try apply UT. 
  - intros n'. unfold argumentExists. now rewrite EM.
  - intros n' y Gy Ny. destruct (getArgument_inv s n' y W Gy) as [Iy [_ Ay]]. apply getArgument_by; [exact W' | now apply OT | now rewrite EM].
  - intros N h Nh [Ih Ph]. split; [now apply OT|]. now rewrite (EH N).
  - intros N h Nh [Ih Ph]. split; [now apply OT|]. now rewrite (EV N).
Qed.
Print Assumptions C52_others_partial.
(** a refused flag() changes nothing *)
Theorem C52_flag_partial : forall s n a f s' e, reach s -> getArgument s n = Ok a -> step (OpUpdate n [MFlag f]) s = (s', Throw e) -> s' = s.
Proof.
  intros s n a f s' e R G E. pose proof (proj1 (reach_wf s R)) as W. destruct (getArgument_inv s n a W G) as [Ia _].
  rewrite (update_get s n a _ W G), (one_meth _ s a W Ia) in E. cbn [meth_state] in E.
  destruct (is_positional _); [injection E as <- _; reflexivity|]. destruct (validFormatFlag f); [injection E as <- _; reflexivity|].
  destruct (mem_key f (s_map s)); [injection E as <- _; reflexivity | discriminate E].
Qed.
Print Assumptions C52_flag_partial.

(* ------------------------------------------------------------------ *)
(** * parsing after a refused action() *)

(** the same argument with another action (only getAction and the usage text show it) *)
Definition renamed_action (id : nat) (act : eAction) (a : argument) : argument :=
  if Nat.eqb (a_id a) id then arg_cfg a (cfg_action (a_cfg a) act) else a.
Section Remark.
Variables (id : nat) (act : eAction).
Let f := renamed_action id act.
Lemma rm_id : forall a, a_id (f a) = a_id a. Proof. intros a. unfold f, renamed_action. now destruct (Nat.eqb (a_id a) id). Qed.
Lemma rm_gen : forall a, a_gen (f a) = a_gen a. Proof. intros a. unfold f, renamed_action. now destruct (Nat.eqb (a_id a) id). Qed.
Lemma rm_dyn : forall a, a_dyn (f a) = a_dyn a. Proof. intros a. unfold f, renamed_action. now destruct (Nat.eqb (a_id a) id). Qed.
Lemma rm_cfg : forall {A} (h : acfg -> A) a, (forall c, h (cfg_action c act) = h c) -> h (a_cfg (f a)) = h (a_cfg a).
Proof. intros A h a H. unfold f, renamed_action. destruct (Nat.eqb (a_id a) id); [apply H | reflexivity]. Qed.
Lemma rm_lt : forall a b, arg_lt (f a) (f b) = arg_lt a b.
Proof. intros a b. unfold arg_lt, f, renamed_action. destruct (Nat.eqb (a_id a) id), (Nat.eqb (a_id b) id); reflexivity. Qed.
Lemma insert_rm : forall a l, insert_by arg_lt (f a) (map f l) = map f (insert_by arg_lt a l).
Proof. intros a l. induction l as [|b l IH]; [reflexivity|]. cbn [map insert_by]. rewrite rm_lt. destruct (arg_lt b a); cbn [map]; [now rewrite IH | reflexivity]. Qed.
Lemma sort_rm : forall l, sort_by arg_lt (map f l) = map f (sort_by arg_lt l).
Proof. intros l. induction l as [|a l IH]; [reflexivity|]. cbn [map]. unfold sort_by in *. cbn [fold_right]. rewrite IH. apply insert_rm. Qed.
Lemma ids_rm : forall l, map a_id (map f l) = map a_id l.
Proof. intros l. rewrite map_map. apply map_ext, rm_id. Qed.
Lemma read_rm : forall pcs a, read_arg pcs (f a) = f (read_arg pcs a).
Proof. intros pcs a. unfold f, renamed_action, read_arg. cbn [a_id]. destruct (Nat.eqb (a_id a) id); reflexivity. Qed.
Lemma finished_rm : forall a, finished (f a) = f (finished a) /\ refusal (f a) = refusal a.
Proof.
  intros a. unfold f, renamed_action. rewrite finished_id. destruct (Nat.eqb (a_id a) id); [|split; reflexivity]. split; [|reflexivity].
  unfold finished, checked. cbn [arg_cfg a_cfg c_valid cfg_action a_dyn]. destruct (c_valid (a_cfg a)) as [v|]; [|reflexivity].
  destruct (d_exist (a_dyn a)); [|reflexivity].
  change (plain_values (arg_cfg a (cfg_action (a_cfg a) act))) with (plain_values a). destruct (v_fn v (plain_values a)) as [[] vs| |]; reflexivity.
Qed.
Lemma events_rm : forall a, arg_events (f a) = arg_events a.
Proof. intros a. unfold f, renamed_action. destruct (Nat.eqb (a_id a) id); reflexivity. Qed.
Lemma trouble_rm : forall a, trouble (f a) = trouble a.
Proof. intros a. destruct (finished_rm a) as [E1 E2]. unfold trouble. now rewrite E2, E1, events_rm. Qed.
Definition remarked (s s1 : state) : Prop := s1 = with_args s (map f (s_args s)).
Lemma remarked_ready : forall s s1, wf0 s -> wf0 s1 -> remarked s s1 -> (exists a, In a (s_args s) /\ a_id a = id) -> remarked (ready s) (ready s1).
Proof.
  intros s s1 W W1 R [a0 [Ia0 Ea0]].
  assert (FH : free_help s1 = free_help s) by (unfold free_help; now rewrite R).
  assert (SH : s_help s1 = s_help s) by now rewrite R.
  destruct (ready_cases s W) as [[-> [H|H]]|[-> [H1 H2]]]; destruct (ready_cases s1 W1) as [[-> [H'|H']]|[-> [H1' H2']]]; try exact R; try congruence.
  assert (FI : fresh_id s1 = fresh_id s) by (rewrite R; unfold fresh_id; cbn [s_args s_help s_version with_args]; now rewrite ids_rm).
  assert (NI : fresh_id s <> id).
  { intros Z. rewrite <- Ea0 in Z. unfold fresh_id in Z. assert (a_id a0 <= fold_right Nat.max (Nat.max (opt_id (s_help s)) (opt_id (s_version s))) (map a_id (s_args s))).
    { clear - Ia0. induction (s_args s) as [|x l IH]; [destruct Ia0|]. cbn. destruct Ia0 as [->|Ia0]; [lia | specialize (IH Ia0); lia]. }
    lia. }
  unfold remarked in *. rewrite R in *. unfold with_auto_help, registered, with_args, with_map, with_help in *. cbn in *. rewrite ?FI, ?FH. f_equal.
  pose proof (sort_rm (s_args s ++ [Arg (fresh_id s) 0 (help_cfg (free_help s)) new_dyn])) as SR. unfold sort_by in SR. rewrite <- SR, map_app. f_equal. f_equal. cbn [map]. unfold f, renamed_action. cbn [a_id]. now apply Nat.eqb_neq in NI as ->.
Qed.
Lemma remarked_calike : forall s s1, remarked s s1 -> calike (conf_of s) (conf_of s1).
Proof.
  intros s s1 ->. unfold conf_of. split; cbn; auto.
  induction (s_args s) as [|a l IH]; [constructor|]. cbn [map]. constructor; [|exact IH]. split; cbn [fst snd]; [apply rm_id|].
  unfold f, renamed_action. destruct (Nat.eqb (a_id a) id); repeat split.
Qed.
Lemma remarked_met : forall t t1, remarked t t1 -> forall q, met q t1 = met q t.
Proof.
  intros t t1 -> q. unfold met. destruct q as [q|]; [|reflexivity]. cbn [s_args with_args].
  unfold find_ptr. induction (s_args t) as [|a l IH]; [reflexivity|]. cbn [map find]. unfold ptr_of. rewrite rm_id, rm_gen.
  match goal with |- context [if ?b then _ else _] => destruct b end; [now rewrite rm_dyn | exact IH].
Qed.
Lemma remarked_missing : forall t t1, remarked t t1 -> map required_error (missing t1) = map required_error (missing t).
Proof.
  intros t t1 ->. unfold missing. cbn [s_args with_args]. induction (s_args t) as [|a l IH]; [reflexivity|]. cbn [map filter].
  rewrite rm_dyn, (rm_cfg c_required a) by reflexivity. destruct (c_required (a_cfg a) && negb (d_exist (a_dyn a))); [|exact IH]. cbn [map]. rewrite IH. f_equal.
  unfold required_error. now rewrite (rm_cfg first_of a), (rm_cfg c_type a) by reflexivity.
Qed.
Lemma remarked_scanned : forall s s1 argv pcs, remarked (ready s) (ready s1) -> remarked (scanned argv pcs s) (scanned argv pcs s1).
Proof.
  intros s s1 argv pcs R. unfold remarked, scanned in *. rewrite R. cbn [s_args with_args]. rewrite !map_map.
  rewrite (map_ext (fun x => read_arg pcs (f x)) (fun x => f (read_arg pcs x))) by (intros; apply read_rm).
  assert (MM : map f (map (read_arg pcs) (s_args (ready s))) = map (fun x => f (read_arg pcs x)) (s_args (ready s))) by apply map_map.
  unfold named. cbn [s_bin with_args]. destruct (s_bin (ready s)); unfold with_args, with_additional, with_bin; cbn; now rewrite MM.
Qed.
Lemma remarked_verdict : forall t t1, remarked t t1 ->
  (met (s_help t) t = false -> verdict t1 = verdict t) /\
  (met (s_help t) t = true -> (exists u u1, verdict t = Exit u /\ verdict t1 = Exit u1) \/ (exists u u1, verdict t = Throw (Exn KHelp "" u) /\ verdict t1 = Throw (Exn KHelp "" u1))) /\
  completion t1 = with_args (completion t) (map f (s_args (completion t))).
Proof.
  intros t t1 R. pose proof (remarked_met t t1 R) as M. pose proof (remarked_missing t t1 R) as MI.
  assert (TR : flat_map (fun a => match trouble a with Some e => [e] | None => [] end) (s_args t1) = flat_map (fun a => match trouble a with Some e => [e] | None => [] end) (s_args t)).
  { rewrite R. cbn [s_args with_args]. induction (s_args t) as [|a l IH]; [reflexivity|]. cbn [map flat_map]. now rewrite trouble_rm, IH. }
  assert (SH : s_help t1 = s_help t) by now rewrite R. assert (SV : s_version t1 = s_version t) by now rewrite R.
  assert (SM : s_modes t1 = s_modes t) by now rewrite R. assert (VS : s_verstr t1 = s_verstr t) by now rewrite R.
  split; [|split].
  - intros H. unfold verdict. rewrite SH, SV, SM, VS, !M, TR, H. destruct (met (s_version t) t); [reflexivity|].
    destruct (missing t) as [|x l], (missing t1) as [|y l1]; try discriminate MI; [reflexivity|]. pose proof (f_equal (hd (Exn KHelp "" "")) MI) as MX. cbn [map hd] in MX. now rewrite MX.
  - intros H. unfold verdict. rewrite SH, SM, M, H. destruct (m_helpex (s_modes t)); [right | left]; eexists; eexists; split; reflexivity.
  - rewrite R. unfold completion, all_events, with_dlog, with_args. cbn [s_args s_dlog]. f_equal.
    + rewrite !map_map. apply map_ext. intros a. apply finished_rm.
    + f_equal. clear TR. induction (s_args t) as [|a l IH]; [reflexivity|]. cbn [map flat_map]. rewrite IH. f_equal. destruct (finished_rm a) as [-> _]. now rewrite events_rm.
Qed.
End Remark.

(** the refusal of action(act) changes the action only *)
Lemma refused_action : forall s n a act s' e, wf0 s -> getArgument s n = Ok a -> getAction a <> HELP -> getAction a <> VERSION ->
  c_defaults (a_cfg a) = [] -> step (OpUpdate n [MAction act]) s = (s', Throw e) -> remarked (a_id a) act s s'.
Proof.
  intros s n a act s' e W G NH NV D E. destruct (getArgument_inv s n a W G) as [Ia _].
  rewrite (update_get s n a _ W G), (one_meth _ s a W Ia) in E. cbn [meth_state] in E.
  assert (RS : released a s = s) by (unfold released; destruct (getAction a); try reflexivity; contradiction). rewrite RS in E.
  assert (PE : s' = put (arg_cfg a (cfg_action (a_cfg a) act)) s).
  { unfold declared in E. cbn [a_cfg arg_cfg] in E. destruct (kind_of _) as [k|]; [|injection E as <- _; reflexivity]. rewrite no_defaults_arg in E by (destruct k as [[? ?] ?]; exact D).
    cbn [fst snd] in E. destruct (fst (fst k)); try discriminate E; (destruct (claims _ _); [discriminate E | injection E as <- _; reflexivity]). }
  unfold remarked. rewrite PE. unfold put, with_args, upd_id, renamed_action. cbn [a_id arg_cfg]. f_equal. apply map_ext_in. intros x Ix.
  destruct (Nat.eqb_spec (a_id x) (a_id a)) as [X|X]; [|reflexivity]. now rewrite (wf_unique s x a W Ix Ia X).
Qed.
Lemma remarked_usable : forall s n ms id act s' e, usable s -> step (OpUpdate n ms) s = (s', Throw e) -> remarked id act s s' -> usable s'.
Proof.
  intros s n ms id act s' e [U1 [U2 U3]] E R. split; [|split].
  - eapply reach_step; [exact U1 | exact E | exact Logic.I].
  - rewrite R. intros b Ib. cbn [s_args with_args] in Ib. apply in_map_iff in Ib. destruct Ib as [c [<- Ic]]. unfold renamed_action. destruct (Nat.eqb (a_id c) id); exact (U2 c Ic).
  - rewrite R. destruct U3 as [U3 U4]. unfold pointers_ok, live_ptr in *. cbn [s_help s_version s_args with_args].
    assert (X : forall q l x, find_ptr q l = Some x -> exists y, find_ptr q (map (renamed_action id act) l) = Some y).
    { intros q l x. unfold find_ptr. induction l as [|y l IH]; intros F; [discriminate F|]. cbn [map find] in *. rewrite rm_id, rm_gen.
      match goal with H : context [if ?b then _ else _] |- _ => destruct b end; [eexists; reflexivity | now apply IH]. }
    split; [destruct (s_help s); [|exact Logic.I]; destruct U3 as [x F]; eapply X, F | destruct (s_version s); [|exact Logic.I]; destruct U4 as [x F]; eapply X, F].
Qed.
(** After a refused action(act) on an argument without defaults that does not say it is a
    help or version option, every parse ends the same way, with the same values; only
    getAction() of the argument, and the usage text shown by the help option, may differ. *)
Definition asks_help (r : res unit) : Prop := (exists out, r = Exit out) \/ (exists u, r = Throw (Exn KHelp "" u)).
Theorem C52_action_partial : forall s n a act s' e argv ws, usable s -> interprets s -> command_line argv ws ->
  getArgument s n = Ok a -> c_defaults (a_cfg a) = [] -> getAction a <> HELP -> getAction a <> VERSION ->
  step (OpUpdate n [MAction act]) s = (s', Throw e) ->
  let p := parseArguments argv s in let p' := parseArguments argv s' in
  (snd p' = snd p \/ asks_help (snd p) /\ asks_help (snd p')) /\
  (snd p = Ok tt -> fst p' = with_args (fst p)
     (map (fun x => if Nat.eqb (a_id x) (a_id a) then arg_cfg x (cfg_action (a_cfg x) act) else x) (arguments (fst p)))).
Proof.
  intros s n a act s' e argv ws U I C G D NH NV E. cbv zeta. pose proof (usable_wf0 s U) as W. destruct (getArgument_inv s n a W G) as [Ia _].
  pose proof (refused_action s n a act s' e W G NH NV D E) as RM. pose proof (remarked_usable s n _ _ _ s' e U E RM) as U'. pose proof (usable_wf0 s' U') as W'.
  assert (I' : interprets s') by (rewrite RM; exact I).
  pose proof (remarked_ready _ _ s s' W W' RM (ex_intro _ a (conj Ia eq_refl))) as RR.
  pose proof (remarked_calike _ _ _ _ RR) as CA.
  destruct (read_or_reject s argv ws U C I) as [[pcs R]|[x R]].
  - assert (R' : reads s' ws pcs) by (unfold reads, setup; apply (alike_readings _ _ CA); exact R).
    destruct (parse_verdict s argv ws pcs U C I R) as [V1 V2]. destruct (parse_verdict s' argv ws pcs U' C I' R') as [V3 V4].
    destruct (remarked_verdict _ _ _ _ (remarked_scanned _ _ s s' argv pcs RR)) as [VE [VH VC]].
    rewrite V1, V3. destruct (met (s_help (scanned argv pcs s)) (scanned argv pcs s)) eqn:MH.
    + destruct (VH eq_refl) as [[u [u1 [E1 E2]]]|[u [u1 [E1 E2]]]]; rewrite E1, E2; (split; [right|discriminate]); split; [left | left | right | right]; eexists; reflexivity.
    + rewrite (VE eq_refl). split; [now left|]. intros OK. rewrite (V2 ltac:(congruence)). rewrite V4 by (rewrite V3, (VE eq_refl); exact OK). exact VC.
  - assert (R' : rejects s' ws x) by (unfold rejects, setup; apply (alike_rejections _ _ CA); exact R).
    destruct (parse_rejects s argv ws x U C I R) as [t [E1 _]]. destruct (parse_rejects s' argv ws x U' C I' R') as [t' [E2 _]].
    rewrite E1, E2. cbn [snd]. split; [now left | discriminate].
Qed.
Print Assumptions C52_action_partial.

(* ------------------------------------------------------------------ *)
(** * exactly what a refused call leaves behind *)

(** [s'] is [s] with [a'] in the place of [a] *)
Definition replaced (s : state) (a a' : argument) (s' : state) : Prop :=
  exists l1 l2, arguments s = l1 ++ a :: l2 /\ s' = with_args s (l1 ++ a' :: l2).
Lemma put_replaced : forall s a b, wf0 s -> In a (s_args s) -> a_id b = a_id a -> replaced s a b (put b s).
Proof.
  intros s a b W Ia E. destruct (put_split s a b (wf_ids s W) Ia E) as [l1 [l2 [E1 E2]]]. exists l1, l2. split; [exact E1|].
  rewrite <- E2. destruct s; reflexivity.
Qed.
Lemma replaced_put : forall s a b s', wf0 s -> In a (s_args s) -> a_id b = a_id a -> replaced s a b s' -> s' = put b s.
Proof.
  intros s a b s' W Ia E [l1 [l2 [E1 ->]]]. unfold put. f_equal. rewrite E1. pose proof (wf_ids s W) as ND. rewrite E1, map_app in ND. cbn [map] in ND. apply NoDup_remove_2 in ND.
  unfold upd_id. rewrite map_app. cbn [map]. rewrite E, Nat.eqb_refl.
  f_equal; [|f_equal]; rewrite <- (map_id l1) at 1 || rewrite <- (map_id l2) at 1; apply map_ext_in; intros x Ix; (destruct (Nat.eqb_spec (a_id x) (a_id a)) as [Q|Q]; [|reflexivity]);
    exfalso; apply ND; rewrite in_app_iff; [left | right]; rewrite <- Q; now apply in_map.
Qed.
Lemma replaced_get : forall s n a b s', wf0 s -> wf0 s' -> getArgument s n = Ok a -> a_id b = a_id a -> replaced s a b s' ->
  In b (arguments s') /\ getArgument s' n = Ok b.
Proof.
  intros s n a b s' W W' G E [l1 [l2 [E1 ->]]]. destruct (getArgument_inv s n a W G) as [Ia [_ As]].
  assert (Ib : In b (l1 ++ b :: l2)) by (apply in_app_iff; right; now left).
  split; [exact Ib|]. apply getArgument_by; [exact W' | exact Ib |]. cbn [s_map with_args]. rewrite E. exact As.
Qed.
Lemma defaults_arg_elems : forall a, no_defaults (a_cfg a) = false -> defaults_arg (arg_dyn a (dyn_elems (a_dyn a) [])) = defaults_arg a.
Proof.
  intros a N. unfold defaults_arg. cbn [a_cfg arg_dyn]. rewrite N. destruct (size_fits _ _); [|reflexivity].
  unfold defaulted. cbn [a_cfg a_dyn arg_dyn a_id a_gen]. destruct (c_type (a_cfg a)); reflexivity.
Qed.
Lemma declared_put : forall y b s, a_id y = a_id b -> declared y (put b s) = declared y s.
Proof.
  intros y b s E. unfold declared. destruct (kind_of (a_cfg y)) as [k|]; [|now rewrite put_put].
  assert (X : a_id b = a_id (fst (defaults_arg (arg_cfg y (retyped (a_cfg y) k))))) by (rewrite defaults_arg_id; symmetry; exact E).
  rewrite (put_put b _ s X), (put_put b y s (eq_sym E)). reflexivity.
Qed.
Lemma size_fits_spec : forall c n, size_fits c n = true <-> fits c n.
Proof.
  assert (X : forall (k : N) n, N.eqb (N.of_nat n mod k) 0 = true <-> exists j : nat, n = j * N.to_nat k).
  { intros k n. rewrite N.eqb_eq. destruct (N.eq_dec k 0) as [->|Z].
    - replace (N.of_nat n mod 0)%N with (N.of_nat n) by (destruct (N.of_nat n); reflexivity). split; [intros H; exists 0; lia | intros [j H]; lia].
    - rewrite N.mod_divide by exact Z. split; [intros [j H]; exists (N.to_nat j); lia | intros [j H]; exists (N.of_nat j); lia]. }
  intros c n. unfold size_fits, fits. destruct (c_type c); try (split; [intros _; exact Logic.I | reflexivity]); try apply X; apply N.eqb_eq.
Qed.
(** A refused defaults(vs): the values do not fit; the argument is as before except that its
    values are gone and getDefaults() gives the refused list. *)
Theorem C52_defaults_exact : forall s n a vs s' e, reach s -> getArgument s n = Ok a -> step (OpUpdate n [MDefaults vs]) s = (s', Throw e) ->
  e = Exn KArgument (hd "" (getNameOrFlags a)) "invalid number of argument with number of default argument" /\
  vs <> [] /\ getNargs a <> 0%N /\ ~ fits (a_cfg a) (length vs) /\
  replaced s a (Arg (a_id a) (a_gen a) (cfg_defaults (a_cfg a) vs) (dyn_elems (a_dyn a) [])) s'.
Proof.
  intros s n a vs s' e R G E. pose proof (proj1 (reach_wf s R)) as W. destruct (getArgument_inv s n a W G) as [Ia _].
  rewrite (update_get s n a _ W G), (one_meth _ s a W Ia) in E. cbn [meth_state] in E. unfold defaults_arg in E. cbn [a_cfg arg_cfg cfg_defaults] in E.
  destruct (no_defaults _) eqn:ND; [discriminate E|]. destruct (size_fits _ _) eqn:SF; [discriminate E|]. cbn [fst snd outcome] in E.
  injection E as <- <-. unfold no_defaults in ND. apply orb_false_iff in ND. destruct ND as [N1 N2]. cbn in N1, N2.
  split; [|split; [|split; [|split]]].
  - unfold first_name. cbn. reflexivity.
  - intros ->. discriminate N2.
  - intros Z. rewrite Z in N1. discriminate N1.
  - intros F. assert (X : size_fits (cfg_defaults (a_cfg a) vs) (length vs) = true) by (apply size_fits_spec; exact F). cbn in SF, X. congruence.
  - apply put_replaced; [exact W | exact Ia | reflexivity].
Qed.
Print Assumptions C52_defaults_exact.
(** The kind (type, nargs, action) that an argument is asked to become. *)
Local Notation getDefaults a := (c_defaults (a_cfg a)).
Definition asked_kind (a : argument) (act : eAction) (k : N) : option (atype * N * eAction) :=
  if isPositional a then positional_kind act k else Some (option_kind act k).
Definition of_kind (a : argument) (k : atype * N * eAction) : acfg := cfg_type (cfg_action (cfg_nargs (a_cfg a) (snd (fst k))) (snd k)) (fst (fst k)).
(** A refused nargs(k): either the kind is impossible (a positional with 0, or an option that
    says it is the help or version option while another one is), and only getNargs() is
    changed; or the recorded defaults do not fit, and the argument has changed its kind and
    has lost its values. *)
Theorem C52_nargs_exact : forall s n a k s' e, reach s -> getArgument s n = Ok a -> step (OpUpdate n [MNargs k]) s = (s', Throw e) ->
  (replaced s a (arg_cfg a (cfg_nargs (a_cfg a) (k mod 2 ^ 64)%N)) s' /\ x_kind e = KArgument /\
   (asked_kind a (getAction a) (k mod 2 ^ 64)%N = None \/ getAction a = HELP \/ getAction a = VERSION)) \/
  (exists b, asked_kind a (getAction a) (k mod 2 ^ 64)%N = Some b /\ getDefaults a <> [] /\ ~ fits (of_kind a b) (length (getDefaults a)) /\
     e = Exn KArgument (hd "" (getNameOrFlags a)) "invalid number of argument with number of default argument" /\
     replaced s a (Arg (a_id a) (a_gen a) (of_kind a b) (dyn_elems (a_dyn a) [])) s').
Proof.
  intros s n a k s' e R G E. pose proof (proj1 (reach_wf s R)) as W. destruct (getArgument_inv s n a W G) as [Ia _].
  rewrite (update_get s n a _ W G), (one_meth _ s a W Ia) in E. cbn [meth_state] in E. change w64 with (2 ^ 64)%N in E. set (K := (k mod 2 ^ 64)%N) in *.
  set (b := arg_cfg a (cfg_nargs (a_cfg a) K)) in E.
  assert (AK : kind_of (a_cfg b) = asked_kind a (getAction a) K) by reflexivity.
  unfold declared in E. rewrite AK in E. destruct (asked_kind a (getAction a) K) as [q|] eqn:Q.
  - assert (OK : retyped (a_cfg b) q = of_kind a q) by (destruct q as [[? ?] ?]; reflexivity). rewrite OK in E.
    destruct (defaults_arg (arg_cfg b (of_kind a q))) as [x [y|]] eqn:D; cbn [fst snd] in E.
    + assert (ND : fst (fst q) <> HELP_OPTION /\ fst (fst q) <> VERSION_OPTION).
      { split; intros T; unfold defaults_arg in D; (assert (Z : no_defaults (a_cfg (arg_cfg b (of_kind a q))) = true); [|rewrite Z in D; discriminate D]);
          destruct q as [[kt kn] ka]; cbn [fst] in T; subst kt; unfold no_defaults; cbn; (assert (Z : kn = 0%N); [|now subst kn]);
          unfold asked_kind in Q; destruct (isPositional a); unfold positional_kind, option_kind in Q; destruct (getAction a); try discriminate Q;
          repeat (match type of Q with context [N.eqb ?u ?v] => destruct (N.eqb u v) end; try discriminate Q); now injection Q. }
      assert (E2 : (put x s, @Throw unit y) = (s', Throw e)). { destruct (fst (fst q)) eqn:T; try exact E; exfalso; [exact (proj1 ND eq_refl) | exact (proj2 ND eq_refl)]. }
      injection E2 as <- <-. right. exists q. split; [reflexivity|]. unfold defaults_arg in D. destruct (no_defaults _) eqn:N0; [discriminate D|].
      destruct (size_fits _ _) eqn:SF; [discriminate D|]. injection D as <- <-. unfold no_defaults in N0. apply orb_false_iff in N0. destruct N0 as [_ N2].
      assert (CD : c_defaults (of_kind a q) = getDefaults a) by (destruct q as [[? ?] ?]; reflexivity).
      cbn [a_cfg arg_cfg] in *. rewrite CD in *. split; [intros Z; rewrite Z in N2; discriminate N2|]. split; [|split].
      * intros F. apply size_fits_spec in F. congruence.
      * destruct q as [[? ?] ?]. reflexivity.
      * apply put_replaced; [exact W | exact Ia | reflexivity].
    + assert (BE : getAction a = HELP \/ getAction a = VERSION).
      { destruct q as [[kt kn] ka]. cbn [fst] in E. unfold asked_kind in Q. destruct (isPositional a); unfold positional_kind, option_kind in Q; destruct (getAction a); try discriminate Q; auto;
          repeat (match type of Q with context [N.eqb ?u ?v] => destruct (N.eqb u v) end; try discriminate Q); injection Q as <- <- <-; discriminate E. }
      left. destruct (fst (fst q)); try discriminate E; (destruct (claims _ _); [discriminate E|]); injection E as <- <-;
        (split; [apply put_replaced; [exact W | exact Ia | reflexivity] | split; [reflexivity | now right]]).
  - injection E as <- <-. left. split; [apply put_replaced; [exact W | exact Ia | reflexivity] | split; [reflexivity | now left]].
Qed.
Print Assumptions C52_nargs_exact.
(** The program can recover: after a refused defaults() (nargs()), a defaults() (nargs()) that
    is accepted gives the parser that it would have given without the refused call. *)
Theorem C52_recovered : forall s n a s' e, reach s -> getArgument s n = Ok a ->
  (forall vs ws t, step (OpUpdate n [MDefaults vs]) s = (s', Throw e) -> ws <> [] ->
     step (OpUpdate n [MDefaults ws]) s = (t, Ok tt) -> step (OpUpdate n [MDefaults ws]) s' = (t, Ok tt)) /\
  (forall k j t b, step (OpUpdate n [MNargs k]) s = (s', Throw e) ->
     step (OpUpdate n [MNargs j]) s = (t, Ok tt) -> getArgument t n = Ok b -> getNargs b <> 0%N -> step (OpUpdate n [MNargs j]) s' = (t, Ok tt)).
Proof.
  intros s n a s' e R G. pose proof (proj1 (reach_wf s R)) as W. destruct (getArgument_inv s n a W G) as [Ia [_ As]].
  split.
  - intros vs ws t E Nw F. destruct (C52_defaults_exact s n a vs s' e R G E) as [_ [_ [N0 [_ RP]]]].
    assert (R' : reach s') by (eapply reach_step; [exact R | exact E | exact Logic.I]). pose proof (proj1 (reach_wf s' R')) as W'.
    set (a' := Arg (a_id a) (a_gen a) (cfg_defaults (a_cfg a) vs) (dyn_elems (a_dyn a) [])) in *.
    pose proof (replaced_put s a a' s' W Ia eq_refl RP) as PUT.
    destruct (replaced_get s n a a' s' W W' G eq_refl RP) as [Ia' G'].
    rewrite (update_get s n a _ W G), (one_meth _ s a W Ia) in F. rewrite (update_get s' n a' _ W' G'), (one_meth _ s' a' W' Ia').
    cbn [meth_state] in *.
    assert (ND : no_defaults (cfg_defaults (a_cfg a) ws) = false).
    { unfold no_defaults. cbn. apply N.eqb_neq in N0. rewrite N0. destruct ws; [contradiction | reflexivity]. }
    pose proof (defaults_arg_elems (arg_cfg a (cfg_defaults (a_cfg a) ws)) ND) as DE.
    change (arg_cfg a' (cfg_defaults (a_cfg a') ws)) with (arg_dyn (arg_cfg a (cfg_defaults (a_cfg a) ws)) (dyn_elems (a_dyn (arg_cfg a (cfg_defaults (a_cfg a) ws))) [])).
    rewrite DE, PUT, put_put; [exact F|]. symmetry. rewrite defaults_arg_id. reflexivity.
  - intros k j t b E F Gt Nb.
    assert (R' : reach s') by (eapply reach_step; [exact R | exact E | exact Logic.I]). pose proof (proj1 (reach_wf s' R')) as W'.
    assert (Wt : wf0 t) by (apply reach_wf; eapply reach_step; [exact R | exact F | exact Logic.I]).
    destruct (C52_nargs_exact s n a k s' e R G E) as [[RP _]|[q [Q [DN [NF [_ RP]]]]]].
    + match type of RP with replaced _ _ ?x _ => set (a' := x) in * end.
      pose proof (replaced_put s a a' s' W Ia eq_refl RP) as PUT. destruct (replaced_get s n a a' s' W W' G eq_refl RP) as [Ia' G'].
      rewrite (update_get s n a _ W G), (one_meth _ s a W Ia) in F. rewrite (update_get s' n a' _ W' G'), (one_meth _ s' a' W' Ia').
      cbn [meth_state] in *. change (arg_cfg a' (cfg_nargs (a_cfg a') (j mod w64)%N)) with (arg_cfg a (cfg_nargs (a_cfg a) (j mod w64)%N)).
      rewrite PUT, declared_put by reflexivity. exact F.
    + match type of RP with replaced _ _ ?x _ => set (a' := x) in * end.
      pose proof (replaced_put s a a' s' W Ia eq_refl RP) as PUT. destruct (replaced_get s n a a' s' W W' G eq_refl RP) as [Ia' G'].
      rewrite (update_get s n a _ W G), (one_meth _ s a W Ia) in F. rewrite (update_get s' n a' _ W' G'), (one_meth _ s' a' W' Ia').
      cbn [meth_state] in *. set (J := (j mod w64)%N) in *. rewrite PUT, declared_put by reflexivity.
      assert (AC : getAction a' = getAction a).
      { unfold a'. cbn [a_cfg]. destruct q as [[kt kn] ka]. cbn. unfold fits, of_kind in NF. cbn in NF. unfold asked_kind in Q.
        destruct (isPositional a); unfold positional_kind, option_kind in Q; destruct (getAction a); try discriminate Q;
          repeat (match type of Q with context [N.eqb ?u ?v] => destruct (N.eqb u v) end; try discriminate Q); injection Q as <- <- <-; try reflexivity; exfalso; apply NF; exact Logic.I. }
      assert (PO : isPositional a' = isPositional a).
      { unfold a'. cbn [a_cfg]. destruct q as [[kt kn] ka]. cbn. unfold asked_kind in Q. destruct (isPositional a); unfold positional_kind, option_kind in Q; destruct (getAction a); try discriminate Q;
          repeat (match type of Q with context [N.eqb ?u ?v] => destruct (N.eqb u v) end; try discriminate Q); injection Q as <- <- <-; reflexivity. }
      set (y := arg_cfg a (cfg_nargs (a_cfg a) J)) in *. set (y' := arg_cfg a' (cfg_nargs (a_cfg a') J)).
      assert (KK : kind_of (a_cfg y') = kind_of (a_cfg y)).
      { unfold kind_of, y, y'. cbn [a_cfg arg_cfg]. change (is_positional (c_type (cfg_nargs (a_cfg a') J))) with (isPositional a'). change (is_positional (c_type (cfg_nargs (a_cfg a) J))) with (isPositional a).
        change (c_action (cfg_nargs (a_cfg a') J)) with (getAction a'). change (c_action (cfg_nargs (a_cfg a) J)) with (getAction a). rewrite AC, PO. reflexivity. }
      unfold declared in *. rewrite KK. destruct (kind_of (a_cfg y)) as [h|]; [|discriminate F].
      assert (RT : arg_cfg y' (retyped (a_cfg y') h) = arg_dyn (arg_cfg y (retyped (a_cfg y) h)) (dyn_elems (a_dyn (arg_cfg y (retyped (a_cfg y) h))) [])).
      { unfold y, y', a'. destruct h as [[ht hn] ha]. reflexivity. }
      destruct (N.eq_dec (snd (fst h)) 0) as [Z|Z].
      * exfalso. apply Nb. assert (DA : fst (defaults_arg (arg_cfg y (retyped (a_cfg y) h))) = arg_cfg y (retyped (a_cfg y) h)).
        { unfold defaults_arg. replace (no_defaults _) with true; [reflexivity|]. destruct h as [[ht hn] ha]. cbn in Z. subst hn. reflexivity. }
        assert (NB : getNargs (arg_cfg y (retyped (a_cfg y) h)) = 0%N) by (destruct h as [[ht hn] ha]; exact Z).
        set (x := arg_cfg y (retyped (a_cfg y) h)) in *.
        assert (IB : s_args t = s_args (put x s) /\ s_map t = s_map s).
        { rewrite DA in F. destruct (fst (fst h)); try (destruct (claims _ _)); try discriminate F; destruct (snd (defaults_arg x)); try discriminate F; injection F as <-; split; reflexivity. }
        destruct IB as [IB1 IB2]. destruct (getArgument_inv t n b Wt Gt) as [Ib [_ Ab]]. rewrite IB2 in Ab. assert (a_id b = a_id a) as EB by congruence.
        rewrite IB1 in Ib. apply put_In in Ib. destruct Ib as [->|[_ X]]; [exact NB|]. exfalso. apply X. exact EB.
      * rewrite RT, defaults_arg_elems; [|unfold no_defaults; destruct h as [[ht hn] ha]; cbn in *; apply N.eqb_neq in Z; rewrite Z; destruct (c_defaults (a_cfg a)); [contradiction | reflexivity]].
        destruct (fst (fst h)) eqn:HT; try exact F.
        all: change (ptr_of y') with (ptr_of y); destruct (claims _ _); [exact F | discriminate F].
Qed.
Print Assumptions C52_recovered.
(** the list that was refused comes back with the next nargs() it fits: after the refused
    defaults("z"), nargs(1) makes "z" the value of -o, with which it was never declared *)
Definition pair_o : state := history [OpAdd ["-o"] [MNargs 2; MDefaults ["x"; "y"]]].
Example C52_exact_example : exists s1 e1 s2 e2 t t2 b, reach pair_o /\ getArgument pair_o "-o" = Ok (pick "-o" pair_o) /\
  step (OpUpdate "-o" [MDefaults ["z"]]) pair_o = (s1, Throw e1) /\ step (OpUpdate "-o" [MDefaults ["u"; "v"]]) pair_o = (t, Ok tt) /\
  step (OpUpdate "-o" [MNargs 3]) pair_o = (s2, Throw e2) /\ step (OpUpdate "-o" [MNargs 2]) pair_o = (t2, Ok tt) /\ getNargs (pick "-o" t2) = 2%N /\
  step (OpUpdate "-o" [MDefaults ["u"; "v"]]) s1 = (t, Ok tt) /\ step (OpUpdate "-o" [MNargs 2]) s2 = (t2, Ok tt) /\
  getArgument (fst (step (OpUpdate "-o" [MNargs 1]) s1)) "-o" = Ok b /\ getString b = "z".
Proof.
  do 7 eexists. split; [apply (run_reach [OpAdd ["-o"] [MNargs 2; MDefaults ["x"; "y"]]] init); [apply reach_init | vm_compute; reflexivity]|].
  repeat (split; [vm_compute; reflexivity|]). vm_compute. reflexivity.
Qed.
(** a refused action(VERSION) on -i of the demonstration parser *)
Example C52_example : exists s' e, usable shop /\ interprets shop /\ step (OpUpdate "-i" [MAction VERSION]) shop = (s', Throw e) /\
  getArgument shop "-i" = Ok (pick "-i" shop) /\ c_defaults (a_cfg (pick "-i" shop)) = [] /\ getAction (pick "-i" shop) = INFINITE /\
  snd (parseArguments ["prog"; "x"; "-i"; "1"; "2"] s') = Ok tt /\ exists x, step (OpUpdate "-n" [MFlag "-n"]) shop = (shop, Throw x).
Proof.
  eexists. eexists. split; [exact shop_usable|]. split; [exact shop_interprets|]. split; [vm_compute; reflexivity|]. split; [vm_compute; reflexivity|].
  split; [vm_compute; reflexivity|]. split; [vm_compute; reflexivity|]. split; [vm_compute; reflexivity|]. eexists. vm_compute. reflexivity.
Qed.
