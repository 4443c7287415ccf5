(** Proofs_LikeNew.v -- a parser and the same parser with one more option are alike up to
    identities and the foreign option ([like_by], Proofs_Like.v). *)
From Coq Require Import Permutation Sorted.
From Verif Require Import Base Model_Utils Model_Number Model_Types Model_Argument Model_Usage Model_Args Model_Api
  Spec_Order Spec_Names Spec_Reading Spec_Extend Spec_Reorder Spec_Parse Spec_Decl Spec_Finish Spec_History Spec_Api Spec_Result
  Proofs_Base Proofs_Order Proofs_Stable Proofs_Frame Proofs_Inv Proofs_ReadFacts Proofs_Reading Proofs_Parse Proofs_Decl Proofs_Finish
  Proofs_Meth Proofs_History Proofs_Config Proofs_Central Proofs_Swap Proofs_Redecl Proofs_Extend Proofs_Like Properties_Parse Proofs_LikeParse.

(** an option that nothing but its own words makes visible *)
Definition quiet (c : acfg) : Prop :=
  is_positional (c_type c) = false /\ c_required c = false /\ c_dest c = None /\ c_action c <> HELP /\ c_action c <> VERSION.
Lemma quiet_kind : forall c k, quiet c -> kind_of c = Some k -> fst (fst k) <> HELP_OPTION /\ fst (fst k) <> VERSION_OPTION /\ quiet (retyped c k).
Proof.
  intros c k [P [R [D [A1 A2]]]] K. unfold kind_of in K. rewrite P in K. injection K as <-. unfold option_kind, quiet.
  destruct (c_action c); try congruence; cbv zeta; repeat (match goal with |- context [if ?b then _ else _] => destruct b end); cbn; repeat split; try discriminate; try assumption.
Qed.
Lemma quiet_defaults : forall a, quiet (a_cfg a) -> quiet (a_cfg (fst (defaults_arg a))).
Proof.
  intros a Q. unfold defaults_arg. destruct (no_defaults _); [exact Q|]. destruct (size_fits _ _); [|exact Q]. cbn [fst]. unfold defaulted. destruct Q as [P [R [D [A1 A2]]]].
  unfold quiet. destruct (c_type (a_cfg a)) eqn:E; cbn; rewrite ?E; repeat split; assumption || reflexivity || (cbn in P; discriminate P).
Qed.

(** what a method writes into the configuration *)
Definition meth_cfg (m : meth) (c : acfg) : acfg :=
  match m with
  | MFlag f => cfg_names c (sort_flags (c_names c ++ [f]))
  | MAction act => cfg_action c act
  | MRequired b => cfg_required c b
  | MHelp h => cfg_help c h
  | MMetavar x => cfg_metavar c x
  | MNargs n => cfg_nargs c (n mod w64)%N
  | MDefaults v => cfg_defaults c v
  | MValid p b => cfg_valid c p b
  | MDest d => cfg_dest (cfg_defaults c []) (Some d)
  end.
(** a property of configurations that the methods [M] keep *)
Record kept_by (Dt : bool) (G : acfg -> Prop) (M : meth -> Prop) : Prop := KeptBy {
  kb_role : Dt = false -> forall c, G c -> nonrole c;
  kb_kind : forall c k, G c -> kind_of c = Some k -> G (retyped c k);
  kb_defaults : forall a, G (a_cfg a) -> G (a_cfg (fst (defaults_arg a)));
  kb_meth : forall m c, M m -> G c -> G (meth_cfg m c)
}.
Lemma quiet_kept : kept_by false quiet quiet_meth.
Proof.
  split.
  - intros _ c [_ [_ [_ Q]]]. exact Q.
  - intros c k Q K. now apply (quiet_kind c k Q K).
  - exact quiet_defaults.
  - intros m c QM [Q1 [Q2 [Q3 [Q4 Q5]]]]. unfold quiet. destruct m as [f|act|r|h|x|n|v|p r|d]; cbn; repeat split; try assumption; try (now destruct QM).
    + destruct act; try discriminate; destruct QM.
    + destruct act; try discriminate; destruct QM.
    + destruct r; [destruct QM | reflexivity].
Qed.
Lemma nonrole_kept : kept_by false nonrole roleless.
Proof.
  split.
  - intros _ c Q. exact Q.
  - intros c k Q K. now apply (nonrole_kind c k Q K).
  - exact nonrole_defaults.
  - intros m c QM [Q4 Q5]. unfold nonrole. destruct m as [f|act|r|h|x|n|v|p r|d]; cbn; split; try assumption; destruct act; try discriminate; destruct QM.
Qed.
Lemma anything_kept : kept_by true (fun _ => True) (fun _ => True).
Proof. split; try (intros; exact I). discriminate. Qed.
Definition may_run (Dt : bool) (ms : list meth) (c : acfg) : Prop := Dt = false \/ (one_role ms /\ nonrole c) \/ Forall actionless ms.
Lemma one_role_cons : forall m ms, one_role (m :: ms) -> (roleless m /\ one_role ms) \/ Forall actionless ms.
Proof. intros [f|act|r|h|x|n|v|p r|d] ms H; try (left; split; [exact I | exact H]). destruct act; try (left; split; [exact I | exact H]); now right. Qed.

Section New.
Variables (X : list str) (Qf : acfg -> Prop) (Dt : bool) (F : nat -> bool) (G : acfg -> Prop) (M : meth -> Prop).
Hypothesis GQ : forall c, G c -> Qf c.
Hypothesis KB : kept_by Dt G M.
Lemma own_put : forall b l, F (a_id b) = true -> own F (upd_id (a_id b) (fun _ => b) l) = own F l.
Proof.
  intros b l Fb. unfold own, upd_id. induction l as [|x l IH]; [reflexivity|]. cbn. destruct (Nat.eqb_spec (a_id x) (a_id b)) as [E|E]; cbn; [|now rewrite IH]. rewrite Fb, E, Fb. cbn. exact IH.
Qed.
Lemma foreign_put : forall L s t b, like_by X Qf Dt F L s t -> F (a_id b) = true -> G (a_cfg b) -> like_by X Qf Dt F L s (put b t).
Proof.
  intros L s t b H Fb Q. destruct H. split; try assumption.
  - unfold put. cbn [s_args with_args]. rewrite own_put; assumption.
  - intros x I Fx. apply put_In in I. destruct I as [->|[I _]]; [now apply GQ | now apply lb_foreign].
  - intros i Fi. rewrite put_ids. now apply lb_live.
Qed.
Lemma foreign_resorted : forall L s t, like_by X Qf Dt F L s t -> sort_by arg_lt (map snd L) = map snd L -> like_by X Qf Dt F L s (resorted t).
Proof.
  intros L s t H S. destruct H. split; try assumption; cbn.
  - unfold own in *. rewrite sort_filter, lb_r. exact S.
  - intros b I. apply (proj1 (sort_In _ _ _)) in I. now apply lb_foreign.
  - intros i Fi. apply lb_live in Fi. apply in_map_iff in Fi. destruct Fi as [b [E I]]. apply in_map_iff. exists b. split; [exact E | now apply sort_In].
Qed.
Lemma like_sorted : forall L s t, like_by X Qf Dt F L s t -> listed_sorted t -> sort_by arg_lt (map snd L) = map snd L.
Proof. intros L s t H S. rewrite <- (lb_r _ _ _ _ _ _ _ H). apply sort_id. now apply sorted_filter. Qed.
Lemma foreign_map : forall L s t f i, like_by X Qf Dt F L s t -> In f X -> F i = true -> assoc f (s_map t) = None -> like_by X Qf Dt F L s (with_map t (s_map t ++ [(f, i)])).
Proof.
  intros L s t f i H If Fi N. destruct H. split; try assumption. intros n. cbn. rewrite assoc_app. specialize (lb_map n). destruct (assoc n (s_map s)) as [j|] eqn:E.
  - destruct (assoc n (s_map t)); [exact lb_map | contradiction].
  - destruct (assoc n (s_map t)); [exact lb_map|]. cbn. destruct (String.eqb_spec n f) as [->|NE]; [now split | exact I].
Qed.
Lemma foreign_freed : forall L s t f, like_by X Qf Dt F L s t -> like_by X Qf Dt F L s (with_freed t f).
Proof. intros L s t f H. destruct H. split; assumption. Qed.
(** the pointers *)
Definition foreign_ptr (p : option (nat * nat)) : Prop := match p with None => True | Some q => F (fst q) = true end.
Lemma foreign_help : forall L s t p, like_by X Qf Dt F L s t -> Dt = true -> s_help s = None -> foreign_ptr p -> like_by X Qf Dt F L s (with_help t p).
Proof.
  intros L s t p H D E P. destruct H. split; try assumption; cbn; [|intros T; congruence]. rewrite E. destruct p; exact P.
Qed.
Lemma foreign_version : forall L s t p, like_by X Qf Dt F L s t -> Dt = true -> s_version s = None -> foreign_ptr p -> like_by X Qf Dt F L s (with_version t p).
Proof.
  intros L s t p H D E P. destruct H. split; try assumption; cbn; [|intros T; congruence]. rewrite E. destruct p; exact P.
Qed.
Lemma claimed : forall L p p' b, ptr_rel L F p p' -> F (a_id b) = true -> claims p' (ptr_of b) = true -> p = None.
Proof.
  intros L p p' b P Fb C. destruct p as [q|]; [|reflexivity]. exfalso. destruct p' as [q'|]; [|destruct P]. destruct P as [_ P]. cbn in C. apply ptr_eqb_eq in C. subst q'. cbn in P. congruence.
Qed.
Lemma foreign_none : forall L p q, ptr_rel L F p (Some q) -> F (fst q) = true -> p = None.
Proof. intros L [x|] q P Fq; [|reflexivity]. destruct P as [_ P]. congruence. Qed.

(** the new argument *)
Definition fine (b : argument) (t : state) : Prop := In b (s_args t) /\ G (a_cfg b).
Lemma foreign_declared : forall L s t b b0, like_by X Qf Dt F L s t -> In b0 (s_args t) -> a_id b0 = a_id b -> F (a_id b) = true -> G (a_cfg b) ->
  like_by X Qf Dt F L s (fst (declared b t)) /\ exists b', a_id b' = a_id b /\ fine b' (fst (declared b t)).
Proof.
  intros L s t b b0 H I0 E0 Fb Q. assert (U : like_by X Qf Dt F L s (put b t)) by now apply foreign_put.
  assert (Ub : exists b', a_id b' = a_id b /\ fine b' (put b t)) by (exists b; split; [reflexivity|]; split; [apply (put_In_self b t b0); [exact I0 | now symmetry] | exact Q]).
  unfold declared. destruct (kind_of (a_cfg b)) as [k|] eqn:K; [|now split].
  pose proof (kb_kind _ _ _ KB _ _ Q K) as Q2. cbv zeta. set (d := defaults_arg (arg_cfg b (retyped (a_cfg b) k))).
  assert (ID : a_id (fst d) = a_id b) by (unfold d; now rewrite defaults_arg_id).
  assert (Gd : G (a_cfg (fst d))) by (apply (kb_defaults _ _ _ KB); exact Q2).
  assert (P : like_by X Qf Dt F L s (put (fst d) t)) by (apply foreign_put; [exact H | now rewrite ID | exact Gd]).
  assert (Id : In (fst d) (s_args (put (fst d) t))) by (apply (put_In_self (fst d) t b0); [exact I0 | congruence]).
  assert (DT : is_role (fst (fst k)) = true -> Dt = true).
  { intros R. destruct Dt eqn:E; [reflexivity|]. rewrite (proj1 (nonrole_kind _ _ (kb_role _ _ _ KB eq_refl _ Q) K)) in R. discriminate. }
  destruct (fst (fst k)) eqn:T;
    try (split; [exact P|]; exists (fst d); split; [exact ID|]; split; [exact Id | exact Gd]).
  - specialize (DT eq_refl). destruct (claims (s_help t) (ptr_of b)) eqn:C; [|now split]. split.
    + cbn [fst]. apply foreign_help; [exact P | exact DT | apply (claimed L _ _ b (lb_help _ _ _ _ _ _ _ H) Fb C) | exact Fb].
    + exists (fst d). split; [exact ID|]. split; [exact Id | exact Gd].
  - specialize (DT eq_refl). destruct (claims (s_version t) (ptr_of b)) eqn:C; [|now split]. split.
    + cbn [fst]. apply foreign_version; [exact P | exact DT | apply (claimed L _ _ b (lb_version _ _ _ _ _ _ _ H) Fb C) | exact Fb].
    + exists (fst d). split; [exact ID|]. split; [exact Id | exact Gd].
Qed.
Lemma foreign_meth : forall L s t b m, like_by X Qf Dt F L s t -> wf t -> F (a_id b) = true -> fine b t -> M m -> actionless m \/ nonrole (a_cfg b) ->
  (forall f, In f (meth_names m) -> In f X) ->
  like_by X Qf Dt F L s (fst (meth_state m b t)) /\ exists b', a_id b' = a_id b /\ fine b' (fst (meth_state m b t)).
Proof.
  intros L s t b m H W Fb FI QM AC NX. pose proof (like_sorted L s t H (proj2 W)) as SO. pose proof FI as [I Q].
  pose proof (kb_meth _ _ _ KB m _ QM Q) as QC.
  assert (PI : forall c, a_id c = a_id b -> In c (s_args (put c t))) by (intros c E; apply (put_In_self c t b); [exact I | now symmetry]).
  assert (SB : exists b', a_id b' = a_id b /\ fine b' t) by now exists b.
  unfold meth_state. destruct m as [f|act|r|h|x|n|v|p r|d]; cbn [meth_cfg] in QC.
  - destruct (is_positional _); [now split|]. destruct (validFormatFlag f); [now split|]. destruct (mem_key f (s_map t)) eqn:MK; [now split|]. cbn [fst snd]. apply mem_key_false in MK. split.
    + apply (foreign_map L s (resorted (put (arg_cfg b (cfg_names (a_cfg b) (sort_flags (c_names (a_cfg b) ++ [f])))) t)) f (a_id b)); [|apply NX; now left | exact Fb | exact MK]. apply foreign_resorted; [|exact SO]. apply foreign_put; [exact H | exact Fb | exact QC].
    + exists (arg_cfg b (cfg_names (a_cfg b) (sort_flags (c_names (a_cfg b) ++ [f])))). split; [reflexivity|]. split; [cbn [s_args with_map resorted with_args]; apply sort_In; now apply PI | exact QC].
  - destruct AC as [[]|[A1 A2]]. assert (R : released b t = t) by (unfold released; destruct (c_action (a_cfg b)); congruence || reflexivity). rewrite R.
    apply (foreign_declared L s t (arg_cfg b (cfg_action (a_cfg b) act)) b); [exact H | exact I | reflexivity | exact Fb | exact QC].
  - cbn [fst snd]. split; [apply foreign_resorted; [|exact SO]; apply foreign_put; [exact H | exact Fb | exact QC]|].
    exists (arg_cfg b (cfg_required (a_cfg b) r)). split; [reflexivity|]. split; [cbn [s_args with_map resorted with_args]; apply sort_In; now apply PI | exact QC].
  - cbn [fst snd]. split; [apply foreign_put; [exact H | exact Fb | exact QC]|]. eexists. split; [|split; [apply PI | exact QC]]; reflexivity.
  - cbn [fst snd]. split; [apply foreign_put; [exact H | exact Fb | exact QC]|]. eexists. split; [|split; [apply PI | exact QC]]; reflexivity.
  - apply (foreign_declared L s t (arg_cfg b (cfg_nargs (a_cfg b) (n mod w64)%N)) b); [exact H | exact I | reflexivity | exact Fb | exact QC].
  - cbn [fst snd]. assert (ID : a_id (fst (defaults_arg (arg_cfg b (cfg_defaults (a_cfg b) v)))) = a_id b) by now rewrite defaults_arg_id.
    pose proof (kb_defaults _ _ _ KB (arg_cfg b (cfg_defaults (a_cfg b) v)) QC) as GD.
    split; [apply foreign_put; [exact H | now rewrite ID | exact GD]|]. exists (fst (defaults_arg (arg_cfg b (cfg_defaults (a_cfg b) v)))). split; [exact ID|]. split; [now apply PI | exact GD].
  - cbn [fst snd]. split; [apply foreign_freed; apply foreign_put; [exact H | exact Fb | exact QC]|]. exists (arg_cfg b (cfg_valid (a_cfg b) p r)). split; [reflexivity|]. split; [now apply PI | exact QC].
  - cbn [fst snd]. split; [apply foreign_put; [exact H | exact Fb | exact QC]|].
    exists (Arg (a_id b) (S (a_gen b)) (cfg_dest (cfg_defaults (a_cfg b) []) (Some d)) (a_dyn b)). split; [reflexivity|]. split; [now apply PI | exact QC].
Qed.
Lemma foreign_meths : forall ms L s t b, like_by X Qf Dt F L s t -> wf t -> F (a_id b) = true -> fine b t -> Forall M ms -> may_run Dt ms (a_cfg b) ->
  (forall f, In f (flat_map meth_names ms) -> In f X) -> completed (snd (run_meths (a_id b) ms t)) /\ like_by X Qf Dt F L s (fst (run_meths (a_id b) ms t)).
Proof.
  induction ms as [|m ms IH]; intros L s t b H W Fb FI QM MR NX; [split; [exact Logic.I | exact H]|]. inversion_clear QM as [|? ? Qm Qr].
  assert (NM : forall f, In f (meth_names m) -> In f X) by (intros f J; apply NX; cbn; apply in_or_app; now left).
  assert (NR : forall f, In f (flat_map meth_names ms) -> In f X) by (intros f J; apply NX; cbn; apply in_or_app; now right).
  assert (AC : actionless m \/ nonrole (a_cfg b)).
  { destruct MR as [D|[[_ N]|A]]; [right; apply (kb_role _ _ _ KB D _ (proj2 FI)) | now right | left; now inversion A]. }
  destruct (foreign_meth L s t b m H W Fb FI Qm AC NM) as [H1 [b' [E1 F1]]]. pose proof (proj1 FI) as I.
  assert (MR' : may_run Dt ms (a_cfg b')).
  { destruct MR as [D|[[O N]|A]]; [now left| |right; right; now inversion A]. right. destruct (one_role_cons _ _ O) as [[RM O']|A]; [left; split; [exact O'|] | now right].
    apply (meth_nonrole m b t b' N RM I (wf_ids _ (proj1 W))); [apply F1 | exact E1]. }
  destruct (meth_state m b t) as [t1 e] eqn:MS. cbn [fst snd] in *. pose proof (meth_wf _ _ _ _ _ W I MS) as W1.
  destruct e as [e|].
  - rewrite (stop_meths _ _ _ _ _ _ (proj1 W) I MS). split; [exact Logic.I | exact H1].
  - rewrite (more_meths _ _ _ _ _ (proj1 W) I MS), <- E1. apply (IH L s t1 b'); try assumption. now rewrite E1.
Qed.
End New.

Definition twice (s : state) : pairs := map (fun a => (a, a)) (s_args s).
Lemma twice_fst : forall s, map fst (twice s) = s_args s.
Proof. intros s. unfold twice. rewrite map_map. apply map_id. Qed.
Lemma twice_snd : forall s, map snd (twice s) = s_args s.
Proof. intros s. unfold twice. rewrite map_map. apply map_id. Qed.
Lemma twice_rel : forall s i i', rel (twice s) i i' <-> i = i' /\ In i (map a_id (s_args s)).
Proof.
  intros s i i'. unfold rel, twice. split.
  - intros [p [I [A B]]]. apply in_map_iff in I. destruct I as [a [<- I]]. cbn in *. split; [congruence|]. subst i. now apply in_map.
  - intros [<- I]. apply in_map_iff in I. destruct I as [a [E I]]. exists (a, a). split; [apply in_map_iff; now exists a | now split].
Qed.
Lemma own_all : forall F l, (forall b, In b l -> F (a_id b) = false) -> own F l = l.
Proof. intros F l H. unfold own. induction l as [|x l IH]; [reflexivity|]. cbn. rewrite (H x (or_introl eq_refl)). cbn. f_equal. apply IH. intros b I. apply H. now right. Qed.
Section Added.
Variables (X : list str) (Qf : acfg -> Prop) (Dt : bool).
Lemma like_self : forall s, wf0 s -> (forall n, In n X -> assoc n (s_map s) = None) -> like_by X Qf Dt (fun _ => false) (twice s) s s.
Proof.
  intros s W NX. split; try reflexivity.
  - symmetry. apply twice_fst.
  - rewrite twice_snd. now apply own_all.
  - intros p I. apply in_map_iff in I. destruct I as [a [<- _]]. now repeat split.
  - intros n. destruct (assoc n (s_map s)) as [i|] eqn:E; [|exact I]. apply twice_rel. split; [reflexivity|]. apply assoc_In in E. destruct (wf_entry _ W _ _ E) as [a [I [<- _]]]. now apply in_map.
  - exact NX.
  - discriminate.
  - discriminate.
  - unfold ptr_rel. destruct (s_help s); [|exact I]. split; [|reflexivity]. intros i i' g R. apply twice_rel in R. destruct R as [-> _]. reflexivity.
  - unfold ptr_rel. destruct (s_version s); [|exact I]. split; [|reflexivity]. intros i i' g R. apply twice_rel in R. destruct R as [-> _]. reflexivity.
  - intros _. split; intros E; exact E.
Qed.
Variables (G : acfg -> Prop) (M : meth -> Prop).
Hypothesis GQ : forall c, G c -> Qf c.
Hypothesis KB : kept_by Dt G M.
Lemma like_new_registered : forall s c, wf s -> (forall n, In n X -> assoc n (s_map s) = None) -> (forall n, In n (c_names c) -> In n X) -> G c ->
  like_by X Qf Dt (Nat.eqb (fresh_id s)) (twice s) s (registered s c).
Proof.
  intros s c W NX CX Q. set (F := Nat.eqb (fresh_id s)).
  assert (FO : forall b, In b (s_args s) -> F (a_id b) = false). { intros b I. unfold F. apply Nat.eqb_neq. pose proof (fresh_above_args s b I). lia. }
  pose proof (like_self s (proj1 W) NX) as H.
  assert (PB : forall q, s_help s = Some q \/ s_version s = Some q -> F (fst q) = false). { intros q E. unfold F. apply Nat.eqb_neq. pose proof (fresh_above_ptr s q E). lia. }
  assert (FT : F (fresh_id s) = true) by apply Nat.eqb_refl. assert (FE : forall i, F i = true -> fresh_id s = i) by (intros i E; now apply Nat.eqb_eq). clearbody F.
  unfold registered. cbv zeta. apply (foreign_resorted X Qf Dt F).
  - destruct H. split; try assumption.
    + cbn [s_args with_args with_map]. unfold own. rewrite filter_app. cbn [filter a_id]. rewrite FT. cbn [negb]. rewrite app_nil_r, twice_snd. now apply own_all.
    + intros n. cbn [s_map with_args with_map]. rewrite assoc_insert_fold. specialize (lb_map n). destruct (assoc n (s_map s)) as [i|] eqn:E; [exact lb_map|].
      destruct (mem_str n (c_names c)) eqn:MS; [|exact I]. apply mem_str_In in MS. split; [now apply CX | exact FT].
    + cbn [s_args with_args with_map]. intros b I Fb. apply in_app_or in I. destruct I as [I|[<-|[]]]; [rewrite (FO b I) in Fb; discriminate|]. cbn. now apply GQ.
    + cbn [s_args with_args with_map]. intros i Fi. apply FE in Fi. subst i. rewrite map_app. apply in_or_app. right. now left.
    + cbn [s_help with_args with_map]. unfold ptr_rel in *. destruct (s_help s) as [q|] eqn:E; [|exact I]. destruct lb_help as [A _]. split; [exact A|]. apply PB. now left.
    + cbn [s_version with_args with_map]. unfold ptr_rel in *. destruct (s_version s) as [q|] eqn:E; [|exact I]. destruct lb_version as [A _]. split; [exact A|]. apply PB. now right.
  - rewrite twice_snd. apply sort_id. apply W.
Qed.
(** the identity that addArgument gives to the new argument *)
Definition added (ns : list str) (s : state) : nat -> bool := match to_register ns (s_map s) with inl _ => fun _ => false | inr _ => Nat.eqb (fresh_id s) end.
Theorem like_new : forall s ns ms, wf s -> (forall c, to_register ns (s_map s) = inr c -> G c) -> Forall M ms -> Dt = false \/ one_role ms -> (forall n, In n X <-> In n (op_names (OpAdd ns ms))) ->
  (forall n, In n X -> assoc n (s_map s) = None) ->
  completed (snd (step (OpAdd ns ms) s)) /\ like_by X Qf Dt (added ns s) (twice s) s (fst (step (OpAdd ns ms) s)).
Proof.
  intros s ns ms W GR QM OR XI NX. cbn [step op_names] in *. unfold added. pose proof (addArgument_register ns s) as AR. destruct (to_register ns (s_map s)) as [e|c] eqn:T.
  - rewrite (bind_throw _ _ _ _ _ AR). split; [exact I|]. exact (like_self s (proj1 W) NX).
  - destruct (to_register_names _ _ _ T) as [NE NI]. rewrite (register_plain s c (proj1 W) NE) in AR. rewrite (bind_ok _ _ _ _ _ AR).
    pose proof (GR c eq_refl) as Q.
    pose proof (like_new_registered s c W NX (fun n I => proj2 (XI n) (in_or_app _ _ _ (or_introl (NI n I)))) Q) as H.
    assert (W1 : wf (registered s c)). { pose proof (wf_addArgument ns s W) as W1. rewrite AR in W1. exact W1. }
    assert (I : In (Arg (fresh_id s) 0 c new_dyn) (s_args (registered s c))). { unfold registered. cbn. apply sort_In. apply in_or_app. right. now left. }
    apply (foreign_meths X Qf Dt (Nat.eqb (fresh_id s)) G M GQ KB ms _ s (registered s c) (Arg (fresh_id s) 0 c new_dyn) H W1); [apply Nat.eqb_refl | | exact QM | | intros f If; apply XI, in_or_app; now right].
    + split; [exact I | exact Q].
    + destruct OR as [D|O]; [now left | right; left]. split; [exact O | exact (to_register_nonrole _ _ _ T)].
Qed.
End Added.
Lemma option_registered : forall ns m c, option_names ns -> to_register ns m = inr c -> is_positional (c_type c) = false.
Proof.
  intros ns m c ON T. unfold to_register in T. destruct ns as [|n rest]; [discriminate|]. destruct rest as [|n2 rest]; cbn [andb] in T.
  - destruct ON as [r ->]. change (Ascii.eqb (cget (String "-" r) 0) dash) with true in T. cbn [negb] in T. destruct (add_flags _ _ _ _); [discriminate|]. injection T as <-. reflexivity.
  - destruct (add_flags _ _ _ _); [discriminate|]. injection T as <-. reflexivity.
Qed.
Lemma registered_quiet : forall ns m c, option_names ns -> to_register ns m = inr c -> quiet c.
Proof.
  intros ns m c ON T. pose proof (option_registered _ _ _ ON T) as P. destruct (to_register_nonrole _ _ _ T) as [N1 N2]. unfold quiet. split; [exact P|].
  assert (R : c_required c = false /\ c_dest c = None); [|destruct R; now repeat split]. clear N1 N2.
  unfold to_register in T. destruct ns as [|n rest]; [discriminate|]. destruct (_ && _).
  - destruct n; [discriminate|]. destruct (mem_key _ _); [discriminate|]. injection T as <-. discriminate P.
  - destruct (add_flags _ _ _ _); [discriminate|]. injection T as <-. now split.
Qed.
Theorem like_new_quiet : forall X s ns ms, wf s -> option_names ns -> Forall quiet_meth ms -> (forall n, In n X <-> In n (op_names (OpAdd ns ms))) ->
  (forall n, In n X -> assoc n (s_map s) = None) ->
  completed (snd (step (OpAdd ns ms) s)) /\ exists F L, like_by X silent false F L s (fst (step (OpAdd ns ms) s)).
Proof.
  intros X s ns ms W ON QM XI NX. destruct (like_new X silent false quiet quiet_meth) with (s := s) (ns := ns) (ms := ms) as [A B]; try assumption.
  - intros c [Q1 [Q2 [Q3 _]]]. now repeat split.
  - exact quiet_kept.
  - intros c. now apply registered_quiet.
  - now left.
  - split; [exact A|]. eexists. eexists. exact B.
Qed.
