(** Properties_Names.v -- C01 to C04, C06, C07: names, registration, removal, order.

    Vocabulary: [reach s] = s is the state of an Args object after any history of
    completed calls (Model_Api.v); the observers are in Spec_Api.v; flags and names in
    Spec_Names.v; the listing order in Spec_Order.v. *)
From Coq Require Import Permutation Sorted.
From Verif Require Import Base Model_Utils Model_Number Model_Types Model_Argument Model_Usage Model_Args Model_Api
  Spec_Order Spec_Names Spec_History Spec_Api Proofs_Base Proofs_Order Proofs_Frame Proofs_Inv Proofs_Names Proofs_Meth Proofs_Decl Proofs_Distinct Proofs_Stable.

(** a small parser for the examples: two options, two positionals, one required *)
Definition demo : state := history
  [OpAdd ["-a"; "--all"] [MAction STORE_TRUE]; OpAdd ["--name"; "-n"] [MRequired true];
   OpAdd ["FILE"] []; OpAdd ["DIR"] [MRequired true]].
Lemma demo_reach : reach demo.
Proof. apply history_reach. Qed.

(* ------------------------------------------------------------------ *)
(** * C01 *)

(** A registered name is found, and the argument found lists it; an unregistered one
    makes getArgument and updateArgument throw AccessDeniedException naming it. *)
Theorem C01_lookup : forall s n, reach s ->
  (argumentExists s n = true -> exists a, getArgument s n = Ok a /\ In n (getNameOrFlags a) /\ updateArgument n s = (s, Ok (a_id a))) /\
  (argumentExists s n = false -> getArgument s n = Throw (not_found n) /\ updateArgument n s = (s, Throw (not_found n))).
Proof.
  intros s n R. destruct (reach_wf s R) as [W _]. split; intros E.
  - destruct (getArgument_some s n W E) as [a [H1 [H2 [H3 H4]]]]. exists a. split; [exact H1|]. split; [exact H3|].
    unfold updateArgument, find_name. unfold bind at 1. rewrite H4. unfold bind, deref.
    now rewrite (In_find_id _ _ (wf_ids _ W) H2).
  - destruct (getArgument_none s n E) as [H1 H2]. split; [exact H1|].
    unfold updateArgument, find_name. unfold bind at 1. now rewrite H2.
Qed.
Print Assumptions C01_lookup.
(** Every argument of the parser has a name by which it is found. *)
Theorem C01_every_argument : forall s a, reach s -> In a (arguments s) ->
  exists n, In n (getNameOrFlags a) /\ getArgument s n = Ok a.
Proof.
  intros s a R Ia. destruct (reach_wf s R) as [W _]. destruct (wf_mapped _ W a Ia) as [n Hn].
  pose proof (In_assoc _ _ _ (wf_keys _ W) Hn) as As. exists n.
  destruct (assoc_lookup s n _ W As) as [b [Ib [Eb [Inb _]]]].
  rewrite (wf_unique s b a W Ib Ia Eb) in Inb. split; [exact Inb|]. now apply getArgument_by.
Qed.
Print Assumptions C01_every_argument.
Example C01_example : argumentExists demo "--all" = true /\ argumentExists demo "-x" = false /\ length (arguments demo) = 4.
Proof. vm_compute. auto. Qed.

(* ------------------------------------------------------------------ *)
(** * C02 *)

(** one non-empty name that is not a flag and is free; or well-formed flags of which
    the first is free *)
Definition acceptable (s : state) (v : list str) : Prop :=
  (exists n, v = [n] /\ plain_name n /\ argumentExists s n = false) \/
  (exists f rest, v = f :: rest /\ Forall well_formed_flag v /\ argumentExists s f = false).

Theorem C02_acceptance : forall s v, reach s -> Forall (fun w => cstr w = true) v ->
  ((exists s' id, addArgument v s = (s', Ok id)) <-> acceptable s v).
Proof.
  intros s v R C. destruct (reach_wf s R) as [W _]. rewrite Forall_forall in C. split.
  - intros [s' [id E]]. destruct (addArgument_cases v s W) as [[e [E' _]]|[[n [-> [Pn [Mn _]]]]|[f [rest [flags [-> [AF [Mf [D _]]]]]]]]].
    + congruence.
    + left. exists n. auto.
    + right. exists f, rest. split; [reflexivity|]. split; [|exact Mf]. apply add_flags_ok in AF. destruct AF as [_ [V _]].
      rewrite Forall_forall in *. intros x Ix. apply validFlag_form; auto.
  - intros [[n [-> [Pn Mn]]]|[f [rest [-> [V Mf]]]]].
    + exists (registered s (positional_cfg n)), (fresh_id s).
      destruct (addArgument_cases [n] s W) as [[e [E' _]]|[[n' [E1 [Pn' [Mn' [E _]]]]]|[f [rest [flags [E1 [AF [Mf [D _]]]]]]]]].
      * exfalso. unfold addArgument in E'. pose proof (plain_no_dash n Pn) as ND. unfold starts_dash in ND. rewrite ND in E'. cbn [negb] in E'.
        destruct n; [destruct Pn as [c [r [Q _]]]; discriminate|]. unfold argumentExists in Mn. cbn [andb] in E'. rewrite (bind_ok get _ s s s eq_refl) in E'. rewrite Mn in E'.
        destruct (register_eq s (positional_cfg (String a n)) W) as [RE _]; [exists (String a n); split; [now left | exact Mn] | intros _; exists (String a n); split; [reflexivity | exact Pn] | discriminate |].
        unfold positional_cfg in RE. rewrite RE in E'. discriminate.
      * injection E1 as <-. exact E.
      * injection E1 as <- <-. pose proof (plain_no_dash n Pn). rewrite (D eq_refl) in H. discriminate.
    + destruct (addArgument_cases (f :: rest) s W) as [[e [E' _]]|[[n' [E1 [Pn' [Mn' [E _]]]]]|[f' [rest' [flags [E1 [AF [Mf' [D [E _]]]]]]]]]].
      * exfalso. assert (VF : forall x, In x (f :: rest) -> validFormatFlag x = None).
        { intros x Ix. apply validFlag_form; [auto|]. rewrite Forall_forall in V; auto. }
        unfold addArgument in E'.
        assert (Df : Ascii.eqb (cget f 0) dash = true) by (apply (validFlag_dash f (VF f (or_introl eq_refl)))).
        rewrite Df in E'. rewrite andb_false_r in E'. unfold get in E'. unfold bind at 1 in E'.
        destruct (add_flags f (s_map s) (f :: rest) []) as [x|flags] eqn:AF.
        -- destruct (add_flags_inl _ _ _ _ _ AF) as [[g [Ig Ng]]|[_ M]]; [exact (Ng (VF g Ig)) | unfold argumentExists in Mf; congruence].
        -- pose proof (add_flags_ok _ _ _ _ _ AF) as [_ [_ [IN _]]].
           destruct (register_eq s (option_cfg flags) W) as [RE _].
           ++ exists f. split; [|exact Mf]. apply sort_flags_In, IN. right. now left.
           ++ discriminate.
           ++ intros _. split; [|apply sort_flags_sorted]. apply Forall_forall. intros x Ix. apply (proj1 (sort_flags_In _ _)), IN in Ix. destruct Ix as [[]|Ix]; auto.
           ++ unfold option_cfg in RE. rewrite RE in E'. discriminate.
      * injection E1 as -> ->. eauto.
      * eauto.
Qed.
Print Assumptions C02_acceptance.
(** Otherwise it throws ArgumentException, and nothing at all has changed. *)
Theorem C02_refusal_has_no_effect : forall s v s' r, reach s -> addArgument v s = (s', r) ->
  (exists id, r = Ok id) \/ (exists e, r = Throw e /\ x_kind e = KArgument /\ s' = s).
Proof.
  intros s v s' r R E. destruct (reach_wf s R) as [W _].
  destruct (addArgument_cases v s W) as [[e [E' K]]|[[n [_ [_ [_ [E' _]]]]]|[f [rest [flags [_ [_ [_ [_ [E' _]]]]]]]]]]; rewrite E' in E; injection E as <- <-; eauto.
Qed.
Print Assumptions C02_refusal_has_no_effect.
(** When it succeeds, exactly one argument is new: an option (or positional) with one
    value, not required, without defaults; its names are the given ones; every free
    name among them designates it and every other name designates what it did before. *)
Definition newborn (a : argument) : Prop :=
  isRequired a = false /\ getNargs a = 1%N /\ getAction a = NONE /\ isExists a = false /\ count a = 0 /\
  getString a = "" /\ c_defaults (a_cfg a) = [] /\ c_valid (a_cfg a) = None /\ c_dest (a_cfg a) = None.
Definition same_parser_but_arguments (s s' : state) : Prop :=
  s' = with_map (with_args s (arguments s')) (s_map s').
Theorem C02_success : forall s v s' id, reach s -> addArgument v s = (s', Ok id) ->
  exists a, a_id a = id /\ newborn a /\ Permutation (arguments s') (a :: arguments s) /\
    (forall n, In n (getNameOrFlags a) <-> In n v) /\ NoDup (getNameOrFlags a) /\
    (isPositional a = true <-> exists n, v = [n] /\ plain_name n) /\
    (forall n b, getArgument s n = Ok b -> getArgument s' n = Ok b) /\
    (forall n, In n v -> argumentExists s n = false -> getArgument s' n = Ok a) /\
    (forall n, ~ In n v -> argumentExists s n = false -> argumentExists s' n = false) /\
    same_parser_but_arguments s s'.
Proof.
  intros s v s' id R E. destruct (reach_wf s R) as [W _].
  assert (G : forall c, wf (registered s c) -> (forall n, In n (c_names c) <-> In n v) ->
     let a := Arg (fresh_id s) 0 c new_dyn in
     Permutation (s_args (registered s c)) (a :: s_args s) /\
     (forall n b, getArgument s n = Ok b -> getArgument (registered s c) n = Ok b) /\
     (forall n, In n v -> argumentExists s n = false -> getArgument (registered s c) n = Ok a) /\
     (forall n, ~ In n v -> argumentExists s n = false -> argumentExists (registered s c) n = false) /\
     same_parser_but_arguments s (registered s c)).
  { intros c [Wr _] IN a. split; [|split; [|split; [|split]]].
    - unfold registered. simpl. etransitivity; [symmetry; apply sort_perm|]. symmetry. apply Permutation_cons_append.
    - intros n b Gb. destruct (getArgument_inv s n b W Gb) as [Ib [_ As]]. apply getArgument_by; [exact Wr | apply registered_In; now right |].
      now rewrite registered_assoc, As.
    - intros n Iv En. unfold argumentExists, mem_key in En. destruct (assoc n (s_map s)) eqn:As; [discriminate|].
      apply getArgument_by; [exact Wr | apply registered_In; now left |]. rewrite registered_assoc, As.
      apply IN, mem_str_In in Iv. now rewrite Iv.
    - intros n Nv En. unfold argumentExists, mem_key in *. rewrite registered_assoc. destruct (assoc n (s_map s)); [discriminate|].
      destruct (mem_str n (c_names c)) eqn:M; [|reflexivity]. apply mem_str_In, IN in M. contradiction.
    - reflexivity. }
  destruct (addArgument_cases v s W) as [[e [E' K]]|[[n [-> [Pn [Mn [E' Wr]]]]]|[f [rest [flags [Ev [AF [Mf [D [E' Wr]]]]]]]]]]; rewrite E' in E; [discriminate| |];
    injection E as <- <-.
  - exists (Arg (fresh_id s) 0 (positional_cfg n) new_dyn). destruct (G _ Wr) as [G1 [G2 [G3 [G4 G5]]]]; [intros k; reflexivity|].
    split; [reflexivity|]. split; [unfold newborn; repeat split|]. split; [exact G1|]. split; [intros k; reflexivity|].
    split; [constructor; [simpl; tauto | constructor]|]. split; [split; [intros _; exists n; auto | reflexivity]|]. auto.
  - exists (Arg (fresh_id s) 0 (option_cfg flags) new_dyn). pose proof (add_flags_NoDup _ _ _ _ _ AF (NoDup_nil _)) as ND.
    pose proof (add_flags_ok _ _ _ _ _ AF) as [_ [_ [IN _]]].
    assert (IN' : forall k, In k (c_names (option_cfg flags)) <-> In k v).
    { intros k. change (c_names (option_cfg flags)) with (sort_flags flags). rewrite sort_flags_In, IN. simpl. tauto. }
    destruct (G _ Wr) as [G1 [G2 [G3 [G4 G5]]]]; [exact IN'|].
    split; [reflexivity|]. split; [unfold newborn; repeat split|]. split; [exact G1|]. split; [exact IN'|].
    split; [now apply NoDup_sort_flags|]. split; [|auto]. split; [discriminate|]. intros [n [En Pn]]. exfalso.
    rewrite Ev in En. injection En as -> ->. pose proof (D eq_refl). rewrite (plain_no_dash n Pn) in H. discriminate.
Qed.
Print Assumptions C02_success.
Example C02_example : acceptable demo ["-x"; "--extra"] /\ ~ acceptable demo ["-a"] /\
  (exists s' id, addArgument ["-x"; "--extra"] demo = (s', Ok id)).
Proof.
  split; [|split].
  - right. exists "-x", ["--extra"]. split; [reflexivity|]. split; [|reflexivity]. constructor; [left|constructor; [right|constructor]].
    + exists "x"%char. split; [reflexivity | discriminate].
    + exists "e"%char, "xtra". reflexivity.
  - intros [[n [E [[c [r [E2 N]]] _]]]|[f [rest [E [_ X]]]]]; injection E as <-; [injection E2 as <- _; contradiction | discriminate].
  - eexists; eexists. vm_compute. reflexivity.
Qed.

(* ------------------------------------------------------------------ *)
(** * C03 *)

(** addArgument looks only at the first flag of the list: two arguments can list the
    same flag. *)
Theorem C03_refuted : exists s a b, reach s /\ In a (arguments s) /\ In b (arguments s) /\ a_id a <> a_id b /\
  exists f, In f (getNameOrFlags a) /\ In f (getNameOrFlags b).
Proof.
  exists (history [OpAdd ["-a"] []; OpAdd ["-b"; "-a"] []]).
  match goal with |- exists a b, reach ?h /\ _ => let l := eval vm_compute in (s_args h) in
    match l with ?x :: ?y :: _ => exists x, y end end.
  split; [apply history_reach|]. split; [vm_compute; auto|]. split; [vm_compute; auto|].
  split; [discriminate|]. exists "-a". split; simpl; auto.
Qed.
Print Assumptions C03_refuted.
(** Full property: in every reachable state two arguments never list the same flag.
    Proved when no call of addArgument contains an already registered name; missing:
    calls whose second or later flag is already registered (see C03_refuted). *)
Theorem C03_partial : forall s a b f, reach_with distinct_names s -> In a (arguments s) -> In b (arguments s) ->
  In f (getNameOrFlags a) -> In f (getNameOrFlags b) -> a = b.
Proof.
  intros s a b f R Ia Ib Fa Fb. pose proof (reach_listed s R) as L. destruct (reach_wf s (Proofs_History.reach_with_reach _ _ R)) as [W _].
  destruct (L a Ia) as [_ La]. destruct (L b Ib) as [_ Lb]. apply (wf_unique s a b W Ia Ib). specialize (La f Fa). specialize (Lb f Fb). congruence.
Qed.
Print Assumptions C03_partial.
(** ... and then every listed name designates the argument that lists it. *)
Theorem C03_names_designate_partial : forall s a n, reach_with distinct_names s -> In a (arguments s) ->
  In n (getNameOrFlags a) -> getArgument s n = Ok a.
Proof.
  intros s a n R Ia Fa. destruct (reach_wf s (Proofs_History.reach_with_reach _ _ R)) as [W _].
  apply getArgument_by; [exact W | exact Ia |]. now apply (reach_listed s R a Ia).
Qed.
Print Assumptions C03_names_designate_partial.
(** Without any condition: the name table gives each flag to one argument only, flag()
    refuses a registered flag, addArgument refuses a registered first flag; neither
    changes anything then. *)
Theorem C03_refusals : forall s f, reach s -> argumentExists s f = true ->
  (forall a, In a (arguments s) -> exists e, run_meth (a_id a) (MFlag f) s = (s, Throw e) /\ x_kind e = KArgument /\ x_arg e = f) /\
  (forall rest, exists e, addArgument (f :: rest) s = (s, Throw e) /\ x_kind e = KArgument).
Proof.
  intros s f R E. destruct (reach_wf s R) as [W _]. split.
  - intros a Ia. rewrite (meth_eq (MFlag f) s a W Ia). unfold meth_state. destruct (is_positional _); [eexists; split; [reflexivity | split; reflexivity]|].
    destruct (validFormatFlag f); [eexists; split; [reflexivity | split; reflexivity]|]. unfold argumentExists in E. rewrite E.
    eexists; split; [reflexivity | split; reflexivity].
  - intros rest. destruct (addArgument_cases (f :: rest) s W) as [[e [E' K]]|[[n [Ev [_ [Mn _]]]]|[g [r [flags [Ev [AF [Mf _]]]]]]]].
    + exists e. auto.
    + injection Ev as -> _. unfold argumentExists in E. congruence.
    + injection Ev as -> _. unfold argumentExists in E. congruence.
Qed.
Print Assumptions C03_refusals.
Example C03_example : reach_with distinct_names (history [OpAdd ["-a"; "--all"] []; OpAdd ["-b"] []]).
Proof.
  eapply rw_step with (o := OpAdd ["-b"] []); [eapply rw_step with (o := OpAdd ["-a"; "--all"] []); [apply rw_init| |vm_compute; reflexivity|exact I]| |vm_compute; reflexivity|exact I];
    (split; [intros n Hn; repeat (destruct Hn as [<-|Hn]; [reflexivity|]); destruct Hn | intros; exact I]).
Qed.

(* ------------------------------------------------------------------ *)
(** * C04 *)

(** [b] is the argument [a] after the names [l] were removed: only its names differ;
    it keeps all names not in [l], and lost only names of [l] that designated it *)
Definition reduced (s : state) (l : list str) (a b : argument) : Prop :=
  a_id b = a_id a /\ a_gen b = a_gen a /\ a_dyn b = a_dyn a /\ a_cfg b = cfg_names (a_cfg a) (getNameOrFlags b) /\
  (forall n, In n (getNameOrFlags b) -> In n (getNameOrFlags a)) /\
  (forall n, In n (getNameOrFlags a) -> In n (getNameOrFlags b) \/ (In n l /\ getArgument s n = Ok a)).

Theorem C04_remove : forall s l, reach s -> l <> [] -> NoDup l -> (forall n, In n l -> argumentExists s n = true) ->
  exists s', removeArguments l s = (s', Ok tt) /\
    (forall n, argumentExists s' n = argumentExists s n && negb (mem_str n l)) /\
    (forall n a, ~ In n l -> getArgument s n = Ok a -> exists a', getArgument s' n = Ok a' /\ reduced s l a a') /\
    (forall a, In a (arguments s) ->
       ((exists a', In a' (arguments s') /\ a_id a' = a_id a) <-> exists n, ~ In n l /\ getArgument s n = Ok a)) /\
    (forall a', In a' (arguments s') -> exists a, In a (arguments s) /\ reduced s l a a') /\
    same_settings s s'.
Proof.
  intros s l R NE ND EX. destruct (reach_wf s R) as [W _].
  destruct (remove_loop_eq l s W ND EX) as [s1 [E [W1 [AS [_ [FROM [TO ST]]]]]]].
  exists (with_args s1 (sort_by arg_lt (s_args s1))).
  assert (INs : forall b, In b (sort_by arg_lt (s_args s1)) <-> In b (s_args s1)) by (intros b; apply sort_In).
  assert (Wf' : wf0 (with_args s1 (sort_by arg_lt (s_args s1)))) by (apply wf_sort; exact W1).
  assert (GA : forall n a, getArgument s n = Ok a <-> In a (s_args s) /\ assoc n (s_map s) = Some (a_id a)).
  { intros n a. split; intros H; [destruct (getArgument_inv s n a W H) as [? [_ ?]]; auto | now apply getArgument_by]. }
  assert (RED : forall a b, In a (s_args s) -> stripped s l a b -> reduced s l a b).
  { intros a b Ia [ns [-> [H1 H2]]]. repeat (split; [reflexivity|]). split; [exact H1|]. intros n Hn. destruct (H2 n Hn) as [H|[H3 H4]]; [now left|].
    right. split; [exact H3|]. now apply getArgument_by. }
  split; [|split; [|split; [|split; [|split]]]].
  - unfold removeArguments. destruct l as [|x l']; [contradiction|]. rewrite (bind_ok get _ s s s eq_refl).
    destruct (find _ _) eqn:F.
    + apply find_some in F. destruct F as [F1 F2]. rewrite (EX _ F1 : mem_key _ _ = true) in F2. discriminate.
    + rewrite (bind_ok _ _ _ _ _ E). now apply sort_args_ok.
  - intros n. unfold argumentExists, mem_key. cbn [s_map with_args]. rewrite AS. destruct (mem_str n l); [now rewrite andb_false_r|]. now rewrite andb_true_r.
  - intros n a Nn Ga. apply GA in Ga. destruct Ga as [Ia As].
    destruct (TO a Ia) as [b [Ib Sb]]; [exists n; auto|]. exists b. split; [|now apply RED].
    apply getArgument_by; [exact Wf' | now apply INs |]. cbn [s_map with_args]. rewrite AS.
    destruct (mem_str n l) eqn:M; [apply mem_str_In in M; contradiction|]. rewrite As. destruct Sb as [ns [-> _]]. reflexivity.
  - intros a Ia. split.
    + intros [b [Ib Eb]]. apply (proj1 (INs _)) in Ib. destruct (wf_mapped _ W1 b Ib) as [n Hn].
      pose proof (In_assoc _ _ _ (wf_keys _ W1) Hn) as As. rewrite AS in As. destruct (mem_str n l) eqn:M; [discriminate|].
      exists n. split; [now apply mem_str_nIn|]. apply GA. split; [exact Ia|]. now rewrite <- Eb.
    + intros [n [Nn Ga]]. apply GA in Ga. destruct Ga as [_ As]. destruct (TO a Ia) as [b [Ib Sb]]; [exists n; auto|].
      exists b. split; [now apply INs|]. destruct Sb as [ns [-> _]]. reflexivity.
  - intros b Ib. apply (proj1 (INs _)) in Ib. destruct (FROM b Ib) as [a [Ia Sa]]. exists a. split; [exact Ia | now apply RED].
  - destruct ST as [H1 [H2 [H3 [H4 [H5 H6]]]]]. repeat split; assumption.
Qed.
Print Assumptions C04_remove.
(** an unknown name: ArgumentException naming the first unknown one, no effect *)
Theorem C04_unknown : forall s l1 n l2, (forall k, In k l1 -> argumentExists s k = true) -> argumentExists s n = false ->
  removeArguments (l1 ++ n :: l2) s = (s, Throw (Exn KArgument n "argument not found")).
Proof.
  intros s l1 n l2 H N.
  assert (F : find (fun k => negb (mem_key k (s_map s))) (l1 ++ n :: l2) = Some n).
  { induction l1 as [|k l1 IH]; simpl.
    - unfold argumentExists in N. now rewrite N.
    - rewrite (H k (or_introl eq_refl) : mem_key _ _ = true). simpl. apply IH. intros x Ix. apply H. now right. }
  unfold removeArguments. destruct (l1 ++ n :: l2) as [|x r] eqn:E; [destruct l1; discriminate|].
  rewrite (bind_ok get _ s s s eq_refl). rewrite F. reflexivity.
Qed.
Print Assumptions C04_unknown.
Theorem C04_empty : forall s, removeArguments [] s = (s, Throw (Exn KArgument "" "invalid empty flag")).
Proof. reflexivity. Qed.
(** The condition that each name is given once is necessary: a repeated name makes
    removeArguments use an erased map iterator. *)
Theorem C04_repeated_name_refuted : exists s n, reach s /\ argumentExists s n = true /\ snd (removeArguments [n; n] s) = UB.
Proof. exists demo, "-a". split; [apply demo_reach|]. vm_compute. auto. Qed.
Print Assumptions C04_repeated_name_refuted.
Example C04_example : exists s', removeArguments ["-a"; "FILE"; "-n"; "--name"] demo = (s', Ok tt) /\
  map (fun a => getNameOrFlags a) (arguments s') = [["--all"]; ["DIR"]].
Proof. eexists. vm_compute. split; reflexivity. Qed.

(* ------------------------------------------------------------------ *)
(** * C06 *)

(** the place of an argument in the listing *)
Definition class_of (a : argument) : nat :=
  listing_class (isPositional a) (isRequired a) (short_flag (hd "" (getNameOrFlags a))).
(** listing_class, spelled out *)
Lemma listing_class_meaning : forall p r sh p' r' sh',
  listing_class p r sh < listing_class p' r' sh' <->
  (p = false /\ p' = true) \/
  (p = p' /\ ((r = true /\ r' = false) \/ (p = false /\ r = r' /\ sh = true /\ sh' = false))).
Proof.
  intros p r sh p' r' sh'.
  assert (G : Nat.ltb (listing_class p r sh) (listing_class p' r' sh') =
    (negb p && p') || (Bool.eqb p p' && ((r && negb r') || (negb p && Bool.eqb r r' && sh && negb sh'))))
    by (destruct p, r, sh, p', r', sh'; reflexivity).
  rewrite <- Nat.ltb_lt, G. destruct p, r, sh, p', r', sh'; simpl; split; intros H; try reflexivity; try discriminate; try tauto;
    intuition discriminate.
Qed.
Lemma StronglySorted_pair : forall {A} (R : A -> A -> Prop) l1 a l2 b l3, StronglySorted R (l1 ++ a :: l2 ++ b :: l3) -> R a b.
Proof.
  intros A R l1 a l2 b l3 S. induction l1 as [|x l1 IH]; simpl in S; inversion_clear S as [|? ? S' F].
  - rewrite Forall_forall in F. apply F. apply in_or_app. right. now left.
  - now apply IH.
Qed.
Theorem C06_listing_order : forall s l1 a l2 b l3, reach s -> arguments s = l1 ++ a :: l2 ++ b :: l3 ->
  class_of a <= class_of b /\
  (class_of a = class_of b -> isPositional a = false ->
     hd "" (getNameOrFlags a) = hd "" (getNameOrFlags b) \/ String.ltb (hd "" (getNameOrFlags a)) (hd "" (getNameOrFlags b)) = true).
Proof.
  intros s l1 a l2 b l3 R E. destruct (reach_wf s R) as [_ S]. unfold listed_sorted in S. rewrite E in S.
  apply StronglySorted_pair in S. apply le_arg_lt in S. destruct S as [S1 S2]. split; [exact S1|]. intros H1 H2. specialize (S2 H1 H2).
  unfold first_name in S2. destruct (String.ltb (hd "" (c_names (a_cfg a))) (hd "" (c_names (a_cfg b)))) eqn:L; [now right|]. left. now apply sltb_total.
Qed.
Print Assumptions C06_listing_order.
(** the flags of an option: short ones first, each group alphabetically *)
Theorem C06_flag_order : forall s a l1 f l2 g l3, reach s -> In a (arguments s) -> getNameOrFlags a = l1 ++ f :: l2 ++ g :: l3 ->
  f = g \/ flag_before f g.
Proof.
  intros s a l1 f l2 g l3 R Ia E. destruct (reach_wf s R) as [W _]. destruct (is_positional (c_type (a_cfg a))) eqn:P.
  - destruct (wf_pos _ W a Ia P) as [n [En _]]. rewrite E in En. destruct l1 as [|x [|y l1]]; [destruct l2|..]; discriminate.
  - destruct (wf_opt _ W a Ia P) as [_ S]. rewrite E in S. apply StronglySorted_pair in S. unfold le_by in S.
    destruct (compareFlag f g) eqn:C; [right; now apply compareFlag_spec|]. left. now apply compareFlag_total.
Qed.
Print Assumptions C06_flag_order.
(** a new optional positional is always the last argument: positionals without
    required() keep the order in which they were added *)
Lemma sort_app_last : forall (l : list argument) a, StronglySorted (le_by arg_lt) (l ++ [a]) -> sort_by arg_lt (l ++ [a]) = l ++ [a].
Proof. intros l a S. apply sort_id. exact S. Qed.
Theorem C06_new_positional_is_last : forall s n s' id, reach s -> plain_name n -> addArgument [n] s = (s', Ok id) ->
  exists a, arguments s' = arguments s ++ [a] /\ a_id a = id /\ getNameOrFlags a = [n].
Proof.
  intros s n s' id R Pn E. destruct (reach_wf s R) as [W S].
  destruct (addArgument_cases [n] s W) as [[e [E' _]]|[[n' [Ev [_ [_ [E' _]]]]]|[f [rest [flags [Ev [_ [_ [D _]]]]]]]]].
  - congruence.
  - injection Ev as <-. rewrite E' in E. injection E as <- <-. exists (Arg (fresh_id s) 0 (positional_cfg n) new_dyn). split; [|split; [reflexivity|]].
    + unfold registered. cbn [s_args with_args with_map]. apply sort_app_last. clear -S. unfold listed_sorted in S.
      induction S as [|x l S IH F]; simpl; [constructor; constructor|]. constructor; [exact IH|]. apply Forall_app. split; [exact F|].
      constructor; [|constructor]. unfold le_by, arg_lt. apply compareOption_false. change (cfg_class (a_cfg (Arg (fresh_id s) 0 (positional_cfg n) new_dyn))) with 5.
      cbn [a_cfg]. change (cfg_class (positional_cfg n)) with 5. split; [|discriminate].
      unfold cfg_class, listing_class. destruct (is_positional (c_type (a_cfg x))), (c_required (a_cfg x)), (short_flag (first_name (a_cfg x))); simpl; lia.
    + reflexivity.
  - injection Ev as <- <-. pose proof (plain_no_dash n Pn). rewrite (D eq_refl) in H. discriminate.
Qed.
Print Assumptions C06_new_positional_is_last.
Example C06_example : map (fun a => (getNameOrFlags a, class_of a)) (arguments demo) =
  [(["-n"; "--name"], 0); (["-a"; "--all"], 2); (["DIR"], 4); (["FILE"], 5)].
Proof. vm_compute. reflexivity. Qed.

(* ------------------------------------------------------------------ *)
(** * C07 *)
Theorem C07_flag_comparator : strict_weak_order compareFlag.
Proof. exact compareFlag_swo. Qed.
Print Assumptions C07_flag_comparator.
Theorem C07_argument_comparator : strict_weak_order compareOption.
Proof. exact compareOption_swo. Qed.
Print Assumptions C07_argument_comparator.
(** the comparator of flags orders by what C06 says *)
Theorem C07_flag_comparator_meaning : forall f g, compareFlag f g = true <-> flag_before f g.
Proof. exact compareFlag_spec. Qed.
Print Assumptions C07_flag_comparator_meaning.
(** std::sort of flags: whatever permutation of the flags it returns that is sorted,
    it is the one of the model *)
Theorem C07_flag_sort_unique : forall l r, Permutation l r -> StronglySorted (fun f g => compareFlag g f = false) r -> r = sort_flags l.
Proof.
  intros l r P S. symmetry. assert (P' : Permutation (sort_flags l) r) by (etransitivity; [symmetry; apply sort_perm | exact P]).
  pose proof (sort_flags_sorted l) as S0. revert P' S S0. generalize (sort_flags l) as q. clear P l. intros q. revert r.
  induction q as [|x q IH]; intros r P S S0; [apply Permutation_nil in P; now subst|].
  destruct r as [|y r]; [apply Permutation_sym, Permutation_nil in P; discriminate|].
  inversion_clear S as [|? ? S' F]. inversion_clear S0 as [|? ? S0' F0]. rewrite Forall_forall in F, F0.
  assert (x = y).
  { assert (Ix : In x (y :: r)) by (apply (Permutation_in _ P); now left). assert (Iy : In y (x :: q)) by (apply (Permutation_in _ (Permutation_sym P)); now left).
    destruct Ix as [->|Ix]; [reflexivity|]. destruct Iy as [->|Iy]; [reflexivity|]. apply compareFlag_total; [apply (F0 y Iy) || apply (F x Ix) | apply (F x Ix) || apply (F0 y Iy)]. }
  subst y. f_equal. apply IH; [now apply Permutation_cons_inv in P | exact S' | exact S0'].
Qed.
Print Assumptions C07_flag_sort_unique.
(** std::list::sort of arguments (a stable sort): any sorted list with the same
    arguments in which equivalent ones keep their relative order is the one of the model *)
Theorem C07_argument_sort_unique : forall l r, StronglySorted (fun a b => compareOption (a_cfg b) (a_cfg a) = false) r ->
  (forall a, filter (fun b => negb (compareOption (a_cfg a) (a_cfg b)) && negb (compareOption (a_cfg b) (a_cfg a))) r =
             filter (fun b => negb (compareOption (a_cfg a) (a_cfg b)) && negb (compareOption (a_cfg b) (a_cfg a))) l) ->
  r = sort_by arg_lt l.
Proof.
  intros l r S F. assert (O : strict_weak_order arg_lt).
  { destruct compareOption_swo as [H1 H2 H3 H4]. constructor; unfold arg_lt; intros; eauto. }
  apply (stable_unique arg_lt O); [exact S | apply sort_args_sorted |]. intros x. etransitivity; [exact (F x) | symmetry; apply (sort_stable arg_lt O)].
Qed.
Print Assumptions C07_argument_sort_unique.
Example C07_example : sort_flags ["--b"; "-z"; "--a"; "-c"] = ["-c"; "-z"; "--a"; "--b"].
Proof. reflexivity. Qed.
