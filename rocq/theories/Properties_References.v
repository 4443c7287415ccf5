(** Properties_References.v -- C72: how long a reference returned by addArgument(),
    updateArgument() or getArgument() can be used.

    The references are to the C++ object itself: [ptr_of a] is its identity (the list node
    and the object it points at; argument.h, dest(): a new object is put in the node and
    the old one deleted). *)
From Coq Require Import Permutation Sorted.
From Verif Require Import Base Model_Utils Model_Number Model_Types Model_Argument Model_Usage Model_Args Model_Api
  Spec_Order Spec_Names Spec_Reading Spec_Parse Spec_Decl Spec_Finish Spec_History Spec_Api Spec_Result
  Proofs_Base Proofs_Order Proofs_Frame Proofs_Inv Proofs_ReadFacts Proofs_Reading Proofs_Parse Proofs_Decl Proofs_Finish
  Proofs_Meth Proofs_History Proofs_Config Proofs_Check Proofs_Names Proofs_Central Properties_Names Properties_Parse Proofs_Redecl Demo.

(** the reference [p] can be used in [s], and is to [a] *)
Definition refers (s : state) (p : nat * nat) (a : argument) : Prop := In a (arguments s) /\ ptr_of a = p.
Definition valid_in (s : state) (p : nat * nat) : Prop := exists a, refers s p a.

(** the calls that end the references to [a]: clear(); removeArguments() of existing names,
    among them all that designate it; and a dest() that is reached on it *)
Definition ends (s : state) (a : argument) (o : op) : Prop :=
  match o with
  | OpClear => True
  | OpRemove ns => (forall n, In n ns -> argumentExists s n = true) /\ (forall n, getArgument s n = Ok a -> In n ns)
  | OpUpdate n ms => getArgument s n = Ok a /\
      exists ms1 d ms2, ms = ms1 ++ MDest d :: ms2 /\ snd (step (OpUpdate n ms1) s) = Ok tt
  | _ => False
  end.

(* ------------------------------------------------------------------ *)
(** * one method *)
Definition is_dest (m : meth) : bool := match m with MDest _ => true | _ => false end.
Lemma put_other : forall a s b, In b (s_args s) -> a_id b <> a_id a -> In b (s_args (put a s)).
Proof. intros a s b Ib N. unfold put. cbn [s_args with_args]. unfold upd_id. apply in_map_iff. exists b. split; [|exact Ib]. destruct (Nat.eqb_spec (a_id b) (a_id a)); [contradiction | reflexivity]. Qed.
Lemma defaults_arg_gen : forall a, a_gen (fst (defaults_arg a)) = a_gen a.
Proof. intros a. unfold defaults_arg. repeat match goal with |- context [if ?b then _ else _] => destruct b | |- context [match ?x with _ => _ end] => destruct x end; unfold defaulted; try destruct (c_type (a_cfg a)); reflexivity. Qed.

(** the arguments after: the argument itself in its new form, the others as they were *)
Definition moved (m : meth) (a : argument) (s s1 : state) : Prop :=
  (exists a', In a' (s_args s1) /\ a_id a' = a_id a /\ a_gen a' = (if is_dest m then Datatypes.S (a_gen a) else a_gen a)) /\
  (forall b, In b (s_args s) -> a_id b <> a_id a -> In b (s_args s1)) /\
  (forall n id, assoc n (s_map s) = Some id -> assoc n (s_map s1) = Some id).
Lemma assoc_app : forall A n (v : A) l m, assoc n l = Some v -> assoc n (l ++ m) = Some v.
Proof. intros A n v l m H. induction l as [|[k x] l IH]; [discriminate H|]. cbn [app assoc] in *. destruct (String.eqb n k); [exact H | now apply IH]. Qed.
Lemma moved_put : forall m a s c s1, In a (s_args s) -> a_id c = a_id a -> a_gen c = (if is_dest m then Datatypes.S (a_gen a) else a_gen a) ->
  (forall x, In x (s_args (put c s)) -> In x (s_args s1)) -> (exists l, s_map s1 = s_map s ++ l) -> moved m a s s1.
Proof.
  intros m a s c s1 Ia E G H [l L]. split; [|split].
  - exists c. split; [|split; assumption]. apply H. apply put_In_self with (b := a); [exact Ia | now symmetry].
  - intros b Ib N. apply H. apply put_other; [exact Ib | now rewrite E].
  - intros n id As. rewrite L. now apply assoc_app.
Qed.
Lemma moved_same : forall m a s, In a (s_args s) -> is_dest m = false -> moved m a s s.
Proof. intros m a s Ia D. split; [exists a; rewrite D; repeat split; exact Ia | split; auto]. Qed.
Lemma declared_moved : forall m a c s s1 e, In a (s_args s) -> a_id c = a_id a -> a_gen c = a_gen a -> is_dest m = false ->
  declared c s = (s1, e) -> moved m a s s1.
Proof.
  intros m a c s s1 e Ia E G D H. unfold declared in H.
  assert (P1 : forall s1, s_args s1 = s_args (put c s) -> s_map s1 = s_map s -> moved m a s s1).
  { intros x EX EM. apply (moved_put m a s c x Ia E); [now rewrite D | intros y; now rewrite EX | exists []; now rewrite app_nil_r]. }
  assert (P2 : forall k s1, s_args s1 = s_args (put (fst (defaults_arg (arg_cfg c (retyped (a_cfg c) k)))) s) -> s_map s1 = s_map s -> moved m a s s1).
  { intros k x EX EM. apply (moved_put m a s (fst (defaults_arg (arg_cfg c (retyped (a_cfg c) k)))) x Ia).
    - rewrite defaults_arg_id. exact E.
    - rewrite defaults_arg_gen, D. exact G.
    - intros y; now rewrite EX.
    - exists []. now rewrite app_nil_r. }
  destruct (kind_of (a_cfg c)) as [k|]; [|injection H as <- <-; apply P1; reflexivity].
  destruct (fst (fst k)); try (injection H as <- <-; apply (P2 k); reflexivity);
    (destruct (claims _ _); injection H as <- <-; [apply (P2 k); reflexivity | apply P1; reflexivity]).
Qed.
Lemma released_args : forall a s, s_args (released a s) = s_args s.
Proof. intros a s. unfold released. destruct (c_action (a_cfg a)); reflexivity. Qed.
Lemma released_map : forall a s, s_map (released a s) = s_map s.
Proof. intros a s. unfold released. destruct (c_action (a_cfg a)); reflexivity. Qed.
Lemma meth_moved : forall m a s s1 e, In a (s_args s) -> meth_state m a s = (s1, e) -> moved m a s s1 /\ (is_dest m = true -> e = None).
Proof.
  intros m a s s1 e Ia H.
  assert (RS : forall y x, In x (s_args y) -> In x (s_args (resorted y))) by (intros y x Ix; unfold resorted; cbn [s_args with_args]; now apply sort_In).
  split.
  - destruct m; cbn [meth_state] in H.
    + destruct (is_positional _); [injection H as <- <-; now apply moved_same|]. destruct (validFormatFlag _); [injection H as <- <-; now apply moved_same|].
      destruct (mem_key _ _); injection H as <- <-; [now apply moved_same|]. eapply moved_put; [exact Ia| | |intros x Ix; cbn [s_args with_map]; apply RS; exact Ix|eexists; reflexivity]; reflexivity.
    + assert (Ia' : In a (s_args (released a s))) by (rewrite released_args; exact Ia).
      pose proof (declared_moved (MAction a0) a (arg_cfg a (cfg_action (a_cfg a) a0)) _ s1 e Ia' eq_refl eq_refl eq_refl H) as [M1 [M2 M3]]. rewrite released_args in M2. rewrite released_map in M3. split; [exact M1 | split; assumption].
    + injection H as <- <-. eapply moved_put; [exact Ia| | |intros x Ix; apply RS; exact Ix|exists []; now rewrite app_nil_r]; reflexivity.
    + injection H as <- <-. eapply moved_put; [exact Ia| | |intros x Ix; exact Ix|exists []; now rewrite app_nil_r]; reflexivity.
    + injection H as <- <-. eapply moved_put; [exact Ia| | |intros x Ix; exact Ix|exists []; now rewrite app_nil_r]; reflexivity.
    + exact (declared_moved (MNargs n) a (arg_cfg a (cfg_nargs (a_cfg a) (n mod w64)%N)) s s1 e Ia eq_refl eq_refl eq_refl H).
    + injection H as <- <-. eapply moved_put; [exact Ia| | |intros x Ix; exact Ix|exists []; now rewrite app_nil_r]; [rewrite defaults_arg_id; reflexivity | rewrite defaults_arg_gen; reflexivity].
    + injection H as <- <-. eapply moved_put; [exact Ia| | |intros x Ix; exact Ix|exists []; now rewrite app_nil_r]; reflexivity.
    + injection H as <- <-. eapply moved_put; [exact Ia| | |intros x Ix; exact Ix|exists []; now rewrite app_nil_r]; reflexivity.
  - intros D. destruct m; try discriminate D. cbn [meth_state] in H. now injection H as <- <-.
Qed.

(* ------------------------------------------------------------------ *)
(** * a chain of methods *)
Lemma chain_moved : forall ms a s s' r, wf s -> In a (s_args s) -> run_meths (a_id a) ms s = (s', r) ->
  (exists a', In a' (s_args s') /\ a_id a' = a_id a /\ a_gen a <= a_gen a' /\
     ((exists ms1 d ms2, ms = ms1 ++ MDest d :: ms2 /\ snd (run_meths (a_id a) ms1 s) = Ok tt) <-> a_gen a' <> a_gen a)) /\
  (forall b, In b (s_args s) -> a_id b <> a_id a -> In b (s_args s')) /\
  (forall n id, assoc n (s_map s) = Some id -> assoc n (s_map s') = Some id) /\ completed r.
Proof.
  induction ms as [|m ms IH]; intros a s s' r W Ia E.
  - cbn [run_meths] in E. injection E as <- <-. split; [|split; [auto | split; [auto | exact Logic.I]]].
    exists a. split; [exact Ia|]. split; [reflexivity|]. split; [apply le_n|]. split; [|contradiction]. intros [ms1 [d [ms2 [X _]]]]. destruct ms1; discriminate X.
  - destruct (meth_state m a s) as [s1 e] eqn:EM. destruct (meth_moved m a s s1 e Ia EM) as [[[a1 [I1 [E1 G1]]] [O1 P1]] D1].
    destruct e as [e|].
    + rewrite (stop_meths m ms s a s1 e (proj1 W) Ia EM) in E. injection E as <- <-. split; [|split; [exact O1 | split; [exact P1 | exact Logic.I]]].
      destruct (is_dest m) eqn:DM; [discriminate (D1 eq_refl)|].
      exists a1. split; [exact I1|]. split; [exact E1|]. split; [rewrite G1; apply le_n|]. split; [|contradiction]. intros [ms1 [d [ms2 [X Y]]]]. exfalso.
      destruct ms1 as [|m1 ms1]; cbn [app] in X; injection X as -> X; [discriminate DM|]. subst ms.
      rewrite (stop_meths m1 ms1 s a s1 e (proj1 W) Ia EM) in Y. discriminate Y.
    + rewrite (more_meths m ms s a s1 (proj1 W) Ia EM) in E. rewrite <- E1 in E.
      destruct (IH a1 s1 s' r (meth_wf m s a s1 None W Ia EM) I1 E) as [[a' [I' [E' [L' G']]]] [O' [P' C']]].
      split; [|split; [|split; [|exact C']]].
      * exists a'. split; [exact I'|]. split; [congruence|]. destruct (is_dest m) eqn:DM.
        -- split; [rewrite G1 in L'; exact (Nat.le_trans _ _ _ (Nat.le_succ_diag_r _) L')|]. split.
           ++ intros _ X. rewrite X, G1 in L'. exact (Nat.nle_succ_diag_l _ L').
           ++ intros _. destruct m; try discriminate DM. exists [], d, ms. split; reflexivity.
        -- rewrite G1 in L', G'. split; [exact L'|]. rewrite <- G'. split.
           ++ intros [ms1 [d [ms2 [X Y]]]]. destruct ms1 as [|m1 ms1]; cbn [app] in X; injection X as X1 X2; [subst m; discriminate DM|]. subst m1.
              exists ms1, d, ms2. split; [exact X2|]. rewrite (more_meths m ms1 s a s1 (proj1 W) Ia EM) in Y. rewrite E1. exact Y.
           ++ intros [ms1 [d [ms2 [X Y]]]]. exists (m :: ms1), d, ms2. split; [cbn [app]; now rewrite X|]. rewrite (more_meths m ms1 s a s1 (proj1 W) Ia EM). rewrite <- E1. exact Y.
      * intros b Ib N. apply O'; [now apply O1 | now rewrite E1].
      * intros n id As. apply P', P1, As.
Qed.

(* ------------------------------------------------------------------ *)
(** * every call *)
(** what a completed call does to a reference, and to a name that agrees with it *)
Definition kept (s s' : state) (a : argument) : Prop :=
  exists a', refers s' (ptr_of a) a' /\ forall n, getArgument s n = Ok a -> argumentExists s' n = true -> getArgument s' n = Ok a'.
Lemma refers_unique : forall s p a b, wf0 s -> refers s p a -> refers s p b -> a = b.
Proof. intros s p a b W [I1 E1] [I2 E2]. apply (wf_unique s a b W I1 I2). unfold ptr_of in *. congruence. Qed.
Lemma kept_same : forall s s' a, wf0 s -> In a (s_args s) -> s_args s' = s_args s -> s_map s' = s_map s -> kept s s' a.
Proof.
  intros s s' a W Ia E1 E2. exists a. split; [split; [now rewrite E1 | reflexivity]|]. intros n G _. unfold getArgument in *. rewrite E1, E2. exact G.
Qed.
Lemma kept_by : forall s s' a a', wf0 s -> wf0 s' -> In a' (s_args s') -> ptr_of a' = ptr_of a ->
  (forall n, assoc n (s_map s) = Some (a_id a) -> argumentExists s' n = true -> assoc n (s_map s') = Some (a_id a)) -> kept s s' a.
Proof.
  intros s s' a a' W W' I' P H. exists a'. split; [now split|]. intros n G X. destruct (getArgument_inv s n a W G) as [_ [_ As]].
  apply getArgument_by; [exact W' | exact I'|]. replace (a_id a') with (a_id a) by (unfold ptr_of in P; congruence). now apply H.
Qed.

Lemma remove_loop_nodup : forall l s s', wf0 s -> remove_loop l s = (s', Ok tt) -> NoDup l /\ (forall n, In n l -> mem_key n (s_map s) = true).
Proof.
  induction l as [|n l IH]; intros s s' W E; [split; [constructor | intros k []]|].
  cbn [remove_loop] in E. destruct (remove_one_cases s n W) as [[_ U]|[a [Ia [As [U W1]]]]].
  - unfold seq, bind in E. rewrite U in E. discriminate E.
  - unfold seq, bind in E. rewrite U in E. destruct (IH _ _ W1 E) as [ND K].
    assert (KK : forall k, In k l -> k <> n /\ mem_key k (s_map s) = true).
    { intros k Ik. specialize (K k Ik). apply mem_key_true in K. destruct K as [v K]. rewrite removed_assoc in K.
      destruct (String.eqb_spec k n); [discriminate K|]. split; [assumption|]. apply mem_key_true. now exists v. }
    split.
    + constructor; [|exact ND]. intros I. destruct (KK n I) as [X _]. now apply X.
    + intros k [<-|Ik]; [apply mem_key_true; now exists (a_id a) | now apply KK].
Qed.
(** a removal that completes: refused without effect, or of distinct known names *)
Lemma remove_known : forall s l s' r, wf0 s -> removeArguments l s = (s', r) -> completed r ->
  (exists e, r = Throw e /\ s' = s) \/ (r = Ok tt /\ l <> [] /\ NoDup l /\ forall n, In n l -> argumentExists s n = true).
Proof.
  intros s l s' r W E C. destruct l as [|n l]; [rewrite C04_empty in E; injection E as <- <-; left; eexists; split; reflexivity|].
  unfold removeArguments in E. rewrite (bind_ok get _ s s s eq_refl) in E.
  destruct (find (fun n => negb (mem_key n (s_map s))) (n :: l)) as [k|] eqn:F.
  - unfold throw in E. injection E as <- <-. left. eexists; split; reflexivity.
  - right. destruct (remove_loop_cases (n :: l) s W) as [s1 [W1 [L|L]]].
    + rewrite (bind_ok _ _ _ _ _ L) in E. rewrite (sort_args_ok s1 W1) in E. injection E as <- <-.
      destruct (remove_loop_nodup _ _ _ W L) as [ND K]. split; [reflexivity|]. split; [discriminate|]. split; [exact ND | exact K].
    + unfold seq, bind in E. rewrite L in E. injection E as <- <-. contradiction C.
Qed.

(** A completed call that is not one of those leaves the reference valid; it is to the same
    argument as the names that designated it and still exist. *)
Theorem C72_kept : forall s o s' r a, reach s -> In a (arguments s) -> step o s = (s', r) -> completed r -> ~ ends s a o -> kept s s' a.
Proof.
  intros s o s' r a R Ia E C NE. pose proof (reach_wf s R) as WF. pose proof (proj1 WF) as W.
  pose proof (reach_wf s' (reach_step s o s' r R E C)) as WF'. pose proof (proj1 WF') as W'.
  destruct o; try (cbn [step] in E; unfold modify in E; injection E as <- <-; apply kept_same; solve [assumption | reflexivity]).
  - (* addArgument *)
    cbn [step] in E. destruct (addArgument_cases nameOrFlags s W) as [[e [EA _]]|H].
    + unfold bind in E. rewrite EA in E. injection E as <- <-. now apply kept_same.
    + assert (X : exists c, addArgument nameOrFlags s = (registered s c, Ok (fresh_id s)) /\ wf (registered s c)).
      { destruct H as [[n [_ [_ [_ X]]]]|[f [re [fl [_ [_ [_ [_ X]]]]]]]]; eexists; exact X. }
      destruct X as [c [EA WR]]. rewrite (bind_ok _ _ _ _ _ EA) in E.
      assert (IN : In (Arg (fresh_id s) 0 c new_dyn) (s_args (registered s c))) by (apply Proofs_Names.registered_In; now left).
      destruct (chain_moved ms (Arg (fresh_id s) 0 c new_dyn) (registered s c) s' r WR IN E) as [_ [O [P _]]].
      apply (kept_by s s' a a W W'); [|reflexivity|].
      * apply O; [apply Proofs_Names.registered_In; now right|]. cbn [a_id]. intros X. apply (fresh_id_new s). rewrite <- X. now apply in_map.
      * intros n As _. apply P. rewrite registered_assoc. now rewrite As.
  - (* updateArgument *)
    destruct (argumentExists s nameOrFlag) eqn:X.
    + destruct (getArgument_some s nameOrFlag W X) as [b [G [Ib [_ As]]]]. rewrite (update_get s nameOrFlag b ms W G) in E.
      destruct (chain_moved ms b s s' r WF Ib E) as [[b' [I' [E' [L' G']]]] [O [P _]]].
      destruct (Nat.eq_dec (a_id a) (a_id b)) as [EQ|NQ].
      * assert (a = b) as -> by (apply (wf_unique s a b W Ia Ib EQ)). apply (kept_by s s' b b' W W' I'); [|intros n An _; now apply P].
        unfold ptr_of. f_equal; [exact E'|]. destruct (Nat.eq_dec (a_gen b') (a_gen b)) as [Z|Z]; [exact Z|]. exfalso. apply NE. split; [exact G|].
        destruct (proj2 G' Z) as [ms1 [d [ms2 [Y1 Y2]]]]. exists ms1, d, ms2. split; [exact Y1|]. now rewrite (update_get s nameOrFlag b ms1 W G).
      * apply (kept_by s s' a a W W'); [now apply O | reflexivity | intros n An _; now apply P].
    + assert (U : step (OpUpdate nameOrFlag ms) s = (s, Throw (not_found nameOrFlag))).
      { destruct (getArgument_none s nameOrFlag X) as [_ As]. cbn [step]. unfold updateArgument, find_name, bind. now rewrite As. }
      rewrite U in E. injection E as <- <-. now apply kept_same.
  - (* removeArguments *)
    cbn [step] in E. rename nameOrFlags into l.
    destruct (remove_known s l s' r W E C) as [[e [-> ->]]|[-> [NE0 [ND KN]]]]; [now apply kept_same|].
    destruct (C04_remove s l R NE0 ND KN) as [s2 [E2 [X1 [X2 [X3 [X4 _]]]]]]. rewrite E in E2. injection E2 as <-.
    destruct (find_id (a_id a) (s_args s')) as [a'|] eqn:F.
    + destruct (find_id_In _ _ _ F) as [I' E']. destruct (X4 a' I') as [b [Ib [B1 [B2 _]]]].
      assert (b = a) as -> by (apply (wf_unique s b a W Ib Ia); congruence).
      apply (kept_by s s' a a' W W' I'); [unfold ptr_of; congruence|]. intros n An X.
      rewrite X1 in X. apply andb_true_iff in X. destruct X as [_ X]. assert (NI : ~ In n l).
      { intros Q. apply mem_str_In in Q. rewrite Q in X. discriminate X. }
      destruct (X2 n a NI (getArgument_by s n a W Ia An)) as [a2 [G2 [Q _]]]. destruct (getArgument_inv s' n a2 W' G2) as [_ [_ Z]]. congruence.
    + exfalso. apply NE. split; [exact KN|]. intros n G. destruct (in_dec string_dec n l) as [Q|Q]; [exact Q|]. exfalso.
      destruct (proj2 (X3 a Ia) (ex_intro _ n (conj Q G))) as [a' [I' E']]. rewrite <- E' in F. rewrite (In_find_id _ _ (wf_ids _ W') I') in F. discriminate F.
  - exfalso. apply NE. exact Logic.I.
  - (* parseArguments *)
    pose proof (parse_frame s argv s' r W E C) as FR.
    assert (IR : In a (s_args (ready s)) /\ forall n, assoc n (s_map s) = Some (a_id a) -> assoc n (s_map (ready s)) = Some (a_id a)).
    { destruct (ready_cases s W) as [[-> _]|[-> _]]; [split; [exact Ia | auto]|]. split.
      - apply (Proofs_Names.registered_In s (help_cfg (free_help s))). now right.
      - intros n As. change (s_map (with_auto_help s)) with (s_map (registered s (help_cfg (free_help s)))). rewrite registered_assoc. now rewrite As. }
    destruct IR as [IR MR]. assert (IS : In (static a) (map static (s_args s'))) by (rewrite (fr_args _ _ FR); now apply in_map).
    apply in_map_iff in IS. destruct IS as [a' [ES I']]. unfold static in ES. injection ES as E1 E2 E3.
    apply (kept_by s s' a a' W W' I'); [unfold ptr_of; congruence|]. intros n An _. rewrite (fr_map _ _ FR). now apply MR.
Qed.
Print Assumptions C72_kept.

(** and the calls named by [ends], if they complete, end it *)
Theorem C72_ended : forall s o s' r a, reach s -> In a (arguments s) -> step o s = (s', r) -> completed r -> ends s a o ->
  ~ valid_in s' (ptr_of a).
Proof.
  intros s o s' r a R Ia E C EN [b [Ib Pb]]. pose proof (reach_wf s R) as WF. pose proof (proj1 WF) as W.
  pose proof (proj1 (reach_wf s' (reach_step s o s' r R E C))) as W'. destruct o; try contradiction EN.
  - destruct EN as [G [ms1 [d [ms2 [EQ RE]]]]]. rewrite (update_get s nameOrFlag a ms1 W G) in RE. rewrite (update_get s nameOrFlag a ms W G) in E.
    destruct (chain_moved ms a s s' r WF Ia E) as [[a' [I' [E' [_ G']]]] _].
    assert (b = a') as -> by (apply (wf_unique s' b a' W' Ib I'); unfold ptr_of in Pb; congruence).
    apply (proj1 G'); [exists ms1, d, ms2; now split | unfold ptr_of in Pb; congruence].
  - destruct EN as [KN AL]. cbn [step] in E. rename nameOrFlags into l. destruct (wf_mapped _ W a Ia) as [n0 M0].
    assert (G0 : getArgument s n0 = Ok a) by (apply getArgument_by; [exact W | exact Ia | apply In_assoc; [apply (wf_keys _ W) | exact M0]]).
    assert (NE0 : l <> []) by (intros ->; exact (AL n0 G0)).
    destruct (remove_known s l s' r W E C) as [[e [-> ->]]|[-> [_ [ND _]]]].
    + exfalso. destruct l as [|n l]; [contradiction|]. unfold removeArguments in E. rewrite (bind_ok get _ s s s eq_refl) in E.
      destruct (find (fun n => negb (mem_key n (s_map s))) (n :: l)) as [k|] eqn:F.
      * apply find_some in F. destruct F as [Ik Nk]. specialize (KN k Ik). unfold argumentExists in KN. rewrite KN in Nk. discriminate Nk.
      * destruct (remove_loop_cases (n :: l) s W) as [s1 [W1 [L|L]]]; unfold bind in E; rewrite L in E; [rewrite (sort_args_ok s1 W1) in E|]; discriminate E.
    + destruct (C04_remove s l R NE0 ND KN) as [s2 [E2 [_ [_ [X3 _]]]]]. rewrite E in E2. injection E2 as <-.
      destruct (proj1 (X3 a Ia)) as [n [N1 N2]]; [exists b; split; [exact Ib | unfold ptr_of in Pb; congruence]|]. exact (N1 (AL n N2)).
  - cbn [step] in E. unfold clear, modify in E. injection E as <- <-. exact Ib.
Qed.
Print Assumptions C72_ended.

(** Along a whole history: the reference is valid at the end if no call on the way ends it
    (exceptions caught), and then it is still to the argument its remaining names designate. *)
Fixpoint spared (p : nat * nat) (ops : list op) (s : state) : Prop :=
  match ops with
  | [] => True
  | o :: r => (forall a, refers s p a -> ~ ends s a o) /\ spared p r (fst (step o s))
  end.
Theorem C72_history : forall ops s s' a, reach s -> In a (arguments s) -> run ops s = Some s' -> spared (ptr_of a) ops s ->
  valid_in s' (ptr_of a).
Proof.
  induction ops as [|o ops IH]; intros s s' a R Ia E SP.
  - cbn [run] in E. injection E as <-. exists a. now split.
  - cbn [run] in E. destruct SP as [N SP]. destruct (step o s) as [s1 r] eqn:ES. cbn [fst] in SP.
    assert (C : completed r) by (destruct r; try discriminate E; exact Logic.I).
    assert (E1 : run ops s1 = Some s') by (destruct r; try discriminate E; exact E).
    destruct (C72_kept s o s1 r a R Ia ES C (N a (conj Ia eq_refl))) as [a1 [[I1 P1] _]].
    rewrite <- P1 in *. exact (IH s1 s' a1 (reach_step s o s1 r R ES C) I1 E1 SP).
Qed.
Print Assumptions C72_history.

(** Calls chained on a valid reference are the calls chained on updateArgument of any name
    that designates the same argument; and some name does. *)
Definition through (a : argument) (ms : list meth) : M unit := run_meths (a_id a) ms.
Theorem C72_through : forall s a n ms, reach s -> getArgument s n = Ok a -> through a ms s = step (OpUpdate n ms) s.
Proof. intros s a n ms R G. symmetry. apply update_get; [apply reach_wf, R | exact G]. Qed.
Print Assumptions C72_through.
Theorem C72_named : forall s a, reach s -> In a (arguments s) -> exists n, getArgument s n = Ok a.
Proof.
  intros s a R Ia. pose proof (proj1 (reach_wf s R)) as W. destruct (wf_mapped _ W a Ia) as [n M]. exists n.
  apply getArgument_by; [exact W | exact Ia | apply In_assoc; [apply (wf_keys _ W) | exact M]].
Qed.
Print Assumptions C72_named.

(** the demonstration parser: the reference to --name survives another declaration, the
    removal of its other name, a chain that stops at a refused flag before dest(), and a
    parse; it does not survive a chain that reaches dest() *)
Definition cell : dest := Dest 1 DScalar false TyValue.
Definition the_name : argument := match getArgument shop "--name" with Ok a => a | _ => Arg 0 0 new_cfg new_dyn end.
Definition life : list op :=
  [OpAdd ["-z"] [MDest cell]; OpRemove ["-n"]; OpUpdate "--name" [MFlag "bad"; MDest cell]; OpParse ["prog"; "--name"; "bob"; "x"]].
Lemma shop_reach : reach shop. Proof. apply (run_reach shop_ops init shop reach_init). vm_compute. reflexivity. Qed.
Example C72_example : getArgument shop "--name" = Ok the_name /\ spared (ptr_of the_name) life shop /\
  (exists s', run life shop = Some s' /\ exists a, refers s' (ptr_of the_name) a /\ getNameOrFlags a = ["--name"] /\ getString a = "bob") /\
  ends shop the_name (OpUpdate "-n" [MHelp "h"; MDest cell]) /\ ends shop the_name (OpRemove ["--name"; "-v"; "-n"]).
Proof.
  split; [vm_compute; reflexivity|]. split; [|split; [|split]].
  - unfold life. cbn [spared]. split; [intros a _ []|]. split.
    + intros a [Ia Pa] [_ H]. assert (X : In "--name" ["-n"]); [|destruct X as [X|[]]; discriminate X].
      apply H. revert Ia Pa. vm_compute. intros Ia Pa. repeat (destruct Ia as [<-|Ia]; [try discriminate Pa; reflexivity|]). contradiction Ia.
    + split; [|split; [intros a _ []|exact Logic.I]].
      intros a _ [_ [ms1 [d [ms2 [X Y]]]]]. destruct ms1 as [|m1 [|m2 [|m3 ms1]]].
      * discriminate X.
      * injection X as <- _ _. revert Y. vm_compute. discriminate.
      * injection X as _ _ X. discriminate X.
      * injection X as _ _ X. destruct ms1; discriminate X.
  - exists (fst (match run life shop with Some s => (s, tt) | None => (init, tt) end)). split; [vm_compute; reflexivity|].
    exists (match find_ptr (ptr_of the_name) (s_args (match run life shop with Some s => s | None => init end)) with Some a => a | None => Arg 0 0 new_cfg new_dyn end).
    split; [split; [|vm_compute; reflexivity] | split; vm_compute; reflexivity].
    vm_compute. repeat (first [left; reflexivity | right]).
  - split; [vm_compute; reflexivity|]. exists [MHelp "h"], cell, []. split; [reflexivity | vm_compute; reflexivity].
  - split.
    + intros n [<-|[<-|[<-|[]]]]; vm_compute; reflexivity.
    + intros n G. destruct (getArgument_inv shop n the_name (proj1 (reach_wf _ shop_reach)) G) as [_ [I _]].
      revert I. vm_compute. intros [<-|[<-|[]]]; [right; right; left | left]; reflexivity.
Qed.
