(** Proofs_Distinct.v -- histories that never give a registered name to addArgument:
    every listed name designates the argument that lists it (C03). *)
From Coq Require Import Permutation Sorted.
From Verif Require Import Base Model_Utils Model_Number Model_Types Model_Argument Model_Usage Model_Args Model_Api
  Spec_Order Spec_Names Spec_Reading Spec_Parse Spec_Decl Spec_History Spec_Api Proofs_Base Proofs_Order Proofs_Frame Proofs_Inv Proofs_Reading Proofs_Parse Proofs_Decl Proofs_Meth
  Proofs_History Proofs_Config Proofs_Names.

Definition listed (s : state) : Prop := forall a, In a (s_args s) ->
  NoDup (c_names (a_cfg a)) /\ forall n, In n (c_names (a_cfg a)) -> assoc n (s_map s) = Some (a_id a).

Lemma declared_map : forall b s, s_map (fst (declared b s)) = s_map s.
Proof. intros b s. destruct (declared_cases b s) as [[k [_ [_ [E _]]]]|[_ [E _]]]; [exact E|]. now rewrite E. Qed.
Lemma declared_names : forall a b s, a_id b = a_id a -> c_names (a_cfg b) = c_names (a_cfg a) -> In a (s_args s) -> forall x, In x (s_args (fst (declared b s))) ->
  exists y, In y (s_args s) /\ a_id y = a_id x /\ c_names (a_cfg x) = c_names (a_cfg y).
Proof.
  intros a b s E1 E2 Ia x Ix. destruct (declared_cases b s) as [[k [_ [EA _]]]|[_ [E _]]].
  - rewrite EA in Ix. apply put_In in Ix. destruct Ix as [->|[Ix N]]; [|exists x; auto].
    exists a. split; [exact Ia|]. rewrite defaults_arg_id, defaults_arg_names. destruct k as [[t m] act]. split; [symmetry; exact E1 | exact E2].
  - rewrite E in Ix. apply put_In in Ix. destruct Ix as [->|[Ix N]]; [exists a; auto | exists x; auto].
Qed.
(** the names and the name table after a method *)
Lemma meth_names : forall m a s, In a (s_args s) ->
  (s_map (fst (meth_state m a s)) = s_map s /\
   forall x, In x (s_args (fst (meth_state m a s))) -> exists y, In y (s_args s) /\ a_id y = a_id x /\ c_names (a_cfg x) = c_names (a_cfg y)) \/
  (exists f, m = MFlag f /\ mem_key f (s_map s) = false /\ s_map (fst (meth_state m a s)) = s_map s ++ [(f, a_id a)] /\
   forall x, In x (s_args (fst (meth_state m a s))) ->
     (a_id x = a_id a /\ c_names (a_cfg x) = sort_flags (c_names (a_cfg a) ++ [f])) \/ (In x (s_args s) /\ a_id x <> a_id a)).
Proof.
  intros m a s Ia.
  assert (SORT : forall l x, In x (sort_by arg_lt l) -> In x l).
  { intros l x. apply Permutation_in. symmetry. apply sort_perm. }
  assert (PUT : forall b, a_id b = a_id a -> c_names (a_cfg b) = c_names (a_cfg a) -> forall x, In x (s_args (put b s)) ->
     exists y, In y (s_args s) /\ a_id y = a_id x /\ c_names (a_cfg x) = c_names (a_cfg y)).
  { intros b E1 E2 x Ix. apply put_In in Ix. destruct Ix as [->|[Ix N]]; [exists a; auto | exists x; auto]. }
  assert (SAME : forall x, In x (s_args s) -> exists y, In y (s_args s) /\ a_id y = a_id x /\ c_names (a_cfg x) = c_names (a_cfg y)) by (intros x Ix; exists x; auto).
  destruct m; unfold meth_state; cbv zeta; cbn [fst].
  - destruct (is_positional _); [left; split; [reflexivity | exact SAME]|]. destruct (validFormatFlag f); [left; split; [reflexivity | exact SAME]|].
    destruct (mem_key f (s_map s)) eqn:M; [left; split; [reflexivity | exact SAME]|]. right. exists f. split; [reflexivity|]. split; [exact M|]. split; [reflexivity|].
    intros x Ix. apply SORT in Ix. apply put_In in Ix. destruct Ix as [->|[Ix N]]; [left; split; reflexivity | right; auto].
  - left. assert (EA : s_args (released a s) = s_args s) by (unfold released; destruct (c_action (a_cfg a)); reflexivity).
    assert (EM : s_map (released a s) = s_map s) by (unfold released; destruct (c_action (a_cfg a)); reflexivity).
    split; [rewrite declared_map; exact EM|]. intros x Ix.
    eapply (declared_names a) in Ix; [rewrite EA in Ix; exact Ix | reflexivity | reflexivity | rewrite EA; exact Ia].
  - left. split; [reflexivity|]. intros x Ix. apply SORT in Ix. eapply PUT; [| |exact Ix]; reflexivity.
  - left. split; [reflexivity|]. intros x Ix. eapply PUT; [| |exact Ix]; reflexivity.
  - left. split; [reflexivity|]. intros x Ix. eapply PUT; [| |exact Ix]; reflexivity.
  - left. split; [apply declared_map|]. intros x Ix. eapply (declared_names a) in Ix; [exact Ix | reflexivity | reflexivity | exact Ia].
  - left. split; [reflexivity|]. intros x Ix. eapply PUT; [| |exact Ix]; [now rewrite defaults_arg_id | now rewrite defaults_arg_names].
  - left. split; [reflexivity|]. intros x Ix. eapply PUT; [| |exact Ix]; reflexivity.
  - left. split; [reflexivity|]. intros x Ix. eapply PUT; [| |exact Ix]; reflexivity.
Qed.
Lemma assoc_app : forall {A} k (m m' : list (str * A)), assoc k (m ++ m') = match assoc k m with Some v => Some v | None => assoc k m' end.
Proof. intros A k m m'. induction m as [|[k' v] m IH]; simpl; [reflexivity|]. destruct (String.eqb k k'); [reflexivity | exact IH]. Qed.
Lemma NoDup_remove_first : forall n l, NoDup l -> NoDup (remove_first n l) /\ ~ In n (remove_first n l).
Proof.
  intros n l H. induction H as [|x l NI ND [IH1 IH2]]; simpl; [split; [constructor | tauto]|].
  destruct (String.eqb_spec n x) as [->|N]; [split; assumption|]. split.
  - constructor; [|exact IH1]. intros Q. apply NI. now apply remove_first_In in Q.
  - intros [Q|Q]; [congruence | contradiction].
Qed.

Theorem reach_listed : forall s, reach_with distinct_names s -> listed s.
Proof.
  intros s R. refine (proj2 (reach_invariant distinct_names listed _ _ _ _ _ _ _ _ _ _ _ _ s R)); clear s R; try (intros; exact I).
  - intros s n Hn. unfold free_help in Hn. unfold argumentExists. apply in_app_or in Hn.
    destruct (mem_key "-h" (s_map s)) eqn:E1; destruct (mem_key "--help" (s_map s)) eqn:E2; simpl in Hn;
      repeat match goal with H : _ \/ _ |- _ => destruct H end; subst; try contradiction; assumption.
  - intros f d a [].
  - intros s s' _ F H a Ia. assert (X : In (static a) (map static (s_args s))) by (rewrite <- (fr_args _ _ F); now apply in_map).
    apply in_map_iff in X. destruct X as [b [Eb Ib]]. unfold static in Eb. injection Eb as E1 E2 E3. rewrite (fr_map _ _ F), <- E1, <- E3. now apply H.
  - intros s n W H M _ _ a Ia. apply registered_In in Ia. destruct Ia as [->|Ia].
    + cbn [a_cfg a_id]. change (c_names (positional_cfg n)) with [n]. split; [constructor; [simpl; tauto | constructor]|]. intros k [<-|[]]. rewrite registered_assoc. unfold mem_key in M. destruct (assoc n (s_map s)); [discriminate|].
      change (c_names (positional_cfg n)) with [n]. unfold mem_str; simpl. now rewrite String.eqb_refl.
    + destruct (H a Ia) as [H1 H2]. split; [exact H1|]. intros k Ik. rewrite registered_assoc, (H2 k Ik). reflexivity.
  - intros s v flags W H PA IN ND _ _ _ a Ia. apply registered_In in Ia. destruct Ia as [->|Ia].
    + cbn [a_cfg a_id]. change (c_names (option_cfg flags)) with (sort_flags flags). split; [now apply NoDup_sort_flags|]. intros k Ik. rewrite registered_assoc. simpl in PA. pose proof (proj1 (IN k) (proj1 (sort_flags_In _ _) Ik)) as Iv.
      specialize (PA k Iv). unfold argumentExists, mem_key in PA. destruct (assoc k (s_map s)); [discriminate|].
      change (c_names (option_cfg flags)) with (sort_flags flags). apply mem_str_In in Ik. now rewrite Ik.
    + destruct (H a Ia) as [H1 H2]. split; [exact H1|]. intros k Ik. rewrite registered_assoc, (H2 k Ik). reflexivity.
  - intros m s a W H Ia _ _ x Ix. destruct (meth_names m a s Ia) as [[EM EN]|[f [-> [MK [EM EN]]]]]; rewrite EM.
    + destruct (EN x Ix) as [y [Iy [E1 E2]]]. rewrite E2, <- E1. now apply H.
    + destruct (EN x Ix) as [[E1 E2]|[Iy N]].
      * rewrite E2, E1. destruct (H a Ia) as [H1 H2].
        assert (NF : ~ In f (c_names (a_cfg a))). { intros Q. unfold mem_key in MK. rewrite (H2 f Q) in MK. discriminate. }
        split.
        -- apply NoDup_sort_flags. apply (Permutation_NoDup (l := f :: c_names (a_cfg a))); [apply Permutation_cons_append | now constructor].
        -- intros k Ik. apply (proj1 (sort_flags_In _ _)) in Ik. rewrite assoc_app. apply in_app_or in Ik. destruct Ik as [Ik|[<-|[]]]; [now rewrite (H2 k Ik)|].
           unfold mem_key in MK. destruct (assoc f (s_map s)); [discriminate|]. simpl. now rewrite String.eqb_refl.
      * destruct (H x Iy) as [H1 H2]. split; [exact H1|]. intros k Ik. rewrite assoc_app, (H2 k Ik). reflexivity.
  - intros s n a W H Ia As _ b Ib. apply (removed_args s n a b W Ia As) in Ib. destruct Ib as [_ [x [Ix [Ex Eb]]]].
    destruct (H x Ix) as [H1 H2]. destruct (Nat.eqb_spec (a_id x) (a_id a)) as [E|E]; subst b.
    + simpl. destruct (NoDup_remove_first n _ H1) as [N1 N2]. split; [exact N1|]. intros k Ik. rewrite removed_assoc.
      destruct (String.eqb_spec k n) as [->|Nk]; [contradiction|]. apply H2. now apply remove_first_In in Ik.
    + split; [exact H1|]. intros k Ik. rewrite removed_assoc. destruct (String.eqb_spec k n) as [->|Nk]; [|now apply H2].
      exfalso. pose proof (H2 n Ik). congruence.
  - intros s _ H a Ia. apply H. simpl in Ia. apply Permutation_in with (2 := Ia). symmetry. apply sort_perm.
  - intros s s' H E1 E2 _ _ _ a Ia. rewrite E1 in Ia. rewrite E2. now apply H.
  - intros s _ _ a [].
Qed.
