(** Proofs_Stable.v -- a stable sort by a strict weak order has exactly one result. *)
From Coq Require Import Permutation Sorted.
From Verif Require Import Base Spec_Order Proofs_Base.

Section Stable.
  Context {A : Type} (lt : A -> A -> bool).
  Hypothesis swo : strict_weak_order lt.
  Definition equivb (x y : A) : bool := negb (lt x y) && negb (lt y x).
  Lemma equivb_spec : forall x y, equivb x y = true <-> lt x y = false /\ lt y x = false.
  Proof. intros x y. unfold equivb. rewrite andb_true_iff, !negb_true_iff. tauto. Qed.
  Lemma equivb_refl : forall x, equivb x x = true.
  Proof. intros x. apply equivb_spec. split; apply (swo_irrefl _ swo). Qed.
  Lemma equivb_trans : forall x y z, equivb x y = true -> equivb y z = true -> equivb x z = true.
  Proof. intros x y z. rewrite !equivb_spec. intros [H1 H2] [H3 H4]. destruct (swo_incomp _ swo x y z H1 H2 H3 H4). auto. Qed.
  Lemma equivb_sym : forall x y, equivb x y = equivb y x.
  Proof. intros x y. unfold equivb. apply andb_comm. Qed.

  Lemma insert_stable : forall x y l, filter (equivb x) (insert_by lt y l) = filter (equivb x) (y :: l).
  Proof.
    intros x y l. induction l as [|z l IH]; [reflexivity|]. simpl insert_by. destruct (lt z y) eqn:L; [|reflexivity].
    simpl filter at 1. rewrite IH. simpl. destruct (equivb x z) eqn:Z; destruct (equivb x y) eqn:Y; try reflexivity.
    exfalso. assert (Q : equivb z y = true) by (eapply equivb_trans; [rewrite equivb_sym; exact Z | exact Y]).
    apply equivb_spec in Q. destruct Q. congruence.
  Qed.
  Lemma sort_stable : forall x l, filter (equivb x) (sort_by lt l) = filter (equivb x) l.
  Proof.
    intros x l. induction l as [|y l IH]; [reflexivity|]. change (sort_by lt (y :: l)) with (insert_by lt y (sort_by lt l)).
    rewrite insert_stable. simpl. now rewrite IH.
  Qed.
  Lemma stable_unique : forall l1 l2, StronglySorted (le_by lt) l1 -> StronglySorted (le_by lt) l2 ->
    (forall x, filter (equivb x) l1 = filter (equivb x) l2) -> l1 = l2.
  Proof.
    induction l1 as [|a l1 IH]; intros l2 S1 S2 F.
    - destruct l2 as [|b l2]; [reflexivity|]. specialize (F b). simpl in F. rewrite equivb_refl in F. discriminate.
    - destruct l2 as [|b l2]; [specialize (F a); simpl in F; rewrite equivb_refl in F; discriminate|].
      inversion_clear S1 as [|? ? S1' A1]. inversion_clear S2 as [|? ? S2' A2]. rewrite Forall_forall in A1, A2.
      assert (EQ : a = b).
      { pose proof (F a) as Fa. pose proof (F b) as Fb. simpl in Fa, Fb. rewrite equivb_refl in Fa. rewrite equivb_refl in Fb.
        rewrite (equivb_sym b a) in Fb. destruct (equivb a b) eqn:E; [congruence|].
        assert (Ia : In a l2) by (apply (proj1 (filter_In (equivb a) a l2)); rewrite <- Fa; now left).
        assert (Ib : In b l1) by (apply (proj1 (filter_In (equivb b) b l1)); rewrite Fb; now left).
        specialize (A1 b Ib). specialize (A2 a Ia). unfold le_by in A1, A2.
        assert (Q : equivb a b = true) by (apply equivb_spec; auto). congruence. }
      subst b. f_equal. apply IH; [exact S1' | exact S2' |]. intros x. specialize (F x). simpl in F.
      destruct (equivb x a); congruence.
  Qed.
End Stable.
