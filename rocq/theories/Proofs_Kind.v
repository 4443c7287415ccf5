(** Proofs_Kind.v -- the kind of an argument is determined by its action and nargs. *)
From Coq Require Import Permutation Sorted.
From Verif Require Import Base Model_Utils Model_Number Model_Types Model_Argument Model_Usage Model_Args Model_Api
  Spec_Order Spec_Names Spec_Reading Spec_Parse Spec_Decl Spec_History Spec_Api Proofs_Base Proofs_Order Proofs_Frame Proofs_Inv Proofs_Reading Proofs_Parse Proofs_Decl Proofs_Meth Proofs_History Proofs_Config.

(** for options with values, and for positional arguments with an accepted combination *)
Definition linked (k : atype * N * eAction) : Prop :=
  let '(t, n, act) := k in
  if is_positional t then forall k', positional_kind act n = Some k' -> k = k'
  else n <> 0%N -> act <> HELP -> act <> VERSION -> k = option_kind act n.

Lemma option_kind_linked : forall act n, linked (option_kind act n).
Proof.
  intros act n. unfold option_kind. destruct (N.eqb_spec n 0) as [Z|Z].
  - simpl. congruence.
  - destruct act; simpl; try congruence; try reflexivity;
      repeat match goal with
      | |- context [N.eqb ?x ?y] => destruct (N.eqb_spec x y); subst; simpl
      end; try congruence; intros; try reflexivity;
      unfold option_kind; repeat match goal with
      | |- context [N.eqb ?x ?y] => destruct (N.eqb_spec x y); try congruence
      end.
Qed.
Lemma positional_kind_linked : forall act n k, positional_kind act n = Some k -> linked k.
Proof.
  intros act n k H. unfold positional_kind in H.
  destruct act; try discriminate;
    repeat match goal with
    | H : context [N.eqb ?x ?y] |- _ => destruct (N.eqb_spec x y); try discriminate
    end; injection H as <-; cbn; intros k' H'; unfold positional_kind in H';
    repeat match goal with
    | H : context [N.eqb ?x ?y] |- _ => destruct (N.eqb_spec x y); try discriminate; try congruence
    end; cbn in *; try congruence.
Qed.
Lemma kind_of_linked : forall c k, kind_of c = Some k -> linked k.
Proof.
  intros c k H. unfold kind_of in H. destruct (is_positional (c_type c)).
  - eapply positional_kind_linked; eassumption.
  - injection H as <-. apply option_kind_linked.
Qed.
Theorem reach_linked : forall s a, reach s -> In a (arguments s) -> linked (kact (a_cfg a)).
Proof.
  intros s a R Ia. apply reach_any in R. revert a Ia. change (all_kinds linked s). revert s R.
  apply kind_invariant; try (intros; exact I).
  - cbn. intros k' H. now injection H as <-.
  - cbn. reflexivity.
  - intros m a s k _ _ _ K. eapply kind_of_linked; eassumption.
  - intros m a s _ _ Ka R.
    set (c := match m with MAction x => cfg_action (a_cfg a) x | MNargs n => cfg_nargs (a_cfg a) (n mod w64)%N | _ => a_cfg a end) in *.
    unfold linked, kact. destruct (is_positional (c_type c)) eqn:P.
    + intros k' Hk. destruct R as [R|[k [R T]]]; unfold kind_of in R; rewrite P in R; [congruence|].
      exfalso. unfold positional_kind in R. destruct (c_action c); try discriminate;
        repeat match goal with
        | H : context [N.eqb ?x ?y] |- _ => destruct (N.eqb_spec x y); try discriminate
        end; injection R as <-; cbn in T; destruct T; discriminate.
    + intros N0 NH NV. exfalso. destruct R as [R|[k [R T]]]; unfold kind_of in R; rewrite P in R; [discriminate|]. injection R as <-.
      revert T. unfold option_kind. destruct (N.eqb_spec (c_nargs c) 0); [contradiction|].
      destruct (c_action c); try contradiction; repeat match goal with
        | |- context [N.eqb ?x ?y] => destruct (N.eqb_spec x y)
        end; cbn; intros [|]; discriminate.
Qed.
Lemma option_type : forall s a act n, reach s -> In a (arguments s) -> isPositional a = false -> getAction a = act -> getNargs a = n ->
  n <> 0%N -> act <> HELP -> act <> VERSION -> (c_type (a_cfg a), getNargs a, getAction a) = option_kind act n.
Proof.
  intros s a act n R Ia P <- <- N0 NH NV. pose proof (reach_linked s a R Ia) as L. unfold linked, kact in L. rewrite P in L. auto.
Qed.
Lemma positional_type : forall s a act n, reach s -> In a (arguments s) -> isPositional a = true -> getAction a = act -> getNargs a = n ->
  n <> 0%N -> act = NONE \/ act = INFINITE -> positional_kind act n = Some (c_type (a_cfg a), getNargs a, getAction a).
Proof.
  intros s a act n R Ia P <- <- N0 A. pose proof (reach_linked s a R Ia) as L. unfold linked, kact in L. rewrite P in L.
  destruct (positional_kind (getAction a) (getNargs a)) as [k|] eqn:E; [now rewrite (L k eq_refl)|].
  exfalso. unfold positional_kind in E. destruct A as [A|A]; rewrite A in E; repeat match goal with
    | H : context [N.eqb ?x ?y] |- _ => destruct (N.eqb_spec x y); try discriminate; try contradiction
    end.
Qed.
