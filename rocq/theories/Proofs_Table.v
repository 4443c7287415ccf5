(** Proofs_Table.v -- what is true of the table of arguments even when calls run out of
    memory: less than [wf0], and enough for defined behaviour. *)
From Coq Require Import Permutation Sorted.
From Verif Require Import Base Model_Utils Model_Number Model_Types Model_Argument Model_Usage Model_Args Model_Api
  Spec_Order Spec_Names Proofs_Base Proofs_Order Proofs_Frame Proofs_Inv.

Record table (s : state) : Prop := Table {
  t_ids : NoDup (map a_id (s_args s));
  t_keys : NoDup (map fst (s_map s));
  t_entry : forall n id, In (n, id) (s_map s) -> exists a, In a (s_args s) /\ a_id a = id /\ In n (c_names (a_cfg a));
  t_named : forall a, In a (s_args s) -> c_names (a_cfg a) <> [];
  t_flags : forall a, In a (s_args s) -> is_positional (c_type (a_cfg a)) = false -> Forall (fun f => validFormatFlag f = None) (c_names (a_cfg a))
}.
Lemma wf0_table : forall s, wf0 s -> table s.
Proof.
  intros s W. constructor; [apply W | apply W | apply W | | intros a I P; exact (proj1 (wf_opt s W a I P))]. intros a I E. pose proof (wf0_has_name s W) as H.
  rewrite forallb_forall in H. specialize (H a I). unfold has_name in H. rewrite E in H. discriminate.
Qed.
Lemma table_has_name : forall s, table s -> forallb has_name (s_args s) = true.
Proof.
  intros s T. apply forallb_forall. intros a I. pose proof (t_named s T a I) as N. unfold has_name. now destruct (c_names (a_cfg a)).
Qed.
Lemma table_sort_args : forall s, table s -> sort_args s = (with_args s (sort_by arg_lt (s_args s)), Ok tt).
Proof. intros s T. unfold sort_args. now rewrite table_has_name. Qed.
Lemma table_perm : forall s l, table s -> Permutation (s_args s) l -> table (with_args s l).
Proof.
  intros s l [T1 T2 T3 T4 T5] P. constructor; cbn [s_args s_map with_args]; auto.
  - eapply Permutation_NoDup; [apply Permutation_map; exact P | exact T1].
  - intros n id H. destruct (T3 n id H) as [a [I K]]. exists a; split; [eapply Permutation_in; eassumption | exact K].
  - intros a I. apply T4. eapply Permutation_in; [symmetry; exact P | exact I].
  - intros a I. apply T5. eapply Permutation_in; [symmetry; exact P | exact I].
Qed.
Lemma table_shape : forall s s', table s -> shape s s' -> table s'.
Proof.
  intros s s' [T1 T2 T3 T4 T5] H. destruct (H T1) as [F E]. constructor.
  - now rewrite (shape_ids _ _ F).
  - now rewrite E.
  - rewrite E. intros n id K. destruct (T3 n id K) as [a [I [<- J]]].
    destruct (Forall2_in_l _ _ _ _ F I) as [b [I' [E1 [E2 E3]]]]. exists b. rewrite <- E2. auto.
  - intros b I'. destruct (Forall2_in_r _ _ _ _ F I') as [a [I [E1 [E2 E3]]]]. rewrite <- E2. auto.
  - intros b I' P. destruct (Forall2_in_r _ _ _ _ F I') as [a [I [E1 [E2 [E3 E4]]]]]. rewrite <- E2. apply T5; [exact I | now rewrite E3].
Qed.
Lemma table_same : forall s s', table s -> s_args s' = s_args s -> s_map s' = s_map s -> table s'.
Proof. intros s s' T E1 E2. eapply table_shape; [exact T | now apply shape_map_eq]. Qed.
Lemma table_frame : forall s s', table s -> frame s s' -> table s'.
Proof. intros s s' T F. eapply table_shape; [exact T | now apply frame_shape]. Qed.

