(** Properties_Required.v -- C68: required() changes nothing but what happens when the
    option is absent. *)
From Coq Require Import Permutation Sorted.
From Verif Require Import Base Model_Utils Model_Number Model_Types Model_Argument Model_Usage Model_Args Model_Api
  Spec_Order Spec_Names Spec_Reading Spec_Parse Spec_Finish Spec_History Spec_Api Spec_Result
  Proofs_Base Proofs_Order Proofs_Frame Proofs_Inv Proofs_ReadFacts Proofs_Reading Proofs_Parse Proofs_Decl Proofs_Finish
  Proofs_Meth Proofs_History Proofs_Config Proofs_Names Proofs_Central Proofs_Dyn Proofs_Swap Proofs_Alike Proofs_Stable Proofs_Like
  Properties_Words Properties_Parse Properties_Repeat Proofs_Check Properties_Errors Demo.

(** the argument with that id, required or not *)
Definition demand (id : nat) (r : bool) (a : argument) : argument :=
  if Nat.eqb (a_id a) id then arg_cfg a (cfg_required (a_cfg a) r) else a.

Section Demand.
Variables (id : nat) (r : bool).
Let f := demand id r.
Let other (a : argument) : bool := negb (Nat.eqb (a_id a) id).
Lemma demand_id : forall a, a_id (f a) = a_id a. Proof. intros a. unfold f, demand. destruct (Nat.eqb (a_id a) id); reflexivity. Qed.
Lemma demand_gen : forall a, a_gen (f a) = a_gen a. Proof. intros a. unfold f, demand. destruct (Nat.eqb (a_id a) id); reflexivity. Qed.
Lemma demand_dyn : forall a, a_dyn (f a) = a_dyn a. Proof. intros a. unfold f, demand. destruct (Nat.eqb (a_id a) id); reflexivity. Qed.
Lemma demand_cfg : forall {A} (h : acfg -> A) a, (forall c, h (cfg_required c r) = h c) -> h (a_cfg (f a)) = h (a_cfg a).
Proof. intros A h a H. unfold f, demand. destruct (Nat.eqb (a_id a) id); [apply H | reflexivity]. Qed.
Lemma demand_other : forall a, other a = true -> f a = a.
Proof. intros a H. unfold f, demand. unfold other in H. now destruct (Nat.eqb (a_id a) id). Qed.
Lemma demand_others : forall l, filter other (map f l) = filter other l.
Proof.
  induction l as [|a l IH]; [reflexivity|]. cbn [map filter]. unfold other at 1. rewrite demand_id. fold (other a).
  destruct (other a) eqn:O; rewrite IH; [now rewrite demand_other | reflexivity].
Qed.
Lemma ids_demand : forall l, map a_id (map f l) = map a_id l.
Proof. intros l. rewrite map_map. apply map_ext, demand_id. Qed.
Lemma read_demand : forall pcs a, read_arg pcs (f a) = f (read_arg pcs a).
Proof. intros pcs a. unfold f, demand, read_arg. cbn [a_id]. destruct (Nat.eqb (a_id a) id); reflexivity. Qed.
Lemma finished_demand : forall a, finished (f a) = f (finished a) /\ refusal (f a) = refusal a.
Proof.
  intros a. unfold f, demand. rewrite finished_id. destruct (Nat.eqb (a_id a) id); [|split; reflexivity].
  unfold finished, checked, refusal. cbn [a_dyn arg_cfg a_cfg c_valid cfg_required]. split.
  - destruct (c_valid (a_cfg a)) as [v|]; [|reflexivity]. destruct (d_exist (a_dyn a)); [|reflexivity]. unfold plain_values. cbn [a_dyn a_cfg arg_cfg cfg_required].
    destruct (v_fn v _) as [[] vs| |]; reflexivity.
  - reflexivity.
Qed.
Lemma events_demand : forall a, arg_events (f a) = arg_events a.
Proof. intros a. unfold f, demand. destruct (Nat.eqb (a_id a) id); reflexivity. Qed.
Lemma trouble_demand : forall a, trouble (f a) = trouble a.
Proof. intros a. destruct (finished_demand a) as [E1 E2]. unfold trouble. now rewrite E2, E1, events_demand. Qed.

(** two parsers that differ in that only, and in the place of that argument in the list *)
Record demanded (s s1 : state) : Prop := Demanded {
  dm_args : Permutation (map f (s_args s)) (s_args s1);
  dm_others : filter other (s_args s1) = filter other (s_args s);
  dm_map : s_map s1 = s_map s; dm_help : s_help s1 = s_help s; dm_version : s_version s1 = s_version s; dm_modes : s_modes s1 = s_modes s;
  dm_verstr : s_verstr s1 = s_verstr s; dm_bin : s_bin s1 = s_bin s; dm_additional : s_additional s1 = s_additional s; dm_dlog : s_dlog s1 = s_dlog s
}.
Lemma demanded_In : forall s s1, demanded s s1 -> forall a, In a (s_args s) -> In (f a) (s_args s1).
Proof. intros s s1 D a I. eapply Permutation_in; [exact (dm_args _ _ D)|]. now apply in_map. Qed.
Lemma fresh_permutation : forall s s1, demanded s s1 -> fresh_id s1 = fresh_id s.
Proof.
  intros s s1 D. unfold fresh_id. rewrite (dm_help _ _ D), (dm_version _ _ D). f_equal. generalize (Nat.max (opt_id (s_help s)) (opt_id (s_version s))). intros k.
  assert (P : Permutation (map a_id (s_args s)) (map a_id (s_args s1))) by (rewrite <- (ids_demand (s_args s)); apply Permutation_map, D).
  revert P. generalize (map a_id (s_args s)) as l, (map a_id (s_args s1)) as l1. clear. intros l l1 P. induction P as [|x l l' P IH|x y l|l l' l'' P1 IH1 P2 IH2]; cbn; lia.
Qed.
Lemma demanded_ready : forall s s1, wf0 s -> wf0 s1 -> demanded s s1 -> (exists a, In a (s_args s) /\ a_id a = id) -> demanded (ready s) (ready s1).
Proof.
  intros s s1 W W1 D [a0 [Ia0 Ea0]]. pose proof (dm_map _ _ D) as EM. pose proof (dm_help _ _ D) as EH.
  assert (FH : free_help s1 = free_help s) by (unfold free_help; now rewrite EM).
  destruct (ready_cases s W) as [[-> [H|H]]|[-> [H1 H2]]]; destruct (ready_cases s1 W1) as [[-> [H'|H']]|[-> [H1' H2']]]; try exact D; try congruence.
  pose proof (fresh_permutation s s1 D) as FI.
  assert (NI : other (Arg (fresh_id s) 0 (help_cfg (free_help s)) new_dyn) = true).
  { unfold other. cbn [a_id]. apply Bool.negb_true_iff, Nat.eqb_neq. intros Z. rewrite <- Ea0 in Z. unfold fresh_id in Z. assert (a_id a0 <= fold_right Nat.max (Nat.max (opt_id (s_help s)) (opt_id (s_version s))) (map a_id (s_args s))).
    { clear - Ia0. induction (s_args s) as [|x l IH]; [destruct Ia0|]. cbn. destruct Ia0 as [->|Ia0]; [lia | specialize (IH Ia0); lia]. }
    lia. }
  split; unfold with_auto_help, registered; cbn; rewrite ?FI, ?FH, ?EM; try (apply D); auto.
  - fold (sort_by arg_lt (s_args s ++ [Arg (fresh_id s) 0 (help_cfg (free_help s)) new_dyn])).
    fold (sort_by arg_lt (s_args s1 ++ [Arg (fresh_id s) 0 (help_cfg (free_help s)) new_dyn])).
    eapply Permutation_trans; [apply Permutation_map, Permutation_sym, sort_perm|]. eapply Permutation_trans; [|apply sort_perm].
    rewrite map_app. cbn [map]. rewrite (demand_other _ NI). apply Permutation_app_tail, D.
  - fold (sort_by arg_lt (s_args s ++ [Arg (fresh_id s) 0 (help_cfg (free_help s)) new_dyn])).
    fold (sort_by arg_lt (s_args s1 ++ [Arg (fresh_id s) 0 (help_cfg (free_help s)) new_dyn])).
    rewrite !sort_filter, !filter_app. now rewrite (dm_others _ _ D).
Qed.
Lemma demanded_clike : forall s s1, wf0 s -> wf0 s1 -> demanded s s1 -> (forall a, In a (s_args s) -> a_id a = id -> isPositional a = false) -> clike (conf_of s) (conf_of s1).
Proof.
  intros s s1 W W1 D NP. split.
  - intros n. destruct (lookup_cases s n W) as [[A1 ->]|[a [Ia [A1 [_ [-> _]]]]]]; destruct (lookup_cases s1 n W1) as [[A2 ->]|[a1 [Ia1 [A2 [_ [-> _]]]]]]; rewrite (dm_map _ _ D) in A2; try congruence; [exact Logic.I|].
    assert (E : a_id a1 = a_id a) by congruence. split; [exact E|]. rewrite (wf_unique s1 a1 (f a) W1 Ia1 (demanded_In s s1 D a Ia)) by (rewrite demand_id; exact E).
    unfold f, demand. destruct (Nat.eqb (a_id a) id); repeat split.
  - assert (NP1 : forall a, In a (s_args s1) -> a_id a = id -> isPositional a = false).
    { intros a Ia Ea. pose proof (Permutation_in _ (Permutation_sym (dm_args _ _ D)) Ia) as J. apply in_map_iff in J. destruct J as [b [<- Ib]]. rewrite demand_id in Ea.
      rewrite (demand_cfg (fun c => is_positional (c_type c)) b) by reflexivity. now apply NP. }
    assert (Q : forall l, (forall a, In a l -> a_id a = id -> isPositional a = false) -> positionals {| k_map := []; k_args := map (fun a => (a_id a, a_cfg a)) l; k_alt := false; k_strict := false |} =
      positionals {| k_map := []; k_args := map (fun a => (a_id a, a_cfg a)) (filter other l); k_alt := false; k_strict := false |}).
    { unfold positionals. cbn [k_args]. induction l as [|a l IH]; intros H; [reflexivity|]. cbn [map filter]. specialize (IH (fun b Ib => H b (or_intror Ib))). specialize (H a (or_introl eq_refl)).
      cbn [snd]. destruct (other a) eqn:O.
      - cbn [map filter snd]. now rewrite IH.
      - unfold other in O. apply Bool.negb_false_iff, Nat.eqb_eq in O. now rewrite (H O). }
    pose proof (Q _ NP) as Q1. pose proof (Q _ NP1) as Q2. rewrite (dm_others _ _ D) in Q2. unfold positionals, conf_of in *. cbn [k_args] in *. rewrite Q2, <- Q1.
    generalize (filter (fun p : nat * acfg => is_positional (c_type (snd p))) (map (fun a => (a_id a, a_cfg a)) (s_args s))). intros l. induction l; constructor; [split; [reflexivity | apply alike_refl] | assumption].
  - unfold conf_of. cbn. now rewrite (dm_modes _ _ D).
  - unfold conf_of. cbn. now rewrite (dm_modes _ _ D).
Qed.
Lemma demanded_scanned : forall s s1 argv pcs, demanded (ready s) (ready s1) -> demanded (scanned argv pcs s) (scanned argv pcs s1).
Proof.
  intros s s1 argv pcs D. assert (X : forall t, s_args (scanned argv pcs t) = map (read_arg pcs) (s_args (ready t))) by reflexivity. split; rewrite ?X.
  - rewrite map_map. rewrite (map_ext _ (fun a => read_arg pcs (f a))) by (intros a; symmetry; apply read_demand). rewrite <- (map_map f). apply Permutation_map, D.
  - assert (Y : forall l, filter other (map (read_arg pcs) l) = map (read_arg pcs) (filter other l)).
    { induction l as [|a l IH]; [reflexivity|]. cbn [map filter]. unfold other at 1. change (a_id (read_arg pcs a)) with (a_id a). fold (other a). destruct (other a); cbn [map]; now rewrite IH. }
    rewrite !Y. f_equal. apply D.
  - unfold scanned, named. cbn. rewrite (dm_bin _ _ D). destruct (s_bin (ready s)); apply D.
  - unfold scanned, named. cbn. rewrite (dm_bin _ _ D). destruct (s_bin (ready s)); apply D.
  - unfold scanned, named. cbn. rewrite (dm_bin _ _ D). destruct (s_bin (ready s)); apply D.
  - unfold scanned, named. cbn. rewrite (dm_bin _ _ D). destruct (s_bin (ready s)); apply D.
  - unfold scanned, named. cbn. rewrite (dm_bin _ _ D). destruct (s_bin (ready s)); apply D.
  - unfold scanned, named. cbn. rewrite (dm_bin _ _ D). destruct (s_bin (ready s)) eqn:E; cbn; try reflexivity; rewrite ?E, ?(dm_bin _ _ D), ?E; reflexivity.
  - unfold scanned. cbn. now rewrite (dm_additional _ _ D).
  - unfold scanned, named. cbn. rewrite (dm_bin _ _ D). destruct (s_bin (ready s)); apply D.
Qed.
Lemma demanded_met : forall t t1, NoDup (map a_id (s_args t1)) -> demanded t t1 -> forall q, met q t1 = met q t.
Proof.
  intros t t1 W1 D [q|]; [|reflexivity]. unfold met.
  assert (X : forall x, In x (s_args t) -> ptr_of x = q -> exists y, find_ptr q (s_args t1) = Some y).
  { intros x Ix Ex. destruct (find_ptr q (s_args t1)) as [y|] eqn:F; [now exists y|]. exfalso. pose proof (find_none _ _ F (f x) (demanded_In t t1 D x Ix)) as N.
    cbn beta in N. unfold ptr_of in *. rewrite demand_id, demand_gen, <- Ex in N. cbn in N. rewrite !Nat.eqb_refl in N. discriminate N. }
  destruct (find_ptr q (s_args t)) as [a|] eqn:F.
  - apply find_ptr_In in F. destruct F as [Ia Ea]. destruct (X a Ia Ea) as [b Eb]. rewrite Eb. apply find_ptr_In in Eb. destruct Eb as [Ib Eb].
    assert (b = f a). { apply (ids_unique (s_args t1) b (f a) W1 Ib (demanded_In t t1 D a Ia)). rewrite demand_id. unfold ptr_of in *. congruence. }
    subst b. now rewrite demand_dyn.
  - destruct (find_ptr q (s_args t1)) as [b|] eqn:F1; [|reflexivity]. exfalso. apply find_ptr_In in F1. destruct F1 as [Ib Eb].
    pose proof (Permutation_in _ (Permutation_sym (dm_args _ _ D)) Ib) as J. apply in_map_iff in J. destruct J as [c [<- Ic]].
    pose proof (find_none _ _ F c Ic) as N. cbn beta in N. unfold ptr_of in *. rewrite demand_id, demand_gen in Eb. rewrite <- Eb in N. cbn in N. rewrite !Nat.eqb_refl in N. discriminate N.
Qed.
(** the verdict does not depend on the order as far as acceptance goes *)
Lemma no_missing : forall t, missing t = [] <-> forall a, In a (s_args t) -> c_required (a_cfg a) && negb (d_exist (a_dyn a)) = false.
Proof.
  intros t. unfold missing. induction (s_args t) as [|a l IH]; cbn [filter]; [split; [intros _ a [] | reflexivity]|]. split.
  - destruct (c_required (a_cfg a) && negb (d_exist (a_dyn a))) eqn:E; [discriminate|]. intros H b [<-|Ib]; [exact E | now apply (proj1 IH)].
  - intros H. rewrite (H a (or_introl eq_refl)). apply (proj2 IH). intros b Ib. apply H. now right.
Qed.
Lemma verdict_ok : forall t, verdict t = Ok tt <-> met (s_help t) t = false /\ met (s_version t) t = false /\ missing t = [] /\ (forall a, In a (s_args t) -> trouble a = None).
Proof.
  intros t. unfold verdict. destruct (met (s_help t) t); [split; [destruct (m_helpex (s_modes t)); discriminate | intros [H _]; discriminate H]|].
  destruct (met (s_version t) t); [split; [destruct (m_verex (s_modes t)); discriminate | intros [_ [H _]]; discriminate H]|].
  destruct (missing t) as [|a l]; [|split; [discriminate | intros [_ [_ [H _]]]; discriminate H]].
  assert (X : flat_map (fun a => match trouble a with Some e => [e] | None => [] end) (s_args t) = [] <-> forall a, In a (s_args t) -> trouble a = None).
  { induction (s_args t) as [|a l IH]; cbn [flat_map]; [split; [intros _ a [] | reflexivity]|]. split.
    - intros H. apply app_eq_nil in H. destruct H as [H1 H2]. intros b [<-|Ib]; [destruct (trouble a); [discriminate H1 | reflexivity] | now apply (proj1 IH)].
    - intros H. rewrite (H a (or_introl eq_refl)). apply (proj2 IH). intros b Ib. apply H. now right. }
  destruct (flat_map _ (s_args t)) as [|e l]; split.
  - intros _. split; [reflexivity|]. split; [reflexivity|]. split; [reflexivity|]. now apply X.
  - reflexivity.
  - discriminate.
  - intros [_ [_ [_ H]]]. apply X in H. discriminate H.
Qed.
Lemma demanded_troubles : forall t t1, demanded t t1 -> (forall a, In a (s_args t) -> trouble a = None) <-> (forall a, In a (s_args t1) -> trouble a = None).
Proof.
  intros t t1 D. split; intros H a Ia.
  - pose proof (Permutation_in _ (Permutation_sym (dm_args _ _ D)) Ia) as J. apply in_map_iff in J. destruct J as [b [<- Ib]]. rewrite trouble_demand. now apply H.
  - rewrite <- trouble_demand. apply H. now apply (demanded_In t t1 D).
Qed.
(** the missing ones, if that argument is not among them *)
Lemma filter_filter_other : forall (g : argument -> bool) l, (forall a, In a l -> other a = false -> g a = false) -> filter g l = filter g (filter other l).
Proof.
  intros g l. induction l as [|a l IH]; intros H; [reflexivity|]. cbn [filter]. specialize (IH (fun b Ib => H b (or_intror Ib))). specialize (H a (or_introl eq_refl)).
  destruct (other a); cbn [filter]; [now rewrite IH | now rewrite (H eq_refl)].
Qed.
Lemma demanded_missing : forall t t1, demanded t t1 -> (forall a, In a (s_args t) -> a_id a = id -> d_exist (a_dyn a) = true) -> missing t1 = missing t.
Proof.
  intros t t1 D H. unfold missing. rewrite (filter_filter_other _ (s_args t1)), (filter_filter_other _ (s_args t)), (dm_others _ _ D); [reflexivity| |].
  - intros a Ia O. unfold other in O. apply Bool.negb_false_iff, Nat.eqb_eq in O. now rewrite (H a Ia O), andb_false_r.
  - intros a Ia O. unfold other in O. apply Bool.negb_false_iff, Nat.eqb_eq in O.
    pose proof (Permutation_in _ (Permutation_sym (dm_args _ _ D)) Ia) as J. apply in_map_iff in J. destruct J as [b [<- Ib]]. rewrite demand_id in O. now rewrite demand_dyn, (H b Ib O), andb_false_r.
Qed.
End Demand.

Lemma sorted_same : forall l, StronglySorted (le_by arg_lt) l -> sort_by arg_lt l = l.
Proof. intros l S. apply (stable_unique arg_lt arg_lt_swo); [apply sort_args_sorted | exact S|]. intros x. apply (sort_stable arg_lt arg_lt_swo). Qed.
Lemma update_required : forall s n r s1, wf s -> step (OpUpdate n [MRequired r]) s = (s1, Ok tt) ->
  exists a, getArgument s n = Ok a /\ In a (arguments s) /\ demanded (a_id a) r s s1.
Proof.
  intros s n r s1 [W ST] E. cbn [step] in E. unfold updateArgument in E. unfold bind at 1 2, find_name in E. destruct (assoc n (s_map s)) as [id|] eqn:A; [|discriminate E].
  unfold bind at 1, bind in E. rewrite deref_eq in E. destruct (find_id id (s_args s)) as [a|] eqn:F; [|discriminate E]. cbn [ret] in E.
  destruct (find_id_In _ _ _ F) as [Ia Ea]. subst id. exists a. split; [unfold getArgument; now rewrite A, F|]. split; [exact Ia|].
  cbn [ret run_meths] in E. unfold bind in E. rewrite (meth_eq (MRequired r) s a W Ia) in E. cbn [meth_state outcome] in E. injection E as <-.
  assert (EQ : upd_id (a_id a) (fun _ => arg_cfg a (cfg_required (a_cfg a) r)) (s_args s) = map (demand (a_id a) r) (s_args s)).
  { unfold upd_id. apply map_ext_in. intros x Ix. unfold demand. destruct (Nat.eqb_spec (a_id x) (a_id a)) as [X|X]; [|reflexivity]. now rewrite (wf_unique s x a W Ix Ia X). }
  split; try reflexivity.
  - unfold resorted, put. cbn [s_args with_args a_id arg_cfg]. rewrite EQ. apply sort_perm.
  - unfold resorted, put. cbn [s_args with_args a_id arg_cfg]. rewrite EQ, sort_filter, demand_others. rewrite <- sort_filter. f_equal. now apply sorted_same.
Qed.
Lemma update_required_usable : forall s n r s1, usable s -> step (OpUpdate n [MRequired r]) s = (s1, Ok tt) -> usable s1.
Proof.
  intros s n r s1 U E. destruct U as [U1 [U2 U3]]. destruct (update_required s n r s1 (reach_wf s U1) E) as [a [_ [_ D]]]. split; [|split].
  - eapply reach_step; [exact U1 | exact E | exact Logic.I].
  - intros b Ib. pose proof (Permutation_in _ (Permutation_sym (dm_args _ _ _ _ D)) Ib) as J. apply in_map_iff in J. destruct J as [c [<- Ic]].
    unfold demand. destruct (Nat.eqb (a_id c) (a_id a)); exact (U2 c Ic).
  - destruct U3 as [U3 U4]. unfold pointers_ok, live_ptr in *. rewrite (dm_help _ _ _ _ D), (dm_version _ _ _ _ D).
    assert (X : forall q x, find_ptr q (s_args s) = Some x -> exists y, find_ptr q (s_args s1) = Some y).
    { intros q x F. apply find_ptr_In in F. destruct F as [Ix Ex]. destruct (find_ptr q (s_args s1)) as [y|] eqn:F1; [now exists y|]. exfalso.
      pose proof (find_none _ _ F1 _ (demanded_In _ _ s s1 D x Ix)) as N. cbn beta in N. unfold ptr_of in *. rewrite demand_id, demand_gen, <- Ex in N. cbn in N. rewrite !Nat.eqb_refl in N. discriminate N. }
    split; [destruct (s_help s); [|exact Logic.I]; destruct U3 as [x F]; eapply X, F | destruct (s_version s); [|exact Logic.I]; destruct U4 as [x F]; eapply X, F].
Qed.

Section Required.
Variables (s s1 : state) (n : str) (r : bool) (a : argument).
Hypothesis U : usable s.
Hypothesis E : step (OpUpdate n [MRequired r]) s = (s1, Ok tt).
Hypothesis G : getArgument s n = Ok a.
Hypothesis NP : isPositional a = false.
Lemma required_demanded : In a (s_args s) /\ demanded (a_id a) r s s1.
Proof. destruct U as [U1 _]. destruct (update_required s n r s1 (reach_wf s U1) E) as [b [G' [Ia D]]]. assert (b = a) by congruence. subst b. now split. Qed.
Lemma required_usable : usable s1. Proof. exact (update_required_usable s n r s1 U E). Qed.
Lemma required_ready : demanded (a_id a) r (ready s) (ready s1).
Proof.
  destruct required_demanded as [Ia D]. apply demanded_ready; [apply usable_wf0, U | apply usable_wf0, required_usable | exact D | now exists a].
Qed.
Lemma required_In : In a (s_args (ready s)).
Proof.
  destruct required_demanded as [Ia D]. destruct (ready_cases s (usable_wf0 s U)) as [[-> _]|[-> _]]; [exact Ia|]. unfold with_auto_help, registered. cbn [s_args with_help with_args with_map].
  apply sort_In. apply in_or_app. now left.
Qed.
Lemma required_clike : clike (setup s) (setup s1).
Proof.
  apply (demanded_clike (a_id a) r (ready s) (ready s1)); [apply usable_ready_wf, U | apply usable_ready_wf, required_usable | exact required_ready|].
  intros x Ix Ex. now rewrite (wf_unique (ready s) x a (usable_ready_wf s U) Ix required_In Ex).
Qed.
Lemma required_reads : forall ws pcs, reads s ws pcs <-> reads s1 ws pcs.
Proof. intros ws pcs. exact (clike_readings _ _ required_clike ws pcs). Qed.
Lemma required_rejects : forall ws e, rejects s ws e <-> rejects s1 ws e.
Proof. intros ws e. exact (clike_rejections _ _ required_clike ws e). Qed.
Lemma required_interprets : interprets s -> interprets s1.
Proof. destruct required_demanded as [_ D]. unfold interprets, free_help. now rewrite (dm_help _ _ _ _ D), (dm_map _ _ _ _ D). Qed.
Variables (argv ws : list str) (pcs : list piece).
Hypothesis I : interprets s.
Hypothesis C : command_line argv ws.
Hypothesis R : reads s ws pcs.
Let t := scanned argv pcs s.
Let t1 := scanned argv pcs s1.
Lemma required_scanned : demanded (a_id a) r t t1.
Proof. apply demanded_scanned, required_ready. Qed.
Lemma required_mets : met (s_help t1) t1 = met (s_help t) t /\ met (s_version t1) t1 = met (s_version t) t.
Proof.
  rewrite (dm_help _ _ _ _ required_scanned), (dm_version _ _ _ _ required_scanned).
  assert (N : NoDup (map a_id (s_args t1))).
  { change (s_args t1) with (map (read_arg pcs) (s_args (ready s1))). rewrite map_map. change (NoDup (map a_id (s_args (ready s1)))). apply wf_ids, usable_ready_wf, required_usable. }
  split; eapply demanded_met; eauto using required_scanned.
Qed.
Lemma required_exist : forall x, In x (s_args t) -> a_id x = a_id a -> x = read_arg pcs a /\ d_exist (a_dyn x) = on_line (a_id a) pcs.
Proof.
  intros x Ix Ex. change (s_args t) with (map (read_arg pcs) (s_args (ready s))) in Ix. apply in_map_iff in Ix. destruct Ix as [y [<- Iy]]. change (a_id (read_arg pcs y)) with (a_id y) in Ex.
  pose proof (wf_unique (ready s) y a (usable_ready_wf s U) Iy required_In Ex) as ->. split; [reflexivity|]. exact (read_exist s ws pcs a (usable_ready_wf s U) R Iy).
Qed.
Lemma required_verdicts : snd (parseArguments argv s) = verdict t /\ snd (parseArguments argv s1) = verdict t1 /\
  (verdict t = Ok tt -> fst (parseArguments argv s) = completion t) /\ (verdict t1 = Ok tt -> fst (parseArguments argv s1) = completion t1).
Proof.
  destruct (parse_verdict s argv ws pcs U C I R) as [V1 V2]. destruct (parse_verdict s1 argv ws pcs required_usable C (required_interprets I) (proj1 (required_reads ws pcs) R)) as [V3 V4].
  split; [exact V1|]. split; [exact V3|]. split; intros Q; [apply V2; rewrite V1; exact Q | apply V4; rewrite V3; exact Q].
Qed.
Lemma required_results : verdict t = Ok tt -> verdict t1 = Ok tt -> Permutation (map (demand (a_id a) r) (s_args (completion t))) (s_args (completion t1)) /\
  s_additional (completion t1) = s_additional (completion t) /\ Permutation (s_dlog (completion t)) (s_dlog (completion t1)).
Proof.
  intros _ _. pose proof required_scanned as D. split; [|split].
  - unfold completion. cbn [s_args with_dlog with_args]. rewrite map_map. rewrite (map_ext _ (fun x => finished (demand (a_id a) r x))) by (intros x; symmetry; apply finished_demand).
    rewrite <- (map_map (demand (a_id a) r)). apply Permutation_map, D.
  - apply D.
  - unfold completion. cbn [s_dlog with_dlog]. rewrite (dm_dlog _ _ _ _ D). apply Permutation_app_head. unfold all_events.
    eapply Permutation_trans; [|apply Permutation_flat_map, (dm_args _ _ _ _ D)]. rewrite flat_map_concat_map, flat_map_concat_map, map_map.
    rewrite (map_ext _ (fun x => fst (arg_events (finished (demand (a_id a) r x))))); [apply Permutation_refl|]. intros x. destruct (finished_demand (a_id a) r x) as [-> _]. now rewrite events_demand.
Qed.
End Required.

(* ------------------------------------------------------------------ *)
(** * C68 *)
(** A command line that cannot be read is refused with the same exception whether the
    option is required or not. *)
Theorem C68_rejected : forall s n r s1 a argv ws e, usable s -> interprets s -> command_line argv ws ->
  step (OpUpdate n [MRequired r]) s = (s1, Ok tt) -> getArgument s n = Ok a -> isPositional a = false -> rejects s ws e ->
  exists t t1, parseArguments argv s = (t, Throw e) /\ parseArguments argv s1 = (t1, Throw e).
Proof.
  intros s n r s1 a argv ws e U I C E G NP H. destruct (parse_rejects s argv ws e U C I H) as [t [Et _]].
  destruct (parse_rejects s1 argv ws e (required_usable s s1 n r U E) C (required_interprets s s1 n r a U E G I) (proj1 (required_rejects s s1 n r a U E G NP ws e) H)) as [t1 [Et1 _]].
  exists t, t1. now split.
Qed.
Print Assumptions C68_rejected.

(** The option is on the command line: required or not, the line is accepted or not, and
    if it is refused for lack of another argument it is for lack of the same one. *)
Theorem C68_present : forall s n r s1 a argv ws pcs, usable s -> interprets s -> command_line argv ws ->
  step (OpUpdate n [MRequired r]) s = (s1, Ok tt) -> getArgument s n = Ok a -> isPositional a = false ->
  reads s ws pcs -> on_line (a_id a) pcs = true ->
  (snd (parseArguments argv s1) = Ok tt <-> snd (parseArguments argv s) = Ok tt) /\
  (forall name msg, snd (parseArguments argv s1) = Throw (Exn KRequired name msg) <-> snd (parseArguments argv s) = Throw (Exn KRequired name msg)).
Proof.
  intros s n r s1 a argv ws pcs U I C E G NP R O.
  destruct (required_verdicts s s1 n r a U E G NP argv ws pcs I C R) as [-> [-> _]].
  pose proof (required_scanned s s1 n r a U E G argv pcs) as D. destruct (required_mets s s1 n r a U E G argv pcs) as [M1 M2].
  assert (MI : missing (scanned argv pcs s1) = missing (scanned argv pcs s)).
  { eapply demanded_missing; [exact D|]. intros x Ix Ex. destruct (required_exist s s1 n r a U E G argv ws pcs R x Ix Ex) as [_ ->]. exact O. }
  split.
  - rewrite !verdict_ok, M1, M2, MI. pose proof (demanded_troubles _ _ _ _ D) as T. tauto.
  - assert (X : forall t, (forall name msg, verdict t = Throw (Exn KRequired name msg) <->
       met (s_help t) t = false /\ met (s_version t) t = false /\ exists b l, missing t = b :: l /\ required_error b = Exn KRequired name msg)).
    { intros t name msg. unfold verdict. destruct (met (s_help t) t); [split; [destruct (m_helpex (s_modes t)); discriminate | intros [H _]; discriminate H]|].
      destruct (met (s_version t) t); [split; [destruct (m_verex (s_modes t)); discriminate | intros [_ [H _]]; discriminate H]|].
      destruct (missing t) as [|b l].
      - split; [|intros [_ [_ [b [l [H _]]]]]; discriminate H]. intros H. exfalso.
        destruct (flat_map _ (s_args t)) as [|e l] eqn:F; [discriminate H|]. injection H as H.
        assert (J : In e (flat_map (fun a => match trouble a with Some e => [e] | None => [] end) (s_args t))) by (rewrite F; now left).
        apply in_flat_map in J. destruct J as [x [_ J]]. destruct (trouble x) as [e'|] eqn:T; [|destruct J]. destruct J as [->|[]].
        destruct (trouble_error _ _ T) as [[v [_ [[K _]|[K _]]]]|[d [_ [_ K]]]]; subst e; discriminate K.
      - split.
        + intros H. injection H as H1. split; [reflexivity|]. split; [reflexivity|]. exists b, l. split; [reflexivity|]. unfold required_error. now rewrite H1, H.
        + intros [_ [_ [b' [l' [H1 H2]]]]]. injection H1 as <- <-. now rewrite H2. }
    intros name msg. rewrite !X, M1, M2, MI. reflexivity.
Qed.
Print Assumptions C68_present.

(** The results: when both accept the line, all arguments have the same values, the
    additional arguments are the same, and the same is delivered to destinations (in
    another order at most, as required options are listed first). *)
Theorem C68_results : forall s n r s1 a argv ws t t1, usable s -> interprets s -> command_line argv ws ->
  step (OpUpdate n [MRequired r]) s = (s1, Ok tt) -> getArgument s n = Ok a -> isPositional a = false ->
  parseArguments argv s = (t, Ok tt) -> parseArguments argv s1 = (t1, Ok tt) ->
  Permutation (map (fun x => if Nat.eqb (a_id x) (a_id a) then arg_cfg x (cfg_required (a_cfg x) r) else x) (arguments t)) (arguments t1) /\
  getAdditionalArguments t1 = getAdditionalArguments t /\ Permutation (s_dlog t) (s_dlog t1).
Proof.
  intros s n r s1 a argv ws t t1 U I C E G NP P P1.
  destruct (parse_total s argv ws U C I) as [[pcs [R _]]|[e [s' [He [F Q]]]]]; [|congruence].
  destruct (required_verdicts s s1 n r a U E G NP argv ws pcs I C R) as [V1 [V2 [V3 V4]]].
  rewrite P in V1, V3. rewrite P1 in V2, V4. cbn [fst snd] in *. rewrite (V3 (eq_sym V1)), (V4 (eq_sym V2)).
  exact (required_results s s1 n r a U E G argv pcs (eq_sym V1) (eq_sym V2)).
Qed.
Print Assumptions C68_results.

(** The option is not on the command line.  Making it required makes parseArguments throw a
    RequiredException for it, when it accepted the line before. *)
Theorem C68_absent : forall s n s1 a argv ws pcs t, usable s -> interprets s -> command_line argv ws ->
  step (OpUpdate n [MRequired true]) s = (s1, Ok tt) -> getArgument s n = Ok a -> isPositional a = false ->
  reads s ws pcs -> on_line (a_id a) pcs = false -> parseArguments argv s = (t, Ok tt) ->
  exists t1, parseArguments argv s1 = (t1, Throw (Exn KRequired (hd "" (getNameOrFlags a)) "option is required")).
Proof.
  intros s n s1 a argv ws pcs t U I C E G NP R O P.
  destruct (required_verdicts s s1 n true a U E G NP argv ws pcs I C R) as [V1 [V2 _]].
  pose proof (required_scanned s s1 n true a U E G argv pcs) as D. destruct (required_mets s s1 n true a U E G argv pcs) as [M1 M2].
  rewrite P in V1. cbn [snd] in V1. symmetry in V1. apply verdict_ok in V1. destruct V1 as [H1 [H2 [H3 H4]]].
  assert (Q : verdict (scanned argv pcs s1) = Throw (Exn KRequired (hd "" (getNameOrFlags a)) "option is required")).
  { unfold verdict. rewrite M1, M2, H1, H2. pose proof (proj1 (no_missing _) H3) as H5.
    assert (J : In (demand (a_id a) true (read_arg pcs a)) (missing (scanned argv pcs s1))).
    { unfold missing. apply filter_In. assert (K : In (read_arg pcs a) (s_args (scanned argv pcs s))).
      { change (s_args (scanned argv pcs s)) with (map (read_arg pcs) (s_args (ready s))). apply in_map. exact (required_In s s1 n true a U E G). }
      split; [apply (demanded_In _ _ _ _ D _ K)|]. rewrite demand_dyn. destruct (required_exist s s1 n true a U E G argv ws pcs R _ K eq_refl) as [_ ->]. rewrite O.
      unfold demand. change (a_id (read_arg pcs a)) with (a_id a). now rewrite Nat.eqb_refl. }
    destruct (missing (scanned argv pcs s1)) as [|b l] eqn:M; [destruct J|].
    assert (K : In b (missing (scanned argv pcs s1))) by (rewrite M; now left). unfold missing in K. apply filter_In in K. destruct K as [K1 K2].
    pose proof (Permutation_in _ (Permutation_sym (dm_args _ _ _ _ D)) K1) as L. apply in_map_iff in L. destruct L as [c [<- Ic]].
    destruct (Nat.eqb_spec (a_id c) (a_id a)) as [Z|Z].
    - destruct (required_exist s s1 n true a U E G argv ws pcs R c Ic Z) as [-> _]. unfold required_error, demand. change (a_id (read_arg pcs a)) with (a_id a). rewrite Nat.eqb_refl.
      cbn [a_cfg arg_cfg c_type cfg_required]. change (a_cfg (read_arg pcs a)) with (a_cfg a). destruct (c_type (a_cfg a)); try reflexivity; discriminate NP.
    - exfalso. unfold demand in K2. apply Nat.eqb_neq in Z. rewrite Z in K2. now rewrite (H5 c Ic) in K2. }
  rewrite Q in V2. destruct (parseArguments argv s1) as [t1 o]. cbn [snd] in V2. subst o. now exists t1.
Qed.
Print Assumptions C68_absent.

(** Making it optional never makes parseArguments refuse a line it accepted. *)
Theorem C68_optional : forall s n s1 a argv ws t, usable s -> interprets s -> command_line argv ws ->
  step (OpUpdate n [MRequired false]) s = (s1, Ok tt) -> getArgument s n = Ok a -> isPositional a = false ->
  parseArguments argv s = (t, Ok tt) -> exists t1, parseArguments argv s1 = (t1, Ok tt).
Proof.
  intros s n s1 a argv ws t U I C E G NP P.
  destruct (parse_total s argv ws U C I) as [[pcs [R _]]|[e [s' [He [F Q]]]]]; [|congruence].
  destruct (required_verdicts s s1 n false a U E G NP argv ws pcs I C R) as [V1 [V2 _]].
  pose proof (required_scanned s s1 n false a U E G argv pcs) as D. destruct (required_mets s s1 n false a U E G argv pcs) as [M1 M2].
  rewrite P in V1. cbn [snd] in V1. symmetry in V1. apply verdict_ok in V1. destruct V1 as [H1 [H2 [H3 H4]]].
  assert (Q : verdict (scanned argv pcs s1) = Ok tt).
  { apply verdict_ok. rewrite M1, M2. split; [exact H1|]. split; [exact H2|]. split; [|now apply (demanded_troubles _ _ _ _ D)].
    apply no_missing. pose proof (proj1 (no_missing _) H3) as H5. intros b Ib.
    pose proof (Permutation_in _ (Permutation_sym (dm_args _ _ _ _ D)) Ib) as L. apply in_map_iff in L. destruct L as [c [<- Ic]].
    rewrite demand_dyn. unfold demand. destruct (Nat.eqb (a_id c) (a_id a)); [reflexivity | exact (H5 c Ic)]. }
  rewrite Q in V2. destruct (parseArguments argv s1) as [t1 o]. cbn [snd] in V2. subst o. now exists t1.
Qed.
Print Assumptions C68_optional.

(** shop with -n required: "-n x src" is accepted by both; "src" alone only without *)
Example C68_example : exists s1 a pcs pcs', step (OpUpdate "-n" [MRequired true]) shop = (s1, Ok tt) /\ getArgument shop "-n" = Ok a /\ isPositional a = false /\
  reads shop ["-n"; "x"; "src"] pcs /\ on_line (a_id a) pcs = true /\ snd (parseArguments ["prog"; "-n"; "x"; "src"] shop) = Ok tt /\ snd (parseArguments ["prog"; "-n"; "x"; "src"] s1) = Ok tt /\
  reads shop ["src"] pcs' /\ on_line (a_id a) pcs' = false /\ snd (parseArguments ["prog"; "src"] shop) = Ok tt /\ snd (parseArguments ["prog"; "src"] s1) = Throw (Exn KRequired "-n" "option is required").
Proof.
  eexists. eexists. eexists. eexists. split; [vm_compute; reflexivity|]. split; [vm_compute; reflexivity|]. split; [vm_compute; reflexivity|]. split; [reading|].
  split; [vm_compute; reflexivity|]. split; [vm_compute; reflexivity|]. split; [vm_compute; reflexivity|]. split; [reading|].
  split; [vm_compute; reflexivity|]. split; vm_compute; reflexivity.
Qed.
(** Not so for a positional: DST required makes it the first to receive a word. *)
Example C68_positional_example : forall s1, s1 = fst (step (OpUpdate "DST" [MRequired true]) (history [OpAdd ["SRC"] []; OpAdd ["DST"] []])) ->
  exists t t1, parseArguments ["prog"; "x"; "y"] (history [OpAdd ["SRC"] []; OpAdd ["DST"] []]) = (t, Ok tt) /\ parseArguments ["prog"; "x"; "y"] s1 = (t1, Ok tt) /\
  to_vector (pick "SRC" t) = Ok ["x"] /\ to_vector (pick "SRC" t1) = Ok ["y"].
Proof. intros s1 ->. eexists. eexists. split; [vm_compute; reflexivity|]. split; [vm_compute; reflexivity|]. split; vm_compute; reflexivity. Qed.
