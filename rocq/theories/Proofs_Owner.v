(** Proofs_Owner.v -- who owns validators (C46). *)
From Coq Require Import Permutation Sorted.
From Verif Require Import Base Model_Utils Model_Number Model_Types Model_Argument Model_Usage Model_Args Model_Api
  Spec_Order Spec_Names Spec_Reading Spec_Parse Spec_Decl Spec_History Proofs_Base Proofs_Order Proofs_Frame Proofs_Inv Proofs_Reading Proofs_Parse Proofs_Decl Proofs_Finish Proofs_Meth
  Proofs_History Proofs_Config.

Definition rel (x : validator * bool) : list nat := if snd x then [v_id (fst x)] else [].
Lemma owned_rel : forall a, owned (a_cfg a) = flat_map rel (attachment a).
Proof. intros a. unfold owned, attachment. destruct (c_valid (a_cfg a)); simpl; [|reflexivity]. unfold rel; simpl. destruct (c_valid_del _); reflexivity. Qed.
Lemma all_owned_rel : forall l, all_owned l = flat_map rel (flat_map attachment l).
Proof. induction l as [|a l IH]; simpl; [reflexivity|]. rewrite flat_map_app, <- owned_rel. unfold all_owned in *. now rewrite <- IH. Qed.
Lemma destroyed_rel : forall s, destroyed s = s_freed s ++ flat_map rel (attached s).
Proof. intros s. unfold destroyed. now rewrite all_owned_rel. Qed.

Lemma attached_perm : forall l l', Permutation l l' -> Permutation (flat_map attachment l) (flat_map attachment l').
Proof. intros l l' P. now apply Permutation_flat_map. Qed.
Lemma args_split : forall s a, NoDup (map a_id (s_args s)) -> In a (s_args s) -> exists l1 l2, s_args s = l1 ++ a :: l2 /\
  (forall b, a_id b = a_id a -> s_args (put b s) = l1 ++ b :: l2) /\
  filter (fun b => negb (Nat.eqb (a_id b) (a_id a))) (s_args s) = l1 ++ l2.
Proof.
  intros s a ND Ia. destruct (in_split _ _ Ia) as [l1 [l2 E]]. exists l1, l2. split; [exact E|]. rewrite E in ND. split.
  - intros b Eb. now apply (put_middle s l1 a b l2).
  - rewrite E. rewrite map_app in ND. simpl in ND. apply NoDup_remove_2 in ND. rewrite <- map_app in ND. rewrite filter_app. simpl. rewrite Nat.eqb_refl. simpl.
    assert (G : forall l, ~ In (a_id a) (map a_id l) -> filter (fun b => negb (Nat.eqb (a_id b) (a_id a))) l = l).
    { induction l as [|x l IH]; intros N; simpl; [reflexivity|]. simpl in N. destruct (Nat.eqb_spec (a_id x) (a_id a)) as [Q|Q]; [tauto|]. simpl. f_equal. tauto. }
    rewrite map_app, in_app_iff in ND. rewrite !G; tauto.
Qed.
(** replacing an argument by one with the same attachment *)
Lemma attached_put : forall s a b, NoDup (map a_id (s_args s)) -> In a (s_args s) -> a_id b = a_id a -> attachment b = attachment a ->
  attached (put b s) = attached s.
Proof.
  intros s a b ND Ia E1 E2. destruct (args_split s a ND Ia) as [l1 [l2 [E [P _]]]]. unfold attached. rewrite (P b E1), E, !flat_map_app. simpl. now rewrite E2.
Qed.
Lemma defaults_attachment : forall a, attachment (fst (defaults_arg a)) = attachment a.
Proof.
  intros a. unfold defaults_arg. destruct (no_defaults _); [reflexivity|]. destruct (size_fits _ _); [|reflexivity].
  unfold defaulted. destruct (c_type (a_cfg a)); reflexivity.
Qed.
Lemma declared_attached : forall s a b, NoDup (map a_id (s_args s)) -> In a (s_args s) -> a_id b = a_id a -> attachment b = attachment a ->
  attached (fst (declared b s)) = attached s /\ s_freed (fst (declared b s)) = s_freed s.
Proof.
  intros s a b ND Ia E1 E2. destruct (declared_cases b s) as [[[[t n] act] [_ [EA [_ [EF _]]]]]|[_ [E _]]].
  - split; [|exact EF]. unfold attached at 1. rewrite EA. apply (attached_put s a); [exact ND | exact Ia | now rewrite defaults_arg_id | now rewrite defaults_attachment].
  - rewrite E. split; [now apply (attached_put s a) | reflexivity].
Qed.

Section Owner.
  Variable P : policy.
  Variable Q : list nat -> list (validator * bool) -> Prop.
  Hypothesis allow_action : forall a s, p_meth P (MAction HELP) a s.
  Hypothesis allow_help : forall h a s, p_meth P (MHelp h) a s.
  Hypothesis allow_add : forall s, p_add P (free_help s) s.
  Hypothesis Qperm : forall f l l', Permutation l l' -> Q f l -> Q f l'.
  Hypothesis Qrelease : forall f x l, Q f (x :: l) -> Q (f ++ rel x) l.
  Hypothesis Qattach : forall v del a s l, In a (s_args s) -> Permutation (attached s) (attachment a ++ l) ->
    p_meth P (MValid (Some v) del) a s -> Q (s_freed s) (attached s) -> Q (s_freed s ++ owned (a_cfg a)) ((v, del) :: l).
  Let I s := Q (s_freed s) (attached s).
  Lemma Qreleases : forall l' f l, Q f (l' ++ l) -> Q (f ++ flat_map rel l') l.
  Proof.
    induction l' as [|x l' IH]; intros f l H; simpl in *; [now rewrite app_nil_r|]. rewrite app_assoc. apply IH. now apply Qrelease.
  Qed.
  Lemma I_meth_owner : forall m s a, wf s -> I s -> In a (s_args s) -> p_meth P m a s -> I (fst (meth_state m a s)).
  Proof.
    intros m s a [W _] H Ia PM. unfold I in *. pose proof (wf_ids _ W) as ND.
    assert (PUT : forall b, a_id b = a_id a -> attachment b = attachment a -> Q (s_freed (put b s)) (attached (put b s))).
    { intros b E1 E2. rewrite (attached_put s a b ND Ia E1 E2). exact H. }
    assert (SORT : forall t, Q (s_freed t) (attached t) -> Q (s_freed (resorted t)) (attached (resorted t))).
    { intros t Ht. eapply Qperm; [|exact Ht]. apply attached_perm. apply sort_perm. }
    destruct m; unfold meth_state; cbv zeta; cbn [fst].
    - destruct (is_positional _); [exact H|]. destruct (validFormatFlag f); [exact H|]. destruct (mem_key f (s_map s)); [exact H|]. cbn [fst].
      apply (SORT (put _ s)). apply PUT; reflexivity.
    - assert (ER : s_args (released a s) = s_args s /\ s_freed (released a s) = s_freed s) by (unfold released; destruct (c_action (a_cfg a)); split; reflexivity).
      destruct ER as [ER1 ER2]. destruct (declared_attached (released a s) a (arg_cfg a (cfg_action (a_cfg a) a0))) as [D1 D2];
        [now rewrite ER1 | now rewrite ER1 | reflexivity | reflexivity |]. rewrite D1, D2, ER2. unfold attached. rewrite ER1. exact H.
    - apply SORT. apply PUT; reflexivity.
    - apply PUT; reflexivity.
    - apply PUT; reflexivity.
    - destruct (declared_attached s a (arg_cfg a (cfg_nargs (a_cfg a) (n mod w64)%N))) as [D1 D2]; [exact ND | exact Ia | reflexivity | reflexivity |]. rewrite D1, D2. exact H.
    - apply PUT; [now rewrite defaults_arg_id | now rewrite defaults_attachment].
    - destruct (args_split s a ND Ia) as [l1 [l2 [E [PT _]]]]. unfold attached. cbn [s_freed with_freed s_args]. rewrite PT by reflexivity.
      assert (PM1 : Permutation (attached s) (attachment a ++ flat_map attachment (l1 ++ l2))).
      { unfold attached. rewrite E, !flat_map_app. simpl. rewrite !app_assoc. apply Permutation_app_tail. apply Permutation_app_comm. }
      set (b := arg_cfg a (cfg_valid (a_cfg a) p isDeletable)).
      assert (PM2 : Permutation (attachment b ++ flat_map attachment (l1 ++ l2)) (flat_map attachment (l1 ++ b :: l2))).
      { rewrite !flat_map_app. simpl. rewrite !app_assoc. apply Permutation_app_tail. apply Permutation_app_comm. }
      eapply Qperm; [exact PM2|]. destruct p as [v|].
      + change (attachment b) with [(v, isDeletable)]. simpl. apply (Qattach v isDeletable a s _ Ia PM1 PM H).
      + change (attachment b) with (@nil (validator * bool)). simpl. rewrite owned_rel. apply Qreleases. eapply Qperm; [exact PM1 | exact H].
    - apply PUT; reflexivity.
  Qed.
  Lemma I_removed_owner : forall s n a, wf0 s -> I s -> In a (s_args s) -> I (removed s n a).
  Proof.
    intros s n a W H Ia. unfold I, removed. cbv zeta. destruct (existsb _ _).
    - unfold attached. cbn [s_freed s_args with_map with_args].
      assert (E : flat_map attachment (upd_id (a_id a) (fun x => arg_cfg x (cfg_names (a_cfg x) (remove_first n (c_names (a_cfg x))))) (s_args s)) = attached s).
      { unfold attached. clear. induction (s_args s) as [|x l IH]; [reflexivity|]. simpl. rewrite IH. f_equal. destruct (Nat.eqb _ _); reflexivity. }
      rewrite E. exact H.
    - destruct (args_split s a (wf_ids _ W) Ia) as [l1 [l2 [E [_ FL]]]]. cbn [s_freed with_freed].
      assert (EA : forall t, s_args t = l1 ++ l2 -> attached t = flat_map attachment (l1 ++ l2)) by (intros t Et; unfold attached; now rewrite Et).
      rewrite EA; [|destruct (optr_eqb (s_help s) (ptr_of a)); [|destruct (optr_eqb (s_version s) (ptr_of a))]; exact FL].
      rewrite owned_rel. apply Qreleases. eapply Qperm; [|exact H].
      unfold attached. rewrite E, !flat_map_app. simpl. rewrite !app_assoc. apply Permutation_app_tail. apply Permutation_app_comm.
  Qed.
  Lemma I_clear_owner : forall s, I s -> I (fst (clear s)).
  Proof.
    intros s H. unfold I. change (s_freed (fst (clear s))) with (s_freed s ++ all_owned (s_args s)). change (attached (fst (clear s))) with (@nil (validator * bool)).
    rewrite all_owned_rel. apply Qreleases. rewrite app_nil_r. exact H.
  Qed.
  Lemma I_registered_owner : forall s c, c_valid c = None -> I s -> I (registered s c).
  Proof.
    intros s c V H. unfold I. change (s_freed (registered s c)) with (s_freed s). eapply Qperm; [|exact H].
    unfold attached, registered. cbn [s_args with_args with_map]. etransitivity; [|apply attached_perm, sort_perm].
    rewrite flat_map_app. simpl. unfold attachment at 3. simpl. rewrite V. simpl. now rewrite app_nil_r.
  Qed.
  Lemma I_frame_owner : forall s s', frame s s' -> I s -> I s'.
  Proof.
    intros s s' F H. unfold I in *. rewrite (fr_freed _ _ F).
    assert (E : attached s' = attached s); [|now rewrite E]. unfold attached.
    assert (G : forall l l', map static l' = map static l -> flat_map attachment l' = flat_map attachment l).
    { induction l as [|x l IH]; intros [|y l'] E; simpl in E; try discriminate; [reflexivity|]. simpl. apply (f_equal (@tl _)) in E as E2. simpl in E2. rewrite (IH _ E2). f_equal.
      assert (EC : a_cfg y = a_cfg x) by (injection E; congruence). unfold attachment. now rewrite EC. }
    apply G, (fr_args _ _ F).
  Qed.
  Lemma I_same_owner : forall s s', I s -> s_args s' = s_args s -> s_freed s' = s_freed s -> I s'.
  Proof. intros s s' H E1 E2. unfold I, attached in *. now rewrite E1, E2. Qed.

  Theorem owner_step : forall s o s' r, wf s -> I s -> op_ok P o s -> step o s = (s', r) -> completed r -> wf s' /\ I s'.
  Proof.
    intros s o s' r W H CO E C. refine (step_invariant P I (fun a s _ _ _ _ => allow_action a s) allow_help allow_add _ _ _ _ _ _ _ _ s o s' r W H CO E C).
    - intros t t' _ F. now apply I_frame_owner.
    - intros t n _ Ht _ _ _. now apply I_registered_owner.
    - intros t v flags _ Ht _ _ _ _ _ _. now apply I_registered_owner.
    - intros m t a Wt Ht Ia PM _. now apply I_meth_owner.
    - intros t n a Wt Ht Ia _ _. now apply I_removed_owner.
    - intros t _ Ht. eapply Qperm; [apply attached_perm, sort_perm | exact Ht].
    - intros t t' Ht E1 _ _ _ E5. now apply (I_same_owner t).
    - intros t _ Ht. now apply I_clear_owner.
  Qed.
  Theorem owner_reach : Q [] [] -> forall s, reach_with P s -> I s.
  Proof.
    intros Q0 s R. induction R as [|s o s' r R IH CO E C]; [exact Q0|].
    destruct (owner_step s o s' r) as [_ H]; auto. apply reach_wf. now apply reach_with_reach in R.
  Qed.
End Owner.
