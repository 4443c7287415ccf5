(** Proofs_History.v -- induction over histories; invariants of the configuration. *)
From Coq Require Import Permutation Sorted.
From Verif Require Import Base Model_Utils Model_Number Model_Types Model_Argument Model_Usage Model_Args Model_Api
  Spec_Order Spec_Names Spec_Reading Spec_Parse Spec_Decl Spec_History Proofs_Base Proofs_Order Proofs_Frame Proofs_Inv Proofs_Reading Proofs_Parse Proofs_Decl Proofs_Meth.

Lemma reach_any : forall s, reach s -> reach_with any_use s.
Proof.
  induction 1 as [|s o s' r H IH E C]; [constructor|]. eapply rw_step; [exact IH| |exact E|exact C].
  assert (CH : forall ms id s, chain_ok any_use id ms s).
  { induction ms as [|m ms IHm]; intros id t; simpl; [exact I|]. split; [intros; exact I | intros; apply IHm]. }
  destruct o; simpl; try exact I; [split; [exact I|]|]; intros; apply CH.
Qed.
Lemma reach_with_reach : forall P s, reach_with P s -> reach s.
Proof. induction 1 as [|s o s' r H IH _ E C]; [constructor | eapply reach_step; eassumption]. Qed.

Lemma outcome_fst : forall r, fst (outcome r) = fst r.
Proof. intros [s [e|]]; reflexivity. Qed.

Section Invariant.
  Variable P : policy.
  Variable I : state -> Prop.
  Hypothesis allow_action : forall a s, s_help s = None -> c_nargs (a_cfg a) = 1%N -> c_action (a_cfg a) = NONE ->
    is_positional (c_type (a_cfg a)) = false -> p_meth P (MAction HELP) a s.
  Hypothesis allow_help : forall h a s, p_meth P (MHelp h) a s.
  Hypothesis allow_add : forall s, p_add P (free_help s) s.
  Hypothesis I_init : forall f d, I (with_dlog (with_freed init f) d).
  Hypothesis I_frame : forall s s', wf s -> frame s s' -> I s -> I s'.
  Hypothesis I_positional : forall s n, wf s -> I s -> mem_key n (s_map s) = false -> plain_name n ->
     wf (registered s (positional_cfg n)) -> I (registered s (positional_cfg n)).
  Hypothesis I_option : forall s v flags, wf s -> I s -> p_add P v s ->
     (forall x, In x flags <-> In x v) -> NoDup flags -> Forall (fun f => validFormatFlag f = None) flags ->
     (exists f, In f v /\ mem_key f (s_map s) = false) ->
     wf (registered s (option_cfg flags)) -> I (registered s (option_cfg flags)).
  Hypothesis I_meth : forall m s a, wf s -> I s -> In a (s_args s) -> p_meth P m a s -> wf (fst (meth_state m a s)) ->
     I (fst (meth_state m a s)).
  Hypothesis I_removed : forall s n a, wf0 s -> I s -> In a (s_args s) -> assoc n (s_map s) = Some (a_id a) ->
     wf0 (removed s n a) -> I (removed s n a).
  Hypothesis I_sorted : forall s, wf0 s -> I s -> I (with_args s (sort_by arg_lt (s_args s))).
  Hypothesis I_same : forall s s', I s -> s_args s' = s_args s -> s_map s' = s_map s -> s_help s' = s_help s ->
     s_version s' = s_version s -> s_freed s' = s_freed s -> I s'.
  Hypothesis I_clear : forall s, wf s -> I s -> I (fst (clear s)).

  Let J s := wf s /\ I s.

  Lemma inv_chain : forall ms id s s' r, J s -> chain_ok P id ms s -> run_meths id ms s = (s', r) -> completed r -> J s'.
  Proof.
    induction ms as [|m ms IH]; intros id s s' r [W Is] CO E C; simpl in E.
    - injection E as <- <-. split; assumption.
    - destruct CO as [CO1 CO2]. unfold bind in E.
      destruct (run_meth id m s) as [s1 r1] eqn:Em.
      destruct (find_id id (s_args s)) as [a|] eqn:F.
      + destruct (find_id_In _ _ _ F) as [Ia Ea]. subst id.
        assert (J1 : J s1).
        { pose proof (wf_run_meth (a_id a) m s W) as W1. rewrite Em in W1. simpl in W1.
          rewrite (meth_eq m s a (proj1 W) Ia) in Em.
          assert (E1 : s1 = fst (meth_state m a s)) by (rewrite <- outcome_fst, Em; reflexivity).
          split; [exact W1|]. subst s1. apply I_meth; auto. }
        destruct r1 as [u|e|o| |]; try (injection E as <- <-; exact J1).
        destruct u. eapply IH; [exact J1 | apply CO2; reflexivity | exact E | exact C].
      + assert (U : run_meth id m s = (s, UB)).
        { destruct m; simpl; unfold flag, action, required, help, metavar, nargs, defaults, valid, dest_to, bind at 1;
            rewrite deref_eq, F; reflexivity. }
        rewrite U in Em. injection Em as <- <-. injection E as <- <-. destruct C.
  Qed.
  Lemma inv_add : forall v s s' r, J s -> p_add P v s -> addArgument v s = (s', r) -> J s'.
  Proof.
    intros v s s' r [W Is] PA E.
    destruct (addArgument_cases v s (proj1 W)) as [[e [E1 _]]|[[n [Ev [PN [MK [E1 W1]]]]]|[f [rest [flags [Ev [AF [MK [_ [E1 W1]]]]]]]]]];
      rewrite E1 in E; injection E as <- <-.
    - split; assumption.
    - split; [exact W1|]. apply I_positional; assumption.
    - split; [exact W1|]. destruct (add_flags_ok _ _ _ _ _ AF) as [_ [FA [IN ND]]]. eapply I_option; eauto.
      + intros x. rewrite IN. simpl. tauto.
      + apply ND. constructor.
      + rewrite Forall_forall in *. intros x Ix. apply IN in Ix. destruct Ix as [[]|Ix]. now apply FA.
      + exists f. subst v. split; [now left | exact MK].
  Qed.
  Lemma inv_remove_loop : forall l s s', wf0 s -> I s -> remove_loop l s = (s', Ok tt) -> wf0 s' /\ I s'.
  Proof.
    induction l as [|n l IH]; intros s s' W Is E; simpl in E.
    - injection E as <-. auto.
    - unfold bind in E. destruct (remove_one_cases s n W) as [[_ R]|[a [Ia [As [R W1]]]]]; rewrite R in E; [discriminate|].
      eapply IH; [exact W1| |exact E]. apply I_removed; assumption.
  Qed.
  Lemma remove_loop_res : forall l s, wf0 s -> exists s', remove_loop l s = (s', Ok tt) \/ remove_loop l s = (s', UB).
  Proof. intros l s W. destruct (remove_loop_cases l s W) as [s' [_ H]]. eauto. Qed.
  Lemma inv_help_setup : forall s s' r, J s -> help_setup s = (s', r) -> J s'.
  Proof.
    intros s s' r [W Is] E. unfold help_setup, bind at 1, get in E.
    destruct (s_help s) eqn:SH0; [injection E as <- <-; split; assumption|].
    destruct (mem_key "-h" (s_map s) && mem_key "--help" (s_map s)); [injection E as <- <-; split; assumption|].
    set (v := (if mem_key "-h" (s_map s) then [] else ["-h"]) ++ (if mem_key "--help" (s_map s) then [] else ["--help"])) in *.
    unfold bind at 1 in E. destruct (addArgument v s) as [s1 r1] eqn:EA.
    assert (J1 : J s1) by (eapply inv_add; [split; eassumption | apply (allow_add s) | exact EA]).
    destruct r1 as [id|e|o| |]; try (injection E as <- <-; exact J1).
    assert (Iid : exists a, In a (s_args s1) /\ a_id a = id /\ s_help s1 = None /\ c_nargs (a_cfg a) = 1%N /\ c_action (a_cfg a) = NONE /\ is_positional (c_type (a_cfg a)) = false).
    { destruct (addArgument_cases v s (proj1 W)) as [[e [E1 _]]|[[n [EV [PN [_ [E1 _]]]]]|[f [rest [flags [_ [_ [_ [_ [E1 _]]]]]]]]]];
        rewrite E1 in EA; try discriminate; injection EA as <- <-.
      - exfalso. unfold v in EV. destruct PN as [c [q [-> ND]]]. destruct (mem_key "-h" (s_map s)), (mem_key "--help" (s_map s)); cbn in EV; try discriminate; injection EV as EV _; congruence.
      - exists (Arg (fresh_id s) 0 (option_cfg flags) new_dyn). split; [|split; [reflexivity | split; [exact SH0 | repeat split]]].
        unfold registered; simpl. eapply Permutation_in; [apply sort_perm|]. apply in_or_app. right. now left. }
    destruct Iid as [a [Ia [Ea [SH1 [N1 [A1 P1]]]]]].
    assert (CK : forall t u q, run_meths id [MAction HELP; MHelp "show this help message and exit"] t = (u, q) -> True) by (intros; exact Logic.I).
    assert (E2 : (run_meths id [MAction HELP; MHelp "show this help message and exit"] ;;; ret false) s1 = (s', r)).
    { rewrite <- E. simpl. unfold bind. destruct (action id HELP s1) as [s2 [u|e|o| |]]; try reflexivity.
      destruct (help id "show this help message and exit" s2) as [s3 [[]|e|o| |]]; reflexivity. }
    unfold bind at 1 in E2.
    destruct (run_meths id [MAction HELP; MHelp "show this help message and exit"] s1) as [s3 r3] eqn:E3.
    assert (C3 : completed r3).
    { subst id. simpl in E3. change (action (a_id a) HELP) with (run_meth (a_id a) (MAction HELP)) in E3.
      unfold bind in E3. pose proof (meth_eq (MAction HELP) s1 a (proj1 (proj1 J1)) Ia) as ME. rewrite ME in E3.
      destruct (outcome (meth_state (MAction HELP) a s1)) as [s2 r2] eqn:EO.
      assert (I2 : exists b, In b (s_args s2) /\ a_id b = a_id a).
      { pose proof (shape_action (a_id a) HELP s1) as SH. change (action (a_id a) HELP) with (run_meth (a_id a) (MAction HELP)) in SH.
        rewrite ME in SH. simpl in SH. destruct (SH (wf_ids _ (proj1 (proj1 J1)))) as [F2 _].
        destruct (Forall2_in_l _ _ _ _ F2 Ia) as [b [Ib [Sb _]]]. exists b. split; [exact Ib | congruence]. }
      assert (W2 : wf s2). { pose proof (wf_run_meth (a_id a) (MAction HELP) s1 (proj1 J1)) as W2. rewrite ME in W2. exact W2. }
      destruct (meth_state (MAction HELP) a s1) as [s2' [e|]]; simpl in EO; injection EO as <- <-; [injection E3 as <- <-; exact Logic.I|].
      destruct I2 as [b [Ib Eb]]. rewrite <- Eb in E3.
      change (help (a_id b)) with (fun h => run_meth (a_id b) (MHelp h)) in E3. cbv beta in E3.
      rewrite (meth_eq (MHelp _) s2' b (proj1 W2) Ib) in E3. simpl in E3. injection E3 as <- <-. exact Logic.I. }
    assert (J3 : J s3).
    { eapply inv_chain; [exact J1| |exact E3|exact C3]. simpl. split; [intros a' Ia' Ea'; assert (a' = a) by (eapply wf_unique; [exact (proj1 (proj1 J1)) | exact Ia' | exact Ia | congruence]); subst a'; now apply allow_action|]. intros. split; [intros; apply allow_help|]. intros; exact Logic.I. }
    destruct r3; injection E2 as <- <-; exact J3.
  Qed.
  Lemma inv_parse : forall fuel argv s s' r, J s -> parse_with fuel argv s = (s', r) -> completed r -> J s'.
  Proof.
    intros fuel argv s s' r [W Is] E C. unfold parse_with in E. unfold bind at 1, modify in E.
    set (s1 := with_args s (map clear_arg (s_args s))) in *.
    assert (J1 : J s1). { split; [eapply frame_wf; [exact W | apply frame_clear_args] | eapply I_frame; [exact W | apply frame_clear_args | exact Is]]. }
    unfold bind at 1 in E. destruct (help_setup s1) as [s2 r2] eqn:EH.
    pose proof (inv_help_setup _ _ _ J1 EH) as J2.
    destruct r2 as [early|e|o| |]; try (injection E as <- <-; exact J2).
    destruct early; [injection E as <- <-; exact J2|].
    assert (FR : frame s2 s').
    { refine (keepsC_bind frame frame_trans (scan fuel argv) (fun _ => after_scan) _ _ s2 s' r E C);
      [apply keepsC_of, frame_scan | intros; apply frame_after_scan]. }
    destruct J2 as [W2 I2]. split; [eapply frame_wf; eassumption | eapply I_frame; eassumption].
  Qed.

  (** one call *)
  Theorem step_invariant : forall s o s' r, wf s -> I s -> op_ok P o s -> step o s = (s', r) -> completed r -> wf s' /\ I s'.
  Proof.
    intros s o s' r W Is CO E C.
    pose proof (wf_step o s s' r W E C) as W'.
    destruct o; simpl in E, CO; try (unfold modify in E; injection E as <- <-; split; [exact W' | eapply I_same; [exact Is|reflexivity..]]).
    - unfold bind in E. destruct (addArgument nameOrFlags s) as [s1 r1] eqn:EA. destruct CO as [CO1 CO2].
      assert (J1 : J s1) by exact (inv_add _ _ _ _ (conj W Is) CO1 EA).
      destruct r1 as [id|e|o| |]; try (injection E as <- <-; exact J1).
      eapply inv_chain; [exact J1 | eapply CO2; reflexivity | exact E | exact C].
    - unfold bind in E. destruct (updateArgument nameOrFlag s) as [s1 r1] eqn:EA.
      assert (s1 = s) as ->.
      { unfold updateArgument, bind, find_name in EA. destruct (assoc nameOrFlag (s_map s)) as [id|]; [|injection EA as <- _; reflexivity].
        rewrite deref_eq in EA. destruct (find_id id (s_args s)); injection EA as <- _; reflexivity. }
      destruct r1 as [id|e|o| |]; try (injection E as <- <-; split; assumption).
      exact (inv_chain _ _ _ _ _ (conj W Is) (CO _ _ eq_refl) E C).
    - split; [exact W'|]. unfold removeArguments in E. destruct nameOrFlags as [|n l]; [injection E as <- _; exact Is|].
      unfold bind at 1, get in E. destruct (find _ (n :: l)); [injection E as <- _; exact Is|].
      unfold bind in E. destruct (remove_loop_res (n :: l) s (proj1 W)) as [s1 [E1|E1]]; rewrite E1 in E; [|injection E as <- <-; destruct C].
      destruct (inv_remove_loop _ _ _ (proj1 W) Is E1) as [W1 I1].
      rewrite (sort_args_ok _ W1) in E. injection E as <- _. now apply I_sorted.
    - split; [exact W'|]. unfold clear, modify in E. injection E as <- _. exact (I_clear s W Is).
    - unfold parseArguments in E. exact (inv_parse _ _ _ _ _ (conj W Is) E C).
  Qed.
  Theorem reach_invariant : forall s, reach_with P s -> wf s /\ I s.
  Proof.
    induction 1 as [|s o s' r H [W Is] CO E C]; [split; [exact wf_init | apply (I_init [] [])]|].
    exact (step_invariant s o s' r W Is CO E C).
  Qed.
  (** the same without parseArguments: nothing is asked about what a parse changes *)
  Theorem call_invariant : forall s o s' r, wf s -> I s -> op_ok P o s -> (forall argv, o <> OpParse argv) ->
    step o s = (s', r) -> completed r -> wf s' /\ I s'.
  Proof.
    intros s o s' r W Is CO NP E C.
    pose proof (wf_step o s s' r W E C) as W'.
    destruct o; simpl in E, CO; try (unfold modify in E; injection E as <- <-; split; [exact W' | eapply I_same; [exact Is|reflexivity..]]).
    - unfold bind in E. destruct (addArgument nameOrFlags s) as [s1 r1] eqn:EA. destruct CO as [CO1 CO2].
      assert (J1 : J s1) by exact (inv_add _ _ _ _ (conj W Is) CO1 EA).
      destruct r1 as [id|e|o| |]; try (injection E as <- <-; exact J1).
      eapply inv_chain; [exact J1 | eapply CO2; reflexivity | exact E | exact C].
    - unfold bind in E. destruct (updateArgument nameOrFlag s) as [s1 r1] eqn:EA.
      assert (s1 = s) as ->.
      { unfold updateArgument, bind, find_name in EA. destruct (assoc nameOrFlag (s_map s)) as [id|]; [|injection EA as <- _; reflexivity].
        rewrite deref_eq in EA. destruct (find_id id (s_args s)); injection EA as <- _; reflexivity. }
      destruct r1 as [id|e|o| |]; try (injection E as <- <-; split; assumption).
      exact (inv_chain _ _ _ _ _ (conj W Is) (CO _ _ eq_refl) E C).
    - split; [exact W'|]. unfold removeArguments in E. destruct nameOrFlags as [|n l]; [injection E as <- _; exact Is|].
      unfold bind at 1, get in E. destruct (find _ (n :: l)); [injection E as <- _; exact Is|].
      unfold bind in E. destruct (remove_loop_res (n :: l) s (proj1 W)) as [s1 [E1|E1]]; rewrite E1 in E; [|injection E as <- <-; destruct C].
      destruct (inv_remove_loop _ _ _ (proj1 W) Is E1) as [W1 I1].
      rewrite (sort_args_ok _ W1) in E. injection E as <- _. now apply I_sorted.
    - split; [exact W'|]. unfold clear, modify in E. injection E as <- _. exact (I_clear s W Is).
    - exfalso. exact (NP argv eq_refl).
  Qed.
  Theorem fresh_invariant : forall s, fresh_with P s -> wf s /\ I s.
  Proof.
    induction 1 as [|s R|s o s' r H [W Is] CO NP E C].
    - split; [exact wf_init | apply (I_init [] [])].
    - unfold clear, modify. simpl. split; [apply (wf_step OpClear s _ (Ok tt) (reach_wf _ R) eq_refl Logic.I) | apply I_init].
    - exact (call_invariant s o s' r W Is CO NP E C).
  Qed.
End Invariant.
Lemma fresh_with_reach : forall P s, fresh_with P s -> reach s.
Proof.
  induction 1 as [|s R|s o s' r H IH _ _ E C]; [constructor | | eapply reach_step; eassumption].
  exact (reach_step s OpClear _ (Ok tt) R eq_refl I).
Qed.

