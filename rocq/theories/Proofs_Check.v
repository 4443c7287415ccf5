(** Proofs_Check.v -- deciding that a concrete history respects a policy (for the
    examples that show the hypotheses of theorems to be satisfiable). *)
From Verif Require Import Base Model_Types Model_Argument Model_Args Model_Api Spec_History Spec_Api.

Section Check.
  Variable P : policy.
  Variable pm : meth -> argument -> state -> bool.
  Hypothesis add_any : forall ns s, p_add P ns s.
  Hypothesis pm_ok : forall m a s, pm m a s = true -> p_meth P m a s.
  Fixpoint chain_okb (id : nat) (ms : list meth) (s : state) : bool :=
    match ms with
    | [] => true
    | m :: r => forallb (fun a => negb (Nat.eqb (a_id a) id) || pm m a s) (s_args s) &&
                match run_meth id m s with (s', Ok _) => chain_okb id r s' | _ => true end
    end.
  Definition op_okb (o : op) (s : state) : bool :=
    match o with
    | OpAdd ns ms => match addArgument ns s with (s', Ok id) => chain_okb id ms s' | _ => true end
    | OpUpdate n ms => match updateArgument n s with (s', Ok id) => chain_okb id ms s' | _ => true end
    | _ => true
    end.
  Fixpoint ops_okb (ops : list op) (s : state) : bool :=
    match ops with
    | [] => true
    | o :: r => op_okb o s && match step o s with (s', Ok _) | (s', Throw _) => ops_okb r s' | _ => false end
    end.
  Lemma chain_okb_ok : forall ms id s, chain_okb id ms s = true -> chain_ok P id ms s.
  Proof.
    induction ms as [|m ms IH]; intros id s H; cbn [chain_okb chain_ok] in *; [exact I|]. apply andb_prop in H as [H1 H2]. split.
    - intros a Ia E. rewrite forallb_forall in H1. specialize (H1 a Ia). subst id. rewrite Nat.eqb_refl in H1. now apply pm_ok.
    - intros s' E. rewrite E in H2. now apply IH.
  Qed.
  Lemma op_okb_ok : forall o s, op_okb o s = true -> op_ok P o s.
  Proof.
    intros [] s H; cbn [op_okb op_ok] in *; try exact I.
    - split; [apply add_any|]. intros s' id E. rewrite E in H. now apply chain_okb_ok.
    - intros s' id E. rewrite E in H. now apply chain_okb_ok.
  Qed.
  Lemma ops_okb_ok : forall ops s s', reach_with P s -> ops_okb ops s = true -> run ops s = Some s' -> reach_with P s'.
  Proof.
    induction ops as [|o ops IH]; intros s s' R O E; cbn [ops_okb run] in *; [now injection E as <-|].
    apply andb_prop in O as [O1 O2]. apply op_okb_ok in O1. destruct (step o s) as [s1 x] eqn:Es. 
    destruct x; try discriminate; (eapply IH; [|exact O2|exact E]; eapply rw_step; eauto; exact I).
  Qed.
  Lemma history_with : forall ops, ops_okb ops init = true -> reach_with P (history ops).
  Proof.
    intros ops O. unfold history. destruct (run ops init) as [s|] eqn:E; [|apply rw_init].
    eapply ops_okb_ok; [apply rw_init | exact O | exact E].
  Qed.
End Check.

Definition carefulb (m : meth) (a : argument) (s : state) : bool :=
  match m with
  | MDest _ => negb (action_eqb (c_action (a_cfg a)) HELP) && negb (action_eqb (c_action (a_cfg a)) VERSION)
  | MNargs n => (n <? 2 ^ 63)%N && (negb (is_positional (c_type (a_cfg a))) || negb (n =? 0)%N)
  | _ => true
  end.
Lemma carefulb_ok : forall m a s, carefulb m a s = true -> p_meth careful m a s.
Proof.
  intros m a s H; destruct m; cbn [carefulb p_meth careful no_dest_on_help sane_nargs] in *; try (split; exact I).
  - split; [exact I|]. apply andb_prop in H as [H1 H2]. apply N.ltb_lt in H1. split; [exact H1|]. intros E. rewrite E in H2. simpl in H2.
    destruct (N.eqb_spec n 0); [discriminate | assumption].
  - split; [|exact I]. apply andb_prop in H as [H1 H2]. split; intros E; rewrite E in *; discriminate.
Qed.
Definition valid_onceb (m : meth) (_ : argument) (s : state) : bool :=
  match m with
  | MValid (Some v) del =>
      negb (existsb (Nat.eqb (v_id v)) (s_freed s)) &&
      forallb (fun wd => negb (Nat.eqb (v_id (fst wd)) (v_id v)) || (negb del && negb (snd wd))) (attached s)
  | _ => true
  end.
Lemma valid_onceb_ok : forall m a s, valid_onceb m a s = true -> p_meth valid_once m a s.
Proof.
  intros m a s H; destruct m; try exact I. destruct p as [v|]; [|exact I]. cbn in *. apply andb_prop in H as [H1 H2]. split.
  - intros B. apply negb_true_iff in H1. rewrite <- not_true_iff_false in H1. apply H1. apply existsb_exists. exists (v_id v). split; [exact B | apply Nat.eqb_refl].
  - intros w d Iw E. rewrite forallb_forall in H2. specialize (H2 _ Iw). cbn in H2. rewrite E, Nat.eqb_refl in H2. cbn in H2.
    apply andb_prop in H2 as [A B]. now apply negb_true_iff in A, B.
Qed.
Lemma careful_history : forall ops, ops_okb carefulb ops init = true -> reach_with careful (history ops).
Proof. intros ops O. apply (history_with careful carefulb); [intros; exact I | exact carefulb_ok | exact O]. Qed.
