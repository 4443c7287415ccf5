(** Proofs_Settings.v -- which calls change the name of the program, the version text, the
    modes and the settings of the usage. *)
From Verif Require Import Base Model_Utils Model_Number Model_Types Model_Argument Model_Usage Model_Args Model_Api Proofs_Base Proofs_Frame.

Definition kept (s s' : state) : Prop :=
  s_bin s' = s_bin s /\ s_verstr s' = s_verstr s /\ s_modes s' = s_modes s /\ s_usage s' = s_usage s.
Lemma kept_refl : forall s, kept s s. Proof. repeat split. Qed.
Lemma kept_trans : forall a b c, kept a b -> kept b c -> kept a c.
Proof. intros a b c (A1 & A2 & A3 & A4) (B1 & B2 & B3 & B4). repeat split; congruence. Qed.
Ltac cp := first
  [ apply keeps_ret; exact kept_refl | apply keeps_throw; exact kept_refl | apply keeps_ub; exact kept_refl
  | apply keeps_get; exact kept_refl | apply keeps_find_name; exact kept_refl
  | apply keeps_front; exact kept_refl | apply keeps_deref; exact kept_refl
  | apply keeps_pure; exact kept_refl
  | apply keeps_modify; solve [intros; repeat split; reflexivity] ].
Ltac cb := first [ cp | solve [auto with kept] | apply keeps_bind; [exact kept_trans | | intros ?] ].
Ltac cc := repeat first [ cb | match goal with
  | |- keeps kept (if ?b then _ else _) => destruct b
  | |- keeps kept (match ?b with _ => _ end) => destruct b end ].

Lemma kept_set_dyn : forall id f, keeps kept (set_dyn id f). Proof. intros id f s; repeat split. Qed.
Lemma kept_set_cfg : forall id f, keeps kept (set_cfg id f). Proof. intros id f s; repeat split. Qed.
Lemma kept_sort : keeps kept sort_args.
Proof. intros s; unfold sort_args; destruct (forallb has_name (s_args s)); repeat split. Qed.
Lemma kept_delete : forall c, keeps kept (delete_valid c). Proof. intros c s; repeat split. Qed.
Global Hint Resolve kept_set_dyn kept_set_cfg kept_sort kept_delete : kept.
Lemma kept_type : forall id, keeps kept (typeConstructor id).
Proof. intros; unfold typeConstructor. cc. Qed.
Lemma kept_defaultsC : forall id, keeps kept (defaultsConstructor id).
Proof. intros; unfold defaultsConstructor. cc. Qed.
Global Hint Resolve kept_type kept_defaultsC : kept.
Lemma kept_meth : forall id m, keeps kept (run_meth id m).
Proof.
  intros id []; cbn [run_meth]; [unfold flag | unfold action | unfold required | unfold help | unfold metavar | unfold nargs | unfold defaults | unfold valid | unfold dest_to]; cc.
Qed.
Global Hint Resolve kept_meth : kept.
Lemma kept_meths : forall ms id, keeps kept (run_meths id ms).
Proof. induction ms as [| m ms IH]; intros id; cbn [run_meths]; cc. Qed.
Lemma kept_register : forall c, keeps kept (register c).
Proof. intros; unfold register. cc. Qed.
Global Hint Resolve kept_meths kept_register : kept.
Lemma kept_add : forall ns, keeps kept (addArgument ns).
Proof. intros; unfold addArgument. cc. Qed.
Lemma kept_update : forall n, keeps kept (updateArgument n).
Proof. intros; unfold updateArgument. cc. Qed.
Lemma kept_remove_one : forall n, keeps kept (remove_one n).
Proof. intros; unfold remove_one. cc. Qed.
Global Hint Resolve kept_add kept_update kept_remove_one : kept.
Lemma kept_remove_loop : forall l, keeps kept (remove_loop l).
Proof. induction l as [| n l IH]; cbn [remove_loop]; cc. Qed.
Global Hint Resolve kept_remove_loop : kept.
Lemma kept_remove : forall ns, keeps kept (removeArguments ns).
Proof. intros; unfold removeArguments. cc. Qed.

Lemma kept_at : forall argv i, keeps kept (argv_at argv i).
Proof. intros; unfold argv_at; cc. Qed.
Lemma kept_slice : forall argv i j, keeps kept (argv_slice argv i j).
Proof. intros; unfold argv_slice; cc. Qed.
Lemma kept_push : forall id es, keeps kept (push_elems id es). Proof. intros; apply kept_set_dyn. Qed.
Lemma kept_clear_elems : forall id, keeps kept (clear_elems id). Proof. intros; apply kept_set_dyn. Qed.
Lemma kept_clear_unless : forall id, keeps kept (clear_unless_exists id). Proof. intros; apply kept_set_dyn. Qed.
Global Hint Resolve kept_at kept_slice kept_push kept_clear_elems kept_clear_unless : kept.
Lemma kept_eoi_short : forall b cs, keeps kept (eoi_short b cs).
Proof. intros b; induction cs as [|c cs IH]; cbn [eoi_short]; cc. Qed.
Global Hint Resolve kept_eoi_short : kept.
Lemma kept_eoi : forall w, keeps kept (endOfInfinite w).
Proof. intros; unfold endOfInfinite. cc. Qed.
Global Hint Resolve kept_eoi : kept.
Lemma kept_run : forall n id argv e i k, keeps kept (run_loop id argv e n i k).
Proof. induction n as [|n IH]; intros; cbn [run_loop]; cc. Qed.
Lemma kept_bad : forall {A} o, keeps kept (@bad_number A o). Proof. intros; unfold bad_number; cc. Qed.
Global Hint Resolve kept_run kept_bad : kept.
Lemma kept_group : forall fuel id n argv e m i k err, keeps kept err -> keeps kept (group_loop fuel id n argv e m i k err).
Proof. induction fuel as [|f IH]; intros; cbn [group_loop]; cc. Qed.
Global Hint Resolve kept_group : kept.
Lemma kept_parseArgument : forall fuel m argv i h o x id, keeps kept (parseArgument fuel m argv i h o x id).
Proof. intros; unfold parseArgument. cb; [cp |]. cb; [destruct h; destruct (c_type (a_cfg a)); cc | cc]. Qed.
Global Hint Resolve kept_parseArgument : kept.
Lemma kept_short_loop : forall cs fuel m argv i h x, keeps kept (short_loop fuel m argv i h x cs).
Proof. induction cs as [|c cs IH]; intros; cbn [short_loop]; cc. Qed.
Global Hint Resolve kept_short_loop : kept.
Lemma kept_parseShort : forall fuel m argv i w, keeps kept (parseShort fuel m argv i w).
Proof. intros; unfold parseShort. cc. Qed.
Lemma kept_parseLong : forall fuel m argv i w, keeps kept (parseLong fuel m argv i w).
Proof. intros; unfold parseLong. cc. Qed.
Lemma kept_parsePositional : forall fuel argc argv i e, keeps kept (parsePositional fuel argc argv i e).
Proof. intros; unfold parsePositional. cc; apply kept_group; cc. Qed.
Global Hint Resolve kept_parseShort kept_parseLong kept_parsePositional : kept.
Lemma kept_end_loop : forall fuel g argv i, keeps kept (end_loop fuel g argv i).
Proof. induction fuel as [|f IH]; intros; cbn [end_loop]; cc. Qed.
Global Hint Resolve kept_end_loop : kept.
Lemma kept_parse_loop : forall fuel g argv e i, keeps kept (parse_loop fuel g argv e i).
Proof. induction fuel as [|f IH]; intros; cbn [parse_loop]; cc. Qed.
Lemma kept_validate : forall a v, keeps kept (validate a v).
Proof. intros; unfold validate. destruct (v_fn v _) as [[] vs|msg|]; cc. Qed.
Lemma kept_toDest : forall id, keeps kept (toDest id).
Proof. intros; unfold toDest. cc. Qed.
Lemma kept_toNumber : forall id, keeps kept (toNumber id).
Proof. intros; unfold toNumber. cc. Qed.
Global Hint Resolve kept_validate kept_toDest kept_toNumber : kept.
Lemma kept_finish : forall ids, keeps kept (finish ids).
Proof. induction ids as [|id ids IH]; cbn [finish]; [cp |]. cb; [unfold finish_one; cc | exact IH]. Qed.
Lemma kept_print_or_throw : forall p b k t, keepsC kept (print_or_throw p b k t).
Proof.
  intros p b k t s s' r. unfold print_or_throw, bind, get. destruct p as [p|].
  - destruct (find_ptr p (s_args s)) as [a|]; [|cbv; intros E C; injection E as <- <-; destruct C].
    destruct (d_exist (a_dyn a)).
    + destruct t; try (cbv; intros E C; injection E as <- <-; destruct C).
      destruct b; simpl; intros E C; injection E as <- <-; [apply kept_refl | destruct C].
    + simpl; intros E _; injection E as <- <-; apply kept_refl.
  - simpl; intros E _; injection E as <- <-; apply kept_refl.
Qed.
Lemma kept_after_scan : keepsC kept after_scan.
Proof.
  unfold after_scan. apply keepsC_bind; [exact kept_trans| |intros _].
  - unfold check_help. apply keepsC_bind; [exact kept_trans | apply keepsC_of; cp | intros; apply kept_print_or_throw].
  - apply keepsC_bind; [exact kept_trans| |intros _].
    + unfold check_version. apply keepsC_bind; [exact kept_trans | apply keepsC_of; cp | intros; apply kept_print_or_throw].
    + apply keepsC_of. cb; [unfold check_required; cc |]. cb; [cp | apply kept_finish].
Qed.
Lemma kept_help_setup : keeps kept help_setup.
Proof. unfold help_setup. cc; try exact (kept_meth _ (MAction _)); try exact (kept_meth _ (MHelp _)). Qed.
