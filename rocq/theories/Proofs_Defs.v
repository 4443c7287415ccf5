(** Proofs_Defs.v -- what clear() would restore: parsing adds only elements whose default is
    empty, and never changes the default of an element. *)
From Verif Require Import Base Model_Utils Model_Number Model_Types Model_Argument Model_Usage Model_Args Model_Api
  Spec_Reading Spec_Parse Spec_Decl Spec_Finish Spec_History Spec_Api Spec_Result Proofs_Base Proofs_Frame Proofs_Inv Proofs_Reading Proofs_Parse Proofs_Finish Proofs_Quiet Proofs_Central Proofs_Dyn Proofs_Fresh Properties_Parse Properties_Repeat.

Section Defs.
Variable D : nat -> str -> Prop.
Definition okl (id : nat) (l : leaf) : Prop := lf_def l = "" \/ D id (lf_def l).
Definition oke (a : argument) (e : elem) : Prop :=
  (grouped (c_type (a_cfg a)) = false -> okl (a_id a) (el_leaf e)) /\ Forall (okl (a_id a)) (el_subs e).
Definition oka (a : argument) : Prop := has_values (a_cfg a) = true -> Forall (oke a) (d_elems (a_dyn a)).
Definition oks (s : state) : Prop := Forall oka (s_args s).

Definition keepsD {A} (m : M A) : Prop := forall s, oks s -> oks (fst (m s)).
Lemma keepsD_bind : forall {A B} (m : M A) (f : A -> M B), keepsD m -> (forall a, keepsD (f a)) -> keepsD (bind m f).
Proof. intros A B m f Hm Hf s P. unfold bind. specialize (Hm s P). destruct (m s) as [s1 [a|e|o| |]]; cbn [fst] in *; try exact Hm. now apply Hf. Qed.
Lemma keepsD_pure : forall {A} (m : M A), (forall s, fst (m s) = s) -> keepsD m.
Proof. intros A m H s P. now rewrite H. Qed.
Lemma okl_empty : forall id w, okl id (mk_leaf w ""). Proof. intros. now left. Qed.
Lemma oke_word : forall a w, oke a (word_elem w). Proof. intros. split; [intros _; apply okl_empty | constructor]. Qed.
Lemma oke_group : forall a ws, oke a (group_elem ws).
Proof. intros. split; [intros _; apply okl_empty|]. cbn [group_elem el_subs]. apply Forall_forall. intros l H. apply in_map_iff in H. destruct H as [w [<- _]]. apply okl_empty. Qed.
Definition keeps_elems (f : adyn -> adyn) : Prop := forall a, Forall (oke a) (d_elems (a_dyn a)) -> Forall (oke a) (d_elems (f (a_dyn a))).
Lemma keepsD_set : forall id f, keeps_elems f -> keepsD (set_dyn id f).
Proof.
  intros id f H s P. unfold oks in *. cbn. unfold upd_id. rewrite Forall_forall in *. intros x Hx. apply in_map_iff in Hx. destruct Hx as [a [E Ia]]. specialize (P a Ia).
  destruct (Nat.eqb (a_id a) id); subst x; [|exact P]. intro V. exact (H a (P V)).
Qed.
Lemma keeps_same : forall f, (forall d, d_elems (f d) = d_elems d) -> keeps_elems f.
Proof. intros f H a P. rewrite H. exact P. Qed.
Lemma keeps_add : forall es, (forall a, Forall (oke a) es) -> keeps_elems (fun d => dyn_elems d (d_elems d ++ es)).
Proof. intros es H a P. cbn. apply Forall_app. split; [exact P | apply H]. Qed.
Lemma keeps_nil : keeps_elems (fun d => dyn_elems d []). Proof. intros a P. constructor. Qed.
Lemma keeps_first : keeps_elems (fun d => if d_exist d then d else dyn_elems d []).
Proof. intros a P. cbn. destruct (d_exist (a_dyn a)); [exact P | constructor]. Qed.

Ltac dpure := apply keepsD_pure; intros ?; reflexivity.
Ltac db := apply keepsD_bind; [| intros ?].
Lemma kd_at : forall argv i, keepsD (argv_at argv i).
Proof. intros; unfold argv_at; destruct (nth_error argv i); dpure. Qed.
Lemma kd_slice : forall argv i j, keepsD (argv_slice argv i j).
Proof. intros; unfold argv_slice; destruct (argv_range argv i (j - i)); dpure. Qed.
Lemma kd_front : forall l, keepsD (front l).
Proof. intros [|x l]; dpure. Qed.
Lemma kd_eoi : forall w, keepsD (endOfInfinite w).
Proof. intros. apply keepsD_pure. apply eoi_fst. Qed.
Lemma kd_push_words : forall id ws, keepsD (push_elems id (map word_elem ws)).
Proof. intros. apply keepsD_set, keeps_add. intros a. apply Forall_forall. intros e H. apply in_map_iff in H. destruct H as [w [<- _]]. apply oke_word. Qed.
Lemma kd_push_word : forall id w, keepsD (push_elems id [word_elem w]).
Proof. intros. apply keepsD_set, keeps_add. intros a. constructor; [apply oke_word | constructor]. Qed.
Lemma kd_push_group : forall id ws, keepsD (push_elems id [group_elem ws]).
Proof. intros. apply keepsD_set, keeps_add. intros a. constructor; [apply oke_group | constructor]. Qed.
Lemma kd_clear : forall id, keepsD (clear_elems id).
Proof. intros. apply keepsD_set, keeps_nil. Qed.
Lemma kd_first : forall id, keepsD (clear_unless_exists id).
Proof. intros. apply keepsD_set, keeps_first. Qed.
Lemma kd_run : forall n id argv e i k, keepsD (run_loop id argv e n i k).
Proof.
  induction n as [|n IH]; intros; simpl; [dpure|]. db; [apply kd_at|]. db; [destruct e; [dpure | apply kd_eoi]|].
  destruct a0; [dpure|]. db; [apply kd_push_word | apply IH].
Qed.
Lemma kd_group : forall fuel id n argv e m i k err, keepsD err -> keepsD (group_loop fuel id n argv e m i k err).
Proof.
  induction fuel as [|f IH]; intros; simpl; [dpure|]. destruct (Nat.ltb i m); [|dpure].
  db; [apply kd_at|]. db; [destruct e; [dpure | apply kd_eoi]|]. destruct a0; [dpure|]. destruct (_ <? _)%N; [assumption|].
  db; [apply kd_slice|]. db; [apply kd_push_group|]. now apply IH.
Qed.
Ltac dq := repeat first [ dpure | apply kd_at | apply kd_slice | apply kd_front | apply kd_push_words | apply kd_push_word | apply kd_push_group | apply kd_clear | apply kd_first
                        | apply kd_run | apply kd_group | (apply keepsD_set, keeps_same; intros ?; reflexivity) | (apply keepsD_pure, deref_fst) | db
                        | match goal with |- keepsD (if ?b then _ else _) => destruct b end ].
Lemma kd_parseArgument : forall fuel m argv i h o x id, keepsD (parseArgument fuel m argv i h o x id).
Proof. intros; unfold parseArgument. db; [dq|]. db; [|dq]. destruct h; destruct (c_type (a_cfg a)); dq. Qed.
Lemma kd_short_loop : forall cs fuel m argv i h x, keepsD (short_loop fuel m argv i h x cs).
Proof.
  induction cs as [|c cs IH]; intros; simpl.
  - db; [dpure|]. destruct a; [apply kd_parseArgument | dpure].
  - destruct cs as [|c' cs]; [db; [dpure|]; destruct a; [apply kd_parseArgument | dpure]|].
    db; [dpure|]. destruct a as [id|]; [|dpure]. db; [apply keepsD_pure, deref_fst|].
    destruct (negb h && takes_value (c_type (a_cfg a))); [db; [dq | apply kd_parseArgument]|].
    destruct (negb (is_bool_option (c_type (a_cfg a)))); [dpure|].
    db; [dq | apply IH].
Qed.
Lemma kd_parseShort : forall fuel m argv i w, keepsD (parseShort fuel m argv i w).
Proof.
  intros; unfold parseShort. destruct (takeArg w) as [[h o] x]. db; [dpure|].
  destruct (if m_alternative (s_modes a) then _ else None); [apply kd_parseArgument | apply kd_short_loop].
Qed.
Lemma kd_parseLong : forall fuel m argv i w, keepsD (parseLong fuel m argv i w).
Proof. intros; unfold parseLong. destruct (takeArg w) as [[h o] x]. db; [dpure|]. destruct a; [apply kd_parseArgument | dpure]. Qed.
Lemma kd_parsePositional : forall fuel argc argv i e, keepsD (parsePositional fuel argc argv i e).
Proof.
  intros fuel argc argv i e. unfold parsePositional. db; [dpure|]. destruct (next_positional a) as [b|].
  - db; [|dq]. destruct (c_type (a_cfg b)); dq.
  - db; [dq|]. destruct (m_strict (s_modes a)); [dpure|]. db; [|dpure]. intros s P. exact P.
Qed.
Lemma kd_end_loop : forall fuel g argv i, keepsD (end_loop fuel g argv i).
Proof. induction fuel as [|f IH]; intros; simpl; [dpure|]. destruct (Nat.ltb _ _); [|dpure]. db; [apply kd_parsePositional | apply IH]. Qed.
Lemma kd_parse_loop : forall fuel g argv e i, keepsD (parse_loop fuel g argv e i).
Proof.
  induction fuel as [|f IH]; intros; simpl; [dpure|]. destruct (Nat.ltb _ _); [|dpure]. db; [apply kd_at|].
  destruct (isShortOption a); [db; [apply kd_parseShort | apply IH]|].
  destruct (isLongOption a); [db; [apply kd_parseLong | apply IH]|].
  destruct (isEndOption a); [apply kd_end_loop|]. db; [apply kd_parsePositional | apply IH].
Qed.
Lemma kd_scan : forall fuel argv, keepsD (scan fuel argv).
Proof.
  intros; unfold scan. db; [|apply kd_parse_loop]. unfold set_binary. db; [dpure|]. destruct (s_bin a); [|dpure].
  db; [apply kd_at|]. intros s P. exact P.
Qed.
(** clearing, validating, numbers *)
Lemma oka_same : forall a a', a_id a' = a_id a -> a_cfg a' = a_cfg a ->
  (has_values (a_cfg a) = true -> Forall (oke a) (d_elems (a_dyn a'))) -> oka a'.
Proof. intros a a' E1 E2 F V. rewrite E2 in V. specialize (F V). eapply Forall_impl; [|exact F]. intros e [H1 H2]. unfold oke. rewrite E1, E2. now split. Qed.
Lemma okl_def : forall id l l', lf_def l' = lf_def l -> okl id l -> okl id l'.
Proof. unfold okl. intros id l l' ->. auto. Qed.
Lemma oka_clear : forall a, oka a -> oka (clear_arg a).
Proof.
  intros a H. eapply oka_same; [reflexivity | reflexivity|]. intro V. specialize (H V). cbn. rewrite Forall_forall in *. intros e He. apply in_map_iff in He. destruct He as [x [<- Ix]].
  destruct (H x Ix) as [H1 H2]. split; [intro G; exact (H1 G)|]. cbn. rewrite Forall_forall in *. intros l Hl. apply in_map_iff in Hl. destruct Hl as [y [<- Iy]]. exact (H2 y Iy).
Qed.
Lemma oka_nums : forall a t d, Forall (oke a) (d_elems d) -> Forall (oke a) (d_elems (num_dyn t d)).
Proof.
  assert (X : forall a e, oke a e -> oke a (num_elem e)).
  { intros a e [H1 H2]. unfold num_elem. destruct (el_subs e) as [|l ls]; split; cbn [el_leaf el_subs]; try exact H1; [constructor|].
    rewrite Forall_forall in *. intros x Hx. apply in_map_iff in Hx. destruct Hx as [y [<- Iy]]. exact (H2 y Iy). }
  intros a t d H. unfold num_dyn. destruct t; try exact H; destruct (d_elems d) as [|e es] eqn:E; cbn [d_elems]; rewrite ?E; try exact H; try (constructor; fail).
  all: rewrite <- E in *; try exact H; cbn; rewrite Forall_forall in *; intros x Hx; apply in_map_iff in Hx; destruct Hx as [y [<- Iy]]; apply X, H, Iy.
Qed.
Lemma store_elems_ok : forall a es vs, Forall (oke a) es -> Forall (oke a) (store_elems es vs).
Proof.
  intros a es. induction es as [|e es IH]; intros vs F; [exact F|]. destruct vs as [|v vs]; [exact F|]. inversion_clear F as [|? ? [H1 H2] F']. cbn [store_elems].
  constructor; [split; [exact H1 | exact H2] | now apply IH].
Qed.
Lemma store_leaves_ok : forall id ls vs, Forall (okl id) ls -> Forall (okl id) (fst (store_leaves ls vs)).
Proof.
  intros id ls. induction ls as [|l ls IH]; intros vs F; [exact F|]. destruct vs as [|v vs]; [exact F|]. inversion_clear F as [|? ? H F']. cbn [store_leaves].
  specialize (IH vs F'). destruct (store_leaves ls vs) as [r rest]. constructor; [exact H | exact IH].
Qed.
Lemma store_groups_ok : forall a es vs, Forall (oke a) es -> Forall (oke a) (store_groups es vs).
Proof.
  intros a es. induction es as [|e es IH]; intros vs F; [exact F|]. inversion_clear F as [|? ? [H1 H2] F']. cbn [store_groups].
  pose proof (store_leaves_ok (a_id a) (el_subs e) vs H2) as L. destruct (store_leaves (el_subs e) vs) as [ls rest].
  constructor; [split; [exact H1 | exact L] | now apply IH].
Qed.
Lemma oka_finished : forall a, oka a -> oka (finished a).
Proof.
  intros a H. eapply (oka_same a); [apply finished_id | apply finished_cfg|]. intro HV. specialize (H HV). unfold finished. cbn [a_dyn arg_dyn]. apply oka_nums.
  unfold checked. destruct (c_valid (a_cfg a)) as [v|]; [|exact H]. destruct (d_exist (a_dyn a)); [|exact H].
  destruct (v_fn v (plain_values a)) as [[] vs| |]; try exact H. cbn [a_dyn arg_dyn]. unfold stored.
  destruct (c_type (a_cfg a)); try exact H; try (destruct vs; exact H); cbn [d_elems dyn_elems]; [> apply store_elems_ok, H .. ] || idtac.
  all: first [apply store_elems_ok, H | apply store_groups_ok, H].
Qed.
Lemma Forall_map_ok : forall (f : argument -> argument) l, (forall a, oka a -> oka (f a)) -> Forall oka l -> Forall oka (map f l).
Proof. intros f l H F. rewrite Forall_forall in *. intros x Hx. apply in_map_iff in Hx. destruct Hx as [a [<- Ia]]. apply H, F, Ia. Qed.
Lemma Finish_oks : forall s s1 r, Finish s s1 r -> completed r -> oks s -> oks s1.
Proof.
  intros s s1 r F C H. unfold oks in *. destruct F.
  - destruct (m_helpex (s_modes s)); [exact H | destruct C].
  - destruct (m_verex (s_modes s)); [exact H | destruct C].
  - exact H.
  - unfold stopped. cbn [s_args with_dlog with_args]. rewrite H3 in H. apply Forall_app in H. destruct H as [HB HA]. inversion_clear HA as [|? ? Ha HA'].
    apply Forall_app. split; [apply Forall_map_ok; [exact oka_finished | exact HB]|]. constructor; [|exact HA']. destruct (refusal a); [exact Ha | now apply oka_finished].
  - cbn [s_args with_dlog with_args]. apply Forall_map_ok; [exact oka_finished | exact H].
Qed.
Lemma parse_oks : forall s argv s1 r, usable s -> interprets s -> parseArguments argv s = (s1, r) -> completed r -> oks (ready s) -> oks s1.
Proof.
  intros s argv s1 r U I E C H. pose proof (usable_wf0 s U) as W. pose proof (usable_ready s U) as UR.
  assert (P : pointers_ok s) by apply U.
  assert (WR : wf0 (prepared s)) by (rewrite (prepared_ready s W); apply wf0_cleared, usable_wf0, UR).
  assert (P0 : pointers_ok (prepared s)).
  { rewrite (prepared_ready s W). eapply pointers_frame; [apply frame_clear_args | apply UR]. }
  assert (K0 : oks (prepared s)).
  { rewrite (prepared_ready s W). unfold cleared, oks. cbn [s_args with_args]. apply Forall_map_ok; [exact oka_clear | exact H]. }
  pose proof (kd_scan (parse_fuel argv s) argv (prepared s) K0) as Q.
  destruct (parse_split s argv W P I) as [[s0 [S A]]|[s0 [r0 [S [A _]]]]].
  - rewrite S in Q. cbn [fst] in Q.
    assert (Fr : frame (prepared s) s0) by (pose proof (frame_scan (parse_fuel argv s) argv (prepared s)) as X; rewrite S in X; exact X).
    pose proof (after_scan_cases s0 (frame_wf0 _ _ WR Fr) (pointers_frame _ _ Fr P0)) as F. rewrite <- A, E in F. cbn [fst snd] in F.
    eapply Finish_oks; eassumption.
  - rewrite S in Q. rewrite A in E. apply (f_equal fst) in E. cbn [fst] in E. now subst.
Qed.
Lemma reparsed_oks : forall P s s1, usable s -> interprets s -> reparsed P s s1 -> oks (ready s) -> oks (ready s1).
Proof.
  intros P s s1 U I R H. induction R as [|s1 argv ws s2 r R IH L E C _]; [exact H|].
  destruct (reparsed_resumed P s s1 U I R) as [U1 I1 _ _ _].
  destruct (parse_resumed s1 argv s2 r U1 I1 E C) as [_ [H2 _]]. rewrite (ready_some s2 H2). eapply parse_oks; eauto.
Qed.
End Defs.

