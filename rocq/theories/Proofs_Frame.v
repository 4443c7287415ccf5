(** Proofs_Frame.v -- parsing changes only the dynamic part of arguments, the
    binary name, the additional arguments and the destinations. *)
From Verif Require Import Base Model_Utils Model_Number Model_Types Model_Argument Model_Usage Model_Args Model_Api Proofs_Base.

(** identity and declaration of the listed arguments *)
Definition static (a : argument) : nat * nat * acfg := (a_id a, a_gen a, a_cfg a).

(** all that parsing does not change *)
Record frame (s s' : state) : Prop := Frame {
  fr_args : map static (s_args s') = map static (s_args s);
  fr_map : s_map s' = s_map s;
  fr_help : s_help s' = s_help s;
  fr_version : s_version s' = s_version s;
  fr_verstr : s_verstr s' = s_verstr s;
  fr_modes : s_modes s' = s_modes s;
  fr_usage : s_usage s' = s_usage s;
  fr_freed : s_freed s' = s_freed s
}.
Lemma frame_refl : forall s, frame s s. Proof. intros; constructor; reflexivity. Qed.
Lemma frame_trans : forall a b c, frame a b -> frame b c -> frame a c.
Proof. intros a b c [] []; constructor; congruence. Qed.
Lemma frame_sym : forall a b, frame a b -> frame b a.
Proof. intros a b []; constructor; congruence. Qed.

Lemma static_upd_dyn : forall id f l,
  map static (upd_id id (fun a => arg_dyn a (f (a_dyn a))) l) = map static l.
Proof.
  intros. unfold upd_id. rewrite map_map. apply map_ext. intros a. now destruct (Nat.eqb (a_id a) id).
Qed.

Ltac kp := first
  [ apply keeps_ret; exact frame_refl | apply keeps_throw; exact frame_refl | apply keeps_ub; exact frame_refl
  | apply keeps_get; exact frame_refl | apply keeps_find_name; exact frame_refl
  | apply keeps_front; exact frame_refl | apply keeps_deref; exact frame_refl
  | apply keeps_pure; exact frame_refl ].
Ltac kb := first [ kp | apply keeps_bind; [exact frame_trans | | intros ?] ].

Lemma frame_set_dyn : forall id f, keeps frame (set_dyn id f).
Proof.
  intros id f s; constructor; try reflexivity. simpl. apply static_upd_dyn.
Qed.
Lemma frame_push : forall id es, keeps frame (push_elems id es). Proof. intros; apply frame_set_dyn. Qed.
Lemma frame_clear : forall id, keeps frame (clear_elems id). Proof. intros; apply frame_set_dyn. Qed.
Lemma frame_clear_unless : forall id, keeps frame (clear_unless_exists id). Proof. intros; apply frame_set_dyn. Qed.
Lemma frame_at : forall argv i, keeps frame (argv_at argv i).
Proof. intros; unfold argv_at; destruct (nth_error argv i); kp. Qed.
Lemma frame_slice : forall argv i j, keeps frame (argv_slice argv i j).
Proof. intros; unfold argv_slice; destruct (argv_range argv i (j - i)); kp. Qed.
Global Hint Resolve frame_set_dyn frame_push frame_clear frame_clear_unless frame_at frame_slice : frame.

Lemma frame_eoi_short : forall b cs, keeps frame (eoi_short b cs).
Proof.
  intros b; induction cs as [|c cs IH]; simpl; [repeat kb|].
  destruct cs as [|c' cs]; [repeat kb|].
  kb; [kp|]. destruct a as [id|]; [|kp]. kb; [kp|].
  destruct (negb b && takes_value (c_type (a_cfg a))); [kp|].
  destruct (is_bool_option (c_type (a_cfg a))); [kp|]. exact IH.
Qed.
Lemma frame_eoi : forall w, keeps frame (endOfInfinite w).
Proof.
  intros w; unfold endOfInfinite. destruct (isShortOption w).
  - destruct (takeArg w) as [[h o] x]. kb; [kp|]. destruct (m_alternative _ && _); [kp | apply frame_eoi_short].
  - destruct (isLongOption w); [|kp]. destruct (takeArg w) as [[h o] x]. repeat kb.
Qed.
Global Hint Resolve frame_eoi : frame.
Lemma frame_run : forall n id argv e i k, keeps frame (run_loop id argv e n i k).
Proof.
  induction n as [|n IH]; intros; simpl; [kp|].
  kb; [auto with frame|]. kb; [destruct e; [kp | auto with frame]|].
  destruct a0; [kp|]. kb; [auto with frame | apply IH].
Qed.
Lemma frame_group : forall fuel id n argv e m i k err, keeps frame err -> keeps frame (group_loop fuel id n argv e m i k err).
Proof.
  induction fuel as [|f IH]; intros; simpl; [kp|].
  destruct (Nat.ltb i m); [|kp].
  kb; [auto with frame|]. kb; [destruct e; [kp | auto with frame]|].
  destruct a0; [kp|]. destruct (_ <? _)%N; [assumption|].
  kb; [auto with frame|]. kb; [auto with frame|]. now apply IH.
Qed.
Lemma frame_bad : forall {A} o, keeps frame (@bad_number A o). Proof. intros; unfold bad_number; kp. Qed.
Global Hint Resolve frame_run frame_group frame_bad : frame.
Ltac kk := repeat first [ kp | solve [auto with frame] | kb
                        | match goal with |- keeps frame (if ?b then _ else _) => destruct b end ].

Lemma frame_parseArgument : forall fuel m argv i h o x id, keeps frame (parseArgument fuel m argv i h o x id).
Proof.
  intros; unfold parseArgument. kb; [kp|]. kb; [|kk].
  destruct h; destruct (c_type (a_cfg a)); kk.
Qed.
Global Hint Resolve frame_parseArgument : frame.
Lemma frame_short_loop : forall cs fuel m argv i h x, keeps frame (short_loop fuel m argv i h x cs).
Proof.
  induction cs as [|c cs IH]; intros; simpl.
  - kb; [kp|]. destruct a; kk.
  - destruct cs as [|c' cs]; [kb; [kp|]; destruct a; kk|].
    kb; [kp|]. destruct a as [id|]; [|kp]. kb; [kp|].
    destruct (negb h && takes_value (c_type (a_cfg a))); [kk|].
    destruct (negb (is_bool_option (c_type (a_cfg a)))); [kk|].
    kb; [auto with frame | apply IH].
Qed.
Global Hint Resolve frame_short_loop : frame.
Lemma frame_parseShort : forall fuel m argv i w, keeps frame (parseShort fuel m argv i w).
Proof.
  intros; unfold parseShort. destruct (takeArg w) as [[h o] x]. kb; [kp|].
  destruct (if m_alternative (s_modes a) then _ else None); auto with frame.
Qed.
Lemma frame_parseLong : forall fuel m argv i w, keeps frame (parseLong fuel m argv i w).
Proof.
  intros; unfold parseLong. destruct (takeArg w) as [[h o] x]. kb; [kp|]. destruct a; kk.
Qed.
Lemma frame_parsePositional : forall fuel argc argv i e, keeps frame (parsePositional fuel argc argv i e).
Proof.
  intros; unfold parsePositional. kb; [kp|]. destruct (next_positional a) as [b|].
  - kb; [|kk]. destruct (c_type (a_cfg b)); kk; apply frame_group; kk.
  - kb; [auto with frame|]. destruct (m_strict _); [kp|]. kb; [|kp].
    apply keeps_modify. intros s; constructor; reflexivity.
Qed.
Global Hint Resolve frame_parseShort frame_parseLong frame_parsePositional : frame.
Lemma frame_end_loop : forall fuel g argv i, keeps frame (end_loop fuel g argv i).
Proof. induction fuel as [|f IH]; intros; simpl; kk. Qed.
Global Hint Resolve frame_end_loop : frame.
Lemma frame_parse_loop : forall fuel g argv e i, keeps frame (parse_loop fuel g argv e i).
Proof. induction fuel as [|f IH]; intros; simpl; kk. Qed.
Lemma frame_set_binary : forall argv, keeps frame (set_binary argv).
Proof.
  intros; unfold set_binary. kb; [kp|]. destruct (s_bin a); kk.
  apply keeps_modify; intros s; constructor; reflexivity.
Qed.
Lemma frame_scan : forall fuel argv, keeps frame (scan fuel argv).
Proof. intros; unfold scan. kb; [apply frame_set_binary | apply frame_parse_loop]. Qed.
Lemma frame_validate : forall a v, keeps frame (validate a v).
Proof.
  intros; unfold validate. destruct (v_fn v _) as [[] vs|msg|]; kk.
  destruct (c_type (a_cfg a)); kk; destruct vs; kk.
Qed.
Global Hint Resolve frame_validate : frame.
Lemma frame_toDest : forall id, keeps frame (toDest id).
Proof.
  intros; unfold toDest. kb; [kp|]. destruct (c_dest (a_cfg a)) as [d|]; [|kp].
  destruct (dest_events a d) as [evs o]. kb.
  - apply keeps_modify; intros s; constructor; reflexivity.
  - destruct o; kp.
Qed.
Lemma frame_finish_one : forall id, keeps frame (finish_one id).
Proof.
  intros; unfold finish_one. kb; [kp|]. kb.
  - destruct (c_valid (a_cfg a)); kk.
  - kb; [unfold toNumber; kk | apply frame_toDest].
Qed.
Lemma frame_finish : forall ids, keeps frame (finish ids).
Proof. induction ids as [|id ids IH]; simpl; [kp|]. kb; [apply frame_finish_one | exact IH]. Qed.
Lemma frame_check_required : keeps frame check_required.
Proof. unfold check_required. kb; [kp|]. destruct (find _ _); kk. destruct (c_type _); kk. Qed.
Lemma frame_clear_args : forall s, frame s (with_args s (map clear_arg (s_args s))).
Proof. intros s; constructor; try reflexivity. simpl. rewrite map_map. reflexivity. Qed.

(* ------------------------------------------------------------------ *)
(** relations kept by calls that complete (return or throw) *)
Definition keepsC (R : state -> state -> Prop) {A} (m : M A) : Prop :=
  forall s s' r, m s = (s', r) -> completed r -> R s s'.
Lemma keepsC_of : forall R {A} (m : M A), keeps R m -> keepsC R m.
Proof. intros R A m H s s' r E _. specialize (H s). now rewrite E in H. Qed.
Lemma keepsC_bind : forall (R : state -> state -> Prop), (forall a b c, R a b -> R b c -> R a c) ->
  forall {A B} (m : M A) (f : A -> M B), keepsC R m -> (forall a, keepsC R (f a)) -> keepsC R (bind m f).
Proof.
  intros R T A B m f Hm Hf s s' r E C. unfold bind in E.
  destruct (m s) as [s1 [a|e|o| |]] eqn:Em; try (injection E as <- <-; destruct C).
  - eapply T; [eapply Hm; [exact Em | exact I] | eapply Hf; eassumption].
  - eapply Hm; [exact Em | exact I].
Qed.
Lemma frame_print_or_throw : forall p b k t, keepsC frame (print_or_throw p b k t).
Proof.
  intros p b k t s s' r. unfold print_or_throw, bind, get. destruct p as [p|].
  - destruct (find_ptr p (s_args s)) as [a|]; [|cbv; intros E C; injection E as <- <-; destruct C].
    destruct (d_exist (a_dyn a)).
    + destruct t; try (cbv; intros E C; injection E as <- <-; destruct C).
      destruct b; simpl; intros E C; injection E as <- <-; [apply frame_refl | destruct C].
    + simpl; intros E _; injection E as <- <-; apply frame_refl.
  - simpl; intros E _; injection E as <- <-; apply frame_refl.
Qed.
Lemma frame_after_scan : keepsC frame after_scan.
Proof.
  unfold after_scan. apply keepsC_bind; [exact frame_trans| |intros _].
  - unfold check_help. apply keepsC_bind; [exact frame_trans | apply keepsC_of; kp | intros; apply frame_print_or_throw].
  - apply keepsC_bind; [exact frame_trans| |intros _].
    + unfold check_version. apply keepsC_bind; [exact frame_trans | apply keepsC_of; kp | intros; apply frame_print_or_throw].
    + apply keepsC_of. kb; [apply frame_check_required|]. kb; [kp | apply frame_finish].
Qed.
