(** Proofs_Ghost.v -- no call looks at the two logs (deleted validators, writes to
    destinations): they are only appended to.  Used for C05. *)
From Verif Require Import Base Model_Utils Model_Number Model_Types Model_Argument Model_Usage Model_Args Model_Api Proofs_Base.

(** the same state with longer logs *)
Definition ghost (f : list nat) (d : list devent) (s : state) : state :=
  with_dlog (with_freed s (f ++ s_freed s)) (d ++ s_dlog s).
Definition eqv {A} (m : M A) : Prop := forall f d s, m (ghost f d s) = (ghost f d (fst (m s)), snd (m s)).

Lemma eqv_ret : forall {A} (a : A), eqv (ret a). Proof. intros A a f d s. reflexivity. Qed.
Lemma eqv_throw : forall {A} k x y, eqv (@throw A k x y). Proof. intros A k x y f d s. reflexivity. Qed.
Lemma eqv_ub : forall {A}, eqv (@ub A). Proof. intros A f d s. reflexivity. Qed.
Lemma eqv_pure : forall {A} (r : res A), eqv (fun s => (s, r)). Proof. intros A r f d s. reflexivity. Qed.
Lemma eqv_find_name : forall n, eqv (find_name n). Proof. intros n f d s. reflexivity. Qed.
Lemma eqv_front : forall l, eqv (front l). Proof. intros [|x l]; [apply eqv_ub | apply eqv_ret]. Qed.
Lemma eqv_deref : forall id, eqv (deref id).
Proof. intros id f d s. unfold deref. change (s_args (ghost f d s)) with (s_args s). destruct (find_id id (s_args s)); reflexivity. Qed.
Lemma eqv_modify : forall g, (forall f d s, g (ghost f d s) = ghost f d (g s)) -> eqv (modify g).
Proof. intros g H f d s. unfold modify. simpl. now rewrite H. Qed.
Lemma eqv_bind : forall {A B} (m : M A) (k : A -> M B), eqv m -> (forall a, eqv (k a)) -> eqv (bind m k).
Proof.
  intros A B m k Hm Hk f d s. unfold bind. rewrite Hm. destruct (m s) as [s1 r]. simpl. destruct r; try reflexivity. apply Hk.
Qed.
Lemma eqv_get : forall {B} (k : state -> M B), (forall f d s, k (ghost f d s) = k s) -> (forall s, eqv (k s)) -> eqv (bind get k).
Proof. intros B k H1 H2 f d s. unfold bind, get. rewrite H1. apply H2. Qed.
Lemma eqv_set_dyn : forall id g, eqv (set_dyn id g). Proof. intros id g. apply eqv_modify. reflexivity. Qed.
Lemma eqv_set_cfg : forall id g, eqv (set_cfg id g). Proof. intros id g. apply eqv_modify. reflexivity. Qed.
Lemma eqv_sort : eqv sort_args.
Proof. intros f d s. unfold sort_args. change (s_args (ghost f d s)) with (s_args s). destruct (forallb _ _); reflexivity. Qed.
Lemma eqv_delete : forall c, eqv (delete_valid c).
Proof. intros c. apply eqv_modify. intros f d s. unfold ghost, with_freed, with_dlog. simpl. now rewrite app_assoc. Qed.

Ltac ek := match goal with
  | |- eqv (ret _) => apply eqv_ret
  | |- eqv (throw _ _ _) => apply eqv_throw
  | |- eqv ub => apply eqv_ub
  | |- eqv (find_name _) => apply eqv_find_name
  | |- eqv (front _) => apply eqv_front
  | |- eqv (deref _) => apply eqv_deref
  | |- eqv (set_dyn _ _) => apply eqv_set_dyn
  | |- eqv (set_cfg _ _) => apply eqv_set_cfg
  | |- eqv sort_args => apply eqv_sort
  | |- eqv (delete_valid _) => apply eqv_delete
  | |- eqv (fun s => (s, _)) => apply eqv_pure
  | |- eqv (modify _) => apply eqv_modify; solve [reflexivity]
  end.
Ltac es := repeat first
  [ assumption | ek
  | match goal with
    | |- eqv (bind get _) => apply eqv_get; [solve [reflexivity] | intros ?]
    | |- eqv (bind _ _) => apply eqv_bind; [| intros ?]
    | |- eqv (let _ := _ in _) => progress cbv zeta
    | |- eqv (if ?b then _ else _) => destruct b
    | |- eqv (match ?x with _ => _ end) => destruct x
    end ].

Lemma eqv_typeConstructor : forall id, eqv (typeConstructor id).
Proof. intros id. unfold typeConstructor; cbv zeta. es. Qed.
Lemma eqv_defaultsConstructor : forall id, eqv (defaultsConstructor id).
Proof. intros id. unfold defaultsConstructor; cbv zeta. es. Qed.
Lemma eqv_register : forall c, eqv (register c).
Proof. intros c. unfold register; cbv zeta. es. Qed.
Lemma eqv_addArgument : forall v, eqv (addArgument v).
Proof.
  intros v. unfold addArgument. destruct v as [|n rest]; [es|]. destruct (_ && _).
  - destruct n; [es|]. apply eqv_get; [reflexivity|]. intros s. destruct (mem_key _ _); [es | apply eqv_register].
  - apply eqv_get; [reflexivity|]. intros s. destruct (add_flags _ _ _ _); [es | apply eqv_register].
Qed.
Lemma eqv_action : forall id a, eqv (action id a).
Proof. intros id a. unfold action. pose proof (eqv_typeConstructor id). pose proof (eqv_defaultsConstructor id). es. Qed.
Lemma eqv_help : forall id a, eqv (help id a).
Proof. intros id a. unfold help. es. Qed.
Lemma eqv_run_meth : forall id m, eqv (run_meth id m).
Proof.
  intros id m. pose proof (eqv_typeConstructor id). pose proof (eqv_defaultsConstructor id). pose proof (eqv_action id).
  destruct m; simpl; unfold flag, required, help, metavar, nargs, defaults, valid, dest_to; try solve [es]; auto.
Qed.
Lemma eqv_run_meths : forall ms id, eqv (run_meths id ms).
Proof. induction ms as [|m ms IH]; intros id; simpl; [es|]. apply eqv_bind; [apply eqv_run_meth | intros _; apply IH]. Qed.
Lemma eqv_remove_one : forall n, eqv (remove_one n).
Proof. intros n. unfold remove_one. es. Qed.
Lemma eqv_remove_loop : forall l, eqv (remove_loop l).
Proof. induction l as [|n l IH]; simpl; [es|]. apply eqv_bind; [apply eqv_remove_one | intros _; exact IH]. Qed.
Lemma eqv_remove : forall l, eqv (removeArguments l).
Proof. intros l. unfold removeArguments. pose proof (eqv_remove_loop l). es. Qed.
Lemma eqv_clear : eqv clear.
Proof. apply eqv_modify. intros f d s. unfold ghost, with_freed, with_dlog. simpl. now rewrite app_assoc. Qed.

Lemma eqv_at : forall argv i, eqv (argv_at argv i).
Proof. intros argv i. unfold argv_at. es. Qed.
Lemma eqv_slice : forall argv i j, eqv (argv_slice argv i j).
Proof. intros argv i j. unfold argv_slice. es. Qed.
Lemma eqv_eoi_short : forall cs b, eqv (eoi_short b cs).
Proof. induction cs as [|c cs IH]; intros b; simpl; [es|]. destruct cs as [|c' cs']; [es|]. specialize (IH b). es. Qed.
Lemma eqv_eoi : forall w, eqv (endOfInfinite w).
Proof.
  intros w. unfold endOfInfinite. destruct (isShortOption w); [|destruct (isLongOption w); [|es]].
  - destruct (takeArg w) as [[b o] x]. pose proof (eqv_eoi_short (sdrop 1 o) b). es.
  - destruct (takeArg w) as [[b o] x]. es.
Qed.
Lemma eqv_push : forall id es, eqv (push_elems id es). Proof. intros. apply eqv_set_dyn. Qed.
Lemma eqv_clear_elems : forall id, eqv (clear_elems id). Proof. intros. apply eqv_set_dyn. Qed.
Lemma eqv_clear_unless : forall id, eqv (clear_unless_exists id). Proof. intros. apply eqv_set_dyn. Qed.
Lemma eqv_run_loop : forall n id argv e i k, eqv (run_loop id argv e n i k).
Proof.
  induction n as [|n IH]; intros id argv e i k; simpl; [es|]. apply eqv_bind; [apply eqv_at|]. intros w.
  apply eqv_bind; [destruct e; [es | apply eqv_eoi]|]. intros b. destruct b; [es|]. apply eqv_bind; [apply eqv_push | intros _; apply IH].
Qed.
Lemma eqv_group_loop : forall fuel id n argv e m i k err, eqv err -> eqv (group_loop fuel id n argv e m i k err).
Proof.
  induction fuel as [|fuel IH]; intros id n argv e m i k err H; cbn [group_loop]; [es|]. destruct (Nat.ltb i m); [|es].
  apply eqv_bind; [apply eqv_at|]. intros w. apply eqv_bind; [destruct e; [es | apply eqv_eoi]|]. intros b. destruct b; [es|]. cbv zeta.
  destruct (_ <? _)%N; [exact H|]. apply eqv_bind; [apply eqv_slice|]. intros ws. apply eqv_bind; [apply eqv_push|]. intros _. now apply IH.
Qed.
Ltac es2 := repeat first
  [ assumption | ek
  | match goal with
    | |- eqv (argv_at _ _) => apply eqv_at
    | |- eqv (argv_slice _ _ _) => apply eqv_slice
    | |- eqv (push_elems _ _) => apply eqv_push
    | |- eqv (clear_elems _) => apply eqv_clear_elems
    | |- eqv (clear_unless_exists _) => apply eqv_clear_unless
    | |- eqv (run_loop _ _ _ _ _ _) => apply eqv_run_loop
    | |- eqv (group_loop _ _ _ _ _ _ _ _ _) => apply eqv_group_loop
    | |- eqv (bind get _) => apply eqv_get; [solve [reflexivity] | intros ?]
    | |- eqv (bind _ _) => apply eqv_bind; [| intros ?]
    | |- eqv (let _ := _ in _) => progress cbv zeta
    | |- eqv (if ?b then _ else _) => destruct b
    | |- eqv (match ?x with _ => _ end) => destruct x
    end ].
Lemma eqv_parseArgument : forall fuel m argv i h o x id, eqv (parseArgument fuel m argv i h o x id).
Proof. intros. unfold parseArgument, bad_number; cbv zeta. es2. Qed.
Lemma eqv_short_loop : forall cs fuel m argv i h x, eqv (short_loop fuel m argv i h x cs).
Proof.
  induction cs as [|c cs IH]; intros fuel m argv i h x; cbn [short_loop].
  - apply eqv_bind; [es|]. intros o. destruct o; [apply eqv_parseArgument | es].
  - destruct cs as [|c' cs'].
    + apply eqv_bind; [es|]. intros o. destruct o; [apply eqv_parseArgument | es].
    + apply eqv_bind; [es|]. intros o. destruct o as [id|]; [|es]. apply eqv_bind; [es|]. intros a. cbv zeta.
      destruct (_ && _); [apply eqv_bind; [es|]; intros _; apply eqv_parseArgument|]. destruct (negb _); [es|].
      apply eqv_bind; [es|]. intros _. apply IH.
Qed.
Lemma eqv_parseShort : forall fuel m argv i w, eqv (parseShort fuel m argv i w).
Proof.
  intros. unfold parseShort. destruct (takeArg w) as [[b o] x]. apply eqv_get; [reflexivity|]. intros s.
  destruct (if m_alternative (s_modes s) then _ else _); [apply eqv_parseArgument | apply eqv_short_loop].
Qed.
Lemma eqv_parseLong : forall fuel m argv i w, eqv (parseLong fuel m argv i w).
Proof.
  intros. unfold parseLong. destruct (takeArg w) as [[b o] x]. apply eqv_bind; [es|]. intros [id|]; [apply eqv_parseArgument | es].
Qed.
Lemma eqv_parsePositional : forall fuel argc argv i e, eqv (parsePositional fuel argc argv i e).
Proof. intros. unfold parsePositional, bad_number; cbv zeta. es2. Qed.
Lemma eqv_end_loop : forall fuel g argv i, eqv (end_loop fuel g argv i).
Proof.
  induction fuel as [|fuel IH]; intros g argv i; cbn [end_loop]; [es|]. destruct (Nat.ltb i _); [|es].
  apply eqv_bind; [apply eqv_parsePositional | intros j; apply IH].
Qed.
Lemma eqv_parse_loop : forall fuel g argv e i, eqv (parse_loop fuel g argv e i).
Proof.
  induction fuel as [|fuel IH]; intros g argv e i; cbn [parse_loop]; [es|]. destruct (Nat.ltb i _); [|es].
  apply eqv_bind; [apply eqv_at|]. intros w. destruct (isShortOption w); [apply eqv_bind; [apply eqv_parseShort | intros j; apply IH]|].
  destruct (isLongOption w); [apply eqv_bind; [apply eqv_parseLong | intros j; apply IH]|].
  destruct (isEndOption w); [apply eqv_end_loop|]. apply eqv_bind; [apply eqv_parsePositional | intros j; apply IH].
Qed.
Lemma eqv_help_setup : eqv help_setup.
Proof.
  unfold help_setup. apply eqv_get; [reflexivity|]. intros s. destruct (s_help s); [es|]. cbv zeta. destruct (_ && _); [es|].
  apply eqv_bind; [apply eqv_addArgument|]. intros id. apply eqv_bind; [apply eqv_action|]. intros _. apply eqv_bind; [apply eqv_help | intros _; es].
Qed.
Lemma eqv_print : forall p b k t, eqv (print_or_throw p b k t).
Proof.
  intros p b k t. unfold print_or_throw. apply eqv_get; [reflexivity|]. intros s. destruct p; [|es]. destruct (find_ptr _ _); [|es].
  destruct (d_exist _); [|es]. destruct t; try solve [es]. destruct b; [es|]. apply eqv_bind; [apply eqv_clear | intros _; es].
Qed.
Lemma eqv_validate : forall a v, eqv (validate a v).
Proof. intros a v. unfold validate; cbv zeta. es. Qed.
Lemma eqv_toDest : forall id, eqv (toDest id).
Proof.
  intros id. unfold toDest. apply eqv_bind; [es|]. intros a. destruct (c_dest (a_cfg a)) as [x|]; [|es].
  destruct (dest_events a x) as [evs o]. apply eqv_bind; [|intros _; es]. apply eqv_modify. intros f d s.
  unfold ghost, with_freed, with_dlog. simpl. now rewrite app_assoc.
Qed.
Lemma eqv_finish_one : forall id, eqv (finish_one id).
Proof.
  intros id. unfold finish_one, toNumber. apply eqv_bind; [es|]. intros a. apply eqv_bind.
  - destruct (c_valid (a_cfg a)); [|es]. destruct (d_exist _); [apply eqv_validate | es].
  - intros _. apply eqv_bind; [es | intros _; apply eqv_toDest].
Qed.
Lemma eqv_finish : forall ids, eqv (finish ids).
Proof. induction ids as [|id ids IH]; simpl; [es|]. apply eqv_bind; [apply eqv_finish_one | intros _; exact IH]. Qed.
Lemma eqv_after_scan : eqv after_scan.
Proof.
  unfold after_scan, check_help, check_version, check_required. apply eqv_bind; [apply eqv_get; [reflexivity | intros s; apply eqv_print]|]. intros _.
  apply eqv_bind; [apply eqv_get; [reflexivity | intros s; apply eqv_print]|]. intros _. apply eqv_bind; [es|]. intros _.
  apply eqv_get; [reflexivity|]. intros s. apply eqv_finish.
Qed.
Lemma eqv_scan : forall fuel argv, eqv (scan fuel argv).
Proof.
  intros. unfold scan, set_binary. apply eqv_bind; [|intros _; apply eqv_parse_loop]. apply eqv_get; [reflexivity|]. intros s.
  destruct (s_bin s); [|es]. apply eqv_bind; [apply eqv_at | intros w; es].
Qed.
Lemma eqv_parse : forall argv, eqv (parseArguments argv).
Proof.
  intros argv f d s. unfold parseArguments. change (parse_fuel argv (ghost f d s)) with (parse_fuel argv s). revert f d s.
  assert (G : forall fuel, eqv (parse_with fuel argv)); [|intros f d s; apply G]. intros fuel. unfold parse_with.
  apply eqv_bind; [es|]. intros _. apply eqv_bind; [apply eqv_help_setup|]. intros b. destruct b; [es|].
  apply eqv_bind; [apply eqv_scan | intros _; apply eqv_after_scan].
Qed.
Theorem eqv_step : forall o, eqv (step o).
Proof.
  destruct o; simpl; try solve [es].
  - apply eqv_bind; [apply eqv_addArgument | intros id; apply eqv_run_meths].
  - apply eqv_bind; [unfold updateArgument; es | intros id; apply eqv_run_meths].
  - apply eqv_remove.
  - apply eqv_clear.
  - apply eqv_parse.
Qed.
