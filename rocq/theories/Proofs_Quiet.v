(** Proofs_Quiet.v -- reading the command line writes to no destination and never touches
    the elements of arguments that have none (flags, and arguments with one value). *)
From Verif Require Import Base Model_Utils Model_Number Model_Types Model_Argument Model_Usage Model_Args Model_Api Proofs_Base Proofs_Frame Proofs_Inv.

(** kinds without elements *)
Definition flat (t : atype) : bool :=
  match t with
  | HELP_OPTION | VERSION_OPTION | BOOLEAN_OPTION | REVERSE_BOOLEAN_OPTION | SIMPLE_OPTION | POSITIONAL_ARGUMENT => true
  | _ => false
  end.
Definition core (a : argument) : (nat * nat * acfg) * list elem :=
  (static a, if flat (c_type (a_cfg a)) then d_elems (a_dyn a) else []).
Record quiet (s s' : state) : Prop := Quiet {
  qu_core : map core (s_args s') = map core (s_args s);
  qu_dlog : s_dlog s' = s_dlog s
}.
Lemma quiet_refl : forall s, quiet s s. Proof. intros; split; reflexivity. Qed.
Lemma quiet_trans : forall a b c, quiet a b -> quiet b c -> quiet a c.
Proof. intros a b c [] []; split; congruence. Qed.
Lemma quiet_static : forall s s', quiet s s' -> map static (s_args s') = map static (s_args s).
Proof.
  intros s s' [H _]. assert (E : forall l, map static l = map fst (map core l)) by (intros; rewrite map_map; reflexivity). now rewrite !E, H.
Qed.

(** preconditions that reading keeps *)
Definition stable (Pre : state -> Prop) : Prop := forall s s', quiet s s' -> Pre s -> Pre s'.
Definition unique (s : state) : Prop := NoDup (map a_id (s_args s)).
Definition vector_at (id : nat) (s : state) : Prop := unique s /\ forall a, In a (s_args s) -> a_id a = id -> flat (c_type (a_cfg a)) = false.
Lemma unique_stable : stable unique.
Proof.
  intros s s' Q U. unfold unique in *. assert (E : forall l, map a_id l = map (fun x => fst (fst x)) (map static l)) by (intros; rewrite map_map; reflexivity).
  rewrite E, (quiet_static _ _ Q), <- E. exact U.
Qed.
Lemma vector_stable : forall id, stable (vector_at id).
Proof.
  intros id s s' Q [U V]. split; [eapply unique_stable; eassumption|]. intros a Ia E.
  assert (X : In (static a) (map static (s_args s))) by (rewrite <- (quiet_static _ _ Q); now apply in_map).
  apply in_map_iff in X. destruct X as [b [Eb Ib]]. unfold static in Eb.
  assert (a_id b = a_id a /\ a_cfg b = a_cfg a) as [E1 E2] by (split; congruence). rewrite <- E2. apply V; [exact Ib | congruence].
Qed.

Definition keepsP (Pre : state -> Prop) {A} (m : M A) : Prop := forall s, Pre s -> quiet s (fst (m s)).
Lemma keepsP_bind : forall Pre, stable Pre -> forall {A B} (m : M A) (f : A -> M B), keepsP Pre m -> (forall a, keepsP Pre (f a)) -> keepsP Pre (bind m f).
Proof.
  intros Pre ST A B m f Hm Hf s P. unfold bind. specialize (Hm s P). destruct (m s) as [s1 [a|e|o| |]] eqn:E; cbn [fst] in *; try exact Hm.
  eapply quiet_trans; [exact Hm|]. apply Hf. eapply ST; eassumption.
Qed.
Lemma keepsP_pure : forall Pre {A} (m : M A), (forall s, fst (m s) = s) -> keepsP Pre m.
Proof. intros Pre A m H s _. rewrite H. apply quiet_refl. Qed.
Lemma keepsP_weaken : forall (Pre Pre' : state -> Prop) {A} (m : M A), (forall s, Pre' s -> Pre s) -> keepsP Pre m -> keepsP Pre' m.
Proof. intros Pre Pre' A m H K s P. auto. Qed.
Lemma keepsP_deref : forall {B} id (f : argument -> M B),
  (forall s a, unique s -> In a (s_args s) -> a_id a = id -> quiet s (fst (f a s))) -> keepsP unique (bind (deref id) f).
Proof.
  intros B id f H s U. unfold bind. rewrite deref_eq. destruct (find_id id (s_args s)) as [a|] eqn:F; [|apply quiet_refl].
  destruct (find_id_In _ _ _ F) as [Ia Ea]. now apply H.
Qed.
Lemma at_unique : forall s a b, unique s -> In a (s_args s) -> In b (s_args s) -> a_id a = a_id b -> a = b.
Proof.
  intros s a b U Ia Ib E. unfold unique in U. induction (s_args s) as [|x l IH]; [destruct Ia|]. cbn in U. inversion_clear U as [|? ? N U'].
  destruct Ia as [->|Ia], Ib as [->|Ib]; auto.
  - exfalso. apply N. rewrite E. now apply in_map.
  - exfalso. apply N. rewrite <- E. now apply in_map.
Qed.
Lemma vector_of : forall s a, unique s -> In a (s_args s) -> flat (c_type (a_cfg a)) = false -> vector_at (a_id a) s.
Proof. intros s a U Ia F. split; [exact U|]. intros b Ib E. rewrite (at_unique s b a U Ib Ia E). exact F. Qed.
Lemma quiet_set_safe : forall Pre id f, (forall d, d_elems (f d) = d_elems d) -> keepsP Pre (set_dyn id f).
Proof.
  intros Pre id f H s _. split; [|reflexivity]. cbn. unfold upd_id. rewrite map_map. apply map_ext. intros a.
  destruct (Nat.eqb (a_id a) id); [|reflexivity]. unfold core, static. cbn. now rewrite H.
Qed.
Lemma quiet_set_vector : forall id f, keepsP (vector_at id) (set_dyn id f).
Proof.
  intros id f s [_ V]. split; [|reflexivity]. cbn. unfold upd_id. rewrite map_map. apply map_ext_in. intros a Ia.
  destruct (Nat.eqb_spec (a_id a) id) as [E|E]; [|reflexivity]. unfold core, static. cbn. now rewrite (V a Ia E).
Qed.

Ltac pure := apply keepsP_pure; intros ?; reflexivity.
Ltac qb := apply keepsP_bind; [first [exact unique_stable | apply vector_stable] | | intros ?].
Lemma quiet_at : forall Pre argv i, keepsP Pre (argv_at argv i).
Proof. intros; unfold argv_at; destruct (nth_error argv i); pure. Qed.
Lemma quiet_slice : forall Pre argv i j, keepsP Pre (argv_slice argv i j).
Proof. intros; unfold argv_slice; destruct (argv_range argv i (j - i)); pure. Qed.
Lemma quiet_front : forall Pre l, keepsP Pre (front l).
Proof. intros Pre [|x l]; pure. Qed.
Lemma deref_fst : forall id s, fst (deref id s) = s.
Proof. intros id s. rewrite deref_eq. now destruct (find_id id (s_args s)). Qed.
Lemma eoi_short_fst : forall b cs s, fst (eoi_short b cs s) = s.
Proof.
  intros b; induction cs as [|c cs IH]; intros s; [reflexivity|]. cbn [eoi_short]. destruct cs as [|c' cs]; [reflexivity|].
  unfold bind at 1, find_name. destruct (assoc _ _) as [id|]; [|reflexivity]. unfold bind. rewrite deref_eq. destruct (find_id id (s_args s)) as [a|]; [|reflexivity].
  destruct (negb b && takes_value (c_type (a_cfg a))); [reflexivity|]. destruct (is_bool_option (c_type (a_cfg a))); [reflexivity|]. apply IH.
Qed.
Lemma eoi_fst : forall w s, fst (endOfInfinite w s) = s.
Proof.
  intros w s. unfold endOfInfinite. destruct (isShortOption w).
  - destruct (takeArg w) as [[h o] x]. unfold bind at 1, get. destruct (m_alternative _ && _); [reflexivity | apply eoi_short_fst].
  - destruct (isLongOption w); [|reflexivity]. destruct (takeArg w) as [[h o] x]. reflexivity.
Qed.
Lemma quiet_eoi : forall Pre w, keepsP Pre (endOfInfinite w).
Proof. intros. apply keepsP_pure. apply eoi_fst. Qed.
Lemma quiet_run : forall n id argv e i k, keepsP (vector_at id) (run_loop id argv e n i k).
Proof.
  induction n as [|n IH]; intros; simpl; [pure|]. qb; [apply quiet_at|]. qb; [destruct e; [pure | apply quiet_eoi]|].
  destruct a0; [pure|]. qb; [apply quiet_set_vector | apply IH].
Qed.
Lemma quiet_group : forall fuel id n argv e m i k err, keepsP (vector_at id) err -> keepsP (vector_at id) (group_loop fuel id n argv e m i k err).
Proof.
  induction fuel as [|f IH]; intros; simpl; [pure|]. destruct (Nat.ltb i m); [|pure].
  qb; [apply quiet_at|]. qb; [destruct e; [pure | apply quiet_eoi]|]. destruct a0; [pure|]. destruct (_ <? _)%N; [assumption|].
  qb; [apply quiet_slice|]. qb; [apply quiet_set_vector|]. now apply IH.
Qed.
Ltac qq := repeat first [ pure | apply quiet_at | apply quiet_slice | apply quiet_front | apply quiet_set_vector | apply quiet_run | apply quiet_group
                        | (apply quiet_set_safe; intros ?; reflexivity) | qb
                        | match goal with |- keepsP _ (if ?b then _ else _) => destruct b end ].
Lemma quiet_parseArgument : forall fuel m argv i h o x id, keepsP unique (parseArgument fuel m argv i h o x id).
Proof.
  intros; unfold parseArgument. apply keepsP_deref. intros s a U Ia <-.
  destruct (flat (c_type (a_cfg a))) eqn:F.
  - revert s U Ia. intros s U _. revert s U.
    match goal with |- forall s, unique s -> quiet s (fst (?m s)) => change (keepsP unique m) end.
    qb; [|qq]. destruct h; destruct (c_type (a_cfg a)); try discriminate F; qq.
  - pose proof (vector_of s a U Ia F) as V. clear Ia U. revert s V.
    match goal with |- forall s, vector_at _ s -> quiet s (fst (?m s)) => change (keepsP (vector_at (a_id a)) m) end.
    qb; [|qq]. destruct h; destruct (c_type (a_cfg a)); try discriminate F; qq.
Qed.
Lemma quiet_short_loop : forall cs fuel m argv i h x, keepsP unique (short_loop fuel m argv i h x cs).
Proof.
  induction cs as [|c cs IH]; intros; simpl.
  - qb; [pure|]. destruct a; [apply quiet_parseArgument | pure].
  - destruct cs as [|c' cs]; [qb; [pure|]; destruct a; [apply quiet_parseArgument | pure]|].
    qb; [pure|]. destruct a as [id|]; [|pure]. qb; [apply keepsP_pure, deref_fst|].
    destruct (negb h && takes_value (c_type (a_cfg a))); [qb; [qq | apply quiet_parseArgument]|].
    destruct (negb (is_bool_option (c_type (a_cfg a)))); [pure|].
    qb; [qq | apply IH].
Qed.
Lemma quiet_parseShort : forall fuel m argv i w, keepsP unique (parseShort fuel m argv i w).
Proof.
  intros; unfold parseShort. destruct (takeArg w) as [[h o] x]. qb; [pure|].
  destruct (if m_alternative (s_modes a) then _ else None); [apply quiet_parseArgument | apply quiet_short_loop].
Qed.
Lemma quiet_parseLong : forall fuel m argv i w, keepsP unique (parseLong fuel m argv i w).
Proof. intros; unfold parseLong. destruct (takeArg w) as [[h o] x]. qb; [pure|]. destruct a; [apply quiet_parseArgument | pure]. Qed.
Lemma quiet_parsePositional : forall fuel argc argv i e, keepsP unique (parsePositional fuel argc argv i e).
Proof.
  intros fuel argc argv i e s U. unfold parsePositional. rewrite (bind_ok get _ s s s eq_refl).
  destruct (next_positional s) as [b|] eqn:NP.
  - assert (Ib : In b (s_args s)) by (unfold next_positional in NP; now apply find_some in NP).
    destruct (flat (c_type (a_cfg b))) eqn:F.
    + clear NP Ib. revert s U. match goal with |- forall s, unique s -> quiet s (fst (?m s)) => change (keepsP unique m) end.
      qb; [|qq]. destruct (c_type (a_cfg b)); try discriminate F; qq.
    + pose proof (vector_of s b U Ib F) as V. clear NP Ib U. revert s V.
      match goal with |- forall s, vector_at _ s -> quiet s (fst (?m s)) => change (keepsP (vector_at (a_id b)) m) end.
      qb; [|qq]. destruct (c_type (a_cfg b)); try discriminate F; qq.
  - revert U. clear NP. revert s.
    assert (K : forall b : bool, keepsP unique (do w <- argv_at argv i;; if b then throw KParse w "invalid additional argument" else modify (fun s => with_additional s (s_additional s ++ [w])) ;;; ret (S i))).
    { intros b. qb; [qq|]. destruct b; [pure|]. qb; [|pure]. intros s _. split; reflexivity. }
    intros s U. exact (K (m_strict (s_modes s)) s U).
Qed.
Lemma quiet_end_loop : forall fuel g argv i, keepsP unique (end_loop fuel g argv i).
Proof. induction fuel as [|f IH]; intros; simpl; [pure|]. destruct (Nat.ltb _ _); [|pure]. qb; [apply quiet_parsePositional | apply IH]. Qed.
Lemma quiet_parse_loop : forall fuel g argv e i, keepsP unique (parse_loop fuel g argv e i).
Proof.
  induction fuel as [|f IH]; intros; simpl; [pure|]. destruct (Nat.ltb _ _); [|pure]. qb; [apply quiet_at|].
  destruct (isShortOption a); [qb; [apply quiet_parseShort | apply IH]|].
  destruct (isLongOption a); [qb; [apply quiet_parseLong | apply IH]|].
  destruct (isEndOption a); [apply quiet_end_loop|]. qb; [apply quiet_parsePositional | apply IH].
Qed.
Lemma quiet_scan : forall fuel argv, keepsP unique (scan fuel argv).
Proof.
  intros; unfold scan. qb; [|apply quiet_parse_loop]. unfold set_binary. qb; [pure|]. destruct (s_bin a); [|pure].
  qb; [apply quiet_at|]. intros s _. split; reflexivity.
Qed.
