(** Proofs_Alike.v -- the reading of a command line depends only on the names, the kind and
    the nargs of the arguments. *)
From Coq Require Import Permutation Sorted.
From Verif Require Import Base Model_Types Spec_Reading.

Definition alike (c c' : acfg) : Prop := c_type c' = c_type c /\ c_nargs c' = c_nargs c /\ c_names c' = c_names c.
Definition alike2 (x y : nat * acfg) : Prop := fst y = fst x /\ alike (snd x) (snd y).
Record calike (K K' : conf) : Prop := Calike {
  ca_map : k_map K' = k_map K;
  ca_args : Forall2 alike2 (k_args K) (k_args K');
  ca_alt : k_alt K' = k_alt K;
  ca_strict : k_strict K' = k_strict K
}.
Lemma alike_refl : forall c, alike c c. Proof. intros; repeat split. Qed.
Lemma alike_sym : forall c d, alike c d -> alike d c. Proof. intros c d [A [B C]]; repeat split; congruence. Qed.
Lemma alike2_sym : forall l l', Forall2 alike2 l l' -> Forall2 alike2 l' l.
Proof. intros l l' F. induction F as [|x y l l' [E A] F IH]; constructor; [|exact IH]. split; [now symmetry | now apply alike_sym]. Qed.
Lemma calike_sym : forall K K', calike K K' -> calike K' K.
Proof. intros K K' [A B C D]. split; auto. now apply alike2_sym. Qed.
Lemma alike_arity : forall c c', alike c c' -> arity_of c' = arity_of c.
Proof. intros c c' [A [B _]]. unfold arity_of. now rewrite A, B. Qed.
Lemma alike_glues : forall c c', alike c c' -> glues c' = glues c.
Proof. intros c c' [A _]. unfold glues. now rewrite A. Qed.
Lemma alike_first : forall c c', alike c c' -> first_of c' = first_of c.
Proof. intros c c' [_ [_ C]]. unfold first_of. now rewrite C. Qed.

(** the same through what a reading uses: the finding of names, and the positionals in
    order (the order of the other arguments is free) *)
Definition same_find (K K' : conf) : Prop := forall n, match k_find K n, k_find K' n with
  | Some (i, c), Some (i', c') => i' = i /\ alike c c' | None, None => True | _, _ => False end.
Record clike (K K' : conf) : Prop := Clike {
  cl_find : same_find K K';
  cl_positionals : Forall2 alike2 (positionals K) (positionals K');
  ck_alt : k_alt K' = k_alt K;
  ck_strict : k_strict K' = k_strict K
}.
Lemma clike_sym : forall K K', clike K K' -> clike K' K.
Proof.
  intros K K' [F P A S]. split; [|now apply alike2_sym | now symmetry | now symmetry]. intros n. specialize (F n).
  destruct (k_find K n) as [[i c]|], (k_find K' n) as [[i' c']|]; try exact F. destruct F as [E C]. split; [now symmetry | now apply alike_sym].
Qed.
Lemma calike_clike : forall K K', calike K K' -> clike K K'.
Proof.
  intros K K' A. split; [| | exact (ca_alt _ _ A) | exact (ca_strict _ _ A)].
  - intros n. unfold k_find. rewrite (ca_map _ _ A). destruct (assoc n (k_map K)) as [id|]; [|exact I].
    pose proof (ca_args _ _ A) as F. induction F as [|x y l l' [E C] F IH]; [exact I|]. cbn [find]. rewrite E. destruct (Nat.eqb (fst x) id).
    + destruct x, y. now split.
    + exact IH.
  - unfold positionals. pose proof (ca_args _ _ A) as F. induction F as [|x y l l' [E C] F IH]; [constructor|]. cbn [filter].
    destruct C as [T [N M]]. rewrite T. destruct (is_positional (c_type (snd x))); [|exact IH]. constructor; [|exact IH]. split; [exact E | repeat split; assumption].
Qed.

Section Alike.
Variables (K K' : conf).
Hypothesis A : clike K K'.
Lemma alike_find : same_find K K'.
Proof. exact (cl_find _ _ A). Qed.
Lemma alike_has : forall n, k_has K' n = k_has K n.
Proof. intros n. unfold k_has. pose proof (alike_find n) as F. destruct (k_find K n) as [[]|], (k_find K' n) as [[]|]; try reflexivity; destruct F. Qed.
Definition malike (m m' : meaning) : Prop :=
  match m, m' with
  | MeansError e, MeansError e' => e' = e
  | MeansOption b i c n s v, MeansOption b' i' c' n' s' v' => b' = b /\ i' = i /\ alike c c' /\ n' = n /\ s' = s /\ v' = v
  | _, _ => False
  end.
Lemma alike_bundle : forall cs v b, malike (bundle K v b cs) (bundle K' v b cs).
Proof.
  induction cs as [|c r IH]; intros v b; [reflexivity|]. cbn [bundle]. pose proof (alike_find (one_char c)) as F.
  destruct (k_find K (one_char c)) as [[i d]|], (k_find K' (one_char c)) as [[i' d']|]; try destruct F; [|reflexivity]. subst i'.
  destruct r as [|c' r']; [repeat split; apply H0|]. rewrite (alike_glues _ _ H0). destruct H0 as [T [N M]]. rewrite T.
  destruct v; destruct (is_flag_type (c_type d)); try (apply IH); try reflexivity;
    destruct (glues d); try reflexivity; try (apply IH); repeat split; assumption.
Qed.
Lemma alike_meaning : forall w, malike (word_meaning K w) (word_meaning K' w).
Proof.
  intros w. unfold word_meaning. destruct (cut_eq w) as [n v]. rewrite (ck_alt _ _ A).
  assert (S : malike (match (if k_alt K then k_find K (String "-" n) else None) with Some (id, c) => MeansOption [] id c (after1 n) (style_of v) v | None => bundle K v [] (after1 n) end)
    (match (if k_alt K then k_find K' (String "-" n) else None) with Some (id, c) => MeansOption [] id c (after1 n) (style_of v) v | None => bundle K' v [] (after1 n) end)).
  { destruct (k_alt K); [|apply alike_bundle]. pose proof (alike_find (String "-" n)) as F.
    destruct (k_find K (String "-" n)) as [[i d]|], (k_find K' (String "-" n)) as [[i' d']|]; try destruct F; [|apply alike_bundle]. subst. repeat split; apply H0. }
  destruct (word_kind w); try exact S. pose proof (alike_find n) as F.
  destruct (k_find K n) as [[i d]|], (k_find K' n) as [[i' d']|]; try destruct F; [|reflexivity]. subst. repeat split; apply H0.
Qed.
Lemma alike_stops_bundle : forall cs b, stops_bundle K' b cs = stops_bundle K b cs.
Proof.
  induction cs as [|c r IH]; intros b; [reflexivity|]. cbn [stops_bundle]. pose proof (alike_find (one_char c)) as F.
  destruct (k_find K (one_char c)) as [[i d]|], (k_find K' (one_char c)) as [[i' d']|]; try destruct F; [|reflexivity].
  destruct r; [reflexivity|]. rewrite IH, (alike_glues _ _ H0). destruct H0 as [T _]. now rewrite T.
Qed.
Lemma alike_stops : forall w, stops K' w = stops K w.
Proof. intros w. unfold stops. destruct (cut_eq w) as [n v]. now rewrite (ck_alt _ _ A), !alike_has, alike_stops_bundle. Qed.
Lemma run_ext : forall (f g : str -> bool) l, (forall w, g w = f w) -> run_of g l = run_of f l.
Proof. intros f g l H. induction l as [|w l IH]; cbn; [reflexivity|]. now rewrite H, IH. Qed.
Lemma groups_ext : forall (f g : str -> bool) n l k, (forall w, g w = f w) -> groups_from g n k l = groups_from f n k l.
Proof. intros f g n l k H. revert k. induction l as [|w l IH]; intros [|k]; cbn; try reflexivity; rewrite ?H, ?IH; reflexivity. Qed.
Lemma take_ext : forall (f g : str -> bool) a l, (forall w, g w = f w) -> take_words g a l = take_words f a l.
Proof. intros f g a l H. destruct a; cbn; try reflexivity; [f_equal; now apply run_ext | now apply groups_ext]. Qed.
Lemma alike_take : forall c c' l, alike c c' -> take_words (stops K') (arity_of c') l = take_words (stops K) (arity_of c) l.
Proof. intros c c' l H. rewrite (alike_arity _ _ H). apply take_ext, alike_stops. Qed.
Lemma alike_option : forall w l, read_option K' w l = read_option K w l.
Proof.
  intros w l. unfold read_option. pose proof (alike_meaning w) as M. destruct (word_meaning K w), (word_meaning K' w); try (now destruct M).
  destruct M as [-> [-> [AC [-> [-> ->]]]]]. unfold option_values. now rewrite (alike_arity _ _ AC), (take_ext _ _ _ _ alike_stops).
Qed.
Lemma alike_end : forall ps ws pcs, ReadingEnd K ps ws pcs -> forall ps', Forall2 alike2 ps ps' -> ReadingEnd K' ps' ws pcs.
Proof.
  intros ps ws pcs R. induction R as [ps|id c ps w ws vs pcs T R IH|w ws pcs ST R IH]; intros ps' F.
  - constructor.
  - inversion F as [|? [id' c'] ? ps1 [E C] F1]; subst. cbn in E, C. subst. apply Re_positional; [now rewrite (alike_arity _ _ C) | now apply IH].
  - inversion F; subst. apply Re_additional; [now rewrite (ck_strict _ _ A) | apply IH; constructor].
Qed.
Lemma alike_reading : forall ps ws pcs, Reading K ps ws pcs -> forall ps', Forall2 alike2 ps ps' -> Reading K' ps' ws pcs.
Proof.
  intros ps ws pcs R. induction R as [ps|ps w ws occs used pcs H H0 R IH|ps w ws pcs H H0|id c ps w ws vs pcs H H0 R IH|w ws pcs H H0 R IH]; intros ps' F.
  - constructor.
  - apply Rd_option; [assumption | now rewrite alike_option | now apply IH].
  - apply Rd_end; [assumption | eapply alike_end; eassumption].
  - inversion F as [|? [id' c'] ? ps1 [E C] F1]; subst. cbn in E, C. subst. apply Rd_positional; [assumption | now rewrite (alike_take c) | now apply IH].
  - inversion F; subst. apply Rd_additional; [assumption | now rewrite (ck_strict _ _ A) | apply IH; constructor].
Qed.
Lemma alike_fails_end : forall ps ws e, FailsEnd K ps ws e -> forall ps', Forall2 alike2 ps ps' -> FailsEnd K' ps' ws e.
Proof.
  intros ps ws e R. induction R as [id c ps w ws T|w ws ST|id c ps w ws vs e T R IH|w ws e ST R IH]; intros ps' F;
    inversion F as [|? [id' c'] ? ps1 [E C] F1]; subst; cbn in *; subst.
  - rewrite <- (alike_first _ _ C). apply Fe_positional. now rewrite (alike_arity _ _ C).
  - apply Fe_additional. now rewrite (ck_strict _ _ A).
  - eapply Fe_positional_next; [rewrite (alike_arity _ _ C); eassumption | now apply IH].
  - apply Fe_additional_next; [now rewrite (ck_strict _ _ A) | apply IH; constructor].
Qed.
Lemma alike_fails : forall ps ws e, Fails K ps ws e -> forall ps', Forall2 alike2 ps ps' -> Fails K' ps' ws e.
Proof.
  intros ps ws e R. induction R as [ps w ws e H H0|id c ps w ws H H0|w ws H H0|ps w ws occs used e H H0 R IH|ps w ws e H H0|id c ps w ws vs e H H0 R IH|w ws e H H0 R IH]; intros ps' F.
  - apply Fl_option; [assumption | now rewrite alike_option].
  - inversion F as [|? [id' c'] ? ps1 [E C] F1]; subst; cbn in *; subst. rewrite <- (alike_first _ _ C). apply Fl_positional; [assumption | now rewrite (alike_take c)].
  - inversion F; subst. apply Fl_additional; [assumption | now rewrite (ck_strict _ _ A)].
  - eapply Fl_option_next; [assumption | rewrite alike_option; eassumption | now apply IH].
  - apply Fl_end; [assumption | eapply alike_fails_end; eassumption].
  - inversion F as [|? [id' c'] ? ps1 [E C] F1]; subst; cbn in *; subst. eapply Fl_positional_next; [assumption | rewrite (alike_take c); eassumption | now apply IH].
  - inversion F; subst. apply Fl_additional_next; [assumption | now rewrite (ck_strict _ _ A) | apply IH; constructor].
Qed.
End Alike.
Lemma clike_readings : forall K K', clike K K' -> forall ws pcs, Reading K (positionals K) ws pcs <-> Reading K' (positionals K') ws pcs.
Proof.
  intros K K' A ws pcs. split; intros R; eapply alike_reading; try eassumption; [exact (cl_positionals _ _ A) | now apply clike_sym | exact (cl_positionals _ _ (clike_sym _ _ A))].
Qed.
Lemma clike_rejections : forall K K', clike K K' -> forall ws e, Fails K (positionals K) ws e <-> Fails K' (positionals K') ws e.
Proof.
  intros K K' A ws e. split; intros R; eapply alike_fails; try eassumption; [exact (cl_positionals _ _ A) | now apply clike_sym | exact (cl_positionals _ _ (clike_sym _ _ A))].
Qed.
Lemma alike_readings : forall K K', calike K K' -> forall ws pcs, Reading K (positionals K) ws pcs <-> Reading K' (positionals K') ws pcs.
Proof. intros K K' A. apply clike_readings, calike_clike, A. Qed.
Lemma alike_rejections : forall K K', calike K K' -> forall ws e, Fails K (positionals K) ws e <-> Fails K' (positionals K') ws e.
Proof. intros K K' A. apply clike_rejections, calike_clike, A. Qed.
