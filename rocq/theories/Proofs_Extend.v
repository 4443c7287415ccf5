(** Proofs_Extend.v -- the reading of a command line under two sets of declared arguments
    that differ in names to which the command line does not refer, and in identities. *)
From Coq Require Import Permutation Sorted.
From Verif Require Import Base Model_Types Spec_Reading Spec_Extend Proofs_ReadFacts Proofs_Alike.

Lemma before_end_skip : forall k ws, k <= length (before_end ws) -> before_end (skipn k ws) = skipn k (before_end ws).
Proof.
  induction k as [|k IH]; intros ws L; [reflexivity|]. destruct ws as [|w ws]; [reflexivity|]. cbn [before_end skipn] in *.
  destruct (word_kind w); cbn [length] in L; try lia; cbn [skipn]; apply IH; lia.
Qed.
Lemma before_end_rest : forall k ws w, k <= length (before_end ws) -> In w (before_end (skipn k ws)) -> In w (before_end ws).
Proof. intros k ws w L I. rewrite before_end_skip in I by exact L. rewrite <- (firstn_skipn k (before_end ws)). apply in_or_app. now right. Qed.
Lemma prefix_length : forall {A} (vs l : list A), vs = firstn (length vs) l -> length vs <= length l.
Proof. intros A vs l E. rewrite E, firstn_length. lia. Qed.
Lemma run_ext_in : forall (f g : str -> bool) l, (forall w, In w l -> g w = f w) -> run_of g l = run_of f l.
Proof. intros f g l. induction l as [|w l IH]; intros H; cbn; [reflexivity|]. rewrite H by now left. rewrite IH; [reflexivity|]. intros x I. apply H. now right. Qed.
Lemma groups_ext_in : forall (f g : str -> bool) n l k, (forall w, In w l -> g w = f w) -> groups_from g n k l = groups_from f n k l.
Proof.
  intros f g n l. induction l as [|w l IH]; intros [|k] H; cbn; try reflexivity.
  - rewrite H by now left. rewrite IH; [reflexivity|]. intros x I. apply H. now right.
  - rewrite IH; [reflexivity|]. intros x I. apply H. now right.
Qed.
Lemma take_ext_in : forall (f g : str -> bool) a l, (forall w, In w l -> g w = f w) -> take_words g a l = take_words f a l.
Proof. intros f g a l H. destruct a; cbn; try reflexivity; [f_equal; now apply run_ext_in | now apply groups_ext_in]. Qed.

Section Extend.
Variables (K K' : conf) (R : nat -> nat -> Prop) (X : list str).
Hypothesis find_off : forall n, ~ In n X -> match k_find K n, k_find K' n with
  | Some (i, c), Some (i', c') => R i i' /\ c' = c | None, None => True | _, _ => False end.
Hypothesis alt_eq : k_alt K' = k_alt K.
Hypothesis strict_eq : k_strict K' = k_strict K.

Definition occ_rel (o o' : occ) : Prop := R (o_id o) (o_id o') /\ o_style o' = o_style o /\ o_vals o' = o_vals o.
Definition piece_rel (p p' : piece) : Prop :=
  match p, p' with
  | PcOption w os u, PcOption w' os' u' => w' = w /\ u' = u /\ Forall2 occ_rel os os'
  | PcPositional i vs, PcPositional i' vs' => R i i' /\ vs' = vs
  | PcAdditional w, PcAdditional w' => w' = w
  | PcEnd, PcEnd => True
  | _, _ => False
  end.
Definition pos_rel (x y : nat * acfg) : Prop := R (fst x) (fst y) /\ snd y = snd x.
Definition mean_rel (m m' : meaning) : Prop :=
  match m, m' with
  | MeansError e, MeansError e' => e' = e
  | MeansOption b i c n s v, MeansOption b' i' c' n' s' v' => Forall2 R b b' /\ R i i' /\ c' = c /\ n' = n /\ s' = s /\ v' = v
  | _, _ => False
  end.
Lemma has_off : forall n, ~ In n X -> k_has K' n = k_has K n.
Proof. intros n N. unfold k_has. pose proof (find_off n N) as F. destruct (k_find K n) as [[]|], (k_find K' n) as [[]|]; try reflexivity; destruct F. Qed.
Lemma bundle_ext : forall cs v b b', (forall n, In n (letters K (match v with Some _ => true | None => false end) cs) -> ~ In n X) -> Forall2 R b b' ->
  mean_rel (bundle K v b cs) (bundle K' v b' cs).
Proof.
  induction cs as [|c r IH]; intros v b b' H B; [reflexivity|]. cbn [bundle]. cbn [letters] in H. pose proof (find_off (one_char c) (H _ (or_introl eq_refl))) as F.
  destruct (k_find K (one_char c)) as [[i d]|] eqn:F1, (k_find K' (one_char c)) as [[i' d']|]; try destruct F; [|reflexivity]. subst d'.
  destruct r as [|c' r']; [repeat split; try assumption; reflexivity|].
  destruct v as [v|]; cbn [negb andb] in H.
  - destruct (is_flag_type (c_type d)); [|reflexivity]. apply IH; [intros n I; apply H; now right | apply Forall2_app; [exact B | now constructor]].
  - destruct (glues d); [repeat split; try assumption; reflexivity|]. destruct (is_flag_type (c_type d)); [|reflexivity].
    apply IH; [intros n I; apply H; now right | apply Forall2_app; [exact B | now constructor]].
Qed.
Lemma meaning_ext : forall w, word_kind w = WShort \/ word_kind w = WLong -> (forall n, In n (refers K w) -> ~ In n X) -> mean_rel (word_meaning K w) (word_meaning K' w).
Proof.
  intros w KD. unfold word_meaning, refers. destruct (cut_eq w) as [n v]. rewrite alt_eq. intros H.
  destruct KD as [KD|KD]; rewrite KD in *.
  - destruct (k_alt K).
    + pose proof (find_off (String "-" n) (H _ (or_introl eq_refl))) as F. unfold k_has in H.
      destruct (k_find K (String "-" n)) as [[i d]|], (k_find K' (String "-" n)) as [[i' d']|]; try destruct F.
      * subst. repeat split; try assumption; constructor.
      * apply bundle_ext; [intros m I; apply H; now right | constructor].
    + apply bundle_ext; [exact H | constructor].
  - pose proof (find_off n (H _ (or_introl eq_refl))) as F.
    destruct (k_find K n) as [[i d]|], (k_find K' n) as [[i' d']|]; try destruct F; [|reflexivity]. subst. repeat split; try assumption; constructor.
Qed.
Lemma stops_bundle_ext : forall cs b, (forall n, In n (letters K b cs) -> ~ In n X) -> stops_bundle K' b cs = stops_bundle K b cs.
Proof.
  induction cs as [|c r IH]; intros b H; [reflexivity|]. cbn [stops_bundle]. cbn [letters] in H. pose proof (find_off (one_char c) (H _ (or_introl eq_refl))) as F.
  destruct (k_find K (one_char c)) as [[i d]|], (k_find K' (one_char c)) as [[i' d']|]; try destruct F; [|reflexivity]. subst d'.
  destruct r as [|c' r']; [reflexivity|]. destruct (negb b && glues d) eqn:G; [reflexivity|]. cbn [orb]. destruct (is_flag_type (c_type d)); [reflexivity|]. cbn [orb].
  apply IH. intros n I. apply H. now right.
Qed.
Lemma stops_ext : forall w, (forall n, In n (refers K w) -> ~ In n X) -> stops K' w = stops K w.
Proof.
  intros w. unfold stops, refers. destruct (cut_eq w) as [n v]. rewrite alt_eq. intros H. destruct (word_kind w); try reflexivity.
  - destruct (k_alt K); cbn [andb orb]; [|now apply stops_bundle_ext]. rewrite has_off by (apply H; now left). destruct (k_has K (String "-" n)) eqn:E; cbn [orb]; [reflexivity|].
    apply stops_bundle_ext. intros m I. apply H. now right.
  - apply has_off, H. now left.
Qed.
Lemma take_stops : forall ar l, (forall w n, In w l -> In n (refers K w) -> ~ In n X) -> take_words (stops K') ar l = take_words (stops K) ar l.
Proof. intros ar l H. apply take_ext_in. intros w I. apply stops_ext. intros n. now apply H. Qed.
Definition opt_rel (x y : exn + (list occ * list str)) : Prop :=
  match x, y with
  | inl e, inl e' => e' = e
  | inr (os, u), inr (os', u') => u' = u /\ Forall2 occ_rel os os'
  | _, _ => False
  end.
Lemma option_ext : forall w l, word_kind w = WShort \/ word_kind w = WLong -> (forall n, In n (refers K w) -> ~ In n X) ->
  (forall w n, In w l -> In n (refers K w) -> ~ In n X) -> opt_rel (read_option K w l) (read_option K' w l).
Proof.
  intros w l KD H HL. unfold read_option. pose proof (meaning_ext w KD H) as M. destruct (word_meaning K w) as [e|b i c n s v], (word_meaning K' w) as [e'|b' i' c' n' s' v']; cbn [mean_rel] in M; try contradiction; [exact M|].
  destruct M as [B [RI [-> [-> [-> ->]]]]]. unfold option_values. rewrite (take_stops _ _ HL).
  assert (OC : forall vs, Forall2 occ_rel (map flag_occ b ++ [Occ i s vs]) (map flag_occ b' ++ [Occ i' s vs])).
  { intros vs. apply Forall2_app; [|constructor; [|constructor]; repeat split; assumption]. clear -B. induction B as [|x y l l' H B IH]; cbn; constructor; [|exact IH]. repeat split; assumption. }
  destruct v as [v|].
  - destruct (arity_of c); cbn [opt_rel]; try reflexivity; (split; [reflexivity | apply OC]).
  - destruct (take_words (stops K) (arity_of c) l) as [vs|]; cbn [opt_rel]; [|reflexivity]. split; [reflexivity | apply OC].
Qed.
Lemma unm_word : forall w ws, word_kind w <> WEnd -> unmentioned K X (w :: ws) -> forall n, In n (refers K w) -> ~ In n X.
Proof. intros w ws KD U n I. apply (U w); [|exact I]. cbn [before_end]. destruct (word_kind w); try (now left); congruence. Qed.
Lemma unm_tail : forall w ws, word_kind w <> WEnd -> unmentioned K X (w :: ws) -> unmentioned K X ws.
Proof. intros w ws KD U x n I. apply U. cbn [before_end]. destruct (word_kind w); try (now right); congruence. Qed.
Lemma unm_skip : forall k ws, k <= length (before_end ws) -> unmentioned K X ws -> unmentioned K X (skipn k ws).
Proof. intros k ws L U x n I. apply U. now apply (before_end_rest k). Qed.
Lemma end_ext : forall ps ws pcs, ReadingEnd K ps ws pcs -> forall ps', Forall2 pos_rel ps ps' -> exists pcs', ReadingEnd K' ps' ws pcs' /\ Forall2 piece_rel pcs pcs'.
Proof.
  intros ps ws pcs RD. induction RD as [ps|id c ps w ws vs pcs T RD IH|w ws pcs ST RD IH]; intros ps' F.
  - exists []. split; constructor.
  - inversion F as [|? [id' c'] ? ps1 [E C] F1]; subst. cbn in E, C. subst c'. destruct (IH _ F1) as [pcs' [RD' FP]]. exists (PcPositional id' vs :: pcs').
    split; [now apply Re_positional | constructor; [now split | exact FP]].
  - inversion F; subst. destruct (IH [] (Forall2_nil _)) as [pcs' [RD' FP]]. exists (PcAdditional w :: pcs'). split; [apply Re_additional; [now rewrite strict_eq | exact RD'] | constructor; [reflexivity | exact FP]].
Qed.
Theorem reading_ext : forall ps ws pcs, Reading K ps ws pcs -> unmentioned K X ws -> forall ps', Forall2 pos_rel ps ps' ->
  exists pcs', Reading K' ps' ws pcs' /\ Forall2 piece_rel pcs pcs'.
Proof.
  intros ps ws pcs RD. induction RD as [ps|ps w ws occs used pcs H H0 RD IH|ps w ws pcs H H0|id c ps w ws vs pcs H H0 RD IH|w ws pcs H H0 RD IH]; intros U ps' F.
  - exists []. split; constructor.
  - assert (NE : word_kind w <> WEnd) by (destruct H; congruence).
    pose proof (option_ext w (before_end ws) H (unm_word _ _ NE U) (unm_tail _ _ NE U)) as O. rewrite H0 in O. cbn [opt_rel] in O.
    destruct (read_option K' w (before_end ws)) as [e|[os' u']] eqn:E'; [contradiction|]. destruct O as [-> FO].
    destruct (IH (unm_skip _ _ (prefix_length _ _ (read_option_used _ _ _ _ _ H0)) (unm_tail _ _ NE U)) _ F) as [pcs' [RD' FP]].
    exists (PcOption w os' used :: pcs'). split; [now apply Rd_option | constructor; [repeat split; assumption | exact FP]].
  - destruct (end_ext _ _ _ H0 _ F) as [pcs' [RD' FP]]. exists (PcEnd :: pcs'). split; [now apply Rd_end | constructor; [exact Logic.I | exact FP]].
  - inversion F as [|? [id' c'] ? ps1 [E C] F1]; subst. cbn in E, C. subst c'.
    destruct (IH (unm_skip _ _ (prefix_length _ _ (take_prefix _ _ _ _ H0)) U) _ F1) as [pcs' [RD' FP]]. exists (PcPositional id' vs :: pcs').
    split; [apply Rd_positional; [exact H | rewrite (take_stops _ _ U); exact H0 | exact RD'] | constructor; [now split | exact FP]].
  - inversion F; subst. destruct (IH (unm_tail w ws ltac:(congruence) U) [] (Forall2_nil _)) as [pcs' [RD' FP]]. exists (PcAdditional w :: pcs').
    split; [apply Rd_additional; [exact H | now rewrite strict_eq | exact RD'] | constructor; [reflexivity | exact FP]].
Qed.
Lemma fails_end_ext : forall ps ws e, FailsEnd K ps ws e -> forall ps', Forall2 pos_rel ps ps' -> FailsEnd K' ps' ws e.
Proof.
  intros ps ws e RD. induction RD as [id c ps w ws T|w ws ST|id c ps w ws vs e T RD IH|w ws e ST RD IH]; intros ps' F;
    inversion F as [|? [id' c'] ? ps1 [E C] F1]; subst; cbn in *; subst.
  - now apply Fe_positional.
  - apply Fe_additional. now rewrite strict_eq.
  - eapply Fe_positional_next; [eassumption | now apply IH].
  - apply Fe_additional_next; [now rewrite strict_eq | apply IH; constructor].
Qed.
Theorem fails_ext : forall ps ws e, Fails K ps ws e -> unmentioned K X ws -> forall ps', Forall2 pos_rel ps ps' -> Fails K' ps' ws e.
Proof.
  intros ps ws e RD. induction RD as [ps w ws e H H0|id c ps w ws H H0|w ws H H0|ps w ws occs used e H H0 RD IH|ps w ws e H H0|id c ps w ws vs e H H0 RD IH|w ws e H H0 RD IH]; intros U ps' F.
  - assert (NE : word_kind w <> WEnd) by (destruct H; congruence).
    pose proof (option_ext w (before_end ws) H (unm_word _ _ NE U) (unm_tail _ _ NE U)) as O. rewrite H0 in O. cbn [opt_rel] in O.
    destruct (read_option K' w (before_end ws)) as [e'|[os' u']] eqn:E'; [|contradiction]. subst. now apply Fl_option.
  - inversion F as [|? [id' c'] ? ps1 [E C] F1]; subst; cbn in E, C; subst. apply Fl_positional; [assumption | rewrite (take_stops _ _ U); exact H0].
  - inversion F; subst. apply Fl_additional; [assumption | now rewrite strict_eq].
  - assert (NE : word_kind w <> WEnd) by (destruct H; congruence).
    pose proof (option_ext w (before_end ws) H (unm_word _ _ NE U) (unm_tail _ _ NE U)) as O. rewrite H0 in O. cbn [opt_rel] in O.
    destruct (read_option K' w (before_end ws)) as [e'|[os' u']] eqn:E'; [contradiction|]. destruct O as [-> FO].
    eapply Fl_option_next; [exact H | exact E' |]. apply IH; [|exact F]. exact (unm_skip _ _ (prefix_length _ _ (read_option_used _ _ _ _ _ H0)) (unm_tail _ _ NE U)).
  - apply Fl_end; [assumption | eapply fails_end_ext; eassumption].
  - inversion F as [|? [id' c'] ? ps1 [E C] F1]; subst; cbn in E, C; subst.
    eapply Fl_positional_next; [exact H | rewrite (take_stops _ _ U); exact H0 |]. apply IH; [|exact F1]. exact (unm_skip _ _ (prefix_length _ _ (take_prefix _ _ _ _ H0)) U).
  - inversion F; subst. apply Fl_additional_next; [assumption | now rewrite strict_eq | apply IH; [exact (unm_tail w ws ltac:(congruence) U) | constructor]].
Qed.

(** the effect of related pieces *)
Hypothesis R_inj : forall i j i' j', R i i' -> R j j' -> (i = j <-> i' = j').
Lemma R_eqb : forall i j i' j', R i i' -> R j j' -> Nat.eqb i' j' = Nat.eqb i j.
Proof. intros i j i' j' A B. destruct (Nat.eqb_spec i j) as [E|N], (Nat.eqb_spec i' j') as [E'|N']; try reflexivity; exfalso; pose proof (R_inj _ _ _ _ A B); tauto. Qed.
Lemma piece_dyn_ext : forall i i' c p p' d, R i i' -> piece_rel p p' -> piece_dyn i' c d p' = piece_dyn i c d p.
Proof.
  intros i i' c p p' d RI P. destruct p as [w os u|j vs|w|], p' as [w' os' u'|j' vs'|w'|]; cbn [piece_rel] in P; try contradiction; cbn [piece_dyn]; try reflexivity.
  - destruct P as [_ [_ F]]. revert d. induction F as [|o o' os os' [A [B C]] F IH]; intros d; cbn [fold_left]; [reflexivity|]. rewrite (R_eqb _ _ _ _ A RI).
    assert (E : occ_dyn c o' d = occ_dyn c o d) by (unfold occ_dyn; now rewrite B, C). rewrite E. apply IH.
  - destruct P as [A ->]. now rewrite (R_eqb _ _ _ _ A RI).
Qed.
Lemma pieces_dyn_ext : forall i i' c pcs pcs', R i i' -> Forall2 piece_rel pcs pcs' -> forall d, pieces_dyn i' c pcs' d = pieces_dyn i c pcs d.
Proof.
  intros i i' c pcs pcs' RI F. unfold pieces_dyn. induction F as [|p p' pcs pcs' P F IH]; intros d; cbn [fold_left]; [reflexivity|].
  rewrite (piece_dyn_ext _ _ _ _ _ _ RI P). apply IH.
Qed.
(** an argument outside the relation is not touched *)
Lemma pieces_dyn_out : forall j c pcs pcs', (forall i i', R i i' -> i' <> j) -> Forall2 piece_rel pcs pcs' -> forall d, pieces_dyn j c pcs' d = d.
Proof.
  intros j c pcs pcs' N F. unfold pieces_dyn. induction F as [|p p' pcs pcs' P F IH]; intros d; cbn [fold_left]; [reflexivity|].
  assert (E : piece_dyn j c d p' = d); [|rewrite E; apply IH].
  destruct p as [w os u|k vs|w|], p' as [w' os' u'|k' vs'|w'|]; cbn [piece_rel] in P; try contradiction; cbn [piece_dyn]; try reflexivity.
  - destruct P as [_ [_ FO]]. clear IH F. revert d. induction FO as [|o o' os os' [A _] FO IH]; intros d; cbn [fold_left]; [reflexivity|].
    pose proof (N _ _ A) as NE. apply Nat.eqb_neq in NE. rewrite NE. apply IH.
  - destruct P as [A _]. pose proof (N _ _ A) as NE. apply Nat.eqb_neq in NE. now rewrite NE.
Qed.
Lemma additional_ext : forall pcs pcs', Forall2 piece_rel pcs pcs' -> additional_of pcs' = additional_of pcs.
Proof.
  intros pcs pcs' F. unfold additional_of. induction F as [|p p' pcs pcs' P F IH]; cbn [flat_map]; [reflexivity|]. rewrite IH. f_equal.
  destruct p, p'; cbn [piece_rel] in P; try contradiction; try reflexivity. now subst.
Qed.
End Extend.
