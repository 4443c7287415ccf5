(** Proofs_Modes.v -- readings in other modes. *)
From Coq Require Import Permutation Sorted.
From Verif Require Import Base Model_Utils Model_Number Model_Types Model_Argument Model_Usage Model_Args Model_Api
  Spec_Order Spec_Names Spec_Reading Spec_Modes Spec_Parse Spec_Decl Spec_Finish Spec_History Spec_Api Spec_Result
  Proofs_Base Proofs_Order Proofs_Frame Proofs_Inv Proofs_ReadFacts Proofs_Reading Proofs_Parse Proofs_Decl Proofs_Finish
  Proofs_Meth Proofs_History Proofs_Config Proofs_Names Proofs_Central Proofs_Swap Proofs_Extend Properties_Parse.

Section Conf.
Variables (K K' : conf).
Hypothesis EM : k_map K' = k_map K.
Hypothesis EA : k_args K' = k_args K.
Lemma find_same : forall n, k_find K' n = k_find K n.
Proof. intros n. unfold k_find. now rewrite EM, EA. Qed.
Lemma has_same : forall n, k_has K' n = k_has K n.
Proof. intros n. unfold k_has. now rewrite find_same. Qed.
Lemma bundle_same : forall v cs b, bundle K' v b cs = bundle K v b cs.
Proof.
  intros v. induction cs as [|c r IH]; intros b; [reflexivity|]. cbn [bundle]. rewrite find_same. destruct (k_find K (one_char c)) as [[id cf]|]; [|reflexivity].
  destruct r; [reflexivity|]. now rewrite !IH.
Qed.
Lemma stops_bundle_same : forall b cs, stops_bundle K' b cs = stops_bundle K b cs.
Proof.
  intros b. induction cs as [|c r IH]; [reflexivity|]. cbn [stops_bundle]. rewrite find_same. destruct (k_find K (one_char c)) as [[id cf]|]; [|reflexivity]. destruct r; [reflexivity|]. now rewrite IH.
Qed.
(** a word that means the same in both *)
Definition agreed (w : str) : Prop := k_alt K' = k_alt K \/ word_kind w <> WShort \/ k_has K (String "-" (fst (cut_eq w))) = false.
Lemma meaning_same : forall w, word_kind w = WShort \/ word_kind w = WLong -> agreed w -> word_meaning K' w = word_meaning K w.
Proof.
  intros w D A. unfold word_meaning, agreed in *. destruct (cut_eq w) as [n v]. cbn [fst] in A. rewrite !find_same, bundle_same. destruct D as [D|D]; rewrite D in *; [|reflexivity].
  destruct A as [->|[A|A]]; [reflexivity | now destruct A|]. unfold k_has in A. destruct (k_find K (String "-" n)); [discriminate|]. now destruct (k_alt K), (k_alt K').
Qed.
Lemma stops_same : forall w, agreed w -> stops K' w = stops K w.
Proof.
  intros w A. unfold stops, agreed in *. destruct (cut_eq w) as [n v]. cbn [fst] in A. rewrite !has_same, stops_bundle_same. destruct (word_kind w); try reflexivity.
  destruct A as [->|[A|A]]; [reflexivity | now destruct A|]. rewrite A. now destruct (k_alt K), (k_alt K').
Qed.
Definition all_agreed (ws : list str) : Prop := forall w, In w (before_end ws) -> agreed w.
Lemma take_same : forall ar l, (forall w, In w l -> agreed w) -> take_words (stops K') ar l = take_words (stops K) ar l.
Proof. intros ar l A. apply take_ext_in. intros w I. now apply stops_same, A. Qed.
Lemma option_same : forall w l, word_kind w = WShort \/ word_kind w = WLong -> agreed w -> (forall w, In w l -> agreed w) -> read_option K' w l = read_option K w l.
Proof.
  intros w l D A AL. unfold read_option. rewrite (meaning_same w D A). destruct (word_meaning K w) as [e|b i c n st v]; [reflexivity|]. unfold option_values. now rewrite (take_same (arity_of c) l AL).
Qed.
Lemma agreed_first : forall w ws, word_kind w <> WEnd -> all_agreed (w :: ws) -> agreed w /\ all_agreed ws.
Proof. intros w ws D A. unfold all_agreed in *. cbn [before_end] in A. destruct (word_kind w); try (now destruct D); (split; [apply A; now left | intros x I; apply A; now right]). Qed.
Lemma agreed_skip : forall k ws, k <= length (before_end ws) -> all_agreed ws -> all_agreed (skipn k ws).
Proof. intros k ws L A w I. apply A. exact (before_end_rest k ws w L I). Qed.
End Conf.

Section Transfer.
Variables (K K' : conf).
Hypothesis EM : k_map K' = k_map K.
Hypothesis EA : k_args K' = k_args K.
Lemma reading_end_same : forall ps ws pcs, ReadingEnd K ps ws pcs -> k_strict K' = false \/ additional_of pcs = [] -> ReadingEnd K' ps ws pcs.
Proof.
  intros ps ws pcs RD. induction RD as [ps|id c ps w ws vs pcs T RD IH|w ws pcs ST RD IH]; intros A.
  - constructor.
  - apply Re_positional; [exact T | apply IH; exact A].
  - destruct A as [A|A]; [|discriminate]. apply Re_additional; [exact A | apply IH; now left].
Qed.
Theorem reading_same : forall ps ws pcs, Reading K ps ws pcs -> all_agreed K K' ws -> k_strict K' = false \/ additional_of pcs = [] -> Reading K' ps ws pcs.
Proof.
  intros ps ws pcs RD. induction RD as [ps|ps w ws occs used pcs H H0 RD IH|ps w ws pcs H H0|id c ps w ws vs pcs H H0 RD IH|w ws pcs H H0 RD IH]; intros G A.
  - constructor.
  - assert (NE : word_kind w <> WEnd) by (destruct H; congruence). destruct (agreed_first K K' w ws NE G) as [G1 G2].
    apply Rd_option; [exact H | rewrite (option_same K K' EM EA w (before_end ws) H G1 G2); exact H0|]. apply IH; [|exact A].
    exact (agreed_skip K K' _ _ (prefix_length _ _ (read_option_used _ _ _ _ _ H0)) G2).
  - apply Rd_end; [exact H | apply reading_end_same; [exact H0 | exact A]].
  - apply Rd_positional; [exact H | rewrite (take_same K K' EM EA (arity_of c) _ G); exact H0|]. apply IH; [|exact A]. exact (agreed_skip K K' _ _ (prefix_length _ _ (take_prefix _ _ _ _ H0)) G).
  - destruct A as [A|A]; [|discriminate]. destruct (agreed_first K K' w ws ltac:(congruence) G) as [_ G2]. apply Rd_additional; [exact H | exact A | apply IH; [exact G2 | now left]].
Qed.
Lemma fails_end_same : k_strict K' = k_strict K -> forall ps ws e, FailsEnd K ps ws e -> FailsEnd K' ps ws e.
Proof.
  intros ES ps ws e RD. induction RD as [id c ps w ws T|w ws ST|id c ps w ws vs e T RD IH|w ws e ST RD IH].
  - now apply Fe_positional.
  - apply Fe_additional. now rewrite ES.
  - eapply Fe_positional_next; eassumption.
  - apply Fe_additional_next; [now rewrite ES | exact IH].
Qed.
Theorem fails_same : k_strict K' = k_strict K -> forall ps ws e, Fails K ps ws e -> all_agreed K K' ws -> Fails K' ps ws e.
Proof.
  intros ES ps ws e RD. induction RD as [ps w ws e H H0|id c ps w ws H H0|w ws H H0|ps w ws occs used e H H0 RD IH|ps w ws e H H0|id c ps w ws vs e H H0 RD IH|w ws e H H0 RD IH]; intros G.
  - assert (NE : word_kind w <> WEnd) by (destruct H; congruence). destruct (agreed_first K K' w ws NE G) as [G1 G2].
    apply Fl_option; [exact H | rewrite (option_same K K' EM EA w (before_end ws) H G1 G2); exact H0].
  - apply Fl_positional; [exact H | rewrite (take_same K K' EM EA (arity_of c) _ G); exact H0].
  - apply Fl_additional; [exact H | now rewrite ES].
  - assert (NE : word_kind w <> WEnd) by (destruct H; congruence). destruct (agreed_first K K' w ws NE G) as [G1 G2].
    eapply Fl_option_next; [exact H | rewrite (option_same K K' EM EA w (before_end ws) H G1 G2); exact H0|]. apply IH.
    exact (agreed_skip K K' _ _ (prefix_length _ _ (read_option_used _ _ _ _ _ H0)) G2).
  - apply Fl_end; [exact H | now apply fails_end_same].
  - eapply Fl_positional_next; [exact H | rewrite (take_same K K' EM EA (arity_of c) _ G); exact H0|]. apply IH. exact (agreed_skip K K' _ _ (prefix_length _ _ (take_prefix _ _ _ _ H0)) G).
  - destruct (agreed_first K K' w ws ltac:(congruence) G) as [_ G2]. apply Fl_additional_next; [exact H | now rewrite ES | apply IH; exact G2].
Qed.

(** strict mode refuses the first additional argument *)
Hypothesis ST : k_strict K' = true.
Definition refusal (w : str) : exn := parse_error w "invalid additional argument".
Lemma reading_end_refused : forall ps ws pcs, ReadingEnd K ps ws pcs -> forall x l, additional_of pcs = x :: l -> FailsEnd K' ps ws (refusal x).
Proof.
  intros ps ws pcs RD. induction RD as [ps|id c ps w ws vs pcs T RD IH|w ws pcs S0 RD IH]; intros x l A.
  - discriminate.
  - eapply Fe_positional_next; [exact T | exact (IH x l A)].
  - injection A as -> _. now apply Fe_additional.
Qed.
Theorem reading_refused : forall ps ws pcs, Reading K ps ws pcs -> all_agreed K K' ws -> forall x l, additional_of pcs = x :: l -> Fails K' ps ws (refusal x).
Proof.
  intros ps ws pcs RD. induction RD as [ps|ps w ws occs used pcs H H0 RD IH|ps w ws pcs H H0|id c ps w ws vs pcs H H0 RD IH|w ws pcs H H0 RD IH]; intros G x l A.
  - discriminate.
  - assert (NE : word_kind w <> WEnd) by (destruct H; congruence). destruct (agreed_first K K' w ws NE G) as [G1 G2].
    eapply Fl_option_next; [exact H | rewrite (option_same K K' EM EA w (before_end ws) H G1 G2); exact H0|]. eapply IH; [|exact A].
    exact (agreed_skip K K' _ _ (prefix_length _ _ (read_option_used _ _ _ _ _ H0)) G2).
  - apply Fl_end; [exact H | eapply reading_end_refused; [exact H0 | exact A]].
  - eapply Fl_positional_next; [exact H | rewrite (take_same K K' EM EA (arity_of c) _ G); exact H0|]. eapply IH; [|exact A]. exact (agreed_skip K K' _ _ (prefix_length _ _ (take_prefix _ _ _ _ H0)) G).
  - injection A as -> _. now apply Fl_additional.
Qed.
Lemma fails_end_strict : forall ps ws e, FailsEnd K ps ws e -> FailsEnd K' ps ws e \/ exists w, In w ws /\ FailsEnd K' ps ws (refusal w).
Proof.
  intros ps ws e RD. induction RD as [id c ps w ws T|w ws S0|id c ps w ws vs e T RD IH|w ws e S0 RD IH].
  - left. now apply Fe_positional.
  - left. now apply Fe_additional.
  - destruct IH as [IH|[x [IN IH]]]; [left; eapply Fe_positional_next; eassumption|]. right. exists x. split; [exact (In_skipn _ _ _ IN) | eapply Fe_positional_next; eassumption].
  - right. exists w. split; [now left | now apply Fe_additional].
Qed.
Theorem fails_strict : forall ps ws e, Fails K ps ws e -> all_agreed K K' ws -> Fails K' ps ws e \/ exists w, In w ws /\ Fails K' ps ws (refusal w).
Proof.
  intros ps ws e RD. induction RD as [ps w ws e H H0|id c ps w ws H H0|w ws H H0|ps w ws occs used e H H0 RD IH|ps w ws e H H0|id c ps w ws vs e H H0 RD IH|w ws e H H0 RD IH]; intros G.
  - left. assert (NE : word_kind w <> WEnd) by (destruct H; congruence). destruct (agreed_first K K' w ws NE G) as [G1 G2].
    apply Fl_option; [exact H | rewrite (option_same K K' EM EA w (before_end ws) H G1 G2); exact H0].
  - left. apply Fl_positional; [exact H | rewrite (take_same K K' EM EA (arity_of c) _ G); exact H0].
  - left. now apply Fl_additional.
  - assert (NE : word_kind w <> WEnd) by (destruct H; congruence). destruct (agreed_first K K' w ws NE G) as [G1 G2].
    pose proof (option_same K K' EM EA w (before_end ws) H G1 G2) as O. rewrite H0 in O.
    destruct (IH (agreed_skip K K' _ _ (prefix_length _ _ (read_option_used _ _ _ _ _ H0)) G2)) as [F|[x [IN F]]].
    + left. eapply Fl_option_next; eassumption.
    + right. exists x. split; [right; exact (In_skipn _ _ _ IN) | eapply Fl_option_next; eassumption].
  - destruct (fails_end_strict _ _ _ H0) as [F|[x [IN F]]]; [left; now apply Fl_end | right; exists x; split; [now right | now apply Fl_end]].
  - pose proof H0 as T. rewrite <- (take_same K K' EM EA (arity_of c) _ G) in T.
    destruct (IH (agreed_skip K K' _ _ (prefix_length _ _ (take_prefix _ _ _ _ H0)) G)) as [F|[x [IN F]]].
    + left. eapply Fl_positional_next; eassumption.
    + right. exists x. split; [exact (In_skipn _ _ _ IN) | eapply Fl_positional_next; eassumption].
  - right. exists w. split; [now left | now apply Fl_additional].
Qed.
End Transfer.

(* ------------------------------------------------------------------ *)
(** * the same object in other modes *)
Lemma in_modes_eq : forall m s, in_modes m s = with_modes s m.
Proof. intros [a b h v] s. reflexivity. Qed.
Lemma same_modes : forall s, with_modes s (s_modes s) = s.
Proof. now intros []. Qed.
Lemma modes_modes : forall s m n, with_modes (with_modes s m) n = with_modes s n.
Proof. reflexivity. Qed.
Lemma modes_wf0 : forall s m, wf0 s -> wf0 (with_modes s m).
Proof. intros s m [A B C D F G]. constructor; assumption. Qed.
Lemma modes_usable : forall s m, usable s -> usable (with_modes s m).
Proof.
  intros s m [R [S P]]. split; [|split; [exact S | exact P]]. rewrite <- in_modes_eq. exact (run_reach [OpSetAlternative (m_alternative m); OpSetStrict (m_strict m); OpSetHelpException (m_helpex m); OpSetVersionException (m_verex m)] s _ R eq_refl).
Qed.
Lemma modes_interprets : forall s m, interprets s -> interprets (with_modes s m).
Proof. intros s m I. exact I. Qed.
Lemma modes_ready : forall s m, wf0 s -> ready (with_modes s m) = with_modes (ready s) m.
Proof.
  intros s m W. destruct (ready_cases s W) as [[E A]|[E [A B]]], (ready_cases _ (modes_wf0 s m W)) as [[E' A']|[E' [A' B']]]; rewrite E, E'.
  - reflexivity.
  - exfalso. destruct A as [A|A]; [now apply A | now apply B'].
  - exfalso. destruct A' as [A'|A']; [now apply A' | now apply B].
  - reflexivity.
Qed.
Lemma modes_scanned : forall s m argv pcs, wf0 s -> scanned argv pcs (with_modes s m) = with_modes (scanned argv pcs s) m.
Proof.
  intros s m argv pcs W. unfold scanned. rewrite (modes_ready s m W). unfold named. cbn [with_modes s_bin s_args s_additional]. now destruct (s_bin (ready s)).
Qed.
Lemma modes_completion : forall t m, completion (with_modes t m) = with_modes (completion t) m.
Proof. reflexivity. Qed.
Lemma modes_verdict : forall t m, m_helpex m = m_helpex (s_modes t) -> m_verex m = m_verex (s_modes t) -> verdict (with_modes t m) = verdict t.
Proof. intros t m H V. unfold verdict. cbn [s_modes with_modes]. rewrite H, V. reflexivity. Qed.
Lemma modes_idle : forall s m argv, wf0 s -> ~ interprets s -> exists t, parseArguments argv s = (t, Ok tt) /\ parseArguments argv (with_modes s m) = (with_modes t m, Ok tt).
Proof.
  intros s m argv W N. unfold parseArguments. rewrite (proj2 (parse_with_eq _ argv s W) N), (proj2 (parse_with_eq _ argv _ (modes_wf0 s m W)) N). eexists. split; reflexivity.
Qed.
