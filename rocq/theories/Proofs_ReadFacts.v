(** Proofs_ReadFacts.v -- facts about readings of command lines (Spec_Reading.v only). *)
From Verif Require Import Base Model_Types Spec_Reading.

(* ------------------------------------------------------------------ *)
(** * words taken *)
Lemma run_of_prefix : forall stop l, run_of stop l = firstn (length (run_of stop l)) l.
Proof. induction l as [|w l IH]; simpl; [reflexivity|]. destruct (stop w); simpl; [reflexivity|]. now rewrite <- IH. Qed.
Lemma groups_prefix : forall stop n l k ws, groups_from stop n k l = Some ws -> ws = firstn (length ws) l.
Proof.
  induction l as [|w l IH]; intros k ws H.
  - destruct k; simpl in H; [now injection H as <- | discriminate].
  - destruct k; simpl in H.
    + destruct (stop w); [now injection H as <-|]. destruct (groups_from stop n (n - 1) l) as [r|] eqn:E; simpl in H; [|discriminate].
      injection H as <-. simpl. f_equal. now apply (IH _ _ E).
    + destruct (groups_from stop n k l) as [r|] eqn:E; simpl in H; [|discriminate]. injection H as <-. simpl. f_equal. now apply (IH _ _ E).
Qed.
Lemma take_prefix : forall stop ar l vs, take_words stop ar l = Some vs -> vs = firstn (length vs) l.
Proof.
  intros stop ar l vs H. destruct ar as [| |n| |n]; simpl in H.
  - now injection H as <-.
  - destruct l; [discriminate|]. now injection H as <-.
  - destruct (Nat.ltb_spec (length l) n) as [L|L]; [discriminate|]. injection H as <-. now rewrite firstn_length_le.
  - injection H as <-. apply run_of_prefix.
  - now apply groups_prefix in H.
Qed.
Lemma before_end_prefix : forall l, before_end l = firstn (length (before_end l)) l.
Proof. induction l as [|w l IH]; simpl; [reflexivity|]. destruct (word_kind w); simpl; congruence. Qed.
Lemma firstn_le_app : forall {A} (l vs : list A), vs = firstn (length vs) l -> exists r, l = vs ++ r.
Proof. intros A l vs E. exists (skipn (length vs) l). rewrite E at 1. symmetry. apply firstn_skipn. Qed.
Lemma take_before : forall stop ar l vs, take_words stop ar (before_end l) = Some vs -> l = vs ++ skipn (length vs) l.
Proof.
  intros stop ar l vs H. apply take_prefix in H. destruct (firstn_le_app _ _ H) as [r Er].
  destruct (firstn_le_app _ _ (before_end_prefix l)) as [q Eq]. rewrite Er in Eq. rewrite <- app_assoc in Eq. rewrite Eq at 1.
  f_equal. rewrite Eq. rewrite skipn_app, skipn_all, Nat.sub_diag. reflexivity.
Qed.
Lemma take_all : forall stop ar l vs, take_words stop ar l = Some vs -> l = vs ++ skipn (length vs) l.
Proof. intros stop ar l vs H. apply take_prefix in H. rewrite H at 1. symmetry. apply firstn_skipn. Qed.
Lemma take_before_in : forall stop ar l vs w, take_words stop ar (before_end l) = Some vs -> In w vs -> In w (before_end l).
Proof. intros stop ar l vs w H I. apply take_prefix in H. rewrite H in I. revert I. generalize (length vs). intros n. generalize (before_end l). intros m I.
  rewrite <- (firstn_skipn n m). apply in_app_iff. now left. Qed.

(* ------------------------------------------------------------------ *)
(** * option words *)
Lemma read_option_used : forall K w avail occs used, read_option K w avail = inr (occs, used) -> used = firstn (length used) avail.
Proof.
  intros K w avail occs used H. unfold read_option in H. destruct (word_meaning K w) as [e|bools id c name st value]; [discriminate|].
  destruct (option_values K c name value avail) as [e|vs] eqn:OV; [discriminate|]. injection H as _ <-.
  destruct value as [v|]; [reflexivity|]. unfold option_values in OV.
  destruct (take_words (stops K) (arity_of c) avail) as [r|] eqn:T; [|discriminate]. injection OV as ->. now apply take_prefix in T.
Qed.
Lemma read_option_rest : forall K w ws occs used, read_option K w (before_end ws) = inr (occs, used) -> ws = used ++ skipn (length used) ws.
Proof.
  intros K w ws occs used H. apply read_option_used in H. destruct (firstn_le_app _ _ H) as [r Er].
  destruct (firstn_le_app _ _ (before_end_prefix ws)) as [q Eq]. rewrite Er in Eq. rewrite <- app_assoc in Eq. rewrite Eq at 1.
  f_equal. rewrite Eq. rewrite skipn_app, skipn_all, Nat.sub_diag. reflexivity.
Qed.

(* ------------------------------------------------------------------ *)
(** * the pieces cover the words *)
Definition words_of (pcs : list piece) : list str := flat_map piece_words pcs.
Lemma kind_end' : forall w, word_kind w = WEnd -> w = "--".
Proof.
  intros w. unfold word_kind. destruct w as [|a [|b [|c r]]]; simpl; try discriminate.
  - destruct (Ascii.eqb a "-"); discriminate.
  - destruct (Ascii.eqb_spec a "-"); [|discriminate]. destruct (Ascii.eqb_spec b "-"); [|discriminate]. subst; reflexivity.
  - destruct (Ascii.eqb a "-"); [|discriminate]. destruct (Ascii.eqb b "-"); discriminate.
Qed.
Lemma ReadingEnd_words : forall K ps ws pcs, ReadingEnd K ps ws pcs -> words_of pcs = ws.
Proof.
  intros K ps ws pcs R. induction R as [ps|id c ps w ws vs pcs T R IH|w ws pcs S R IH]; unfold words_of in *; simpl.
  - reflexivity.
  - rewrite IH. symmetry. apply (take_all _ _ _ _ T).
  - now rewrite IH.
Qed.
Lemma Reading_words : forall K ps ws pcs, Reading K ps ws pcs -> words_of pcs = ws.
Proof.
  intros K ps ws pcs R. induction R as [ps|ps w ws occs used pcs KW RO R IH|ps w ws pcs KW R|id c ps w ws vs pcs KW T R IH|w ws pcs KW S R IH]; unfold words_of in *; simpl.
  - reflexivity.
  - rewrite IH. f_equal. symmetry. apply (read_option_rest _ _ _ _ _ RO).
  - rewrite (kind_end' _ KW). f_equal. apply (ReadingEnd_words _ _ _ _ R).
  - rewrite IH. symmetry. apply (take_before _ _ _ _ T).
  - now rewrite IH.
Qed.
Lemma Reached_words : forall K ps ws pcs ps' ws', Reached K ps ws pcs ps' ws' -> ws = words_of pcs ++ ws'.
Proof.
  intros K ps ws pcs ps' ws' R. induction R as [ps ws|ps w ws occs used pcs ps' ws' KW RO R IH|id c ps w ws vs pcs ps' ws' KW T R IH|w ws pcs ps' ws' KW S R IH]; unfold words_of in *; simpl.
  - reflexivity.
  - rewrite (read_option_rest _ _ _ _ _ RO) at 1. rewrite IH. now rewrite app_assoc.
  - rewrite (take_before _ _ _ _ T) at 1. rewrite IH. now rewrite app_assoc.
  - now rewrite IH at 1.
Qed.

(* ------------------------------------------------------------------ *)
(** * stepping *)
Lemma Reached_app : forall K ps ws p1 ps1 ws1, Reached K ps ws p1 ps1 ws1 -> forall p2 ps2 ws2, Reached K ps1 ws1 p2 ps2 ws2 -> Reached K ps ws (p1 ++ p2) ps2 ws2.
Proof. intros K ps ws p1 ps1 ws1 R. induction R; intros p2 ps2 ws2 R2; simpl; [exact R2 | | | ]; econstructor; eauto. Qed.
Lemma Reached_Reading : forall K ps ws p1 ps1 ws1, Reached K ps ws p1 ps1 ws1 -> forall p2, Reading K ps1 ws1 p2 -> Reading K ps ws (p1 ++ p2).
Proof. intros K ps ws p1 ps1 ws1 R. induction R; intros p2 R2; simpl; [exact R2 | | | ]; econstructor; eauto. Qed.
Lemma Reached_Fails : forall K ps ws p1 ps1 ws1, Reached K ps ws p1 ps1 ws1 -> forall e, Fails K ps1 ws1 e -> Fails K ps ws e.
Proof.
  intros K ps ws p1 ps1 ws1 R. induction R; intros e F; [exact F | | | ].
  - eapply Fl_option_next; eauto.
  - eapply Fl_positional_next; eauto.
  - eapply Fl_additional_next; eauto.
Qed.
Ltac bad_kind := match goal with
  | H : word_kind ?w = WShort \/ word_kind ?w = WLong, K : word_kind ?w = _ |- _ => destruct H; congruence
  | H : word_kind ?w = _, K : word_kind ?w = _ |- _ => congruence
  end.
Lemma Reached_Reading_inv : forall K ps ws p1 ps1 ws1, Reached K ps ws p1 ps1 ws1 -> forall pcs, Reading K ps ws pcs ->
  exists p2, pcs = p1 ++ p2 /\ Reading K ps1 ws1 p2.
Proof.
  intros K ps ws p1 ps1 ws1 R. induction R; intros q RQ; [exists q; now split | | | ]; inversion RQ; subst; try bad_kind.
  - match goal with A : read_option _ _ _ = inr (?x, ?y), B : read_option _ _ _ = inr (?z, ?t) |- _ => assert (E : (x, y) = (z, t)) by congruence; injection E as -> -> end.
    match goal with Q : Reading _ _ _ _ |- _ => destruct (IHR _ Q) as [p2 [-> G]] end. now exists p2.
  - match goal with A : take_words _ _ _ = Some ?x, B : take_words _ _ _ = Some ?y |- _ => assert (E : x = y) by congruence; subst end.
    match goal with Q : Reading _ _ _ _ |- _ => destruct (IHR _ Q) as [p2 [-> G]] end. now exists p2.
  - match goal with Q : Reading _ _ _ _ |- _ => destruct (IHR _ Q) as [p2 [-> G]] end. now exists p2.
Qed.
Lemma Reached_Fails_inv : forall K ps ws p1 ps1 ws1, Reached K ps ws p1 ps1 ws1 -> forall e, Fails K ps ws e -> Fails K ps1 ws1 e.
Proof.
  intros K ps ws p1 ps1 ws1 R. induction R; intros e FQ; [exact FQ | | | ]; inversion FQ; subst; try bad_kind; try congruence.
  - match goal with A : read_option _ _ _ = inr (?x, ?y), B : read_option _ _ _ = inr (?z, ?t) |- _ => assert (E : (x, y) = (z, t)) by congruence; injection E as -> -> end.
    now apply IHR.
  - match goal with A : take_words _ _ _ = Some ?x, B : take_words _ _ _ = Some ?y |- _ => assert (E : x = y) by congruence; subst end.
    now apply IHR.
  - now apply IHR.
Qed.
(** a reading cut at any piece *)
Lemma Reading_cut : forall K ps ws pcs, Reading K ps ws pcs -> forall p1 p2, pcs = p1 ++ p2 -> ~ In PcEnd p1 ->
  exists ps' ws', Reached K ps ws p1 ps' ws' /\ Reading K ps' ws' p2.
Proof.
  intros K ps ws pcs R. induction R as [ps|ps w ws occs used pcs KW RO R IH|ps w ws pcs KW R|id c ps w ws vs pcs KW T R IH|w ws pcs KW S R IH]; intros p1 p2 E N.
  - destruct p1; [|discriminate]. simpl in E. subst. exists ps, []. split; constructor.
  - destruct p1 as [|p p1]; simpl in E.
    + subst. exists ps, (w :: ws). split; [constructor | now constructor].
    + injection E as <- E. destruct (IH _ _ E) as [ps' [ws' [A B]]]; [simpl in N; tauto|]. exists ps', ws'. split; [econstructor; eauto | exact B].
  - destruct p1 as [|p p1]; simpl in E.
    + subst. exists ps, (w :: ws). split; [constructor | now constructor].
    + injection E as <- E. exfalso. apply N. now left.
  - destruct p1 as [|p p1]; simpl in E.
    + subst. exists ((id, c) :: ps), (w :: ws). split; [constructor | now apply (Rd_positional K id c ps w ws vs)].
    + injection E as <- E. destruct (IH _ _ E) as [ps' [ws' [A B]]]; [simpl in N; tauto|]. exists ps', ws'. split; [econstructor; eauto | exact B].
  - destruct p1 as [|p p1]; simpl in E.
    + subst. exists [], (w :: ws). split; [constructor | now constructor].
    + injection E as <- E. destruct (IH _ _ E) as [ps' [ws' [A B]]]; [simpl in N; tauto|]. exists ps', ws'. split; [econstructor; eauto | exact B].
Qed.

(* ------------------------------------------------------------------ *)
(** * positionals *)
Lemma ReadingEnd_given : forall K ps ws pcs, ReadingEnd K ps ws pcs -> exists k, map fst (given_of pcs) = firstn k (map fst ps) /\ k <= length ps.
Proof.
  intros K ps ws pcs R. induction R as [ps|id c ps w ws vs pcs T R IH|w ws pcs S R IH]; unfold given_of in *; simpl.
  - exists 0. split; [reflexivity | lia].
  - destruct IH as [k [E L]]. exists (S k). simpl. split; [now rewrite E | lia].
  - exact IH.
Qed.
Lemma Reading_given : forall K ps ws pcs, Reading K ps ws pcs -> exists k, map fst (given_of pcs) = firstn k (map fst ps) /\ k <= length ps.
Proof.
  intros K ps ws pcs R. induction R as [ps|ps w ws occs used pcs KW RO R IH|ps w ws pcs KW R|id c ps w ws vs pcs KW T R IH|w ws pcs KW S R IH]; unfold given_of in *; simpl.
  - exists 0. split; [reflexivity | lia].
  - exact IH.
  - apply (ReadingEnd_given _ _ _ _ R).
  - destruct IH as [k [E L]]. exists (S k). simpl. split; [now rewrite E | lia].
  - exact IH.
Qed.
(** a positional that got words: which *)
Inductive Took (K : conf) (c : acfg) (vs : list str) : Prop :=
| Took_before : forall w ws, word_kind w = WPlain -> take_words (stops K) (arity_of c) (before_end (w :: ws)) = Some vs -> Took K c vs
| Took_after : forall w ws, take_words no_stop (arity_of c) (w :: ws) = Some vs -> Took K c vs.
Lemma ReadingEnd_took : forall K ps ws pcs, ReadingEnd K ps ws pcs -> forall i vs, In (PcPositional i vs) pcs -> exists c, In (i, c) ps /\ Took K c vs.
Proof.
  intros K ps ws pcs R. induction R as [ps|id c ps w ws vs pcs T R IH|w ws pcs S R IH]; intros i us I; simpl in I.
  - contradiction.
  - destruct I as [E|I].
    + injection E as <- <-. exists c. split; [now left | now apply (Took_after K c vs w ws)].
    + destruct (IH _ _ I) as [c' [A B]]. exists c'. split; [now right | exact B].
  - destruct I as [E|I]; [discriminate | now apply IH].
Qed.
Lemma Reading_took : forall K ps ws pcs, Reading K ps ws pcs -> forall i vs, In (PcPositional i vs) pcs -> exists c, In (i, c) ps /\ Took K c vs.
Proof.
  intros K ps ws pcs R. induction R as [ps|ps w ws occs used pcs KW RO R IH|ps w ws pcs KW R|id c ps w ws vs pcs KW T R IH|w ws pcs KW S R IH]; intros i us I; simpl in I.
  - contradiction.
  - destruct I as [E|I]; [discriminate | now apply IH].
  - destruct I as [E|I]; [discriminate | now apply (ReadingEnd_took _ _ _ _ R)].
  - destruct I as [E|I].
    + injection E as <- <-. exists c. split; [now left | now apply (Took_before K c vs w ws)].
    + destruct (IH _ _ I) as [c' [A B]]. exists c'. split; [now right | exact B].
  - destruct I as [E|I]; [discriminate | now apply IH].
Qed.
Lemma given_In : forall pcs i vs, In (i, vs) (given_of pcs) <-> In (PcPositional i vs) pcs.
Proof.
  intros pcs i vs. unfold given_of. rewrite in_flat_map. split.
  - intros [p [I H]]. destruct p; simpl in H; try contradiction. destruct H as [E|[]]. injection E as -> ->. exact I.
  - intros I. exists (PcPositional i vs). split; [exact I | now left].
Qed.
(** additional words come when no positional is left *)
Lemma ReadingEnd_additional : forall K ps ws pcs, ReadingEnd K ps ws pcs -> forall p1 w p2, pcs = p1 ++ PcAdditional w :: p2 ->
  k_strict K = false /\ map fst (given_of p1) = map fst ps.
Proof.
  intros K ps ws pcs R. induction R as [ps|id c ps w ws vs pcs T R IH|w ws pcs S R IH]; intros p1 x p2 E.
  - destruct p1; discriminate.
  - destruct p1 as [|p p1]; [discriminate|]. injection E as <- E. destruct (IH _ _ _ E) as [A B]. split; [exact A|]. simpl. unfold given_of in *. simpl. now rewrite B.
  - destruct p1 as [|p p1]; [now split|]. injection E as <- E. destruct (IH _ _ _ E) as [A B]. split; [exact A|]. exact B.
Qed.
Lemma Reading_additional : forall K ps ws pcs, Reading K ps ws pcs -> forall p1 w p2, pcs = p1 ++ PcAdditional w :: p2 ->
  k_strict K = false /\ map fst (given_of p1) = map fst ps /\ (In PcEnd p1 \/ word_kind w = WPlain).
Proof.
  intros K ps ws pcs R. induction R as [ps|ps w ws occs used pcs KW RO R IH|ps w ws pcs KW R|id c ps w ws vs pcs KW T R IH|w ws pcs KW S R IH]; intros p1 x p2 E.
  - destruct p1; discriminate.
  - destruct p1 as [|p p1]; [discriminate|]. injection E as <- E. destruct (IH _ _ _ E) as [A [B C]]. split; [exact A|]. split; [exact B|]. simpl. tauto.
  - destruct p1 as [|p p1]; [discriminate|]. injection E as <- E. destruct (ReadingEnd_additional _ _ _ _ R _ _ _ E) as [A B]. split; [exact A|]. split; [exact B|]. simpl. tauto.
  - destruct p1 as [|p p1]; [discriminate|]. injection E as <- E. destruct (IH _ _ _ E) as [A [B C]]. split; [exact A|]. split; [unfold given_of in *; simpl; now rewrite B|]. simpl. tauto.
  - destruct p1 as [|p p1].
    + injection E as <- <-. split; [exact S|]. split; [reflexivity | now right].
    + injection E as <- E. destruct (IH _ _ _ E) as [A [B C]]. split; [exact A|]. split; [exact B|]. simpl. tauto.
Qed.
(** after "--" there are only positional and additional pieces *)
Definition end_piece (p : piece) : Prop := match p with PcPositional _ _ | PcAdditional _ => True | _ => False end.
Lemma ReadingEnd_pieces : forall K ps ws pcs, ReadingEnd K ps ws pcs -> Forall end_piece pcs.
Proof. intros K ps ws pcs R. induction R; constructor; simpl; auto. Qed.
Lemma before_end_app : forall pre post, ~ In "--" pre -> before_end (pre ++ "--" :: post) = pre.
Proof.
  induction pre as [|w pre IH]; intros post N; simpl in *; [reflexivity|]. destruct (word_kind w) eqn:E; try (rewrite IH; tauto).
  exfalso. apply N. left. now apply kind_end'.
Qed.
Lemma before_end_none : forall l, ~ In "--" l -> before_end l = l.
Proof.
  induction l as [|w l IH]; intros N; simpl in *; [reflexivity|]. destruct (word_kind w) eqn:E; try (rewrite IH; tauto).
  exfalso. apply N. left. now apply kind_end'.
Qed.
Lemma before_end_no : forall l, ~ In "--" (before_end l).
Proof.
  induction l as [|w l IH]; simpl; [tauto|]. destruct (word_kind w) eqn:E; simpl; try tauto; intros [Q|Q]; try (now apply IH); subst w; discriminate.
Qed.
(** the words before "--" and after it, in a reading *)
Lemma Reading_split : forall K ps ws pcs, Reading K ps ws pcs ->
  (~ In PcEnd pcs /\ ~ In "--" ws) \/
  exists p1 p2 ps', pcs = p1 ++ PcEnd :: p2 /\ ~ In PcEnd p1 /\ Reached K ps ws p1 ps' ("--" :: words_of p2) /\ words_of p1 = before_end ws /\ 
     ws = words_of p1 ++ "--" :: words_of p2 /\ ReadingEnd K ps' (words_of p2) p2 /\ Forall end_piece p2.
Proof.
  intros K ps ws pcs R. pose proof (Reading_words _ _ _ _ R) as RW. 
  induction R as [ps|ps w ws occs used pcs KW RO R IH|ps w ws pcs KW R|id c ps w ws vs pcs KW T R IH|w ws pcs KW S R IH].
  - left. split; intros [].
  - destruct (IH (Reading_words _ _ _ _ R)) as [[A B]|[p1 [p2 [ps' [E [N [RC [W [E2 [RE F]]]]]]]]]].
    + left. split; [intros [Q|Q]; [discriminate | now apply A]|]. intros [Q|Q].
      * subst w. destruct KW; discriminate.
      * rewrite (read_option_rest _ _ _ _ _ RO) in Q. apply in_app_iff in Q. destruct Q as [Q|Q]; [|now apply B].
        pose proof (read_option_used _ _ _ _ _ RO) as U. rewrite U in Q. apply (before_end_no ws). rewrite <- (firstn_skipn (length used) (before_end ws)). apply in_app_iff. now left.
    + right. exists (PcOption w occs used :: p1), p2, ps'. repeat split; try assumption.
      * now rewrite E.
      * intros [Q|Q]; [discriminate | now apply N].
      * econstructor; eauto.
      * change (words_of (PcOption w occs used :: p1)) with (w :: used ++ words_of p1). assert (Z : before_end (w :: ws) = w :: before_end ws) by (simpl; destruct KW as [Q|Q]; rewrite Q; reflexivity).
        rewrite Z. f_equal. rewrite (read_option_rest _ _ _ _ _ RO). pose proof (read_option_used _ _ _ _ _ RO) as U. rewrite W.
        assert (ND : ~ In "--" used).
        { intros Q. rewrite U in Q. apply (before_end_no ws). rewrite <- (firstn_skipn (length used) (before_end ws)). apply in_app_iff. now left. }
        generalize (skipn (length used) ws). intros l. clear - ND. induction used as [|u used IHu]; simpl; [reflexivity|].
        simpl in ND. destruct (word_kind u) eqn:Ku; try (rewrite IHu; [reflexivity | tauto]). exfalso. apply ND. left. now apply kind_end'.
      * change (words_of (PcOption w occs used :: p1)) with (w :: used ++ words_of p1). rewrite (read_option_rest _ _ _ _ _ RO) at 1. simpl. f_equal. rewrite E2 at 1. now rewrite <- app_assoc.
  - right. exists [], pcs, ps. repeat split.
    + intros [].
    + rewrite (ReadingEnd_words _ _ _ _ R), <- (kind_end' _ KW). constructor.
    + simpl. now rewrite KW.
    + rewrite (ReadingEnd_words _ _ _ _ R), <- (kind_end' _ KW). reflexivity.
    + now rewrite (ReadingEnd_words _ _ _ _ R).
    + now apply (ReadingEnd_pieces _ _ _ _ R).
  - destruct (IH (Reading_words _ _ _ _ R)) as [[A B]|[p1 [p2 [ps' [E [N [RC [W [E2 [RE F]]]]]]]]]].
    + left. split; [intros [Q|Q]; [discriminate | now apply A]|]. intros Q. 
      rewrite (take_before _ _ _ _ T) in Q. apply in_app_iff in Q. destruct Q as [Q|Q]; [|now apply B].
      apply (before_end_no (w :: ws)). now apply (take_before_in _ _ _ _ _ T).
    + right. exists (PcPositional id vs :: p1), p2, ps'. repeat split; try assumption.
      * now rewrite E.
      * intros [Q|Q]; [discriminate | now apply N].
      * econstructor; eauto.
      * change (words_of (PcPositional id vs :: p1)) with (vs ++ words_of p1). rewrite (take_before _ _ _ _ T) at 1. rewrite W.
        assert (ND : ~ In "--" vs) by (intros Q; apply (before_end_no (w :: ws)); now apply (take_before_in _ _ _ _ _ T)).
        generalize (skipn (length vs) (w :: ws)). intros l. clear - ND. induction vs as [|u used IHu]; simpl; [reflexivity|].
        simpl in ND. destruct (word_kind u) eqn:Ku; try (rewrite IHu; [reflexivity | tauto]). exfalso. apply ND. left. now apply kind_end'.
      * change (words_of (PcPositional id vs :: p1)) with (vs ++ words_of p1). rewrite (take_before _ _ _ _ T). rewrite E2 at 1. now rewrite <- app_assoc.
  - destruct (IH (Reading_words _ _ _ _ R)) as [[A B]|[p1 [p2 [ps' [E [N [RC [W [E2 [RE F]]]]]]]]]].
    + left. split; [intros [Q|Q]; [discriminate | now apply A]|]. intros [Q|Q]; [subst w; discriminate | now apply B].
    + right. exists (PcAdditional w :: p1), p2, ps'. repeat split; try assumption.
      * now rewrite E.
      * intros [Q|Q]; [discriminate | now apply N].
      * econstructor; eauto.
      * unfold words_of in *. simpl. rewrite KW, W. reflexivity.
      * unfold words_of in *. simpl. now rewrite E2 at 1.
Qed.
(* ------------------------------------------------------------------ *)
(** * occurrences *)
Lemma occs_In : forall pcs o, In o (occs_of pcs) <-> exists w occs used, In (PcOption w occs used) pcs /\ In o occs.
Proof.
  intros pcs o. unfold occs_of. rewrite in_flat_map. split.
  - intros [p [I H]]. destruct p as [w occs used| | |]; simpl in H; try contradiction. now exists w, occs, used.
  - intros [w [occs [used [I H]]]]. exists (PcOption w occs used). now split.
Qed.
Lemma Reading_option : forall K ps ws pcs, Reading K ps ws pcs -> forall w occs used, In (PcOption w occs used) pcs ->
  (word_kind w = WShort \/ word_kind w = WLong) /\ exists rest, read_option K w (before_end rest) = inr (occs, used) /\ exists pre, ws = pre ++ w :: rest.
Proof.
  intros K ps ws pcs R. induction R as [ps|ps w ws occs used pcs KW RO R IH|ps w ws pcs KW R|id c ps w ws vs pcs KW T R IH|w ws pcs KW S R IH]; intros x os us I; simpl in I.
  - contradiction.
  - destruct I as [E|I].
    + injection E as <- <- <-. split; [exact KW|]. exists ws. split; [exact RO|]. now exists [].
    + destruct (IH _ _ _ I) as [A [rest [B [pre C]]]]. split; [exact A|]. exists rest. split; [exact B|]. exists (w :: used ++ pre).
      simpl. f_equal. rewrite (read_option_rest _ _ _ _ _ RO). rewrite C at 1. now rewrite app_assoc.
  - destruct I as [E|I]; [discriminate|]. pose proof (ReadingEnd_pieces _ _ _ _ R) as F. rewrite Forall_forall in F. now apply F in I.
  - destruct I as [E|I]; [discriminate|]. destruct (IH _ _ _ I) as [A [rest [B [pre C]]]]. split; [exact A|]. exists rest. split; [exact B|]. exists (vs ++ pre).
    rewrite (take_before _ _ _ _ T). rewrite C at 1. now rewrite app_assoc.
  - destruct I as [E|I]; [discriminate|]. destruct (IH _ _ _ I) as [A [rest [B [pre C]]]]. split; [exact A|]. exists rest. split; [exact B|]. exists (w :: pre). simpl. now rewrite C.
Qed.
(** [vs] is an acceptable list of values for the arity *)
Definition arity_ok (ar : arity) (vs : list str) : Prop :=
  match ar with
  | ANone => vs = []
  | AOne => length vs = 1
  | AFixed n => length vs = n
  | ARun => True
  | AGroups n => exists k, length vs = k * n
  end.
Lemma groups_from_mult : forall stop n l k ws, 0 < n -> k < n -> groups_from stop n k l = Some ws -> exists q, length ws = k + q * n.
Proof.
  induction l as [|w l IH]; intros k ws N L H.
  - destruct k; simpl in H; [injection H as <-; now exists 0 | discriminate].
  - destruct k; simpl in H.
    + destruct (stop w); [injection H as <-; now exists 0|]. destruct (groups_from stop n (n - 1) l) as [r|] eqn:E; simpl in H; [|discriminate].
      injection H as <-. destruct (IH (n - 1) r N) as [q Q]; [lia | exact E|]. exists (S q). simpl. lia.
    + destruct (groups_from stop n k l) as [r|] eqn:E; simpl in H; [|discriminate]. injection H as <-. destruct (IH k r N) as [q Q]; [lia | exact E|].
      exists q. simpl. lia.
Qed.
Lemma take_words_ok : forall stop ar l vs, (forall n, ar = AGroups n -> 0 < n) -> take_words stop ar l = Some vs -> arity_ok ar vs.
Proof.
  intros stop ar l vs G H. destruct ar as [| |n| |n]; simpl in *.
  - now injection H as <-.
  - destruct l; [discriminate|]. now injection H as <-.
  - destruct (Nat.ltb_spec (length l) n); [discriminate|]. injection H as <-. now apply firstn_length_le.
  - exact I.
  - destruct (groups_from_mult _ _ _ _ _ (G n eq_refl) (G n eq_refl) H) as [q Q]. now exists q.
Qed.
Lemma option_values_ok : forall K c name value avail vs, (forall n, arity_of c = AGroups n -> 0 < n) ->
  option_values K c name value avail = inr vs -> arity_ok (arity_of c) vs.
Proof.
  intros K c name value avail vs G H. unfold option_values in H. destruct value as [v|].
  - destruct (arity_of c); simpl in *; try discriminate; injection H as <-; auto. 
  - destruct (take_words (stops K) (arity_of c) avail) as [r|] eqn:T; [|discriminate]. injection H as ->. now apply (take_words_ok _ _ _ _ G T).
Qed.
Lemma bundle_flags : forall K value cs bools bools' id c name st v,
  bundle K value bools cs = MeansOption bools' id c name st v ->
  exists more, bools' = bools ++ more /\ Forall (fun i => exists n cf, k_find K (String "-" n) = Some (i, cf) /\ is_flag_type (c_type cf) = true) more /\
    (exists n, k_find K (String "-" n) = Some (id, c)) /\
    ((st = Glued /\ glues c = true /\ exists x, v = Some x) \/ (st = style_of v /\ v = value)).
Proof.
  intros K value. induction cs as [|ch cs IH]; intros bools bools' id c name st v H; simpl in H; [discriminate|].
  destruct (k_find K (one_char ch)) as [[i cf]|] eqn:F; [|discriminate]. destruct cs as [|ch2 cs2].
  - injection H as <- <- <- _ <- <-. exists []. rewrite app_nil_r. repeat split; [constructor | now exists (String ch "") | right; now split].
  - destruct value as [x|].
    + destruct (is_flag_type (c_type cf)) eqn:FT; [|discriminate]. destruct (IH _ _ _ _ _ _ _ H) as [more [E [A [B C]]]].
      exists (i :: more). rewrite E, <- app_assoc. repeat split; auto. constructor; [|exact A]. now exists (String ch ""), cf.
    + destruct (glues cf) eqn:GL.
      * injection H as <- <- <- _ <- <-. exists []. rewrite app_nil_r. split; [reflexivity|]. split; [constructor|]. split; [now exists (String ch "")|].
        left. split; [reflexivity|]. split; [exact GL | now eexists].
      * destruct (is_flag_type (c_type cf)) eqn:FT; [|discriminate]. destruct (IH _ _ _ _ _ _ _ H) as [more [E [A [B C]]]].
        exists (i :: more). rewrite E, <- app_assoc. repeat split; auto. constructor; [|exact A]. now exists (String ch ""), cf.
Qed.
Lemma name_dash : forall w, word_kind w = WShort \/ word_kind w = WLong -> exists r, fst (cut_eq w) = String "-" r.
Proof.
  intros [|a w] H; [destruct H; discriminate|]. simpl in H. destruct (Ascii.eqb_spec a "-") as [->|]; [|destruct H; discriminate].
  simpl. destruct (cut_eq w) as [n v]. now exists n.
Qed.
Lemma meaning_flags : forall K w bools id c name st v, word_kind w = WShort \/ word_kind w = WLong ->
  word_meaning K w = MeansOption bools id c name st v ->
  Forall (fun i => exists n cf, k_find K (String "-" n) = Some (i, cf) /\ is_flag_type (c_type cf) = true) bools /\
  (exists n, k_find K (String "-" n) = Some (id, c)) /\
  ((st = Glued /\ glues c = true /\ exists x, v = Some x) \/ (st = style_of v /\ v = snd (cut_eq w))).
Proof.
  intros K w bools id c name st v KW H. destruct (name_dash w KW) as [r Er]. unfold word_meaning in H. destruct (cut_eq w) as [nm val]. simpl in Er. subst nm.
  assert (B : bundle K val [] (after1 (String "-" r)) = MeansOption bools id c name st v ->
    Forall (fun i => exists n cf, k_find K (String "-" n) = Some (i, cf) /\ is_flag_type (c_type cf) = true) bools /\
    (exists n, k_find K (String "-" n) = Some (id, c)) /\ ((st = Glued /\ glues c = true /\ exists x, v = Some x) \/ (st = style_of v /\ v = val))).
  { intros Q. destruct (bundle_flags _ _ _ _ _ _ _ _ _ _ Q) as [more [E [A C]]]. simpl in E. now subst. }
  destruct (word_kind w) eqn:Ew; try (destruct KW; discriminate).
  - destruct (if k_alt K then k_find K (String "-" (String "-" r)) else None) as [[i cf]|] eqn:AL; [|now apply B].
    injection H as <- <- <- _ <- <-. split; [constructor|]. split; [|right; now split]. destruct (k_alt K); [|discriminate]. now exists (String "-" r).
  - destruct (k_find K (String "-" r)) as [[i cf]|] eqn:F; [|discriminate]. injection H as <- <- <- _ <- <-. split; [constructor|]. split; [|right; now split]. now exists r.
Qed.
(** each occurrence: its option, an acceptable list of values; glued only where allowed *)
Lemma read_option_occ : forall K w avail occs used, word_kind w = WShort \/ word_kind w = WLong ->
  read_option K w avail = inr (occs, used) -> forall o, In o occs ->
  exists n c, k_find K (String "-" n) = Some (o_id o, c) /\
    ((forall n, arity_of c = AGroups n -> 0 < n) -> arity_ok (arity_of c) (o_vals o)) /\
    (o_style o = Glued -> glues c = true).
Proof.
  intros K w avail occs used KW H o I. unfold read_option in H. destruct (word_meaning K w) as [e|bools id c name st v] eqn:M; [discriminate|].
  destruct (option_values K c name v avail) as [e|vs] eqn:OV; [discriminate|]. injection H as <- _.
  destruct (meaning_flags _ _ _ _ _ _ _ _ KW M) as [FB [[n Fn] ST]]. apply in_app_iff in I. destruct I as [I|[<-|[]]].
  - apply in_map_iff in I. destruct I as [i [<- Ii]]. rewrite Forall_forall in FB. destruct (FB i Ii) as [m [cf [F T]]]. exists m, cf. split; [exact F|].
    split; [|discriminate]. intros _. simpl. unfold arity_of. destruct (c_type cf); simpl in T; try discriminate; reflexivity.
  - exists n, c. split; [exact Fn|]. split; [intros G; now apply (option_values_ok _ _ _ _ _ _ G OV)|]. simpl. intros ->. destruct ST as [[_ [G _]]|[Q _]]; [exact G|].
    destruct v; discriminate.
Qed.
Lemma Reading_occ : forall K ps ws pcs, Reading K ps ws pcs -> forall o, In o (occs_of pcs) ->
  exists n c, k_find K (String "-" n) = Some (o_id o, c) /\
    ((forall n, arity_of c = AGroups n -> 0 < n) -> arity_ok (arity_of c) (o_vals o)) /\
    (o_style o = Glued -> glues c = true).
Proof.
  intros K ps ws pcs R o I. apply occs_In in I. destruct I as [w [occs [used [I1 I2]]]].
  destruct (Reading_option _ _ _ _ R _ _ _ I1) as [KW [rest [RO _]]]. now apply (read_option_occ _ _ _ _ _ KW RO).
Qed.
(* ------------------------------------------------------------------ *)
(** * every list of words is read or rejected, and fully examined *)
Lemma reading_or_end : forall K n ws ps, length ws + length ps <= n -> (forall i c, In (i, c) ps -> forall m, arity_of c = AGroups m -> 0 < m) ->
  (exists pcs, ReadingEnd K ps ws pcs) \/ (exists e, FailsEnd K ps ws e).
Proof.
  induction n as [|n IH]; intros ws ps L G; destruct ws as [|w ws].
  - left. exists []. constructor.
  - simpl in L. lia.
  - left. exists []. constructor.
  - simpl in L. destruct ps as [|[i c] ps].
    + destruct (k_strict K) eqn:S; [right; eexists; now constructor|]. assert (LL : length ws + length (@nil (nat * acfg)) <= n) by (simpl in *; lia). destruct (IH ws [] LL) as [[p R]|[e F]]; [intros ? ? []| |].
      * left. eexists. now constructor; eauto.
      * right. eexists. now apply Fe_additional_next; eauto.
    + destruct (take_words no_stop (arity_of c) (w :: ws)) as [vs|] eqn:T; [|right; eexists; now constructor].
      destruct (IH (skipn (length vs) (w :: ws)) ps) as [[p R]|[e F]].
      * rewrite skipn_length. cbn [length] in *. lia.
      * intros j cj Ij. apply (G j cj). now right.
      * left. eexists. eapply Re_positional; eauto.
      * right. eexists. eapply Fe_positional_next; eauto.
Qed.
Lemma reading_or : forall K n ws ps, length ws + length ps <= n -> (forall i c, In (i, c) ps -> forall m, arity_of c = AGroups m -> 0 < m) ->
  (exists pcs, Reading K ps ws pcs) \/ (exists e, Fails K ps ws e).
Proof.
  induction n as [|n IH]; intros ws ps L G; destruct ws as [|w ws].
  - left. exists []. constructor.
  - simpl in L. lia.
  - left. exists []. constructor.
  - simpl in L.
    assert (OPT : word_kind w = WShort \/ word_kind w = WLong -> (exists pcs, Reading K ps (w :: ws) pcs) \/ (exists e, Fails K ps (w :: ws) e)).
    { intros KW. destruct (read_option K w (before_end ws)) as [e|[occs used]] eqn:RO; [right; exists e; now apply Fl_option|].
      destruct (IH (skipn (length used) ws) ps) as [[p R]|[e F]]; [rewrite skipn_length; lia | exact G | |].
      - left. eexists. eapply Rd_option; eauto.
      - right. eexists. eapply Fl_option_next; eauto. }
    destruct (word_kind w) eqn:KW; try (apply OPT; tauto).
    + destruct (reading_or_end K (length ws + length ps) ws ps (le_n _) G) as [[p R]|[e F]]; [left; eexists; now apply Rd_end; eauto | right; eexists; now apply Fl_end; eauto].
    + destruct ps as [|[i c] ps].
      * destruct (k_strict K) eqn:S; [right; eexists; now apply Fl_additional|]. assert (LL : length ws + length (@nil (nat * acfg)) <= n) by (simpl in *; lia). destruct (IH ws [] LL) as [[p R]|[e F]]; [intros ? ? []| |].
        { left. eexists. now apply Rd_additional; eauto. }
        { right. eexists. now apply Fl_additional_next; eauto. }
      * destruct (take_words (stops K) (arity_of c) (before_end (w :: ws))) as [vs|] eqn:T; [|right; eexists; now apply Fl_positional].
        destruct (IH (skipn (length vs) (w :: ws)) ps) as [[p R]|[e F]].
        { rewrite skipn_length. cbn [length] in *. lia. }
        { intros j cj Ij. apply (G j cj). now right. }
        { left. eexists. eapply Rd_positional; eauto. }
        { right. eexists. eapply Fl_positional_next; eauto. }
Qed.
