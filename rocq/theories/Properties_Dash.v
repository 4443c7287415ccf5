(** Properties_Dash.v -- C83: a "--" in front of words none of which begins with a dash (or
    at the end of the line) changes nothing. *)
From Coq Require Import Permutation Sorted.
From Verif Require Import Base Model_Utils Model_Number Model_Types Model_Argument Model_Usage Model_Args Model_Api
  Spec_Order Spec_Names Spec_Reading Spec_Parse Spec_Decl Spec_Finish Spec_History Spec_Api Spec_Result
  Proofs_Base Proofs_Order Proofs_Frame Proofs_Inv Proofs_ReadFacts Proofs_Reading Proofs_Parse Proofs_Decl Proofs_Finish
  Proofs_Meth Proofs_History Proofs_Config Proofs_Check Proofs_Names Proofs_Central Proofs_Dyn Properties_Words Demo Properties_Parse Proofs_Swap Proofs_Kind
  Proofs_Extend Spec_Roundtrip Properties_Roundtrip Spec_Insert Proofs_Insert Properties_Spell.

(* ------------------------------------------------------------------ *)
(** * fewer words available *)
Lemma run_fewer : forall stop used x r, run_of stop (used ++ x ++ r) = used -> run_of stop (used ++ x) = used.
Proof.
  intros stop used. induction used as [|u us IH]; intros x r E; cbn [app run_of] in *.
  - destruct x as [|w x]; [reflexivity|]. cbn [app run_of] in *. destruct (stop w); [reflexivity | discriminate E].
  - destruct (stop u); [discriminate E|]. injection E as E. f_equal. now apply (IH x r).
Qed.
Lemma groups_fewer : forall stop n used k x r, groups_from stop n k (used ++ x ++ r) = Some used -> groups_from stop n k (used ++ x) = Some used.
Proof.
  intros stop n used. induction used as [|u us IH]; intros k x r E; cbn [app] in *.
  - destruct x as [|w x]; cbn [app] in E.
    + destruct r as [|w r], k; cbn [groups_from] in *; try discriminate E; try reflexivity. destruct (groups_from stop n k r); discriminate E.
    + destruct k; cbn [groups_from] in *.
      * destruct (stop w); [reflexivity|]. destruct (groups_from stop n (n - 1) (x ++ r)); discriminate E.
      * destruct (groups_from stop n k (x ++ r)); discriminate E.
  - destruct k as [|k]; cbn [groups_from] in *.
    + destruct (stop u); [discriminate E|]. destruct (groups_from stop n (n - 1) (us ++ x ++ r)) as [v|] eqn:G; [|discriminate E]. injection E as ->. now rewrite (IH _ _ _ G).
    + destruct (groups_from stop n k (us ++ x ++ r)) as [v|] eqn:G; [|discriminate E]. injection E as ->. now rewrite (IH _ _ _ G).
Qed.
Lemma take_fewer : forall stop ar used x r, take_words stop ar (used ++ x ++ r) = Some used -> take_words stop ar (used ++ x) = Some used.
Proof.
  intros stop ar used x r E. destruct ar as [| |n| |n]; cbn [take_words] in *.
  - exact E.
  - destruct used as [|u [|? ?]]; cbn [app] in *; [destruct (x ++ r); discriminate E | reflexivity | discriminate E].
  - destruct (Nat.ltb_spec (length (used ++ x ++ r)) n) as [L|L]; [discriminate E|]. injection E as E.
    assert (n = length used). { apply (f_equal (@length str)) in E. rewrite firstn_length, Nat.min_l in E by exact L. exact E. } subst n.
    replace (Nat.ltb (length (used ++ x)) (length used)) with false by (symmetry; apply Nat.ltb_ge; rewrite app_length; lia).
    f_equal. rewrite firstn_app, Nat.sub_diag, firstn_all. cbn [firstn]. apply app_nil_r.
  - injection E as E. f_equal. exact (run_fewer stop used x r E).
  - exact (groups_fewer stop n used 0 x r E).
Qed.
Lemma before_cases : forall l r, (exists m, before_end l = m /\ before_end (l ++ r) = m /\ In "--" l) \/ (before_end (l ++ r) = l ++ before_end r /\ before_end l = l).
Proof.
  induction l as [|w l IH]; intros r; [right; split; reflexivity|]. cbn [app before_end]. destruct (word_kind w) eqn:K.
  3:{ left. exists []. split; [reflexivity|]. split; [reflexivity|]. left. now apply kind_end'. }
  all: destruct (IH r) as [[m [E1 [E2 H]]]|[E1 E2]]; [left; exists (w :: m); rewrite E1, E2; split; [reflexivity|]; split; [reflexivity | now right] | right; now rewrite E1, E2].
Qed.
Lemma dash_end : forall l r, before_end (l ++ "--" :: r) = before_end l.
Proof. induction l as [|w l IH]; intros r; [reflexivity|]. cbn [app before_end]. destruct (word_kind w); [now rewrite IH.. | reflexivity | now rewrite IH]. Qed.
Lemma take_dash : forall stop ar used x r t, take_words stop ar (before_end ((used ++ x) ++ r)) = Some used -> take_words stop ar (before_end ((used ++ x) ++ "--" :: t)) = Some used.
Proof.
  intros stop ar used x r t E. rewrite dash_end. destruct (before_cases (used ++ x) r) as [[m [E1 [E2 _]]]|[E1 E2]].
  - rewrite E1. rewrite E2 in E. exact E.
  - rewrite E2. rewrite E1, <- app_assoc in E. exact (take_fewer _ _ _ _ _ E).
Qed.
Lemma option_dash : forall K w used x r t occs, read_option K w (before_end ((used ++ x) ++ r)) = inr (occs, used) -> read_option K w (before_end ((used ++ x) ++ "--" :: t)) = inr (occs, used).
Proof.
  intros K w used x r t occs. unfold read_option. destruct (word_meaning K w) as [e|bools id c name st value]; [discriminate|].
  unfold option_values. destruct value as [v|].
  - destruct (match arity_of c with AOne | ARun => _ | _ => _ end) as [e|vs]; [discriminate|]. auto.
  - destruct (take_words _ _ (before_end ((used ++ x) ++ r))) as [u|] eqn:T; [|discriminate]. intros [= <- <-].
    now rewrite (take_dash _ _ _ _ _ t T).
Qed.
Lemma Reached_dash : forall K ps ws p left rest, Reached K ps ws p left rest -> (rest = [] \/ forall i c, In (i, c) ps -> arity_of c <> AFixed 0 /\ arity_of c <> ANone) ->
  forall t, Reached K ps (words_of p ++ "--" :: t) p left ("--" :: t).
Proof.
  intros K ps ws p left rest H. induction H; intros PN t'.
  - apply Rc_here.
  - pose proof (read_option_rest _ _ _ _ _ H0) as X. pose proof (Reached_words _ _ _ _ _ _ H1) as Y. rewrite Y in X. rewrite X, app_assoc in H0.
    unfold words_of. cbn [flat_map app piece_words]. fold (words_of pcs). rewrite <- app_assoc.
    eapply Rc_option; [exact H | rewrite app_assoc; eapply option_dash; exact H0|].
    rewrite skipn_len_app. now apply IHReached.
  - pose proof (Proofs_ReadFacts.take_before _ _ _ _ H0) as X. pose proof (Reached_words _ _ _ _ _ _ H1) as Y. rewrite Y in X.
    assert (NV : exists l, vs ++ words_of pcs = w :: l).
    { rewrite app_assoc in X. destruct (vs ++ words_of pcs) as [|v l] eqn:Q; [exfalso | cbn [app] in X; injection X as <- _; eauto].
      apply app_eq_nil in Q. destruct Q as [-> Q]. destruct PN as [->|PN]; [discriminate X|].
      destruct (PN id c (or_introl eq_refl)) as [N1 N2]. cbn [before_end] in H0. rewrite H in H0. revert H0. intros H0. apply take_nonempty in H0; [now apply H0 | exact N1 | exact N2 | now apply plain_no_stop]. }
    destruct NV as [l NV]. rewrite X, app_assoc in H0.
    unfold words_of. cbn [flat_map app piece_words]. fold (words_of pcs). rewrite NV. cbn [app].
    eapply Rc_positional; [exact H | change (w :: l ++ "--" :: t') with ((w :: l) ++ "--" :: t'); rewrite <- NV; eapply take_dash; exact H0|].
    change (w :: l ++ "--" :: t') with ((w :: l) ++ "--" :: t'). rewrite <- NV, <- app_assoc, skipn_len_app. apply IHReached. destruct PN as [PN|PN]; [now left | right]. intros i0 c0 I0. apply (PN i0 c0). now right.
  - unfold words_of. cbn [flat_map app piece_words]. fold (words_of pcs). apply Rc_additional; [exact H | exact H0 |]. now apply IHReached.
Qed.
Lemma Reading_reached : forall K ps ws pcs, Reading K ps ws pcs -> ~ In PcEnd pcs -> exists left, Reached K ps ws pcs left [].
Proof.
  intros K ps ws pcs H. induction H; intros N.
  - exists ps. apply Rc_here.
  - destruct IHReading as [l R]; [intros X; apply N; now right|]. exists l. eapply Rc_option; eauto.
  - exfalso. apply N. now left.
  - destruct IHReading as [l R]; [intros X; apply N; now right|]. exists l. eapply Rc_positional; eauto.
  - destruct IHReading as [l R]; [intros X; apply N; now right|]. exists l. eapply Rc_additional; eauto.
Qed.

(* ------------------------------------------------------------------ *)
(** * plain words are read alike before and after "--" *)
Definition plain (w : str) : Prop := word_kind w = WPlain.
Lemma plain_take : forall K ar l, Forall plain l -> take_words (stops K) ar (before_end l) = take_words no_stop ar l.
Proof.
  intros K ar l F. assert (E : before_end l = l) by (induction F as [|w l P _ IH]; [reflexivity|]; cbn [before_end]; rewrite P, IH; reflexivity).
  rewrite E. apply take_ext_in. intros w Iw. rewrite Forall_forall in F. unfold no_stop. apply plain_no_stop. now apply F.
Qed.
Lemma Forall_skipn : forall {A} (P : A -> Prop) n l, Forall P l -> Forall P (skipn n l).
Proof. intros A P n. induction n as [|n IH]; intros l F; [exact F|]. destruct F; [constructor | now apply IH]. Qed.
Lemma plain_reading : forall K ps ws pcs, Reading K ps ws pcs -> Forall plain ws -> ReadingEnd K ps ws pcs.
Proof.
  intros K ps ws pcs H. induction H; intros F.
  - apply Re_nil.
  - inversion F as [|? ? P F']; subst. unfold plain in P. destruct H as [H|H]; rewrite H in P; discriminate P.
  - inversion F as [|? ? P F']; subst. unfold plain in P. rewrite H in P. discriminate P.
  - rewrite (plain_take K (arity_of c) _ F) in H0. eapply Re_positional; [exact H0|]. apply IHReading. now apply Forall_skipn.
  - apply Re_additional; [assumption|]. apply IHReading. now inversion F.
Qed.
Lemma plain_fails : forall K ps ws e, Fails K ps ws e -> Forall plain ws -> FailsEnd K ps ws e.
Proof.
  intros K ps ws e H. induction H; intros F; inversion F as [|? ? P F']; subst; unfold plain in P.
  - destruct H as [H|H]; rewrite H in P; discriminate P.
  - rewrite (plain_take K (arity_of c) _ F) in H0. now apply Fe_positional.
  - now apply Fe_additional.
  - destruct H as [H|H]; rewrite H in P; discriminate P.
  - rewrite H in P. discriminate P.
  - rewrite (plain_take K (arity_of c) _ F) in H0. eapply Fe_positional_next; [exact H0|]. apply IHFails. now apply Forall_skipn.
  - apply Fe_additional_next; [assumption|]. now apply IHFails.
Qed.

(* ------------------------------------------------------------------ *)
(** * C83 *)
(** [p]: the pieces into which the words [pre] are cut when the line is read up to there;
    the "--" is not put between an option and its values.  The words [post] are no options:
    each is empty, is "-", or does not begin with a dash. *)
Definition no_dash (w : str) : Prop := w = "" \/ w = "-" \/ exists c r, w = String c r /\ c <> "-"%char.
Record separable (s : state) (a0 : str) (pre post : list str) : Prop := {
  sp_usable : usable s;
  sp_interprets : interprets s;
  sp_place : exists p left, reaches s (pre ++ post) p left post;
  sp_plain : Forall no_dash post;
  sp_nargs : pre = [] \/ post = [] \/ forall b, In b (arguments (ready s)) -> isPositional b = true -> getNargs b <> 0%N;
  sp_line : command_line (a0 :: pre ++ post) (pre ++ post);
  sp_longer : command_line (a0 :: pre ++ "--" :: post) (pre ++ "--" :: post)
}.
Lemma no_dash_plain : forall w, no_dash w -> plain w.
Proof.
  intros w [->|[->|[c [r [-> N]]]]]; [reflexivity.. |]. unfold plain, word_kind. destruct (Ascii.eqb_spec c "-"); [contradiction | reflexivity].
Qed.
Lemma dash_reads : forall s a0 pre post, separable s a0 pre post ->
  (forall pcs, reads s (pre ++ post) pcs -> exists p r, pcs = p ++ r /\ reads s (pre ++ "--" :: post) (p ++ PcEnd :: r)) /\
  (forall e, rejects s (pre ++ post) e -> rejects s (pre ++ "--" :: post) e).
Proof.
  intros s a0 pre post [U I [p [left R]] PL PN C C']. pose proof (usable_ready_wf s U) as W. unfold reaches in R.
  assert (PL' : Forall plain post) by (eapply Forall_impl; [exact no_dash_plain | exact PL]).
  assert (R2 : exists p' left', Reached (setup s) (positionals (setup s)) (pre ++ post) p' left' post /\ reaches s (pre ++ "--" :: post) p' left' ("--" :: post)).
  { unfold reaches. destruct PN as [-> |PN].
    - exists [], (positionals (setup s)). split; apply Rc_here.
    - exists p, left. split; [exact R|]. pose proof (Reached_words _ _ _ _ _ _ R) as X. apply app_inv_tail in X. rewrite X. eapply Reached_dash; [exact R|]. destruct PN as [PN|PN]; [left; exact PN | right].
      intros i c Hc. destruct (positionals_ids (ready s) W) as [_ Hp]. destruct (Hp i c Hc) as (b & Ib & _ & Hb & Pb).
      pose proof (PN b Ib Pb) as NZ. subst c. unfold isPositional in Pb. unfold arity_of. destruct (c_type (a_cfg b)); try discriminate Pb; split; try discriminate.
      intros [= X0]. apply NZ. unfold getNargs. lia. }
  clear p left R. destruct R2 as [p [left [R R2]]]. split.
  - intros pcs H. destruct (Reached_Reading_inv _ _ _ _ _ _ R _ H) as [r [-> H1]]. exists p, r. split; [reflexivity|].
    unfold reads. eapply Reached_Reading; [exact R2|]. apply Rd_end; [reflexivity|]. now apply plain_reading.
  - intros e H. apply (Reached_Fails_inv _ _ _ _ _ _ R) in H. eapply Reached_Fails; [exact R2|]. apply Fl_end; [reflexivity|]. now apply plain_fails.
Qed.
(** the same outcome, and the same object afterwards if it is a return *)
Theorem C83_outcome : forall s a0 pre post, separable s a0 pre post ->
  same_outcome (parseArguments (a0 :: pre ++ post) s) (parseArguments (a0 :: pre ++ "--" :: post) s).
Proof.
  intros s a0 pre post X. destruct (dash_reads s a0 pre post X) as [HR HF]. destruct X as [U I _ _ _ C1 C2].
  destruct (read_or_reject s _ _ U C1 I) as [[pcs H]|[e H]].
  - destruct (HR _ H) as [p [r [-> H2]]]. rewrite (parse_reads s _ _ _ U C1 I H), (parse_reads s _ _ _ U C2 I H2).
    pose proof (same_scanned s (a0 :: pre ++ post) (a0 :: pre ++ "--" :: post) p [] [PcEnd] r) as SC. cbn [app] in SC. rewrite SC; [split; reflexivity | split; [reflexivity | intros; reflexivity] | reflexivity].
  - destruct (parse_rejects s _ _ e U C1 I H) as [s1 [E1 _]]. destruct (parse_rejects s _ _ e U C2 I (HF e H)) as [s2 [E2 _]].
    rewrite E1, E2. split; [reflexivity | discriminate].
Qed.
(** at the end of a line without "--": for every line *)
Corollary C83_last : forall s a0 ws, usable s -> interprets s -> ~ In "--" ws ->
  command_line (a0 :: ws) ws -> command_line (a0 :: ws ++ ["--"]) (ws ++ ["--"]) ->
  same_outcome (parseArguments (a0 :: ws) s) (parseArguments (a0 :: ws ++ ["--"]) s).
Proof.
  intros s a0 ws U I N C C'. destruct (read_or_reject s _ _ U C I) as [[pcs R]|[e R]].
  - assert (SP : separable s a0 ws []); [|pose proof (C83_outcome s a0 ws [] SP) as X; rewrite app_nil_r in X; exact X].
    split; [exact U | exact I | rewrite app_nil_r | constructor | right; now left | rewrite app_nil_r; exact C | exact C'].
    destruct (Reading_split _ _ _ _ R) as [[Y _]|[p1 [p2 [ps [-> [N1 [Rc [B [Q _]]]]]]]]].
    + destruct (Reading_reached _ _ _ _ R Y) as [l Rl]. exists pcs, l. exact Rl.
    + exfalso. apply N. rewrite Q. apply in_or_app. right. now left.
  - destruct (parse_rejects s _ _ e U C I R) as [s1 [E1 _]]. destruct (C12_rejected_before s (a0 :: ws ++ ["--"]) ws [] e U I N C' R) as [s2 E2].
    rewrite E1, E2. split; [reflexivity | discriminate].
Qed.
Example C83_example : separable shop "prog" ["-v"; "a"; "--name=x"; "-p"; "1"; "2"] ["b"; "-"; "rest"] /\
  (exists t, parseArguments ["prog"; "-v"; "a"; "--name=x"; "-p"; "1"; "2"; "b"; "-"; "rest"] shop = (t, Ok tt) /\
             parseArguments ["prog"; "-v"; "a"; "--name=x"; "-p"; "1"; "2"; "--"; "b"; "-"; "rest"] shop = (t, Ok tt) /\ getAdditionalArguments t = ["-"; "rest"]).
Proof.
  split.
  - split; [apply shop_usable | apply shop_interprets | do 2 eexists; reaching | | do 2 right | line | line].
    + constructor; [right; right; do 2 eexists; split; [reflexivity | discriminate]|]. constructor; [right; left; reflexivity|]. constructor; [right; right; do 2 eexists; split; [reflexivity | discriminate]|]. constructor.
    + refine (forall_arguments (ready shop) (fun b => negb (isPositional b) || negb (N.eqb (getNargs b) 0)) (fun b => isPositional b = true -> getNargs b <> 0%N) _ _); [vm_compute; reflexivity|].
      intros b H P E. rewrite P, E in H. discriminate H.
  - eexists. split; [vm_compute; reflexivity|]. split; vm_compute; reflexivity.
Qed.
(** between an option that takes a run of words and its values it is not so *)
Example C83_inside : exists t t', parseArguments ["prog"; "a"; "-i"; "x"; "b"] shop = (t, Ok tt) /\ parseArguments ["prog"; "a"; "-i"; "x"; "--"; "b"] shop = (t', Ok tt) /\
  to_vector (pick "-i" t) = Ok ["x"; "b"] /\ to_vector (pick "-i" t') = Ok ["x"].
Proof. do 2 eexists. split; [vm_compute; reflexivity|]. split; [vm_compute; reflexivity|]. split; vm_compute; reflexivity. Qed.
Print Assumptions C83_outcome.
Print Assumptions C83_last.
