(** Proofs_Swap.v -- replacing an option word (with its values) by another spelling. *)
From Coq Require Import Permutation Sorted.
From Verif Require Import Base Model_Utils Model_Number Model_Types Model_Argument Model_Usage Model_Args Model_Api
  Spec_Order Spec_Names Spec_Reading Spec_Parse Spec_Finish Spec_History Spec_Api Spec_Result
  Proofs_Base Proofs_Order Proofs_Frame Proofs_Inv Proofs_ReadFacts Proofs_Reading Proofs_Parse Proofs_Decl Proofs_Finish
  Proofs_Meth Proofs_History Proofs_Config Proofs_Names Proofs_Central Proofs_Dyn Properties_Words Properties_Parse.

(* ------------------------------------------------------------------ *)
(** * the context before the option *)
Lemma stops_kind : forall K w, stops K w = true -> word_kind w <> WEnd.
Proof. intros K w. unfold stops. destruct (cut_eq w). destruct (word_kind w); discriminate. Qed.
Lemma before_end_at : forall pre w t, word_kind w <> WEnd ->
  (exists l, before_end (pre ++ w :: t) = l /\ (forall w' t', before_end (pre ++ w' :: t') = l) /\ length l <= length pre) \/
  (forall w' t', word_kind w' <> WEnd -> before_end (pre ++ w' :: t') = pre ++ w' :: before_end t').
Proof.
  intros pre w t Nw. induction pre as [|x pre IH].
  - right. intros w' t' N. cbn [app before_end]. destruct (word_kind w'); congruence.
  - cbn [app]. destruct (word_kind x) eqn:Kx.
    3:{ left. exists []. cbn [before_end]. rewrite Kx. split; [reflexivity|]. split; [intros; reflexivity | cbn; lia]. }
    all: destruct IH as [[l [E [F L]]]|F].
    all: try (left; exists (x :: l); cbn [before_end]; rewrite Kx; split; [now rewrite E|]; split; [intros w' t'; now rewrite F | cbn; lia]).
    all: right; intros w' t' N; cbn [before_end]; rewrite Kx; now rewrite F.
Qed.
Lemma run_swap : forall stop pre w t w' t', stop w' = true -> length (run_of stop (pre ++ w :: t)) <= length pre ->
  run_of stop (pre ++ w' :: t') = run_of stop (pre ++ w :: t).
Proof.
  intros stop pre w t w' t' S'. induction pre as [|x pre IH]; cbn [app run_of length]; intros L.
  - rewrite S'. destruct (stop w); [reflexivity | cbn in L; lia].
  - destruct (stop x); [reflexivity|]. f_equal. apply IH. cbn in L. lia.
Qed.
Lemma groups_swap : forall stop n pre w t w' t' k vs, stop w' = true ->
  groups_from stop n k (pre ++ w :: t) = Some vs -> length vs <= length pre -> groups_from stop n k (pre ++ w' :: t') = Some vs.
Proof.
  intros stop n pre w t w' t' k vs S'. revert k vs. induction pre as [|x pre IH]; intros k vs E L; cbn [app groups_from length] in *.
  - destruct k.
    + rewrite S'. destruct (stop w); [exact E |]. destruct (groups_from stop n (n - 1) t); [|discriminate]. injection E as <-. cbn in L. lia.
    + destruct (groups_from stop n k t); [|discriminate]. injection E as <-. cbn in L. lia.
  - destruct k as [|k].
    + destruct (stop x); [exact E|]. destruct (groups_from stop n (n - 1) (pre ++ w :: t)) as [u|] eqn:G; [|discriminate]. injection E as <-. cbn in L.
      rewrite (IH _ _ G) by lia. reflexivity.
    + destruct (groups_from stop n k (pre ++ w :: t)) as [u|] eqn:G; [|discriminate]. injection E as <-. cbn in L.
      rewrite (IH _ _ G) by lia. reflexivity.
Qed.
Lemma take_swap : forall stop ar pre w t w' t' vs, stop w' = true -> word_kind w <> WEnd -> word_kind w' <> WEnd ->
  take_words stop ar (before_end (pre ++ w :: t)) = Some vs -> length vs <= length pre ->
  take_words stop ar (before_end (pre ++ w' :: t')) = Some vs.
Proof.
  intros stop ar pre w t w' t' vs S' N N' E L. destruct (before_end_at pre w t N) as [[l [El [F Ll]]]|F].
  - rewrite F. rewrite <- El. exact E.
  - rewrite F in E by exact N. rewrite F by exact N'. destruct ar as [| |n| |n]; cbn [take_words] in *.
    + exact E.
    + destruct pre as [|x pre]; cbn [app] in *; [injection E as <-; cbn in L; lia | exact E].
    + assert (Ln : n <= length pre). { destruct (Nat.ltb _ n) eqn:Q; [discriminate|]. injection E as <-. rewrite firstn_length in L. apply Nat.ltb_ge in Q. rewrite Nat.min_l in L by exact Q. exact L. }
      assert (Q1 : forall y z, Nat.ltb (length (pre ++ y :: z)) n = false) by (intros; apply Nat.ltb_ge; rewrite app_length; lia).
      rewrite Q1 in *. injection E as <-. f_equal. rewrite !firstn_app. replace (n - length pre) with 0 by lia. reflexivity.
    + injection E as <-. f_equal. now apply run_swap.
    + exact (groups_swap stop n pre w _ w' _ 0 vs S' E L).
Qed.
Lemma option_values_swap : forall K c name value pre w t w' t' vs, word_kind w <> WEnd -> stops K w' = true ->
  option_values K c name value (before_end (pre ++ w :: t)) = inr vs -> (value = None -> length vs <= length pre) ->
  option_values K c name value (before_end (pre ++ w' :: t')) = inr vs.
Proof.
  intros K c name value pre w t w' t' vs S S'. unfold option_values. destruct value; [auto|].
  destruct (take_words _ _ (before_end (pre ++ w :: t))) as [u|] eqn:T; [|discriminate]. intros [= ->] L.
  now rewrite (take_swap _ _ _ _ _ w' t' _ S' S (stops_kind _ _ S') T (L eq_refl)).
Qed.
Lemma read_option_swap : forall K x pre w t w' t' occs used, word_kind w <> WEnd -> stops K w' = true ->
  read_option K x (before_end (pre ++ w :: t)) = inr (occs, used) -> length used <= length pre ->
  read_option K x (before_end (pre ++ w' :: t')) = inr (occs, used).
Proof.
  intros K x pre w t w' t' occs used S S'. unfold read_option. destruct (word_meaning K x) as [e|bools id c name st value]; [discriminate|].
  destruct (option_values _ _ _ _ (before_end (pre ++ w :: t))) as [e|vs] eqn:V; [discriminate|]. intros [= <- <-] L.
  rewrite (option_values_swap _ _ _ _ _ _ _ w' t' _ S S' V); [reflexivity|]. intros ->. exact L.
Qed.
Lemma Reached_swap : forall K ps ws p left rest, Reached K ps ws p left rest -> forall pre w t, ws = pre ++ w :: t -> rest = w :: t -> stops K w = true ->
  forall w' t', stops K w' = true -> Reached K ps (pre ++ w' :: t') p left (w' :: t').
Proof.
  intros K ps ws p left rest H. induction H; intros pre w0 t Ew Er S w' t' S'.
  - subst ws. assert (pre = []) by (apply (f_equal (@length str)) in Er; rewrite app_length in Er; destruct pre; [reflexivity | cbn in Er; lia]).
    subst. apply Rc_here.
  - destruct pre as [|x pre]; cbn [app] in Ew.
    { injection Ew as -> ->. exfalso. pose proof (Reached_words _ _ _ _ _ _ H1) as X. rewrite Er in X.
      apply (f_equal (@length str)) in X. rewrite skipn_length, app_length in X. cbn in X. lia. }
    injection Ew as -> ->. pose proof (Reached_words _ _ _ _ _ _ H1) as X. rewrite Er in X.
    assert (L : length used <= length pre).
    { apply (f_equal (@length str)) in X. rewrite skipn_length, !app_length in X. cbn in X. 
      destruct (Nat.le_gt_cases (length used) (length pre)) as [|G]; [assumption|]. exfalso. lia. }
    cbn [app]. eapply Rc_option; [exact H | exact (read_option_swap _ _ _ _ _ w' t' _ _ (stops_kind _ _ S) S' H0 L) |].
    rewrite skipn_app_le in H1 |- * by exact L. eapply IHReached; eauto. rewrite skipn_app_le by exact L. reflexivity.
  - destruct pre as [|x pre]; cbn [app] in Ew.
    { injection Ew as -> ->. exfalso. unfold stops in S. destruct (cut_eq w0). rewrite H in S. discriminate. }
    injection Ew as -> ->. pose proof (Reached_words _ _ _ _ _ _ H1) as X. rewrite Er in X.
    assert (L : length vs <= length (x :: pre)).
    { apply (f_equal (@length str)) in X. change (x :: pre ++ w0 :: t) with ((x :: pre) ++ w0 :: t) in X. rewrite skipn_length, !app_length in X. cbn [length] in X |- *. lia. }
    cbn [app]. eapply Rc_positional; [exact H | |].
    + change (x :: pre ++ w' :: t') with ((x :: pre) ++ w' :: t'). change (x :: pre ++ w0 :: t) with ((x :: pre) ++ w0 :: t) in H0.
      exact (take_swap _ _ _ _ _ w' t' _ S' (stops_kind _ _ S) (stops_kind _ _ S') H0 L).
    + change (x :: pre ++ w' :: t') with ((x :: pre) ++ w' :: t'). change (x :: pre ++ w0 :: t) with ((x :: pre) ++ w0 :: t) in *.
      rewrite skipn_app_le in H1 |- * by exact L. eapply IHReached; eauto. rewrite skipn_app_le by exact L. reflexivity.
  - destruct pre as [|x pre]; cbn [app] in Ew.
    { injection Ew as -> ->. exfalso. unfold stops in S. destruct (cut_eq w0). rewrite H in S. discriminate. }
    injection Ew as -> ->. cbn [app]. eapply Rc_additional; eauto.
Qed.

(** the same in front of a plain word, provided that positionals take at least one word *)
Lemma take_nonempty : forall K ar w ws vs, ar <> AFixed 0 -> ar <> ANone -> stops K w = false -> take_words (stops K) ar (w :: ws) = Some vs -> vs <> [].
Proof.
  intros K ar w ws vs N N' S. destruct ar as [| |n| |n]; cbn [take_words]; intro E.
  - now elim N'.
  - injection E as <-. discriminate.
  - destruct (Nat.ltb _ n); [discriminate|]. injection E as <-. destruct n; [now elim N | discriminate].
  - injection E as <-. cbn [run_of]. rewrite S. discriminate.
  - cbn [groups_from] in E. rewrite S in E. destruct (groups_from _ n (n - 1) ws); [|discriminate]. injection E as <-. discriminate.
Qed.
Lemma plain_no_stop : forall K w, word_kind w = WPlain -> stops K w = false.
Proof. intros K w H. unfold stops. destruct (cut_eq w). now rewrite H. Qed.
Lemma Reached_swap_plain : forall K ps ws p left rest, Reached K ps ws p left rest -> (forall i c, In (i, c) ps -> arity_of c <> AFixed 0 /\ arity_of c <> ANone) ->
  forall pre w t, ws = pre ++ w :: t -> rest = w :: t -> word_kind w = WPlain ->
  forall w' t', stops K w' = true -> Reached K ps (pre ++ w' :: t') p left (w' :: t').
Proof.
  intros K ps ws p left rest H. induction H; intros PN pre w0 t Ew Er S w' t' S'.
  - subst ws. assert (pre = []) by (apply (f_equal (@length str)) in Er; rewrite app_length in Er; destruct pre; [reflexivity | cbn in Er; lia]).
    subst. apply Rc_here.
  - assert (NE : word_kind w0 <> WEnd) by (rewrite S; discriminate). destruct pre as [|x pre]; cbn [app] in Ew.
    { injection Ew as -> ->. exfalso. destruct H as [H|H]; rewrite H in S; discriminate. }
    injection Ew as -> ->. pose proof (Reached_words _ _ _ _ _ _ H1) as X. rewrite Er in X.
    assert (L : length used <= length pre).
    { apply (f_equal (@length str)) in X. rewrite skipn_length, !app_length in X. cbn in X.
      destruct (Nat.le_gt_cases (length used) (length pre)) as [|G]; [assumption|]. exfalso. lia. }
    cbn [app]. eapply Rc_option; [exact H | exact (read_option_swap _ _ _ _ _ w' t' _ _ NE S' H0 L) |].
    rewrite skipn_app_le in H1 |- * by exact L. eapply IHReached; eauto. rewrite skipn_app_le by exact L. reflexivity.
  - assert (NE : word_kind w0 <> WEnd) by (rewrite S; discriminate).
    assert (NV : vs <> []).
    { destruct (PN id c (or_introl eq_refl)) as [N1 N2]. cbn [before_end] in H0. rewrite H in H0. eapply take_nonempty; [exact N1 | exact N2 | | exact H0]. now apply plain_no_stop. }
    destruct pre as [|x pre]; cbn [app] in Ew.
    { injection Ew as -> ->. exfalso. pose proof (Reached_words _ _ _ _ _ _ H1) as X. rewrite Er in X.
      apply (f_equal (@length str)) in X. rewrite skipn_length, app_length in X. destruct vs; [now elim NV|]. cbn in X. lia. }
    injection Ew as -> ->. pose proof (Reached_words _ _ _ _ _ _ H1) as X. rewrite Er in X.
    assert (L : length vs <= length (x :: pre)).
    { apply (f_equal (@length str)) in X. change (x :: pre ++ w0 :: t) with ((x :: pre) ++ w0 :: t) in X. rewrite skipn_length, !app_length in X. cbn [length] in X |- *. lia. }
    cbn [app]. eapply Rc_positional; [exact H | |].
    + change (x :: pre ++ w' :: t') with ((x :: pre) ++ w' :: t'). change (x :: pre ++ w0 :: t) with ((x :: pre) ++ w0 :: t) in H0.
      exact (take_swap _ _ _ _ _ w' t' _ S' NE (stops_kind _ _ S') H0 L).
    + change (x :: pre ++ w' :: t') with ((x :: pre) ++ w' :: t'). change (x :: pre ++ w0 :: t) with ((x :: pre) ++ w0 :: t) in *.
      rewrite skipn_app_le in H1 |- * by exact L. eapply IHReached; eauto; [intros i0 c0 I0; apply (PN i0 c0); now right |]. rewrite skipn_app_le by exact L. reflexivity.
  - destruct pre as [|x pre]; cbn [app] in Ew.
    { injection Ew as -> ->. exfalso. pose proof (Reached_words _ _ _ _ _ _ H1) as X. rewrite Er in X.
      apply (f_equal (@length str)) in X. rewrite app_length in X. cbn in X. lia. }
    injection Ew as -> ->. cbn [app]. eapply Rc_additional; eauto.
Qed.

(* ------------------------------------------------------------------ *)
(** * the outcome as a function of the object after the reading *)
Definition verdict (t : state) : res unit :=
  if met (s_help t) t then (if m_helpex (s_modes t) then Throw (Exn KHelp "" (usage_of t)) else Exit (usage_of t ^^ nl))
  else if met (s_version t) t then (if m_verex (s_modes t) then Throw (Exn KVersion "" (s_verstr t)) else Exit (s_verstr t ^^ nl))
  else match missing t with
       | a :: _ => Throw (required_error a)
       | [] => match flat_map (fun a => match trouble a with Some e => [e] | None => [] end) (s_args t) with
               | e :: _ => Throw e
               | [] => Ok tt
               end
       end.
Definition completion (t : state) : state :=
  with_dlog (with_args t (map finished (s_args t))) (s_dlog t ++ all_events (s_args t)).
Lemma no_trouble : forall l, Forall (fun b => trouble b = None) l -> flat_map (fun a => match trouble a with Some e => [e] | None => [] end) l = [].
Proof. intros l F. induction F as [|a l E F IH]; [reflexivity|]. cbn [flat_map]. now rewrite E, IH. Qed.
Lemma Finish_verdict : forall t s r, Finish t s r -> r = verdict t /\ (r = Ok tt -> s = completion t).
Proof.
  intros t s r F. unfold verdict. inversion F; subst.
  - rewrite H. split; [reflexivity|]. destruct (m_helpex (s_modes t)); discriminate.
  - rewrite H, H0. split; [reflexivity|]. destruct (m_verex (s_modes t)); discriminate.
  - rewrite H, H0, H1. split; [reflexivity | discriminate].
  - rewrite H, H0, H1, H2, flat_map_app, (no_trouble _ H3). cbn [flat_map app]. rewrite H4. split; [reflexivity | discriminate].
  - rewrite H, H0, H1, (no_trouble _ H2). split; reflexivity.
Qed.
Lemma parse_verdict : forall s argv ws pcs, usable s -> command_line argv ws -> interprets s -> reads s ws pcs ->
  snd (parseArguments argv s) = verdict (scanned argv pcs s) /\
  (snd (parseArguments argv s) = Ok tt -> fst (parseArguments argv s) = completion (scanned argv pcs s)).
Proof.
  intros s argv ws pcs U C I H. exact (Finish_verdict _ _ _ (parse_finish s argv ws pcs U C I H)).
Qed.

(* ------------------------------------------------------------------ *)
(** * replacing a part of the command line *)
(** the part [m] is read as the pieces [q], then the reading goes on with [post] *)
Definition reads_part (s : state) (left : list (nat * acfg)) (m post : list str) (q : list piece) : Prop :=
  Reached (setup s) left (m ++ post) q left post.
Definition same_pieces (s : state) (q1 q2 : list piece) : Prop :=
  additional_of q1 = additional_of q2 /\
  forall a d, In a (arguments (ready s)) -> pieces_dyn (a_id a) (a_cfg a) q1 d = pieces_dyn (a_id a) (a_cfg a) q2 d.
Lemma pieces_dyn_app : forall id c p q d, pieces_dyn id c (p ++ q) d = pieces_dyn id c q (pieces_dyn id c p d).
Proof. intros. apply fold_left_app. Qed.
Lemma swap_reads : forall s pre m1 m2 post p left q1 q2,
  reaches s (pre ++ m1 ++ post) p left (m1 ++ post) ->
  (exists w t, m1 = w :: t /\ stops (setup s) w = true) -> (exists w t, m2 = w :: t /\ stops (setup s) w = true) ->
  reads_part s left m1 post q1 -> reads_part s left m2 post q2 ->
  (forall pcs, reads s (pre ++ m1 ++ post) pcs -> exists r, pcs = p ++ q1 ++ r /\ reads s (pre ++ m2 ++ post) (p ++ q2 ++ r)) /\
  (forall e, rejects s (pre ++ m1 ++ post) e -> rejects s (pre ++ m2 ++ post) e).
Proof.
  intros s pre m1 m2 post p left q1 q2 R [w1 [t1 [E1 S1]]] [w2 [t2 [E2 S2]]] P1 P2.
  assert (R2 : reaches s (pre ++ m2 ++ post) p left (m2 ++ post)).
  { subst m1 m2. cbn [app] in *. unfold reaches in *. eapply Reached_swap; eauto. }
  split.
  - intros pcs H. destruct (Reached_Reading_inv _ _ _ _ _ _ R _ H) as [r1 [-> H1]]. destruct (Reached_Reading_inv _ _ _ _ _ _ P1 _ H1) as [r [-> H2]].
    exists r. split; [reflexivity|]. unfold reads. eapply Reached_Reading; [exact R2|]. eapply Reached_Reading; [exact P2 | exact H2].
  - intros e H. apply (Reached_Fails_inv _ _ _ _ _ _ R) in H. apply (Reached_Fails_inv _ _ _ _ _ _ P1) in H.
    eapply Reached_Fails; [exact R2|]. eapply Reached_Fails; [exact P2 | exact H].
Qed.
Lemma same_scanned : forall s argv argv' p q1 q2 r, same_pieces s q1 q2 -> hd "" argv = hd "" argv' -> scanned argv (p ++ q1 ++ r) s = scanned argv' (p ++ q2 ++ r) s.
Proof.
  intros s argv argv' p q1 q2 r [A D] Hd. unfold scanned, named. rewrite Hd. rewrite !additional_of_app, A. do 2 f_equal.
  apply map_ext_in. intros a Ia. unfold read_arg. f_equal. rewrite !pieces_dyn_app. now rewrite D.
Qed.
Theorem swap_outcome : forall s a0 pre m1 m2 post p left q1 q2, usable s -> interprets s ->
  command_line (a0 :: pre ++ m1 ++ post) (pre ++ m1 ++ post) -> command_line (a0 :: pre ++ m2 ++ post) (pre ++ m2 ++ post) ->
  reaches s (pre ++ m1 ++ post) p left (m1 ++ post) ->
  (exists w t, m1 = w :: t /\ stops (setup s) w = true) -> (exists w t, m2 = w :: t /\ stops (setup s) w = true) ->
  reads_part s left m1 post q1 -> reads_part s left m2 post q2 -> same_pieces s q1 q2 ->
  same_outcome (parseArguments (a0 :: pre ++ m1 ++ post) s) (parseArguments (a0 :: pre ++ m2 ++ post) s).
Proof.
  intros s a0 pre m1 m2 post p left q1 q2 U I C1 C2 R S1 S2 P1 P2 SP.
  destruct (swap_reads s pre m1 m2 post p left q1 q2 R S1 S2 P1 P2) as [HR HF].
  destruct (read_or_reject s _ _ U C1 I) as [[pcs H]|[e H]].
  - destruct (HR _ H) as [r [-> H2]]. rewrite (parse_reads s _ _ _ U C1 I H), (parse_reads s _ _ _ U C2 I H2).
    rewrite (same_scanned s (a0 :: pre ++ m1 ++ post) (a0 :: pre ++ m2 ++ post) p q1 q2 r SP eq_refl). split; reflexivity.
  - destruct (parse_rejects s _ _ e U C1 I H) as [s1 [E1 _]]. destruct (parse_rejects s _ _ e U C2 I (HF e H)) as [s2 [E2 _]].
    rewrite E1, E2. split; [reflexivity | discriminate].
Qed.
