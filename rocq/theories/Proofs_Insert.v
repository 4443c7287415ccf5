(** Proofs_Insert.v -- inserting complete option occurrences into a command line. *)
From Coq Require Import Permutation Sorted.
From Verif Require Import Base Model_Utils Model_Number Model_Types Model_Argument Model_Usage Model_Args Model_Api
  Spec_Order Spec_Names Spec_Reading Spec_Parse Spec_Decl Spec_Finish Spec_History Spec_Api Spec_Result
  Proofs_Base Proofs_Order Proofs_Frame Proofs_Inv Proofs_ReadFacts Proofs_Reading Proofs_Parse Proofs_Decl Proofs_Finish
  Proofs_Meth Proofs_History Proofs_Config Proofs_Check Proofs_Names Proofs_Central Proofs_Dyn Properties_Words Demo Properties_Parse Proofs_Swap Proofs_Kind
  Proofs_Values Properties_Values Properties_Positional Properties_Spell Properties_Repeat Properties_Final Properties_Required Properties_Offending Properties_Roles Spec_Roundtrip Properties_Roundtrip Spec_Insert.

Lemma run_insert : forall stop pre post w t, stop w = true -> length (run_of stop (pre ++ post)) <= length pre ->
  run_of stop (pre ++ w :: t) = run_of stop (pre ++ post).
Proof.
  intros stop pre post w t SW. induction pre as [|x pre IH]; cbn [app run_of length]; intros L.
  - rewrite SW. destruct (run_of stop post); [reflexivity | cbn in L; lia].
  - destruct (stop x); [reflexivity|]. f_equal. apply IH. cbn in L. lia.
Qed.
Lemma groups_insert : forall stop n pre post w t k vs, stop w = true ->
  groups_from stop n k (pre ++ post) = Some vs -> length vs <= length pre -> groups_from stop n k (pre ++ w :: t) = Some vs.
Proof.
  intros stop n pre post w t k vs SW. revert k vs. induction pre as [|x pre IH]; intros k vs E L.
  - destruct vs; [|cbn in L; lia]. cbn [app] in *. destruct post as [|y post]; cbn [groups_from] in *.
    + destruct k; [rewrite SW; reflexivity | discriminate E].
    + destruct k; [rewrite SW; reflexivity|]. destruct (groups_from stop n k post); discriminate E.
  - cbn [app groups_from length] in *. destruct k as [|k].
    + destruct (stop x); [exact E|]. destruct (groups_from stop n (n - 1) (pre ++ post)) as [u|] eqn:G; [|discriminate]. injection E as <-. cbn in L.
      rewrite (IH _ _ G) by lia. reflexivity.
    + destruct (groups_from stop n k (pre ++ post)) as [u|] eqn:G; [|discriminate]. injection E as <-. cbn in L.
      rewrite (IH _ _ G) by lia. reflexivity.
Qed.
Lemma take_insert : forall stop ar pre post w t vs, stop w = true -> word_kind w <> WEnd ->
  take_words stop ar (before_end (pre ++ post)) = Some vs -> length vs <= length pre ->
  take_words stop ar (before_end (pre ++ w :: t)) = Some vs.
Proof.
  intros stop ar pre post w t vs SW N E L. destruct (before_end_prefix pre) as [F|F].
  - rewrite (F (w :: t) post). exact E.
  - rewrite F in *. assert (B : before_end (w :: t) = w :: before_end t) by (cbn [before_end]; destruct (word_kind w); congruence). rewrite B.
    destruct ar as [| |n| |n]; cbn [take_words] in *.
    + exact E.
    + destruct pre as [|x pre]; cbn [app] in *; [|exact E]. destruct (before_end post); [discriminate E|]. injection E as <-. cbn in L. lia.
    + assert (Ln : n <= length pre). { destruct (Nat.ltb _ n) eqn:Q; [discriminate|]. injection E as <-. rewrite firstn_length in L. apply Nat.ltb_ge in Q. rewrite Nat.min_l in L by exact Q. exact L. }
      assert (Q1 : forall y, Nat.ltb (length (pre ++ y)) n = false) by (intros; apply Nat.ltb_ge; rewrite app_length; lia).
      rewrite Q1 in *. injection E as <-. f_equal. rewrite !firstn_app. replace (n - length pre) with 0 by lia. reflexivity.
    + injection E as <-. f_equal. now apply run_insert.
    + exact (groups_insert stop n pre _ w _ 0 vs SW E L).
Qed.
Lemma read_option_insert : forall K x pre post w t occs used, stops K w = true ->
  read_option K x (before_end (pre ++ post)) = inr (occs, used) -> length used <= length pre ->
  read_option K x (before_end (pre ++ w :: t)) = inr (occs, used).
Proof.
  intros K x pre post w t occs used SW. unfold read_option. destruct (word_meaning K x) as [e|bools id c name st value]; [discriminate|].
  unfold option_values. destruct value as [v|].
  - destruct (match arity_of c with AOne | ARun => _ | _ => _ end) as [e|vs]; [discriminate|]. auto.
  - destruct (take_words _ _ (before_end (pre ++ post))) as [u|] eqn:T; [|discriminate]. intros [= <- <-] L.
    now rewrite (take_insert _ _ _ _ w t _ SW (stops_kind _ _ SW) T L).
Qed.
Lemma skipn_len_app : forall {A} (l r : list A), skipn (length l) (l ++ r) = r.
Proof. intros A l r. rewrite skipn_app, skipn_all, Nat.sub_diag. reflexivity. Qed.
Lemma Reached_insert_words : forall K ps ws p left rest, Reached K ps ws p left rest -> (forall i c, In (i, c) ps -> arity_of c <> AFixed 0 /\ arity_of c <> ANone) ->
  forall w t, stops K w = true -> Reached K ps (words_of p ++ w :: t) p left (w :: t).
Proof.
  intros K ps ws p left rest H. induction H; intros PN w' t' SW.
  - apply Rc_here.
  - pose proof (read_option_rest _ _ _ _ _ H0) as X. pose proof (Reached_words _ _ _ _ _ _ H1) as Y. rewrite Y in X. rewrite X, app_assoc in H0.
    unfold words_of. cbn [flat_map app piece_words]. fold (words_of pcs). rewrite <- app_assoc.
    eapply Rc_option; [exact H | rewrite app_assoc; eapply read_option_insert; [exact SW | exact H0 | rewrite app_length; lia]|].
    rewrite skipn_len_app. now apply IHReached.
  - assert (NV : vs <> []).
    { destruct (PN id c (or_introl eq_refl)) as [N1 N2]. cbn [before_end] in H0. rewrite H in H0. eapply take_nonempty; [exact N1 | exact N2 | | exact H0]. now apply plain_no_stop. }
    pose proof (Proofs_ReadFacts.take_before _ _ _ _ H0) as X. pose proof (Reached_words _ _ _ _ _ _ H1) as Y. rewrite Y in X. rewrite X, app_assoc in H0.
    unfold words_of. cbn [flat_map app piece_words]. fold (words_of pcs). rewrite <- app_assoc.
    destruct vs as [|v vs]; [now elim NV|]. cbn [app] in X. injection X as <- _. cbn [app].
    eapply Rc_positional; [exact H | change (w :: vs ++ words_of pcs ++ w' :: t') with ((w :: vs) ++ words_of pcs ++ w' :: t'); rewrite app_assoc; eapply take_insert; [exact SW | exact (stops_kind _ _ SW) | exact H0 | rewrite app_length; lia]|].
    change (w :: vs ++ words_of pcs ++ w' :: t') with ((w :: vs) ++ words_of pcs ++ w' :: t'). rewrite skipn_len_app. apply IHReached; [|exact SW]. intros i0 c0 I0. apply (PN i0 c0). now right.
  - unfold words_of. cbn [flat_map app piece_words]. fold (words_of pcs). apply Rc_additional; [exact H | exact H0 |]. now apply IHReached.
Qed.
Lemma Reached_insert : forall K ps pre post p left, Reached K ps (pre ++ post) p left post -> (forall i c, In (i, c) ps -> arity_of c <> AFixed 0 /\ arity_of c <> ANone) ->
  forall w t, stops K w = true -> Reached K ps (pre ++ w :: t) p left (w :: t).
Proof.
  intros K ps pre post p left R PN w t SW. pose proof (Reached_words _ _ _ _ _ _ R) as X. apply app_inv_tail in X. rewrite X. eapply Reached_insert_words; eauto.
Qed.

(* ------------------------------------------------------------------ *)
(** * the inserted words *)
Lemma take_exact : forall K ar vs rest, suits K ar vs -> match ar with ARun | AGroups _ => False | _ => True end -> take_words (stops K) ar (vs ++ rest) = Some vs.
Proof.
  intros K ar vs rest ST N. destruct ar as [| |n| |n]; cbn [suits take_words] in *; try now elim N.
  - now rewrite ST.
  - destruct vs as [|x [|y vs]]; try discriminate ST. reflexivity.
  - rewrite app_length. destruct (Nat.ltb_spec (length vs + length rest) n) as [X|X]; [lia|].
    rewrite firstn_app, ST, Nat.sub_diag, firstn_O, app_nil_r, <- ST, firstn_all. reflexivity.
Qed.
Lemma request_part : forall s q left post, usable s -> good_request s q -> followed s q post ->
  Reached (setup s) left (r_words q ++ post) [r_piece q] left post.
Proof.
  intros s q left post U G FO. destruct q as [a w value vs]. destruct G as [Ia [SP G]]. destruct (spells_meaning s a value w U SP) as [WK [_ [name WM]]].
  destruct value as [v|]; cbn [r_words r_piece app].
  - destruct G as [-> AR]. eapply Rc_option; [exact WK | | apply Rc_here]. unfold read_option, option_values. rewrite WM. destruct AR as [->| ->]; reflexivity.
  - destruct G as [N ST]. eapply Rc_option; [exact WK | | rewrite skipn_len_app; apply Rc_here].
    unfold read_option, option_values. rewrite WM, (no_end_before _ _ N). cbn [followed] in FO.
    assert (T : take_words (stops (setup s)) (arity_of (a_cfg a)) (vs ++ before_end post) = Some vs).
    { destruct (arity_of (a_cfg a)) as [| |n| |n] eqn:AR.
      1-3: apply take_exact; [exact ST | exact Logic.I].
      all: apply take_suits; [intros m E; rewrite <- AR in E; now apply (groups_pos s a m U Ia) | exact ST |].
      all: destruct post as [|x post]; [now left|]; cbn [ends_values] in FO; destruct FO as [-> |SX]; [now left | right].
      all: exists x, (before_end post); split; [|exact SX]; cbn [before_end]; pose proof (stops_kind _ _ SX); destruct (word_kind x); congruence. }
    now rewrite T.
Qed.
Lemma good_ends : forall s q qs post, usable s -> Forall (good_request s) qs -> (qs = [] -> followed s q post) -> followed s q (flat_map r_words qs ++ post).
Proof.
  intros s q qs post U F H. destruct qs as [|q' qs]; [exact (H eq_refl)|]. inversion F; subst. destruct (request_word s q' U H2) as [w [t [E SW]]].
  cbn [flat_map]. rewrite E. destruct q as [a x [v|] vs]; cbn [followed]; [exact Logic.I|]. destruct (arity_of (a_cfg a)); try exact Logic.I; right; exact SW.
Qed.
Lemma requests_part : forall s qs left post, usable s -> Forall (good_request s) qs -> (forall q0 q, qs = q0 ++ [q] -> followed s q post) ->
  Reached (setup s) left (flat_map r_words qs ++ post) (map r_piece qs) left post.
Proof.
  intros s qs left post U F. induction F as [|q qs G F IH]; intros FO; [apply Rc_here|]. cbn [flat_map map]. rewrite <- app_assoc.
  change (r_piece q :: map r_piece qs) with ([r_piece q] ++ map r_piece qs). eapply Reached_app.
  - apply (request_part s q left _ U G). apply good_ends; [exact U | exact F |]. intros ->. now apply (FO []).
  - apply IH. intros q0 q1 E. apply (FO (q :: q0)). now rewrite E.
Qed.
(** the reading of the longer line *)
Lemma insert_reads : forall s pre post qs p left, usable s -> Forall (good_request s) qs -> (forall q0 q, qs = q0 ++ [q] -> followed s q post) ->
  reaches s (pre ++ post) p left post ->
  (p = [] \/ forall b, In b (arguments (ready s)) -> isPositional b = true -> getNargs b <> 0%N) ->
  (forall pcs, reads s (pre ++ post) pcs -> exists r, pcs = p ++ r /\ reads s (pre ++ flat_map r_words qs ++ post) (p ++ map r_piece qs ++ r)) /\
  (forall pcs, reads s (pre ++ flat_map r_words qs ++ post) pcs -> exists r, pcs = p ++ map r_piece qs ++ r /\ reads s (pre ++ post) (p ++ r)) /\
  (forall e, rejects s (pre ++ post) e <-> rejects s (pre ++ flat_map r_words qs ++ post) e).
Proof.
  intros s pre post qs p left U F FO R PN. pose proof (usable_ready_wf s U) as W. unfold reaches in R.
  assert (R2 : reaches s (pre ++ flat_map r_words qs ++ post) p left (flat_map r_words qs ++ post)).
  { unfold reaches. destruct PN as [-> |PN].
    - pose proof (Reached_words _ _ _ _ _ _ R) as X. apply app_inv_tail in X. cbn in X. subst pre. cbn [app] in *.
      inversion R; subst. apply Rc_here.
    - destruct F as [|q qs G F]; [exact R|]. destruct (request_word s q U G) as [w [t [E SW]]]. cbn [flat_map]. rewrite E. cbn [app].
      apply (Reached_insert _ _ _ _ _ _ R); [|exact SW]. intros i c Hc. destruct (positionals_ids (ready s) W) as [_ Hp]. destruct (Hp i c Hc) as (b & Ib & _ & Hb & Pb).
      pose proof (PN b Ib Pb) as NZ. subst c. unfold isPositional in Pb. unfold arity_of. destruct (c_type (a_cfg b)); try discriminate Pb; split; try discriminate.
      intro X. injection X as X. apply NZ. unfold Spec_Api.getNargs. lia. }
  pose proof (requests_part s qs left post U F FO) as P. unfold reaches in R2.
  split; [|split].
  - intros pcs H. destruct (Reached_Reading_inv _ _ _ _ _ _ R _ H) as [r [-> H1]]. exists r. split; [reflexivity|].
    eapply Reached_Reading; [exact R2|]. eapply Reached_Reading; [exact P | exact H1].
  - intros pcs H. destruct (Reached_Reading_inv _ _ _ _ _ _ R2 _ H) as [r1 [-> H1]]. destruct (Reached_Reading_inv _ _ _ _ _ _ P _ H1) as [r [-> H2]].
    exists r. split; [reflexivity|]. eapply Reached_Reading; [exact R | exact H2].
  - intros e. split; intros H.
    + apply (Reached_Fails_inv _ _ _ _ _ _ R) in H. eapply Reached_Fails; [exact R2|]. eapply Reached_Fails; [exact P | exact H].
    + apply (Reached_Fails_inv _ _ _ _ _ _ R2) in H. apply (Reached_Fails_inv _ _ _ _ _ _ P) in H. eapply Reached_Fails; [exact R | exact H].
Qed.

(* ------------------------------------------------------------------ *)
(** * what the inserted pieces do *)
Lemma r_additional : forall qs, additional_of (map r_piece qs) = [].
Proof. induction qs as [|q qs IH]; [reflexivity|]. destruct q as [a w [v|] vs]; exact IH. Qed.
Lemma r_given : forall qs, given_of (map r_piece qs) = [].
Proof. induction qs as [|q qs IH]; [reflexivity|]. destruct q as [a w [v|] vs]; exact IH. Qed.
Lemma r_occs : forall qs, occs_of (map r_piece qs) = map r_occ qs.
Proof. induction qs as [|q qs IH]; [reflexivity|]. cbn [map]. rewrite occs_of_cons, IH. destruct q as [a w [v|] vs]; reflexivity. Qed.
Lemma r_occs_for : forall qs id, occs_for id (map r_piece qs) = map r_occ (filter (fun q => Nat.eqb (a_id (r_arg q)) id) qs).
Proof.
  intros qs id. unfold occs_for. rewrite r_occs. induction qs as [|q qs IH]; [reflexivity|]. cbn [map filter].
  assert (E : o_id (r_occ q) = a_id (r_arg q)) by (destruct q as [a w [v|] vs]; reflexivity). rewrite E. destruct (Nat.eqb _ _); cbn [map]; now rewrite IH.
Qed.
Lemma r_not_asked : forall qs a, asked qs a = [] -> occs_for (a_id a) (map r_piece qs) = [].
Proof. intros qs a H. rewrite r_occs_for. unfold asked in H. apply map_eq_nil in H. now rewrite H. Qed.
Lemma asked_occs : forall qs a, asked qs a = map o_vals (occs_for (a_id a) (map r_piece qs)).
Proof. intros qs a. rewrite r_occs_for. unfold asked. rewrite map_map. apply map_ext. intros [x w [v|] vs]; reflexivity. Qed.
Lemma asked_weight : forall qs a, list_sum (map weight (occs_for (a_id a) (map r_piece qs))) = length (asked qs a).
Proof.
  intros qs a. rewrite r_occs_for. unfold asked. rewrite map_length. induction (filter _ qs) as [|q l IH]; [reflexivity|].
  cbn [map length]. change (list_sum (?x :: ?y)) with (x + list_sum y). rewrite IH. destruct q as [x w [v|] vs]; reflexivity.
Qed.
Lemma asked_not_glued : forall qs a o, In o (occs_for (a_id a) (map r_piece qs)) -> o_style o <> Glued.
Proof. intros qs a o H. rewrite r_occs_for in H. apply in_map_iff in H. destruct H as [q [<- _]]. destruct q as [x w [v|] vs]; discriminate. Qed.
Lemma insert_other : forall s p qs r ws ws' a, usable s -> reads s ws (p ++ r) -> reads s ws' (p ++ map r_piece qs ++ r) -> In a (arguments (ready s)) ->
  asked qs a = [] -> read_arg (p ++ map r_piece qs ++ r) a = read_arg (p ++ r) a.
Proof.
  intros s p qs r ws ws' a U R R' Ia A. pose proof (usable_ready_wf s U) as W. destruct (isPositional a) eqn:P.
  - rewrite (read_positional_arg s ws' _ a W R' Ia P), (read_positional_arg s ws _ a W R Ia P). unfold given. now rewrite !given_of_app, r_given.
  - rewrite (read_option_arg s ws' _ a W R' Ia P), (read_option_arg s ws _ a W R Ia P). now rewrite !occs_for_app, (r_not_asked _ _ A).
Qed.
(** an option that does not collect: a later occurrence decides all but the count *)
Definition alike_for (c : acfg) (d d' : adyn) : Prop :=
  d_num d = d_num d' /\ (c_type c = SIMPLE_OPTION \/ d_arg d = d_arg d') /\ (c_type c = NUMBER_OPTION \/ c_type c = INFINITE_OPTION \/ d_elems d = d_elems d').
Lemma alike_occs : forall c os d, accumulates (c_type c) = false -> alike_for c (occs_dyn c os d) d.
Proof.
  intros c os. induction os as [|o os IH] using rev_ind; intros d A; [unfold alike_for; cbn; auto|]. rewrite occs_dyn_app. unfold occs_dyn at 1. cbn [fold_left].
  destruct (IH d A) as [H1 [H2 H3]]. set (e := occs_dyn c os d) in *. clearbody e. destruct e as [ex ct ar nu es]. unfold alike_for, occ_dyn, seen, set_arg, set_elems in *.
  destruct (c_type c); try discriminate A; destruct (o_style o); cbn in *; auto.
Qed.
Lemma alike_occ : forall c o d d', accumulates (c_type c) = false -> alike_for c d d' -> zc (occ_dyn c o d) = zc (occ_dyn c o d').
Proof.
  intros c o [ex ct ar nu es] [ex' ct' ar' nu' es'] A [H1 [H2 H3]]. unfold zc, occ_dyn, seen, set_arg, set_elems. cbn in *. subst nu'.
  destruct (c_type c) eqn:T; try discriminate A; destruct (o_style o); cbn; destruct H2 as [H2|H2]; try discriminate H2; destruct H3 as [H3|[H3|H3]]; try discriminate H3; subst; reflexivity.
Qed.
Lemma zc_occs : forall c os d d', zc d = zc d' -> zc (occs_dyn c os d) = zc (occs_dyn c os d').
Proof. intros c. unfold occs_dyn. induction os as [|o os IH]; intros d d' E; [exact E|]. cbn [fold_left]. apply IH. rewrite zc_occ, E. symmetry. apply zc_occ. Qed.
Lemma later_decides : forall c os1 os2 o os d, accumulates (c_type c) = false -> zc (occs_dyn c (os1 ++ o :: os) d) = zc (occs_dyn c (os2 ++ o :: os) d).
Proof.
  intros c os1 os2 o os d A. rewrite !occs_dyn_app. unfold occs_dyn at 1 3. cbn [fold_left]. fold (occs_dyn c os (occ_dyn c o (occs_dyn c os1 d))). fold (occs_dyn c os (occ_dyn c o (occs_dyn c os2 d))).
  apply zc_occs. apply alike_occ; [exact A|]. destruct (alike_occs c os1 d A) as [H1 [H2 H3]], (alike_occs c os2 d A) as [K1 [K2 K3]]. unfold alike_for. split; [congruence|]. split.
  - destruct H2 as [H2|H2]; [now left|]. destruct K2 as [K2|K2]; [now left|]. right. congruence.
  - destruct H3 as [H3|[H3|H3]]; auto. destruct K3 as [K3|[K3|K3]]; auto. right. right. congruence.
Qed.
