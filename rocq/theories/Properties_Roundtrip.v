(** Properties_Roundtrip.v -- C70: whatever the values, there is a command line that gives
    them, and it is read back. *)
From Coq Require Import Permutation Sorted.
From Verif Require Import Base Model_Utils Model_Number Model_Types Model_Argument Model_Usage Model_Args Model_Api
  Spec_Order Spec_Names Spec_Reading Spec_Parse Spec_Decl Spec_Finish Spec_History Spec_Api Spec_Result
  Proofs_Base Proofs_Order Proofs_Frame Proofs_Inv Proofs_ReadFacts Proofs_Reading Proofs_Parse Proofs_Decl Proofs_Finish
  Proofs_Meth Proofs_History Proofs_Config Proofs_Check Proofs_Names Proofs_Central Proofs_Dyn Properties_Words Demo Properties_Parse Proofs_Swap Proofs_Kind
  Proofs_Values Properties_Values Properties_Positional Properties_Spell Properties_Repeat Properties_Final Properties_Required Properties_Offending Properties_Roles Spec_Roundtrip.

Definition r_piece (q : request) : piece :=
  match q with
  | Request a w (Some _) vs => PcOption w [Occ (a_id a) AfterEq vs] []
  | Request a w None vs => PcOption w [Occ (a_id a) Separate vs] vs
  end.
Definition line_pieces (qs : list request) (l : list (argument * list str)) (extra : list str) : list piece :=
  map r_piece qs ++ PcEnd :: map (fun p => PcPositional (a_id (fst p)) (snd p)) l ++ map PcAdditional extra.

Lemma no_end_before : forall vs rest, ~ In "--" vs -> before_end (vs ++ rest) = vs ++ before_end rest.
Proof.
  induction vs as [|v vs IH]; intros rest N; [reflexivity|]. cbn [app before_end]. destruct (word_kind v) eqn:KV; try (f_equal; apply IH; intros X; apply N; now right).
  exfalso. apply N. left. now apply kind_end.
Qed.
Lemma groups_inside : forall stop n g l vs, groups_from stop n 0 l = Some vs -> groups_from stop n (length g) (g ++ l) = Some (g ++ vs).
Proof. intros stop n g l vs H. induction g as [|w g IH]; [exact H|]. cbn [length app groups_from]. now rewrite IH. Qed.
Lemma take_suits : forall K ar vs rest, (forall n, ar = AGroups n -> 0 < n) -> suits K ar vs -> (rest = [] \/ exists w t, rest = w :: t /\ stops K w = true) ->
  take_words (stops K) ar (vs ++ rest) = Some vs.
Proof.
  intros K ar vs rest P S R. destruct ar as [| |n| |n]; cbn [suits take_words] in *.
  - now subst.
  - destruct vs as [|v [|]]; try discriminate S. reflexivity.
  - destruct (Nat.ltb_spec (length (vs ++ rest)) n) as [H|H]; [rewrite app_length in H; lia|]. f_equal. rewrite <- S, firstn_app, Nat.sub_diag, firstn_all. apply app_nil_r.
  - f_equal. induction vs as [|v vs IH]; cbn [app run_of].
    + destruct R as [->|[w [t [-> ST]]]]; cbn [run_of]; [reflexivity | now rewrite ST].
    + rewrite (S v (or_introl eq_refl)), IH by (intros u Iu; apply S; now right). reflexivity.
  - specialize (P n eq_refl). destruct S as [gs [-> S]]. induction gs as [|g gs IH]; cbn [concat app].
    + destruct R as [->|[w [t [-> ST]]]]; cbn [groups_from]; [reflexivity | now rewrite ST].
    + destruct (S g (or_introl eq_refl)) as [L ST]. destruct g as [|w g]; [cbn in L; lia|]. cbn [hd app groups_from] in *. rewrite ST. cbn [length] in L.
      replace (n - 1) with (length g) by lia. rewrite <- app_assoc. rewrite (groups_inside _ n g _ (concat gs)); [reflexivity|]. apply IH. intros h Ih. apply S. now right.
Qed.
Lemma request_word : forall s q, usable s -> good_request s q -> exists w t, r_words q = w :: t /\ stops (setup s) w = true.
Proof.
  intros s [a w value vs] U [_ [SP _]]. destruct (spells_meaning s a value w U SP) as [_ [ST _]]. destruct value; cbn [r_words]; eauto.
Qed.
Lemma line_starts : forall s qs tl, usable s -> Forall (good_request s) qs -> (exists t, flat_map r_words qs ++ "--" :: tl = "--" :: t) \/
  exists w t, flat_map r_words qs ++ "--" :: tl = w :: t /\ stops (setup s) w = true.
Proof.
  intros s qs tl U F. destruct F as [|q qs G F]; [left; now exists tl|]. right. destruct (request_word s q U G) as [w [t [E ST]]]. cbn [flat_map]. rewrite E. cbn [app]. eauto.
Qed.
Lemma before_end_starts : forall K l, ((exists t, l = "--" :: t) \/ exists w t, l = w :: t /\ stops K w = true) -> before_end l = [] \/ exists w t, before_end l = w :: t /\ stops K w = true.
Proof.
  intros K l [[t ->]|[w [t [-> ST]]]]; [now left|]. right. pose proof (stops_kind K w ST) as N. cbn [before_end]. destruct (word_kind w); try (now elim N); eauto.
Qed.
Lemma requests_read : forall s qs ps tl tp, usable s -> Forall (good_request s) qs -> ReadingEnd (setup s) ps tl tp ->
  Reading (setup s) ps (flat_map r_words qs ++ "--" :: tl) (map r_piece qs ++ PcEnd :: tp).
Proof.
  intros s qs ps tl tp U F RE. induction F as [|q qs G F IH]; [now apply Rd_end|]. pose proof (line_starts s qs tl U F) as LS.
  destruct q as [a w value vs]. destruct G as [Ia [SP G]]. destruct (spells_meaning s a value w U SP) as [WK [_ [name WM]]].
  cbn [flat_map map]. rewrite <- app_assoc. destruct value as [v|]; cbn [r_words r_piece app].
  - destruct G as [-> AR]. apply Rd_option; [exact WK | | exact IH]. unfold read_option, option_values. rewrite WM. destruct AR as [->| ->]; reflexivity.
  - destruct G as [N ST]. apply Rd_option; [exact WK | | rewrite skipn_app, Nat.sub_diag, skipn_all; exact IH].
    unfold read_option, option_values. rewrite WM, (no_end_before _ _ N). rewrite (take_suits (setup s) _ vs); [reflexivity | | exact ST | now apply before_end_starts].
    intros n. now apply (groups_pos s a n U Ia).
Qed.
Lemma run_no_stop : forall l, run_of no_stop l = l.
Proof. induction l as [|w l IH]; [reflexivity|]. cbn. now rewrite IH. Qed.
Lemma groups_no_stop : forall n k l, 0 < n -> length l = k * n -> groups_from no_stop n 0 l = Some l.
Proof.
  intros n k. induction k as [|k IH]; intros l P L; [destruct l; [reflexivity | discriminate L]|]. destruct l as [|w l]; [cbn in L; lia|]. cbn [groups_from no_stop].
  rewrite <- (firstn_skipn (n - 1) l). assert (LE : length (firstn (n - 1) l) = n - 1) by (apply firstn_length_le; cbn in L; lia). rewrite <- LE at 1.
  rewrite (groups_inside _ n _ _ (skipn (n - 1) l)); [reflexivity|]. apply IH; [exact P|]. rewrite skipn_length. cbn in L. lia.
Qed.
Lemma shared_read : forall s ps l extra, usable s -> incl ps (arguments (ready s)) -> shared ps l extra -> (extra = [] \/ k_strict (setup s) = false) ->
  ReadingEnd (setup s) (map (fun a => (a_id a, a_cfg a)) ps) (flat_map snd l ++ extra) (map (fun p => PcPositional (a_id (fst p)) (snd p)) l ++ map PcAdditional extra).
Proof.
  intros s ps l extra U IN SH. induction SH as [ps|extra|a ps vs l extra NE AR SH IH|a ps vs NE AR]; intros ST.
  - constructor.
  - cbn [flat_map app map]. destruct ST as [->|ST]; [constructor|]. induction extra as [|w extra IH]; [constructor|]. now apply Re_additional.
  - cbn [flat_map app map fst snd]. rewrite <- app_assoc. destruct vs as [|v vs]; [now elim NE|]. cbn [app].
    apply Re_positional.
    + destruct AR as [[-> L]| ->]; [destruct vs; [reflexivity | discriminate L]|]. cbn [take_words length].
      destruct (Nat.ltb_spec (Datatypes.S (length (vs ++ flat_map snd l ++ extra))) (Datatypes.S (length vs))) as [H|H]; [rewrite app_length in H; lia|].
      f_equal. cbn [firstn]. f_equal. rewrite firstn_app, Nat.sub_diag, firstn_all. apply app_nil_r.
    + change (v :: vs ++ flat_map snd l ++ extra) with ((v :: vs) ++ flat_map snd l ++ extra). rewrite skipn_app, Nat.sub_diag, skipn_all. apply IH; [|exact ST]. intros x Ix. apply IN. now right.
  - cbn [flat_map app map fst snd]. rewrite !app_nil_r. destruct vs as [|v vs]; [now elim NE|]. apply Re_positional; [|rewrite skipn_all; constructor].
    destruct AR as [->|[n [k [AR L]]]]; [cbn [take_words]; now rewrite run_no_stop|]. rewrite AR. cbn [take_words]. apply (groups_no_stop n k); [|exact L].
    apply (groups_pos s a n U); [apply IN; now left | exact AR].
Qed.
Lemma positionals_setup : forall s, positionals (setup s) = map (fun a => (a_id a, a_cfg a)) (filter (fun a => isPositional a) (arguments (ready s))).
Proof.
  intros s. unfold positionals, setup, conf_of. cbn [k_args]. induction (s_args (ready s)) as [|a l IH]; [reflexivity|]. cbn [map filter snd]. destruct (is_positional (c_type (a_cfg a))); cbn [map]; now rewrite IH.
Qed.
Lemma setup_strict : forall s, wf0 s -> k_strict (setup s) = m_strict (s_modes s).
Proof. intros s W. unfold setup, conf_of. cbn. destruct (ready_cases s W) as [[-> _]|[-> _]]; reflexivity. Qed.
Lemma line_reads : forall s qs l extra, usable s -> Forall (good_request s) qs -> shared (filter (fun a => isPositional a) (arguments (ready s))) l extra ->
  (extra = [] \/ m_strict (s_modes s) = false) -> reads s (line_for qs l extra) (line_pieces qs l extra).
Proof.
  intros s qs l extra U F SH ST. unfold reads, line_for, line_pieces. apply requests_read; [exact U | exact F|]. rewrite positionals_setup. apply shared_read; [exact U | | exact SH|].
  - intros x Ix. apply filter_In in Ix. apply Ix.
  - destruct ST as [ST|ST]; [now left|]. right. now rewrite (setup_strict s (usable_wf0 s U)).
Qed.

(** what the pieces contain *)
Definition r_occ (q : request) : occ := match q with Request a _ (Some _) vs => Occ (a_id a) AfterEq vs | Request a _ None vs => Occ (a_id a) Separate vs end.
Definition p_given (p : argument * list str) : nat * list str := (a_id (fst p), snd p).
Lemma line_occs : forall qs l extra, occs_of (line_pieces qs l extra) = map r_occ qs.
Proof.
  intros qs l extra. unfold line_pieces. rewrite occs_of_app. cbn [occs_of flat_map]. fold (occs_of (map (fun p => PcPositional (a_id (fst p)) (snd p)) l ++ map PcAdditional extra)). rewrite occs_of_app.
  assert (X : occs_of (map (fun p : argument * list str => PcPositional (a_id (fst p)) (snd p)) l) = []) by (induction l as [|x l IH]; [reflexivity | exact IH]).
  assert (Y : occs_of (map PcAdditional extra) = []) by (clear; induction extra as [|x l IH]; [reflexivity | exact IH]).
  rewrite X, Y. cbn [app]. rewrite app_nil_r. induction qs as [|[a w [v|] vs] qs IH]; [reflexivity| |]; cbn [map r_piece r_occ]; rewrite <- IH; reflexivity.
Qed.
Lemma line_given : forall qs l extra, given_of (line_pieces qs l extra) = map p_given l.
Proof.
  intros qs l extra. unfold line_pieces. rewrite given_of_app. cbn [given_of flat_map]. fold (given_of (map (fun p => PcPositional (a_id (fst p)) (snd p)) l ++ map PcAdditional extra)). rewrite given_of_app.
  assert (X : given_of (map r_piece qs) = []) by (clear; induction qs as [|[a w [v|] vs] qs IH]; [reflexivity | exact IH | exact IH]).
  assert (Y : given_of (map PcAdditional extra) = []) by (clear; induction extra as [|x l IH]; [reflexivity | exact IH]).
  rewrite X, Y. cbn [app]. rewrite app_nil_r. clear. induction l as [|x l IH]; [reflexivity|]. cbn [map]. rewrite <- IH. reflexivity.
Qed.
Lemma line_additional : forall qs l extra, additional_of (line_pieces qs l extra) = extra.
Proof.
  intros qs l extra. unfold line_pieces. rewrite additional_of_app. cbn [additional_of flat_map]. fold (additional_of (map (fun p => PcPositional (a_id (fst p)) (snd p)) l ++ map PcAdditional extra)). rewrite additional_of_app.
  assert (X : additional_of (map r_piece qs) = []) by (clear; induction qs as [|[a w [v|] vs] qs IH]; [reflexivity | exact IH | exact IH]).
  assert (Y : additional_of (map (fun p : argument * list str => PcPositional (a_id (fst p)) (snd p)) l) = []) by (clear; induction l as [|x l IH]; [reflexivity | exact IH]).
  rewrite X, Y. cbn [app]. clear. induction extra as [|x l IH]; [reflexivity|]. cbn [map]. rewrite <- IH at 2. reflexivity.
Qed.
Lemma line_occs_for : forall qs l extra id, occs_for id (line_pieces qs l extra) = map r_occ (filter (fun q => Nat.eqb (a_id (r_arg q)) id) qs).
Proof.
  intros qs l extra id. unfold occs_for. rewrite line_occs. induction qs as [|q qs IH]; [reflexivity|]. cbn [map filter].
  assert (E : o_id (r_occ q) = a_id (r_arg q)) by (destruct q as [a w [v|] vs]; reflexivity). rewrite E. destruct (Nat.eqb (a_id (r_arg q)) id); cbn [map]; now rewrite IH.
Qed.
Lemma line_on_line : forall qs l extra a, on_line (a_id a) (line_pieces qs l extra) = true <-> asked qs a <> [] \/ exists b vs, In (b, vs) l /\ a_id b = a_id a.
Proof.
  intros qs l extra a. unfold on_line. rewrite line_given, existsb_filter. fold (occs_for (a_id a) (line_pieces qs l extra)). rewrite line_occs_for. unfold asked.
  destruct (filter (fun q => Nat.eqb (a_id (r_arg q)) (a_id a)) qs) as [|q F]; cbn [map orb].
  - rewrite existsb_exists. split.
    + intros [g [Ig Eg]]. right. apply in_map_iff in Ig. destruct Ig as [[b vs] [<- Ib]]. exists b, vs. split; [exact Ib|]. now apply Nat.eqb_eq in Eg.
    + intros [N|[b [vs [Ib Eb]]]]; [now elim N|]. exists (a_id b, vs). split; [change (a_id b, vs) with (p_given (b, vs)); now apply in_map|]. now apply Nat.eqb_eq.
  - split; [intros _; left; discriminate | reflexivity].
Qed.
Lemma map_last : forall {A B} (f : A -> B) l d, last (map f l) (f d) = f (last l d).
Proof. induction l as [|x l IH]; intros d; [reflexivity|]. cbn [map]. destruct l as [|y l]; [reflexivity|]. apply (IH d). Qed.
Lemma last_default : forall {A} (l : list A) d d', l <> [] -> last l d = last l d'.
Proof. induction l as [|x l IH]; intros d d' N; [now elim N|]. destruct l as [|y l]; [reflexivity|]. apply (IH d d'). discriminate. Qed.
Lemma line_option_values : forall qs l extra b, given (a_id b) (line_pieces qs l extra) = None -> asked qs b <> [] -> line_values (line_pieces qs l extra) b = expected qs b.
Proof.
  intros qs l extra b G N. unfold line_values. rewrite G, line_occs_for. unfold expected, asked in *. change (accumulates (c_type (a_cfg b))) with (collects b).
  destruct (filter (fun q => Nat.eqb (a_id (r_arg q)) (a_id b)) qs) as [|q F]; [now elim N|]. cbn [map].
  assert (V : forall q, o_vals (r_occ q) = r_vals q) by (intros [a w [v|] vs]; reflexivity).
  destruct (collects b).
  - assert (SG : match o_style (r_occ q) with Glued => start_values b | _ => [] end = []) by (destruct q as [a w [v|] vs]; reflexivity). rewrite SG. cbn [app].
    rewrite flat_map_concat_map. cbn [map]. rewrite map_map, V. do 2 f_equal. apply map_ext. exact V.
  - change (r_occ q :: map r_occ F) with (map r_occ (q :: F)). rewrite map_last, V. change (r_vals q :: map r_vals F) with (map r_vals (q :: F)).
    rewrite <- (map_last r_vals (q :: F) q). apply last_default. discriminate.
Qed.
Lemma accepted_holds : forall s argv ws t pcs a, usable s -> interprets s -> command_line argv ws -> parseArguments argv s = (t, Ok tt) -> reads s ws pcs ->
  In a (arguments t) -> exists b, In b (arguments (ready s)) /\ a_id b = a_id a /\ a_cfg b = a_cfg a /\ isExists a = on_line (a_id a) pcs /\
    (isExists a = true -> has_values (a_cfg a) = true -> holds a (line_values pcs b)).
Proof.
  intros s argv ws t pcs a U I C P R Ia. destruct (result_with s argv ws t a pcs U C I P Ia R) as [b [Ib [_ [_ [CF [ID [EX _]]]]]]].
  exists b. split; [exact Ib|]. split; [now symmetry|]. split; [now symmetry|]. split; [rewrite EX, ID; reflexivity|]. intros E H.
  destruct (C30_accepted s argv ws t pcs a U I C P R Ia E) as [b' [Ib' [ID' [CF' X]]]].
  assert (b' = b) by (apply (wf_unique (ready s) b' b (usable_ready_wf s U) Ib' Ib); congruence). subst b'.
  unfold holds. destruct (c_valid (a_cfg a)); [exact X | exact (X H)].
Qed.
(* ------------------------------------------------------------------ *)
(** * C70 *)
(** The line written for the values is never refused as unreadable: each option word stands
    for its option, and each word is a value of the argument it was written for. *)
Theorem C70_readable : forall s a0 qs l extra t name msg, usable s -> interprets s -> Forall (good_request s) qs ->
  shared (filter (fun a => isPositional a) (arguments (ready s))) l extra -> (extra = [] \/ m_strict (s_modes s) = false) ->
  command_line (a0 :: line_for qs l extra) (line_for qs l extra) ->
  parseArguments (a0 :: line_for qs l extra) s = (t, Throw (Exn KParse name msg)) -> msg = "destination method not found for this type".
Proof.
  intros s a0 qs l extra t name msg U I F SH ST C P. pose proof (line_reads s qs l extra U F SH ST) as R.
  destruct (string_dec msg "destination method not found for this type") as [E|N]; [exact E|exfalso].
  pose proof (parse_error_rejects s _ _ t name msg U I C P N) as X. exact (Reading_not_fails _ _ _ _ R _ X).
Qed.
Print Assumptions C70_readable.

(** And it is read back: after a successful parse each option on it has exactly the values
    asked for (all of them for APPEND and EXTEND, the last ones otherwise), each positional
    its words, all other arguments are absent, and the rest are the additional arguments. *)
Theorem C70_read_back : forall s a0 qs l extra t, usable s -> interprets s -> Forall (good_request s) qs ->
  shared (filter (fun a => isPositional a) (arguments (ready s))) l extra -> (extra = [] \/ m_strict (s_modes s) = false) ->
  command_line (a0 :: line_for qs l extra) (line_for qs l extra) ->
  parseArguments (a0 :: line_for qs l extra) s = (t, Ok tt) ->
  (forall a, In a (arguments t) -> isPositional a = false ->
     (isExists a = true <-> asked qs a <> []) /\ (asked qs a <> [] -> has_values (a_cfg a) = true -> holds a (expected qs a))) /\
  (forall a, In a (arguments t) -> isPositional a = true ->
     (isExists a = true <-> exists b vs, In (b, vs) l /\ a_id b = a_id a) /\
     (forall b vs, In (b, vs) l -> a_id b = a_id a -> holds a ((match c_type (a_cfg a) with POSITIONAL_ARGUMENT => [] | _ => start_values b end) ++ vs))) /\
  getAdditionalArguments t = getAdditionalArguments s ++ extra.
Proof.
  intros s a0 qs l extra t U I F SH ST C P. pose proof (line_reads s qs l extra U F SH ST) as R. pose proof (usable_ready_wf s U) as W.
  split; [|split].
  - intros a Ia NP. destruct (accepted_holds s _ _ t _ a U I C P R Ia) as [b [Ib [ID [CF [EX H]]]]].
    assert (NPb : isPositional b = false) by now rewrite CF. pose proof (given_option_none s _ _ b W R Ib NPb) as G.
    assert (AS : asked qs a = asked qs b) by (unfold asked; now rewrite ID).
    assert (EQ : isExists a = true <-> asked qs a <> []).
    { rewrite EX. rewrite line_on_line. split; [|now left]. intros [X|[c [vs [Ic Ec]]]]; [exact X|exfalso]. apply (given_none _ _ G vs). rewrite line_given, ID, <- Ec.
      change (a_id c, vs) with (p_given (c, vs)). now apply in_map. }
    split; [exact EQ|]. intros N HV. rewrite (line_option_values qs l extra b G) in H by congruence.
    assert (XX : expected qs a = expected qs b) by (unfold expected, collects; now rewrite AS, CF). rewrite XX. apply H; [now apply EQ | exact HV].
  - intros a Ia NP. destruct (accepted_holds s _ _ t _ a U I C P R Ia) as [b [Ib [ID [CF [EX H]]]]].
    assert (NPb : isPositional b = true) by now rewrite CF. pose proof (occs_for_none s _ _ b W R Ib NPb) as ON.
    assert (EQ : isExists a = true <-> exists b vs, In (b, vs) l /\ a_id b = a_id a).
    { rewrite EX. rewrite line_on_line. split; [|now right]. intros [X|X]; [exfalso|exact X]. apply X. rewrite line_occs_for, ID in ON. unfold asked. now rewrite (map_eq_nil _ _ ON). }
    split; [exact EQ|]. intros c vs Ic Ec.
    assert (IC : In c (arguments (ready s))).
    { assert (Q : forall ps l extra, shared ps l extra -> incl (map fst l) ps).
      { clear. intros ps l extra SH. induction SH as [ps|extra|a ps vs l extra NE AR SH IH|a ps vs NE AR]; intros x Ix; try destruct Ix.
        - now left. - right. now apply IH. - now left. - destruct H. }
      pose proof (Q _ _ _ SH c (in_map fst _ _ Ic)) as X. apply filter_In in X. apply X. }
    assert (c = b) by (apply (wf_unique (ready s) c b W IC Ib); congruence). subst c.
    assert (G : given (a_id b) (line_pieces qs l extra) = Some vs).
    { apply in_given; [exact (reads_given_nodup s _ _ W R)|]. rewrite line_given. change (a_id b, vs) with (p_given (b, vs)). now apply in_map. }
    assert (EV : isExists a = true) by (apply EQ; now exists b, vs).
    assert (HV : has_values (a_cfg a) = true) by (clear - NP; unfold has_values, arity_of; destruct (c_type (a_cfg a)); try reflexivity; discriminate NP).
    specialize (H EV HV). unfold line_values in H. rewrite G, CF in H. destruct (c_type (a_cfg a)); exact H.
  - destruct (C16_collected s _ _ t U C I P) as [pcs [R' [E _]]]. destruct (C14_unique s _ _ U C I) as [X _]. rewrite (X _ _ R' R) in E. now rewrite E, line_additional.
Qed.
Print Assumptions C70_read_back.

(** It is accepted, if it asks for neither help nor version, gives the required arguments,
    and nothing is validated (nor destined for a type without conversion). *)
Theorem C70_accepted : forall s a0 qs l extra, usable s -> interprets s -> Forall (good_request s) qs ->
  shared (filter (fun a => isPositional a) (arguments (ready s))) l extra -> (extra = [] \/ m_strict (s_modes s) = false) ->
  command_line (a0 :: line_for qs l extra) (line_for qs l extra) ->
  (forall h, is_help (ready s) h \/ is_version (ready s) h -> asked qs h = []) ->
  (forall a, In a (arguments (ready s)) -> isRequired a = true -> asked qs a <> [] \/ exists b vs, In (b, vs) l /\ a_id b = a_id a) ->
  (forall a, In a (arguments (ready s)) -> c_valid (a_cfg a) = None /\ writable a) ->
  exists t, parseArguments (a0 :: line_for qs l extra) s = (t, Ok tt).
Proof.
  intros s a0 qs l extra U I F SH ST C NH RQ NV. pose proof (line_reads s qs l extra U F SH ST) as R. pose proof (usable_ready_wf s U) as W.
  destruct (parse_verdict s _ _ _ U C I R) as [V _].
  assert (Q : verdict (scanned (a0 :: line_for qs l extra) (line_pieces qs l extra) s) = Ok tt).
  { apply verdict_ok.
    destruct (no_help_met s (a0 :: line_for qs l extra) _ _ U R) as [M1 M2].
    { intros h Hh. destruct (on_line (a_id h) (line_pieces qs l extra)) eqn:O; [|reflexivity]. exfalso. apply line_on_line in O.
      assert (Ih : In h (arguments (ready s))) by (destruct Hh as [[X _]|[X _]]; exact X).
      destruct O as [O|[b [vs [Ib Eb]]]]; [apply O, NH, Hh|].
      assert (PB : isPositional h = true).
      { assert (Q : forall ps l extra, shared ps l extra -> incl (map fst l) ps).
        { clear. intros ps l extra SH. induction SH as [ps|extra|a ps vs l extra NE AR SH IH|a ps vs NE AR]; intros x Ix; try destruct Ix.
          - now left. - right. now apply IH. - now left. - destruct H. }
        pose proof (Q _ _ _ SH b (in_map fst _ _ Ib)) as X. apply filter_In in X. destruct X as [X1 X2].
        now rewrite <- (wf_unique (ready s) b h W X1 Ih Eb). }
      destruct (C43_at_most_one (ready s) (proj1 (usable_ready s U))) as [_ [_ [H1 [H2 _]]]]. destruct Hh as [Hh|Hh]; [destruct (H1 h Hh) as [_ NP] | destruct (H2 h Hh) as [_ NP]]; congruence. }
    split; [exact M1|]. split; [exact M2|]. split.
    - apply (none_missing s _ _ _ U R). intros a Ia Ra. apply line_on_line. now apply RQ.
    - intros x Ix. change (s_args (scanned (a0 :: line_for qs l extra) (line_pieces qs l extra) s)) with (map (read_arg (line_pieces qs l extra)) (s_args (ready s))) in Ix.
      apply in_map_iff in Ix. destruct Ix as [y [<- Iy]]. destruct (NV y Iy) as [N1 N2]. unfold trouble. unfold refusal. change (a_cfg (read_arg (line_pieces qs l extra) y)) with (a_cfg y). rewrite N1.
      apply writable_finished. exact N2. }
  rewrite Q in V. destruct (parseArguments (a0 :: line_for qs l extra) s) as [t o]. cbn [snd] in V. subst o. now exists t.
Qed.
Print Assumptions C70_accepted.

(** shop: a text with dashes and '=' for --name, values of -p that look like options, two
    occurrences of -a, words for the positionals that look like options, and two more *)
Definition sample_requests : list request :=
  [Request (pick "-v" (ready shop)) "-v" None []; Request (pick "-n" (ready shop)) "--name=-v=--" (Some "-v=--") ["-v=--"];
   Request (pick "-p" (ready shop)) "-p" None ["--name"; "-1"]; Request (pick "-a" (ready shop)) "--add" None ["x"]; Request (pick "-a" (ready shop)) "-a" None ["-v"]].
Definition sample_words : list (argument * list str) := [(pick "SRC" (ready shop), ["--name"]); (pick "DST" (ready shop), ["-v"])].
Ltac good_one := split; [vm_compute; tauto|]; split; [|first [split; [reflexivity|]; left; vm_compute; reflexivity | split; [intros X; repeat (destruct X as [X|X]; [discriminate X|]); exact X | vm_compute; reflexivity]]].
Example C70_example : Forall (good_request shop) sample_requests /\ shared (filter (fun a => isPositional a) (arguments (ready shop))) sample_words ["--"; "z"] /\
  line_for sample_requests sample_words ["--"; "z"] = ["-v"; "--name=-v=--"; "-p"; "--name"; "-1"; "--add"; "x"; "-a"; "-v"; "--"; "--name"; "-v"; "--"; "z"] /\
  (forall h, is_help (ready shop) h \/ is_version (ready shop) h -> asked sample_requests h = []) /\
  (forall a, In a (arguments (ready shop)) -> isRequired a = true -> asked sample_requests a <> [] \/ exists b vs, In (b, vs) sample_words /\ a_id b = a_id a) /\
  exists t, parseArguments ("prog" :: line_for sample_requests sample_words ["--"; "z"]) shop = (t, Ok tt) /\
    to_vector (pick "-n" t) = Ok ["-v=--"] /\ to_vector (pick "-p" t) = Ok ["--name"; "-1"] /\ to_vector (pick "-a" t) = Ok ["x"; "-v"] /\
    to_vector (pick "SRC" t) = Ok ["--name"] /\ to_vector (pick "DST" t) = Ok ["-v"] /\ getAdditionalArguments t = ["--"; "z"].
Proof.
  split; [|split; [|split; [|split; [|split]]]].
  - unfold sample_requests. constructor; [|constructor; [|constructor; [|constructor; [|constructor; [|constructor]]]]].
    + good_one. apply (Sp_short shop _ None "v"); [vm_compute; reflexivity | discriminate | intros X; vm_compute in X; discriminate X].
    + good_one. apply (Sp_long shop _ (Some "-v=--") "name"); [vm_compute; reflexivity | cbn; intuition discriminate].
    + good_one. apply (Sp_short shop _ None "p"); [vm_compute; reflexivity | discriminate | intros X; vm_compute in X; discriminate X].
    + good_one. apply (Sp_long shop _ None "add"); [vm_compute; reflexivity | cbn; intuition discriminate].
    + good_one. apply (Sp_short shop _ None "a"); [vm_compute; reflexivity | discriminate | intros X; vm_compute in X; discriminate X].
  - assert (E : filter (fun a => isPositional a) (arguments (ready shop)) = [pick "SRC" (ready shop); pick "DST" (ready shop)]) by (vm_compute; reflexivity). rewrite E. unfold sample_words.
    apply Sh_fixed; [discriminate | left; vm_compute; tauto|]. apply Sh_fixed; [discriminate | left; vm_compute; tauto|]. constructor.
  - vm_compute. reflexivity.
  - assert (G : forall h, In h (arguments (ready shop)) -> s_help (ready shop) = Some (ptr_of h) \/ s_version (ready shop) = Some (ptr_of h) -> asked sample_requests h = []).
    { refine (forall_arguments (ready shop) (fun h => negb (optr_eqb (s_help (ready shop)) (ptr_of h) || optr_eqb (s_version (ready shop)) (ptr_of h)) || match asked sample_requests h with [] => true | _ => false end) (fun h => s_help (ready shop) = Some (ptr_of h) \/ s_version (ready shop) = Some (ptr_of h) -> asked sample_requests h = []) _ _); [vm_compute; reflexivity|].
      intros h H X. destruct (asked sample_requests h); [reflexivity|]. rewrite orb_false_r in H. apply negb_true_iff, orb_false_iff in H. destruct H as [H1 H2].
      exfalso. destruct X as [X|X]; [rewrite X in H1; clear - H1; rename H1 into H | rewrite X in H2; clear - H2; rename H2 into H]; unfold optr_eqb, ptr_eqb in H; rewrite !Nat.eqb_refl in H; discriminate H. }
    intros h [[Ih Ph]|[Ih Ph]]; [exact (G h Ih (or_introl Ph)) | exact (G h Ih (or_intror Ph))].
  - refine (forall_arguments (ready shop) (fun a => negb (isRequired a) || existsb (fun p => Nat.eqb (a_id (fst p)) (a_id a)) sample_words) (fun a => isRequired a = true -> asked sample_requests a <> [] \/ exists b vs, In (b, vs) sample_words /\ a_id b = a_id a) _ _); [vm_compute; reflexivity|].
    intros a H X. rewrite X in H. cbn [negb orb] in H. right. apply existsb_exists in H. destruct H as [[b vs] [Ib Eb]]. exists b, vs. split; [exact Ib|]. now apply Nat.eqb_eq in Eb.
  - eexists. split; [vm_compute; reflexivity|]. split; [vm_compute; reflexivity|]. split; [vm_compute; reflexivity|]. split; [vm_compute; reflexivity|]. split; [vm_compute; reflexivity|]. split; vm_compute; reflexivity.
Qed.
