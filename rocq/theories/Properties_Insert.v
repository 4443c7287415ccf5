(** Properties_Insert.v -- C77: options inserted into a command line (prog $OPTIONS "$@"). *)
From Coq Require Import Permutation Sorted.
From Verif Require Import Base Model_Utils Model_Number Model_Types Model_Argument Model_Usage Model_Args Model_Api
  Spec_Order Spec_Names Spec_Reading Spec_Parse Spec_Decl Spec_Finish Spec_History Spec_Api Spec_Result
  Proofs_Base Proofs_Order Proofs_Frame Proofs_Inv Proofs_ReadFacts Proofs_Reading Proofs_Parse Proofs_Decl Proofs_Finish
  Proofs_Meth Proofs_History Proofs_Config Proofs_Check Proofs_Names Proofs_Central Proofs_Dyn Properties_Words Demo Properties_Parse Proofs_Swap Proofs_Kind
  Proofs_Values Properties_Values Properties_Positional Properties_Spell Properties_Repeat Properties_Final Properties_Required Properties_Offending Properties_Roles Spec_Roundtrip Properties_Roundtrip
  Spec_Insert Proofs_Insert.

Lemma insertion_reads : forall s a0 pre qs post p, insertion s a0 pre qs post p ->
  (forall pcs, reads s (pre ++ post) pcs -> exists r, pcs = p ++ r /\ reads s (pre ++ flat_map r_words qs ++ post) (p ++ map r_piece qs ++ r)) /\
  (forall pcs, reads s (pre ++ flat_map r_words qs ++ post) pcs -> exists r, pcs = p ++ map r_piece qs ++ r /\ reads s (pre ++ post) (p ++ r)) /\
  (forall e, rejects s (pre ++ post) e <-> rejects s (pre ++ flat_map r_words qs ++ post) e).
Proof. intros s a0 pre qs post p [U I G F [left R] N C C']. exact (insert_reads s pre post qs p left U G F R N). Qed.

(** A line that cannot be read stays so: the exception is the same; and the inserted
    options never make a line unreadable. *)
Theorem C77_unreadable : forall s a0 pre qs post p name msg, insertion s a0 pre qs post p -> msg <> "destination method not found for this type" ->
  (exists t, parseArguments (a0 :: pre ++ post) s = (t, Throw (Exn KParse name msg))) <->
  (exists t, parseArguments (longer a0 pre qs post) s = (t, Throw (Exn KParse name msg))).
Proof.
  intros s a0 pre qs post p name msg IN M. destruct (insertion_reads _ _ _ _ _ _ IN) as [_ [_ X]]. destruct IN as [U I G F R N C C'].
  split; intros [t H].
  - pose proof (parse_error_rejects s _ _ t name msg U I C H M) as J. apply X in J. destruct (parse_rejects s _ _ _ U C' I J) as [t' [E _]]. exists t'. exact E.
  - pose proof (parse_error_rejects s _ _ t name msg U I C' H M) as J. apply X in J. destruct (parse_rejects s _ _ _ U C I J) as [t' [E _]]. exists t'. exact E.
Qed.
Print Assumptions C77_unreadable.

Lemma both_ok : forall s a0 pre qs post p t t', insertion s a0 pre qs post p -> parseArguments (a0 :: pre ++ post) s = (t, Ok tt) ->
  parseArguments (longer a0 pre qs post) s = (t', Ok tt) ->
  exists r, reads s (pre ++ post) (p ++ r) /\ reads s (pre ++ flat_map r_words qs ++ post) (p ++ map r_piece qs ++ r) /\
    t = completion (scanned (a0 :: pre ++ post) (p ++ r) s) /\ t' = completion (scanned (longer a0 pre qs post) (p ++ map r_piece qs ++ r) s).
Proof.
  intros s a0 pre qs post p t t' IN P P'. destruct (insertion_reads _ _ _ _ _ _ IN) as [X _]. destruct IN as [U I G F R N C C'].
  destruct (parse_ok s _ _ t U C I P) as [pcs [H [-> _]]]. destruct (X _ H) as [r [-> H']]. exists r. split; [exact H|]. split; [exact H'|]. split; [reflexivity|].
  destruct (parse_verdict s _ _ _ U C' I H') as [_ V]. rewrite P' in V. exact (V eq_refl).
Qed.
Lemma completed_args : forall argv pcs s, arguments (completion (scanned argv pcs s)) = map (fun b => finished (read_arg pcs b)) (arguments (ready s)).
Proof. intros. unfold completion, scanned. cbn. now rewrite map_map. Qed.

(** If both lines are accepted, the options not inserted, the positionals and the additional
    arguments are the same afterwards, and so is the parser in every other respect. *)
Theorem C77_untouched : forall s a0 pre qs post p t t', insertion s a0 pre qs post p ->
  parseArguments (a0 :: pre ++ post) s = (t, Ok tt) -> parseArguments (longer a0 pre qs post) s = (t', Ok tt) ->
  getAdditionalArguments t' = getAdditionalArguments t /\
  map a_id (arguments t') = map a_id (arguments t) /\
  (forall a, asked qs a = [] -> (In a (arguments t) <-> In a (arguments t'))) /\
  with_dlog (with_args t' []) [] = with_dlog (with_args t []) [].
Proof.
  intros s a0 pre qs post p t t' IN P P'. destruct (both_ok _ _ _ _ _ _ _ _ IN P P') as [r [R [R' [-> ->]]]]. destruct IN as [U I G F _ N C C'].
  assert (AD : additional_of (p ++ map r_piece qs ++ r) = additional_of (p ++ r)) by (rewrite !additional_of_app, r_additional; reflexivity).
  split; [|split; [|split]].
  - unfold completion, scanned. cbn. now rewrite AD.
  - rewrite !completed_args, !map_map. apply map_ext. intros a. now rewrite !finished_id.
  - intros a A. rewrite !completed_args, !in_map_iff.
    assert (X : forall b pcs, finished (read_arg pcs b) = a -> asked qs b = []).
    { intros b pcs E. unfold asked in *. assert (E' : a_id b = a_id a) by (rewrite <- E, finished_id; reflexivity). now rewrite E'. }
    split; intros [b [E Ib]]; exists b; (split; [|exact Ib]).
    + rewrite (insert_other s p qs r _ _ b U R R' Ib (X _ _ E)). exact E.
    + rewrite <- (insert_other s p qs r _ _ b U R R' Ib (X _ _ E)). exact E.
  - unfold completion, scanned, longer, named. cbn [hd]. rewrite AD. destruct (s_bin (ready s)); reflexivity.
Qed.
Print Assumptions C77_untouched.

(** If the line was accepted, the longer one is, unless it asks for help or version, or the
    values of an inserted option are refused. *)
Lemma insert_on_line : forall s p qs r ws ws' a, usable s -> reads s ws (p ++ r) -> reads s ws' (p ++ map r_piece qs ++ r) -> In a (arguments (ready s)) ->
  on_line (a_id a) (p ++ map r_piece qs ++ r) = on_line (a_id a) (p ++ r) || (match asked qs a with [] => false | _ => true end).
Proof.
  intros s p qs r ws ws' a U R R' Ia. rewrite !on_line_eq. unfold given. rewrite !given_of_app, r_given, asked_occs. cbn [app].
  rewrite !occs_for_app. destruct (occs_for (a_id a) p); destruct (occs_for (a_id a) (map r_piece qs)); destruct (occs_for (a_id a) r); cbn; try reflexivity;
  destruct (find _ _); reflexivity.
Qed.
Theorem C77_accepted : forall s a0 pre qs post p t, insertion s a0 pre qs post p -> parseArguments (a0 :: pre ++ post) s = (t, Ok tt) ->
  (forall h, is_help (ready s) h \/ is_version (ready s) h -> asked qs h = []) ->
  (exists t', parseArguments (longer a0 pre qs post) s = (t', Ok tt)) \/
  (exists t' e q pcs, parseArguments (longer a0 pre qs post) s = (t', Throw e) /\ In q qs /\ reads s (pre ++ flat_map r_words qs ++ post) pcs /\
     (refused pcs (r_arg q) = Some e \/ ~ writable (r_arg q))).
Proof.
  intros s a0 pre qs post p t IN P HV. destruct (insertion_reads _ _ _ _ _ _ IN) as [X _]. destruct IN as [U I G F _ N C C'].
  pose proof (usable_ready_wf s U) as W.
  destruct (parse_ok s _ _ t U C I P) as [pcs [R [_ [NM [MI TR]]]]]. destruct (X _ R) as [r [-> R']].
  set (pcs' := p ++ map r_piece qs ++ r) in *.
  assert (OL : forall a, In a (arguments (ready s)) -> on_line (a_id a) pcs' = on_line (a_id a) (p ++ r) || (match asked qs a with [] => false | _ => true end)) by (intros a Ia; exact (insert_on_line s p qs r _ _ a U R R' Ia)).
  assert (NM' : not_met (scanned (longer a0 pre qs post) pcs' s)).
  { apply (no_help_met s _ _ _ U R'). intros h HH. assert (Ih : In h (arguments (ready s))) by (destruct HH as [[Ih _]|[Ih _]]; exact Ih).
    rewrite (OL h Ih), (HV h HH), orb_false_r. destruct NM as [N1 N2]. destruct (on_line (a_id h) (p ++ r)) eqn:O; [exfalso|reflexivity]. destruct HH as [[_ E]|[_ E]].
    - assert (M : met (s_help (scanned (a0 :: pre ++ post) (p ++ r) s)) (scanned (a0 :: pre ++ post) (p ++ r) s) = true).
      { apply (proj2 (met_iff s _ _ _ _ W R)). exists h. rewrite scanned_help. split; [exact Ih|]. split; [exact E | exact O]. }
      congruence.
    - assert (M : met (s_version (scanned (a0 :: pre ++ post) (p ++ r) s)) (scanned (a0 :: pre ++ post) (p ++ r) s) = true).
      { apply (proj2 (met_iff s _ _ _ _ W R)). exists h. rewrite scanned_version. split; [exact Ih|]. split; [exact E | exact O]. }
      congruence. }
  assert (MI' : missing (scanned (longer a0 pre qs post) pcs' s) = []).
  { apply (none_missing s _ _ _ U R'). intros a Ia Ra. rewrite (OL a Ia). apply orb_true_iff. left.
    rewrite (missing_scanned s _ _ _ W R) in MI. destruct (on_line (a_id a) (p ++ r)) eqn:O; [reflexivity|exfalso].
    apply map_eq_nil in MI. assert (Z : In a []); [|destruct Z]. rewrite <- MI. apply filter_In. split; [exact Ia|]. now rewrite Ra, O. }
  destruct (parse_verdict s _ _ _ U C' I R') as [V _]. fold (longer a0 pre qs post) in V. destruct NM' as [N1 N2]. unfold verdict in V. rewrite N1, N2, MI' in V.
  change (s_args (scanned (longer a0 pre qs post) pcs' s)) with (map (read_arg pcs') (s_args (ready s))) in V.
  destruct (flat_map _ (map (read_arg pcs') (s_args (ready s)))) as [|e l] eqn:TE.
  - left. exists (fst (parseArguments (longer a0 pre qs post) s)). rewrite <- V. now destruct (parseArguments (longer a0 pre qs post) s).
  - right. assert (Ie : In e (e :: l)) by now left. rewrite <- TE in Ie. apply in_flat_map in Ie. destruct Ie as [x [Ix Ex]]. apply in_map_iff in Ix. destruct Ix as [b [<- Ib]].
    destruct (trouble (read_arg pcs' b)) as [e'|] eqn:TB; [|destruct Ex]. destruct Ex as [-> |[]].
    assert (A : asked qs b <> []).
    { intros A. unfold pcs' in TB. rewrite (insert_other s p qs r _ _ b U R R' Ib A) in TB. rewrite Forall_forall in TR. rewrite (TR (read_arg (p ++ r) b)) in TB; [discriminate TB|].
      change (s_args (scanned (a0 :: pre ++ post) (p ++ r) s)) with (map (read_arg (p ++ r)) (s_args (ready s))). now apply in_map. }
    assert (EQ : exists q, In q qs /\ r_arg q = b).
    { unfold asked in A. destruct (filter _ qs) as [|q l0] eqn:FQ; [now elim A|]. assert (Iq : In q (q :: l0)) by now left. rewrite <- FQ in Iq. apply filter_In in Iq. destruct Iq as [Iq Eq]. apply Nat.eqb_eq in Eq.
      exists q. split; [exact Iq|]. rewrite Forall_forall in G. pose proof (G q Iq) as Gq. destruct q as [a w v vs]. destruct Gq as [Ia _]. cbn [r_arg] in *. exact (wf_unique (ready s) a b W Ia Ib Eq). }
    destruct EQ as [q [Iq Eq]]. exists (fst (parseArguments (longer a0 pre qs post) s)), e, q, pcs'. split; [rewrite <- V; now destruct (parseArguments (longer a0 pre qs post) s)|].
    split; [exact Iq|]. split; [exact R'|]. rewrite Eq. unfold trouble in TB. rewrite (refusal_refused s _ _ _ U R' Ib) in TB. destruct (refused pcs' b) as [e0|] eqn:RE.
    + left. exact TB.
    + right. intros WR. assert (WR' : writable (read_arg pcs' b)) by exact WR. rewrite (writable_finished _ WR') in TB. discriminate TB.
Qed.
Print Assumptions C77_accepted.
Corollary C77_plain : forall s a0 pre qs post p t, insertion s a0 pre qs post p -> parseArguments (a0 :: pre ++ post) s = (t, Ok tt) ->
  (forall h, is_help (ready s) h \/ is_version (ready s) h -> asked qs h = []) ->
  (forall q, In q qs -> c_valid (a_cfg (r_arg q)) = None /\ writable (r_arg q)) ->
  exists t', parseArguments (longer a0 pre qs post) s = (t', Ok tt).
Proof.
  intros s a0 pre qs post p t IN P HV PL. destruct (C77_accepted s a0 pre qs post p t IN P HV) as [X|[t' [e [q [pcs [_ [Iq [_ X]]]]]]]]; [exact X|exfalso].
  destruct (PL q Iq) as [NV WR]. destruct X as [X|X]; [|exact (X WR)]. unfold refused in X. rewrite NV in X. discriminate X.
Qed.
Print Assumptions C77_plain.

(** The inserted options are present, and count the insertions. *)
Lemma option_of : forall s ws p qs r a, usable s -> reads s ws (p ++ map r_piece qs ++ r) -> In a (arguments (ready s)) -> asked qs a <> [] -> isPositional a = false.
Proof.
  intros s ws p qs r a U R Ia A. destruct (isPositional a) eqn:P; [exfalso|reflexivity]. pose proof (occs_for_none s ws _ a (usable_ready_wf s U) R Ia P) as X.
  rewrite !occs_for_app in X. apply app_eq_nil in X. destruct X as [_ X]. apply app_eq_nil in X. destruct X as [X _]. apply A. rewrite asked_occs, X. reflexivity.
Qed.
Lemma asked_id : forall qs a b, a_id a = a_id b -> asked qs a = asked qs b.
Proof. intros qs a b E. unfold asked. now rewrite E. Qed.
Lemma finished_count : forall a, count (finished a) = count a /\ isExists (finished a) = isExists a.
Proof. intros a. destruct (finished_exist a) as [X Y]. split; [exact Y | exact X]. Qed.
Theorem C77_counted : forall s a0 pre qs post p t t' a', insertion s a0 pre qs post p ->
  parseArguments (a0 :: pre ++ post) s = (t, Ok tt) -> parseArguments (longer a0 pre qs post) s = (t', Ok tt) -> In a' (arguments t') -> asked qs a' <> [] ->
  isExists a' = true /\ exists a, In a (arguments t) /\ a_id a = a_id a' /\ a_cfg a = a_cfg a' /\ count a' = count a + length (asked qs a').
Proof.
  intros s a0 pre qs post p t t' a' IN P P' Ia A. destruct (both_ok _ _ _ _ _ _ _ _ IN P P') as [r [R [R' [-> ->]]]]. destruct IN as [U I G F _ N C C'].
  pose proof (usable_ready_wf s U) as W. rewrite completed_args in Ia. apply in_map_iff in Ia. destruct Ia as [b [<- Ib]].
  assert (Ab : asked qs (finished (read_arg (p ++ map r_piece qs ++ r) b)) = asked qs b) by (apply asked_id; rewrite finished_id; reflexivity). rewrite Ab in A |- *.
  destruct (finished_count (read_arg (p ++ map r_piece qs ++ r) b)) as [-> ->]. split.
  - rewrite (read_exist s _ _ b W R' Ib), (insert_on_line s p qs r _ _ b U R R' Ib). destruct (asked qs b); [now elim A | apply orb_true_r].
  - exists (finished (read_arg (p ++ r) b)). rewrite completed_args, !finished_id, !finished_cfg. split; [apply in_map_iff; exists b; split; [reflexivity | exact Ib]|].
    split; [reflexivity|]. split; [reflexivity|]. destruct (finished_count (read_arg (p ++ r) b)) as [-> _].
    rewrite (read_count s _ _ b W R' Ib), (read_count s _ _ b W R Ib), !occs_for_app, !map_app, !list_sum_app, asked_weight. lia.
Qed.
Print Assumptions C77_counted.

(** Their values: an option that does not collect its values (APPEND, EXTEND) and that
    occurs again behind the insertion stays as it was but for the count; if it does not
    occur again, it has the values of its last insertion; and one that collects has those
    before (with the defaults in front if the first was written -mV, see C28), those
    inserted, and those behind. *)
Lemma last_app_ne : forall {A} (l l' : list A) d, l' <> [] -> last (l ++ l') d = last l' d.
Proof. intros A l l' d N. destruct (exists_last N) as [l0 [x ->]]. rewrite app_assoc, !last_last. reflexivity. Qed.
Lemma list_last : forall {A B} (f : A -> B) l d d', l <> [] -> f (last l d) = last (map f l) d'.
Proof.
  intros A B f l d d' N. destruct (exists_last N) as [l0 [x ->]]. rewrite map_app. cbn [map]. now rewrite !last_last.
Qed.
Theorem C77_values : forall s a0 pre qs post p r t t' a', insertion s a0 pre qs post p -> reads s (pre ++ post) (p ++ r) ->
  parseArguments (a0 :: pre ++ post) s = (t, Ok tt) -> parseArguments (longer a0 pre qs post) s = (t', Ok tt) -> In a' (arguments t') -> asked qs a' <> [] ->
  (collects a' = false -> occs_for (a_id a') r <> [] -> exists a, In a (arguments t) /\ same_but_count a a') /\
  (collects a' = false -> occs_for (a_id a') r = [] -> has_values (a_cfg a') = true -> holds a' (last (asked qs a') [])) /\
  (collects a' = true -> exists b, In b (arguments (ready s)) /\ a_id b = a_id a' /\
     holds a' ((match occs_for (a_id a') p with o :: _ => match o_style o with Glued => start_values b | _ => [] end | [] => [] end) ++
               flat_map o_vals (occs_for (a_id a') p) ++ concat (asked qs a') ++ flat_map o_vals (occs_for (a_id a') r))).
Proof.
  intros s a0 pre qs post p r0 t t' a' IN R0 P P' Ia A. destruct (both_ok _ _ _ _ _ _ _ _ IN P P') as [r [R [R' [Et Et']]]]. destruct IN as [U I G F _ N C C'].
  assert (E : r0 = r) by (eapply app_inv_head; exact (Reading_det _ _ _ _ R0 _ R)). subst r0.
  pose proof (usable_ready_wf s U) as W. destruct (accepted_holds s _ _ t' _ a' U I C' P' R' Ia) as [b [Ib [IDb [CFb [EX HO]]]]].
  assert (Ab : asked qs a' = asked qs b) by (apply asked_id; now symmetry). assert (Nb : asked qs b <> []) by (rewrite <- Ab; exact A).
  pose proof (option_of s _ p qs r b U R' Ib Nb) as PB.
  assert (EXT : isExists a' = true). { rewrite EX, <- IDb, (insert_on_line s p qs r _ _ b U R R' Ib). destruct (asked qs b); [now elim Nb | apply orb_true_r]. }
  specialize (HO EXT). pose proof (given_option_none s _ _ b W R' Ib PB) as GN.
  assert (OC : occs_for (a_id b) (p ++ map r_piece qs ++ r) = occs_for (a_id b) p ++ occs_for (a_id b) (map r_piece qs) ++ occs_for (a_id b) r) by now rewrite !occs_for_app.
  assert (CO : collects a' = accumulates (c_type (a_cfg b))) by (rewrite CFb; reflexivity).
  assert (OQ : occs_for (a_id b) (map r_piece qs) <> []) by (intro X; apply Nb; rewrite asked_occs, X; reflexivity).
  split; [|split].
  - intros K L. rewrite Et' , completed_args in Ia. apply in_map_iff in Ia. destruct Ia as [b' [Ea Ib']].
    assert (b' = b) by (apply (wf_unique (ready s) b' b W Ib' Ib); rewrite IDb, <- Ea, finished_id; reflexivity). subst b'.
    exists (finished (read_arg (p ++ r) b)). split; [rewrite Et, completed_args; apply in_map_iff; exists b; split; [reflexivity | exact Ib]|].
    rewrite <- IDb in L. destruct (occs_for (a_id b) r) as [|o os] eqn:LR; [now elim L|].
    assert (BC : but_count_arg (a_id b) (read_arg (p ++ r) b) = but_count_arg (a_id b) (read_arg (p ++ map r_piece qs ++ r) b)).
    { rewrite (read_option_arg s _ _ b W R Ib PB), (read_option_arg s _ _ b W R' Ib PB), OC, occs_for_app, LR. unfold but_count_arg, arg_dyn. cbn [a_id a_gen a_cfg a_dyn]. rewrite Nat.eqb_refl.
      rewrite K in CO. f_equal. rewrite app_assoc. exact (later_decides (a_cfg b) (occs_for (a_id b) p) (occs_for (a_id b) p ++ occs_for (a_id b) (map r_piece qs)) o os (a_dyn (clear_arg b)) (eq_sym CO)). }
    apply (f_equal finished) in BC. rewrite !bc_finished in BC. rewrite Ea in BC. unfold but_count_arg in BC. rewrite <- IDb, finished_id in BC. cbn [read_arg a_id] in BC. rewrite Nat.eqb_refl in BC.
    unfold same_but_count. unfold arg_dyn in BC. injection BC as B1 B2 B3 B4 B5 B6 B7. repeat split; assumption.
  - intros K L HV. rewrite <- IDb in L. specialize (HO HV). rewrite Ab. replace (last (asked qs b) []) with (line_values (p ++ map r_piece qs ++ r) b); [exact HO|].
    unfold line_values. rewrite GN, OC, L, app_nil_r, <- CO, K. destruct (occs_for (a_id b) p ++ occs_for (a_id b) (map r_piece qs)) as [|o os] eqn:Q.
    { apply app_eq_nil in Q. destruct Q as [_ Q]. now elim OQ. }
    rewrite <- Q. rewrite asked_occs. rewrite last_app_ne by exact OQ. now apply list_last.
  - intros K. exists b. split; [exact Ib|]. split; [exact IDb|].
    assert (HV : has_values (a_cfg a') = true). { unfold collects in K. unfold has_values, arity_of. destruct (c_type (a_cfg a')); try discriminate K; reflexivity. }
    specialize (HO HV). rewrite <- IDb, Ab.
    match goal with |- holds a' ?x => replace x with (line_values (p ++ map r_piece qs ++ r) b); [exact HO|] end.
    unfold line_values. rewrite GN, OC, <- CO, K, asked_occs. rewrite <- flat_map_concat_map.
    destruct (occs_for (a_id b) p) as [|o os] eqn:OP.
    + cbn [app flat_map]. destruct (occs_for (a_id b) (map r_piece qs)) as [|o os] eqn:OQE; [now elim OQ|]. cbn [app].
      assert (NG : o_style o <> Glued) by (apply (asked_not_glued qs b); rewrite OQE; now left).
      change (o :: os ++ occs_for (a_id b) r) with ((o :: os) ++ occs_for (a_id b) r). rewrite flat_map_app. cbn [flat_map]. rewrite <- app_assoc. destruct (o_style o) eqn:SO; [reflexivity | reflexivity | now elim NG].
    + cbn [app]. f_equal. change (o :: os ++ occs_for (a_id b) (map r_piece qs) ++ occs_for (a_id b) r) with ((o :: os) ++ occs_for (a_id b) (map r_piece qs) ++ occs_for (a_id b) r). now rewrite !flat_map_app.
Qed.
Print Assumptions C77_values.

(** In front of the line (prog $OPTIONS "$@"): what the line itself says about an option
    that does not collect its values has precedence. *)
Theorem C77_front : forall s a0 qs ws t t' a a', insertion s a0 [] qs ws [] ->
  parseArguments (a0 :: ws) s = (t, Ok tt) -> parseArguments (a0 :: flat_map r_words qs ++ ws) s = (t', Ok tt) ->
  In a (arguments t) -> In a' (arguments t') -> a_id a = a_id a' -> asked qs a' <> [] -> collects a' = false ->
  (isExists a = true -> same_but_count a a') /\
  (isExists a = false -> has_values (a_cfg a') = true -> holds a' (last (asked qs a') [])).
Proof.
  intros s a0 qs ws t t' a a' IN P P' Ia Ia' E A K.
  destruct (both_ok s a0 [] qs ws [] t t' IN P P') as [r [R [R' [Et Et']]]]. cbn [app] in R.
  destruct (C77_values s a0 [] qs ws [] r t t' a' IN R P P' Ia' A) as [X [Y _]]. pose proof IN as [U I _ _ _ _ C _]. pose proof (usable_ready_wf s U) as W. cbn [app] in *.
  destruct (accepted_holds s _ _ t _ a U I C P R Ia) as [b [Ib [IDb [_ [EX _]]]]].
  assert (PB : isPositional b = false) by (apply (option_of s _ [] qs r b U R' Ib); rewrite (asked_id qs b a'); [exact A | congruence]).
  rewrite on_line_eq, <- IDb, (given_option_none s _ _ b W R Ib PB), orb_false_r in EX.
  assert (O : occs_for (a_id a') r = occs_for (a_id b) r) by (rewrite IDb, E; reflexivity). split.
  - intros EXT. rewrite EXT in EX. destruct X as [c [Ic S]]; [exact K | rewrite O; destruct (occs_for (a_id b) r); discriminate|].
    assert (c = a); [|subst c; exact S]. destruct S as [S1 _]. clear - Et W Ic Ia E S1.
    rewrite Et, completed_args in Ic, Ia. apply in_map_iff in Ic, Ia. destruct Ic as [x [<- Ix]], Ia as [y [<- Iy]]. rewrite !finished_id in *. cbn [read_arg a_id] in *.
    assert (x = y) by (apply (wf_unique (ready s) x y W Ix Iy); congruence). now subst.
  - intros EXT HV. rewrite EXT in EX. apply Y; [exact K | rewrite O; destruct (occs_for (a_id b) r); [reflexivity | discriminate] | exact HV].
Qed.
Print Assumptions C77_front.
(** At the end of the line (prog "$@" $OPTIONS), if it has no "--": the inserted options have
    precedence. *)
Theorem C77_end : forall s a0 qs ws p t t' a', insertion s a0 ws qs [] p ->
  parseArguments (a0 :: ws) s = (t, Ok tt) -> parseArguments (a0 :: ws ++ flat_map r_words qs) s = (t', Ok tt) ->
  In a' (arguments t') -> asked qs a' <> [] -> collects a' = false -> has_values (a_cfg a') = true -> holds a' (last (asked qs a') []).
Proof.
  intros s a0 qs ws p t t' a' IN P P' Ia' A K HV. assert (PE : parseArguments (a0 :: ws ++ []) s = (t, Ok tt)) by (rewrite app_nil_r; exact P).
  assert (PE' : parseArguments (longer a0 ws qs []) s = (t', Ok tt)) by (unfold longer; rewrite app_nil_r; exact P').
  destruct (both_ok s a0 ws qs [] p t t' IN PE PE') as [r [R [R' [Et Et']]]].
  destruct (C77_values s a0 ws qs [] p r t t' a' IN R PE PE' Ia' A) as [_ [Y _]]. apply Y; [exact K | | exact HV].
  pose proof IN as [_ _ _ _ [left RC] _ _ _]. destruct (Reached_Reading_inv _ _ _ _ _ _ RC _ R) as [r' [Er RR]]. apply app_inv_head in Er. subst r'. inversion RR. reflexivity.
Qed.
Print Assumptions C77_end.

(** in the middle of a line for the demonstration parser *)
Definition more_options : list request :=
  [Request (pick "-n" (ready shop)) "--name=y" (Some "y") ["y"]; Request (pick "-p" (ready shop)) "-p" None ["3"; "4"]; Request (pick "-a" (ready shop)) "--add" None ["z"];
   Request (pick "-i" (ready shop)) "-i" None ["1"; "2"]].
Example C77_example : (exists p, insertion shop "prog" ["src"; "-n"; "x"; "-a"; "q"; "-p"; "1"; "2"] more_options ["-n"; "w"; "--"; "dst"; "rest"] p) /\
  (exists t, parseArguments (longer "prog" ["src"; "-n"; "x"; "-a"; "q"; "-p"; "1"; "2"] more_options ["-n"; "w"; "--"; "dst"; "rest"]) shop = (t, Ok tt) /\
     to_vector (pick "-n" t) = Ok ["w"] /\ count (pick "-n" t) = 3 /\ to_vector (pick "-a" t) = Ok ["q"; "z"] /\ to_vector (pick "-p" t) = Ok ["3"; "4"] /\ to_vector (pick "-i" t) = Ok ["1"; "2"] /\
     to_vector (pick "SRC" t) = Ok ["src"] /\ to_vector (pick "DST" t) = Ok ["dst"] /\ getAdditionalArguments t = ["rest"]) /\
  asked more_options (pick "-n" (ready shop)) = [["y"]] /\ collects (pick "-n" (ready shop)) = false /\ collects (pick "-a" (ready shop)) = true.
Proof.
  assert (G : Forall (good_request shop) more_options).
  { unfold more_options. constructor; [|constructor; [|constructor; [|constructor; [|constructor]]]].
    - good_one. apply (Sp_long shop _ (Some "y") "name"); [vm_compute; reflexivity | cbn; intuition discriminate].
    - good_one. apply (Sp_short shop _ None "p"); [vm_compute; reflexivity | discriminate | intros X; vm_compute in X; discriminate X].
    - good_one. apply (Sp_long shop _ None "add"); [vm_compute; reflexivity | cbn; intuition discriminate].
    - split; [vm_compute; tauto|]. split; [apply (Sp_short shop _ None "i"); [vm_compute; reflexivity | discriminate | intros X; vm_compute in X; discriminate X]|].
      split; [intros X; repeat (destruct X as [X|X]; [discriminate X|]); exact X|].
      assert (AR : arity_of (a_cfg (pick "-i" (ready shop))) = ARun) by (vm_compute; reflexivity). rewrite AR. cbn [suits]. intros v [<-|[<-|[]]]; vm_compute; reflexivity. }
  split; [|split].
  - eexists. split; [apply shop_usable | apply shop_interprets | exact G | | eexists; reaching | right | line | line].
    + intros q0 q E. unfold more_options in E. change [?a; ?b; ?c; ?d] with ([a; b; c] ++ [d]) in E. apply app_inj_tail in E. destruct E as [_ <-]. vm_compute. right. reflexivity.
    + refine (forall_arguments (ready shop) (fun b => negb (isPositional b) || negb (N.eqb (getNargs b) 0)) (fun b => isPositional b = true -> getNargs b <> 0%N) _ _); [vm_compute; reflexivity|].
      intros b H P E. rewrite P, E in H. discriminate H.
  - eexists. split; [vm_compute; reflexivity|]. repeat (split; [vm_compute; reflexivity|]). vm_compute. reflexivity.
  - repeat (split; [vm_compute; reflexivity|]). vm_compute. reflexivity.
Qed.
