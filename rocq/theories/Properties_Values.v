(** Properties_Values.v -- C21 to C24, C35: what options hold after a successful parse. *)
From Coq Require Import Permutation Sorted.
From Verif Require Import Base Model_Utils Model_Number Model_Types Model_Argument Model_Usage Model_Args Model_Api
  Spec_Order Spec_Names Spec_Reading Spec_Parse Spec_Decl Spec_Finish Spec_History Spec_Api Spec_Result
  Proofs_Base Proofs_Order Proofs_Frame Proofs_Inv Proofs_ReadFacts Proofs_Reading Proofs_Parse Proofs_Decl Proofs_Finish
  Proofs_Meth Proofs_History Proofs_Config Proofs_Names Proofs_Check Proofs_Central Proofs_Dyn Properties_Words Demo Properties_Parse Proofs_Kind Proofs_Values.

(* ------------------------------------------------------------------ *)
(** * C21 *)
(** how many times an argument occurs on the command line: occurrences of the option, or
    groups of words given to the positional *)
Definition times (id : nat) (pcs : list piece) : nat :=
  length (occs_for id pcs) + length (filter (fun g => Nat.eqb (fst g) id) (given_of pcs)).
(** Not true in general: -nv counts twice, and count() of a positional stays 0. *)
Theorem C21_refuted :
  ~ (forall s argv ws s' pcs a, usable s -> interprets s -> command_line argv ws -> parseArguments argv s = (s', Ok tt) -> reads s ws pcs ->
       In a (arguments s') -> isPositional a = false -> count a = times (a_id a) pcs) /\
  ~ (forall s argv ws s' pcs a, usable s -> interprets s -> command_line argv ws -> parseArguments argv s = (s', Ok tt) -> reads s ws pcs ->
       In a (arguments s') -> isPositional a = true -> count a = times (a_id a) pcs).
Proof.
  assert (L : command_line ["prog"; "f"; "-nbob"] ["f"; "-nbob"]) by line.
  assert (R : exists pcs, reads shop ["f"; "-nbob"] pcs /\ times (a_id (pick "-n" (ready shop))) pcs = 1 /\ times (a_id (pick "SRC" (ready shop))) pcs = 1).
  { eexists. split; [reading | vm_compute; split; reflexivity]. }
  destruct R as [pcs [R [T1 T2]]].
  assert (E : parseArguments ["prog"; "f"; "-nbob"] shop = (fst (parseArguments ["prog"; "f"; "-nbob"] shop), Ok tt)) by (vm_compute; reflexivity).
  split; intros H; specialize (fun a => H _ _ _ _ pcs a shop_usable shop_interprets L E R).
  - specialize (H (pick "-n" (fst (parseArguments ["prog"; "f"; "-nbob"] shop)))).
    assert (X : count (pick "-n" (fst (parseArguments ["prog"; "f"; "-nbob"] shop))) = 2) by (vm_compute; reflexivity).
    assert (Y : a_id (pick "-n" (fst (parseArguments ["prog"; "f"; "-nbob"] shop))) = a_id (pick "-n" (ready shop))) by (vm_compute; reflexivity).
    rewrite X, Y, T1 in H. assert (Z : 2 = 1); [|discriminate Z]. apply H; [apply pick_In; vm_compute; reflexivity | vm_compute; reflexivity].
  - specialize (H (pick "SRC" (fst (parseArguments ["prog"; "f"; "-nbob"] shop)))).
    assert (X : count (pick "SRC" (fst (parseArguments ["prog"; "f"; "-nbob"] shop))) = 0) by (vm_compute; reflexivity).
    assert (Y : a_id (pick "SRC" (fst (parseArguments ["prog"; "f"; "-nbob"] shop))) = a_id (pick "SRC" (ready shop))) by (vm_compute; reflexivity).
    rewrite X, Y, T2 in H. assert (Z : 0 = 1); [|discriminate Z]. apply H; [apply pick_In; vm_compute; reflexivity | vm_compute; reflexivity].
Qed.
Print Assumptions C21_refuted.
Lemma weights : forall os, list_sum (map weight os) = length os + length (filter (fun o => match o_style o with Glued => true | _ => false end) os).
Proof.
  induction os as [|o os IH]; [reflexivity|]. cbn [map list_sum filter length fold_right]. unfold list_sum in IH. rewrite IH.
  unfold weight. destruct (o_style o); cbn [length]; lia.
Qed.
(** For options: one for each occurrence, and one more for each occurrence written as
    -nv.  So it is the number of occurrences if none is written in that way.  Missing for
    the full property: exactly the two cases of C21_refuted. *)
Theorem C21_partial : forall s argv ws s' pcs a, usable s -> interprets s -> command_line argv ws -> parseArguments argv s = (s', Ok tt) -> reads s ws pcs ->
  In a (arguments s') ->
  (isPositional a = false ->
     count a = times (a_id a) pcs + length (filter (fun o => match o_style o with Glued => true | _ => false end) (occs_for (a_id a) pcs)) /\
     ((forall o, In o (occs_for (a_id a) pcs) -> o_style o <> Glued) -> count a = times (a_id a) pcs)) /\
  (isPositional a = true -> count a = 0).
Proof.
  intros s argv ws s' pcs a U I C E R Ia. destruct (result_with s argv ws s' a pcs U C I E Ia R) as [b [Ib [_ [_ [CF [ID [_ CN]]]]]]].
  pose proof (usable_ready_wf s U) as W. rewrite CF, ID, CN. unfold times. split.
  - intros P. pose proof (given_option_none s ws pcs b W R Ib P) as G. unfold given in G.
    assert (Z : filter (fun g => Nat.eqb (fst g) (a_id b)) (given_of pcs) = []).
    { destruct (find (fun g => Nat.eqb (fst g) (a_id b)) (given_of pcs)) eqn:F; [discriminate|].
      apply filter_nil. intros x Hx. exact (find_none _ _ F x Hx). }
    rewrite Z, weights. cbn [length]. split; [lia|]. intros NG.
    assert (Z2 : filter (fun o => match o_style o with Glued => true | _ => false end) (occs_for (a_id b) pcs) = []).
    { apply filter_nil. intros o Ho. specialize (NG o Ho). destruct (o_style o); congruence. }
    rewrite Z2. cbn [length]. lia.
  - intros P. now rewrite (occs_for_none s ws pcs b W R Ib P).
Qed.
Print Assumptions C21_partial.
Example C21_example : exists pcs, reads shop ["-v"; "f"; "-vqv"; "--name"; "x"; "-n=y"] pcs /\
  times (a_id (pick "-v" (ready shop))) pcs = 3 /\ times (a_id (pick "-n" (ready shop))) pcs = 2 /\
  count (pick "-v" (fst (parseArguments ["p"; "-v"; "f"; "-vqv"; "--name"; "x"; "-n=y"] shop))) = 3.
Proof. eexists. split; [reading | vm_compute; auto]. Qed.

(* ------------------------------------------------------------------ *)
(** * C22 *)
(** The reading [pcs] cut at the last word that names the option [a]. *)
Definition last_at (a : argument) (pcs p1 : list piece) (w : str) (used : list str) (p2 : list piece) : Prop :=
  exists occs, pcs = p1 ++ PcOption w occs used :: p2 /\ (exists o, In o occs /\ o_id o = a_id a) /\
    (forall o, In o (occs_of p2) -> o_id o <> a_id a).
Lemma occs_for_nil : forall id pcs, occs_for id pcs = [] -> forall o, In o (occs_of pcs) -> o_id o <> id.
Proof.
  intros id pcs H o Ho E. assert (X : In o (occs_for id pcs)) by (unfold occs_for; apply filter_In; split; [exact Ho | now apply Nat.eqb_eq]).
  rewrite H in X. destruct X.
Qed.
Lemma last_at_occ : forall s ws pcs b, usable s -> reads s ws pcs -> In b (arguments (ready s)) -> isPositional b = false -> has_values (a_cfg b) = true ->
  on_line (a_id b) pcs = true ->
  exists p1 w used p2 os o, last_at b pcs p1 w used p2 /\ occs_for (a_id b) pcs = os ++ [o] /\
    ((o_style o = Separate /\ o_vals o = used /\ take_words (stops (setup s)) (arity_of (a_cfg b)) (before_end (used ++ words_of p2)) = Some used) \/
     (o_style o <> Separate /\ used = [] /\ (exists v, o_vals o = [v] /\ exists p, w = p ^^ v) /\ (arity_of (a_cfg b) = AOne \/ arity_of (a_cfg b) = ARun))).
Proof.
  intros s ws pcs b U R Ib P HV OL. pose proof (usable_ready_wf s U) as W.
  destruct (last_occurrence _ _ (exists_option s ws pcs b W R Ib P OL)) as [p1 [w [occs [used [p2 [-> [NE NL]]]]]]].
  destruct (value_piece s ws p1 w occs used p2 b U R Ib HV NE) as [o [EO [Io [IDo H]]]].
  exists p1, w, used, p2, (occs_for (a_id b) p1), o. split; [|split; [|exact H]].
  - exists occs. split; [reflexivity|]. split; [exists o; auto | exact (occs_for_nil _ _ NL)].
  - change (PcOption w occs used :: p2) with ([PcOption w occs used] ++ p2). now rewrite !occs_for_app, EO, NL, app_nil_r.
Qed.
(** An option with action NONE and nargs n > 1 that is present holds exactly the n words
    that follow the last word naming it (or what its validator made of them); these words
    come before "--". *)
Theorem C22_values : forall s argv ws s' a n, usable s -> interprets s -> command_line argv ws -> parseArguments argv s = (s', Ok tt) ->
  In a (arguments s') -> isPositional a = false -> getAction a = NONE -> getNargs a = n -> (1 < n)%N -> isExists a = true ->
  exists pcs p1 w used p2, reads s ws pcs /\ last_at a pcs p1 w used p2 /\
    ws = flat_map piece_words p1 ++ w :: used ++ flat_map piece_words p2 /\
    N.of_nat (length used) = n /\ ~ In "--" used /\ holds a used.
Proof.
  intros s argv ws s' a n U I C E Ia P Act Nn N1 Ex.
  destruct (result s argv ws s' a U C I E Ia) as [pcs [b [R [Ib [Ea [T [CF [ID [EX _]]]]]]]]].
  pose proof (usable_ready_wf s U) as W. rewrite CF in P, Act, Nn.
  assert (K : (c_type (a_cfg b), getNargs b, getAction b) = option_kind NONE n) by (apply (ready_option s b NONE n U Ib P Act Nn); [lia | discriminate | discriminate]).
  assert (TY : c_type (a_cfg b) = NUMBER_OPTION).
  { unfold option_kind in K. destruct (N.eqb_spec n 0); [lia|]. destruct (N.eqb_spec n 1); [lia|].
    destruct (N.eqb_spec n 43); [|congruence]. assert (K2 : getNargs b = 1%N) by congruence. lia. }
  assert (HV : has_values (a_cfg b) = true) by (unfold has_values, arity_of; now rewrite TY).
  rewrite EX in Ex. destruct (last_at_occ s ws pcs b U R Ib P HV Ex) as [p1 [w [used [p2 [os [o [LA [OS [[_ [V TW]]|[_ [_ [_ [B|B]]]]]]]]]]]]];
    try (unfold arity_of in B; rewrite TY in B; discriminate).
  exists pcs, p1, w, used, p2. split; [exact R|].
  split. { destruct LA as [occs LA]. exists occs. now rewrite ID. }
  destruct LA as [occs [EP _]]. split.
  { subst pcs. destruct (Reading_at _ _ _ _ R p1 w occs used p2 eq_refl) as [_ [_ X]]. exact X. }
  assert (AR : arity_of (a_cfg b) = AFixed (N.to_nat n)) by (unfold arity_of; now rewrite TY, Nn).
  rewrite AR in TW. assert (L : arity_ok (AFixed (N.to_nat n)) used) by (eapply take_words_ok; [|exact TW]; intros m X; discriminate X). cbn in L.
  split; [lia|]. split. { intros X. apply (take_before_in _ _ _ _ _ TW) in X. exact (before_end_no _ X). }
  rewrite Ea. assert (PV : plain_values (read_arg pcs b) = used).
  { rewrite (read_option_arg s ws pcs b W R Ib P). unfold plain_values. cbn [arg_dyn a_cfg a_dyn]. rewrite TY, OS, occs_last by auto.
    rewrite V. apply elem_word_value. }
  rewrite <- PV. apply holds_finished; [exact T | rewrite <- Ex; eapply read_exist; eassumption | exact HV].
Qed.
Print Assumptions C22_values.
(** With too few words before "--" or the end of the command line: an exception. *)
Theorem C22_lacking : forall s argv ws pcs left w rest b bools name st, usable s -> interprets s -> command_line argv ws ->
  reaches s ws pcs left (w :: rest) -> word_kind w = WShort \/ word_kind w = WLong ->
  In b (arguments (ready s)) -> isPositional b = false -> getAction b = NONE -> (1 < getNargs b)%N ->
  word_meaning (setup s) w = MeansOption bools (a_id b) (a_cfg b) name st None ->
  (N.of_nat (length (before_end rest)) < getNargs b)%N ->
  exists s', parseArguments argv s = (s', Throw (parse_error name "bad number of argument")).
Proof.
  intros s argv ws pcs left w rest b bools name st U I C R Kd Ib P Act N1 M L.
  apply (C13_lacking s argv ws pcs left w rest bools (a_id b) (a_cfg b) name st U C I R Kd M).
  assert (K : (c_type (a_cfg b), getNargs b, getAction b) = option_kind NONE (getNargs b)) by (apply (ready_option s b NONE _ U Ib P Act eq_refl); [lia | discriminate | discriminate]).
  unfold lacks, arity_of.
  assert (TY : c_type (a_cfg b) = NUMBER_OPTION).
  { unfold option_kind in K. destruct (N.eqb_spec (getNargs b) 0); [lia|]. destruct (N.eqb_spec (getNargs b) 1); [lia|].
    destruct (N.eqb_spec (getNargs b) 43); [|congruence]. assert (K2 : getNargs b = 1%N) by congruence. lia. }
  rewrite TY. lia.
Qed.
Print Assumptions C22_lacking.
Example C22_example : exists s', parseArguments ["prog"; "-p"; "1"; "2"; "f"; "--point"; "-v"; "4"; "g"] shop = (s', Ok tt) /\
  isExists (pick "-p" s') = true /\ getAction (pick "-p" s') = NONE /\ getNargs (pick "-p" s') = 2%N /\ to_vector (pick "-p" s') = Ok ["-v"; "4"] /\
  snd (parseArguments ["prog"; "f"; "-p"; "1"; "--"; "2"] shop) = Throw (parse_error "p" "bad number of argument").
Proof. eexists. split; [vm_compute; reflexivity | vm_compute; auto 10]. Qed.

(* ------------------------------------------------------------------ *)
(** * C23 *)
Lemma acc_values : forall s ws pcs b, usable s -> reads s ws pcs -> In b (arguments (ready s)) -> isPositional b = false -> accumulates (c_type (a_cfg b)) = true ->
  on_line (a_id b) pcs = true ->
  (forall o os, occs_for (a_id b) pcs = o :: os -> o_style o = Glued -> d_elems (a_dyn b) = []) ->
  d_elems (a_dyn (read_arg pcs b)) = flat_map (occ_elems (a_cfg b)) (occs_for (a_id b) pcs).
Proof.
  intros s ws pcs b U R Ib P AC OL G. pose proof (usable_ready_wf s U) as W.
  rewrite (read_option_arg s ws pcs b W R Ib P). cbn [arg_dyn a_dyn].
  pose proof (exists_option s ws pcs b W R Ib P OL) as NE. destruct (occs_for (a_id b) pcs) as [|o os] eqn:EO; [now contradiction NE|].
  rewrite occs_acc; [|exact AC | reflexivity]. destruct (o_style o) eqn:ST; try reflexivity.
  cbn [clear_arg arg_dyn a_dyn d_elems]. now rewrite (G o os eq_refl ST).
Qed.
Lemma flat_map_elem_word : forall os, map elem_value (flat_map (fun o => map elem_word (o_vals o)) os) = flat_map o_vals os.
Proof. induction os as [|o os IH]; [reflexivity|]. cbn [flat_map]. now rewrite map_app, elem_word_value, IH. Qed.
Lemma flat_map_elem_group : forall n os, map elem_values (flat_map (fun o => map elem_group (chunks n (o_vals o))) os) = flat_map (fun o => chunks n (o_vals o)) os.
Proof. intros n. induction os as [|o os IH]; [reflexivity|]. cbn [flat_map]. now rewrite map_app, elem_group_values, IH. Qed.
(** In the group kinds no value is ever attached to the flag. *)
Lemma not_glued : forall s ws pcs b o, usable s -> reads s ws pcs -> In b (arguments (ready s)) -> arity_of (a_cfg b) <> AOne -> arity_of (a_cfg b) <> ARun -> has_values (a_cfg b) = true -> In o (occs_for (a_id b) pcs) -> o_style o = Separate.
Proof.
  intros s ws pcs b o U R Ib N1 N2 HV Ho. unfold occs_for in Ho. apply filter_In in Ho. destruct Ho as [Ho Eo].
  apply (proj1 (occs_In _ _)) in Ho. destruct Ho as [w [occs [used [Ip Io]]]]. apply in_split in Ip. destruct Ip as [p1 [p2 ->]].
  assert (Fo : In o (occs_for (a_id b) [PcOption w occs used])) by (rewrite occs_for_option; apply filter_In; auto).
  destruct (value_piece s ws p1 w occs used p2 b U R Ib HV) as [o' [E [_ [_ [[S _]|[_ [_ [_ [B|B]]]]]]]]]; try contradiction.
  - intros X. rewrite X in Fo. destruct Fo.
  - rewrite E in Fo. destruct Fo as [<-|[]]. exact S.
Qed.
(** [a] has no value before the parse (no defaults, nothing left from an earlier one) *)
Definition no_values (s : state) (a : argument) : Prop :=
  forall b, In b (arguments s) -> a_id b = a_id a -> to_vector b = Ok [].
(** An APPEND or EXTEND option with nargs 1: the values of all its occurrences, in the
    order of the command line.  Missing for the full property: the first occurrence is
    written as -nv and the option has default values -- these are then kept
    (C23_refuted). *)
Theorem C23_partial : forall s argv ws s' pcs a, usable s -> interprets s -> command_line argv ws -> parseArguments argv s = (s', Ok tt) ->
  reads s ws pcs -> In a (arguments s') -> isPositional a = false -> getAction a = APPEND \/ getAction a = EXTEND -> getNargs a = 1%N ->
  isExists a = true ->
  (forall o os, occs_for (a_id a) pcs = o :: os -> o_style o <> Glued) \/ no_values (ready s) a ->
  holds a (flat_map o_vals (occs_for (a_id a) pcs)).
Proof.
  intros s argv ws s' pcs a U I C E R Ia P Act Nn Ex G.
  destruct (result_with s argv ws s' a pcs U C I E Ia R) as [b [Ib [Ea [T [CF [ID [EX _]]]]]]].
  pose proof (usable_ready_wf s U) as W. rewrite CF in P, Act, Nn. rewrite ID in *. rewrite EX in Ex.
  assert (TY : c_type (a_cfg b) = MULTI_OPTION \/ c_type (a_cfg b) = MULTI_INFINITE_OPTION).
  { destruct Act as [Act|Act]; pose proof (ready_option s b _ 1 U Ib P Act Nn ltac:(discriminate) ltac:(discriminate) ltac:(discriminate)) as K; cbn in K; injection K; auto. }
  assert (AC : accumulates (c_type (a_cfg b)) = true) by (destruct TY as [->| ->]; reflexivity).
  assert (HV : has_values (a_cfg b) = true) by (unfold has_values, arity_of; destruct TY as [->| ->]; reflexivity).
  assert (D : d_elems (a_dyn (read_arg pcs b)) = flat_map (occ_elems (a_cfg b)) (occs_for (a_id b) pcs)).
  { apply (acc_values s ws pcs b U R Ib P AC Ex). intros o os EO GL. destruct G as [G|G]; [now specialize (G o os EO)|].
    specialize (G b Ib (eq_sym ID)). unfold to_vector in G. destruct TY as [TY|TY]; rewrite TY in G; injection G as G; now apply map_eq_nil in G. }
  assert (PV : plain_values (read_arg pcs b) = flat_map o_vals (occs_for (a_id b) pcs)).
  { unfold plain_values. change (a_cfg (read_arg pcs b)) with (a_cfg b). rewrite D.
    transitivity (map elem_value (flat_map (fun o => map elem_word (o_vals o)) (occs_for (a_id b) pcs))); [|apply flat_map_elem_word].
    unfold occ_elems. destruct TY as [->| ->]; reflexivity. }
  rewrite Ea, <- PV. apply holds_finished; [exact T | rewrite <- Ex; eapply read_exist; eassumption | exact HV].
Qed.
Print Assumptions C23_partial.
(** With nargs n > 1: always, and in groups of n. *)
Theorem C23_groups : forall s argv ws s' pcs a n, usable s -> interprets s -> command_line argv ws -> parseArguments argv s = (s', Ok tt) ->
  reads s ws pcs -> In a (arguments s') -> isPositional a = false -> getAction a = APPEND \/ getAction a = EXTEND -> N.of_nat n = getNargs a -> 1 < n ->
  isExists a = true ->
  holds_groups a (flat_map (fun o => chunks n (o_vals o)) (occs_for (a_id a) pcs)) /\
  forall o, In o (occs_for (a_id a) pcs) -> concat (chunks n (o_vals o)) = o_vals o /\ Forall (fun g => length g = n) (chunks n (o_vals o)).
Proof.
  intros s argv ws s' pcs a n U I C E R Ia P Act Nn N1 Ex.
  destruct (result_with s argv ws s' a pcs U C I E Ia R) as [b [Ib [Ea [T [CF [ID [EX _]]]]]]].
  pose proof (usable_ready_wf s U) as W. rewrite CF in P, Act, Nn. rewrite ID in *. rewrite EX in Ex. symmetry in Nn.
  assert (N0 : N.of_nat n <> 0%N) by lia.
  assert (TY : c_type (a_cfg b) = MULTI_NUMBER_OPTION \/ c_type (a_cfg b) = MULTI_NUMBER_INFINITE_OPTION).
  { destruct Act as [Act|Act]; pose proof (ready_option s b _ _ U Ib P Act Nn N0 ltac:(discriminate) ltac:(discriminate)) as K;
      unfold option_kind in K; destruct (N.eqb_spec (N.of_nat n) 0); [lia| |lia|]; destruct (N.eqb_spec (N.of_nat n) 1); [lia| |lia|]; injection K; auto. }
  assert (AC : accumulates (c_type (a_cfg b)) = true) by (destruct TY as [->| ->]; reflexivity).
  assert (HV : has_values (a_cfg b) = true) by (unfold has_values, arity_of; destruct TY as [->| ->]; reflexivity).
  assert (A1 : arity_of (a_cfg b) <> AOne /\ arity_of (a_cfg b) <> ARun) by (unfold arity_of; destruct TY as [->| ->]; split; discriminate).
  assert (GL : forall o, In o (occs_for (a_id b) pcs) -> o_style o = Separate).
  { intros o Ho. apply (not_glued s ws pcs b o U R Ib); try tauto. }
  assert (D : d_elems (a_dyn (read_arg pcs b)) = flat_map (occ_elems (a_cfg b)) (occs_for (a_id b) pcs)).
  { apply (acc_values s ws pcs b U R Ib P AC Ex). intros o os EO G. rewrite (GL o) in G by (rewrite EO; now left). discriminate. }
  assert (NN : N.to_nat (getNargs b) = n) by (rewrite Nn; apply Nnat.Nat2N.id).
  split.
  - assert (PV : groups_in (read_arg pcs b) = flat_map (fun o => chunks n (o_vals o)) (occs_for (a_id b) pcs)).
    { unfold groups_in. rewrite D. rewrite <- flat_map_elem_group. f_equal. apply flat_map_ext. intros o. unfold occ_elems. rewrite NN.
      destruct TY as [->| ->]; reflexivity. }
    rewrite Ea, <- PV. apply holds_groups_finished; [exact T | rewrite <- Ex; eapply read_exist; eassumption |].
    change (a_cfg (read_arg pcs b)) with (a_cfg b). destruct TY as [->| ->]; reflexivity.
  - intros o Ho. unfold occs_for in Ho. apply filter_In in Ho. destruct Ho as [Ho Eo]. apply Nat.eqb_eq in Eo.
    destruct (reads_occ s ws pcs o W R Ho) as [b' [Ib' [Eb' [_ [OK _]]]]].
    assert (b' = b) by (eapply wf_unique; [exact W | exact Ib' | exact Ib | congruence]). subst b'.
    assert (M : exists k, length (o_vals o) = k * n).
    { unfold arity_of in OK. rewrite NN in OK. destruct TY as [TY|TY]; rewrite TY in OK.
      - exists 1. rewrite OK by (intros m X; discriminate X). lia.
      - apply OK. intros m X. injection X as <-. lia. }
    destruct M as [k M]. apply chunks_mult with (k := k); [lia | exact M].
Qed.
Print Assumptions C23_groups.
Theorem C23_refuted :
  ~ (forall s argv ws s' pcs a, usable s -> interprets s -> command_line argv ws -> parseArguments argv s = (s', Ok tt) ->
       reads s ws pcs -> In a (arguments s') -> isPositional a = false -> getAction a = APPEND \/ getAction a = EXTEND -> getNargs a = 1%N ->
       isExists a = true -> holds a (flat_map o_vals (occs_for (a_id a) pcs))).
Proof.
  intros H. assert (L : command_line ["prog"; "f"; "-ax"] ["f"; "-ax"]) by line.
  assert (R : exists pcs, reads shop ["f"; "-ax"] pcs /\ flat_map o_vals (occs_for (a_id (pick "-a" (ready shop))) pcs) = ["x"]).
  { eexists. split; [reading | vm_compute; reflexivity]. }
  destruct R as [pcs [R T1]].
  assert (E : parseArguments ["prog"; "f"; "-ax"] shop = (fst (parseArguments ["prog"; "f"; "-ax"] shop), Ok tt)) by (vm_compute; reflexivity).
  specialize (H _ _ _ _ pcs (pick "-a" (fst (parseArguments ["prog"; "f"; "-ax"] shop))) shop_usable shop_interprets L E R).
  assert (Y : a_id (pick "-a" (fst (parseArguments ["prog"; "f"; "-ax"] shop))) = a_id (pick "-a" (ready shop))) by (vm_compute; reflexivity).
  rewrite Y, T1 in H.
  assert (Z : holds (pick "-a" (fst (parseArguments ["prog"; "f"; "-ax"] shop))) ["x"] -> False).
  { assert (V : c_valid (a_cfg (pick "-a" (fst (parseArguments ["prog"; "f"; "-ax"] shop)))) = None) by (vm_compute; reflexivity).
    assert (X : to_vector (pick "-a" (fst (parseArguments ["prog"; "f"; "-ax"] shop))) = Ok ["d1"; "d2"; "x"]) by (vm_compute; reflexivity).
    unfold holds. rewrite V, X. intros Q. discriminate Q. }
  apply Z, H; [apply pick_In; vm_compute; reflexivity | vm_compute; reflexivity | left; vm_compute; reflexivity | vm_compute; reflexivity | vm_compute; reflexivity].
Qed.
Print Assumptions C23_refuted.
Example C23_example : exists pcs s', reads shop ["-a"; "x"; "f"; "--add=y"; "-e"; "1"; "2"; "3"; "4"; "-v"; "-az"; "-e"; "5"; "6"] pcs /\
  parseArguments ["prog"; "-a"; "x"; "f"; "--add=y"; "-e"; "1"; "2"; "3"; "4"; "-v"; "-az"; "-e"; "5"; "6"] shop = (s', Ok tt) /\
  flat_map o_vals (occs_for (a_id (pick "-a" s')) pcs) = ["x"; "y"; "z"] /\ to_vector (pick "-a" s') = Ok ["x"; "y"; "z"] /\
  to_vector_vector (pick "-e" s') = Ok [["1"; "2"]; ["3"; "4"]; ["5"; "6"]].
Proof. eexists. eexists. split; [reading | split; [vm_compute; reflexivity | vm_compute; auto]]. Qed.

(* ------------------------------------------------------------------ *)
(** * C24 *)
(** [used] is the maximal run of words of [ws] that are neither "--" nor recognised as
    registered options ([stops]) *)
Definition maximal_run (s : state) (used ws : list str) : Prop :=
  exists rest, ws = used ++ rest /\ Forall (fun w => w <> "--" /\ stops (setup s) w = false) used /\
    match rest with [] => True | w :: _ => w = "--" \/ stops (setup s) w = true end.
Lemma run_maximal : forall s l used, run_of (stops (setup s)) (before_end l) = used -> maximal_run s used l.
Proof.
  intros s l. induction l as [|w l IH]; intros used H.
  - subst used. exists []. split; [reflexivity | split; [constructor | exact I]].
  - cbn [before_end] in H. destruct (word_kind w) eqn:Kd.
    3: { subst used. exists (w :: l). split; [reflexivity|]. split; [constructor|]. left. now apply kind_end'. }
    all: cbn [run_of] in H; destruct (stops (setup s) w) eqn:S;
      [subst used; exists (w :: l); split; [reflexivity|]; split; [constructor|]; now right|];
      destruct (IH _ eq_refl) as [rest [A [B D]]]; exists rest; subst used; split; [now rewrite A at 1|]; split; [|exact D];
      constructor; [|exact B]; split; [intros ->; discriminate Kd | exact S].
Qed.
(** An option with action INFINITE or with action EXTEND and nargs 1, at a word of the
    command line that names it without '=' or a glued value: its values are the maximal
    run of the words that follow. *)
Theorem C24_run : forall s ws p1 w occs used p2 b o, usable s -> reads s ws (p1 ++ PcOption w occs used :: p2) ->
  In b (arguments (ready s)) -> isPositional b = false -> (getAction b = INFINITE \/ getAction b = EXTEND) -> getNargs b = 1%N ->
  In o occs -> o_id o = a_id b -> o_style o = Separate ->
  ws = flat_map piece_words p1 ++ w :: used ++ flat_map piece_words p2 /\
  o_vals o = used /\ maximal_run s used (used ++ flat_map piece_words p2).
Proof.
  intros s ws p1 w occs used p2 b o U R Ib P Act Nn Io IDo St.
  assert (TY : c_type (a_cfg b) = INFINITE_OPTION \/ c_type (a_cfg b) = MULTI_INFINITE_OPTION).
  { destruct Act as [Act|Act]; pose proof (ready_option s b _ 1 U Ib P Act Nn ltac:(discriminate) ltac:(discriminate) ltac:(discriminate)) as K; cbn in K; injection K; auto. }
  assert (AR : arity_of (a_cfg b) = ARun) by (unfold arity_of; destruct TY as [->| ->]; reflexivity).
  assert (Fo : In o (occs_for (a_id b) [PcOption w occs used])) by (rewrite occs_for_option; apply filter_In; split; [exact Io | now apply Nat.eqb_eq]).
  destruct (value_piece s ws p1 w occs used p2 b U R Ib) as [o' [E [_ [_ H]]]]; [unfold has_values; now rewrite AR | intros X; rewrite X in Fo; destruct Fo|].
  rewrite E in Fo. destruct Fo as [->|[]]. destruct H as [[_ [V TW]]|[NS _]]; [|contradiction].
  destruct (Reading_at _ _ _ _ R p1 w occs used p2 eq_refl) as [_ [_ X]]. split; [exact X|]. split; [exact V|].
  rewrite AR in TW. cbn in TW. injection TW as TW. apply run_maximal. exact TW.
Qed.
Print Assumptions C24_run.
(** After a successful parse, an INFINITE option that is present holds the values of its
    last occurrence: the run of C24_run, or the one value attached to the flag. *)
Theorem C24_last : forall s argv ws s' a, usable s -> interprets s -> command_line argv ws -> parseArguments argv s = (s', Ok tt) ->
  In a (arguments s') -> isPositional a = false -> getAction a = INFINITE -> getNargs a = 1%N -> isExists a = true ->
  exists pcs p1 w used p2, reads s ws pcs /\ last_at a pcs p1 w used p2 /\
    ((maximal_run s used (used ++ flat_map piece_words p2) /\ holds a used) \/ (used = [] /\ exists v, holds a [v] /\ exists p, w = p ^^ v)).
Proof.
  intros s argv ws s' a U I C E Ia P Act Nn Ex.
  destruct (result s argv ws s' a U C I E Ia) as [pcs [b [R [Ib [Ea [T [CF [ID [EX _]]]]]]]]].
  pose proof (usable_ready_wf s U) as W. rewrite CF in P, Act, Nn.
  assert (TY : c_type (a_cfg b) = INFINITE_OPTION).
  { pose proof (ready_option s b _ 1 U Ib P Act Nn ltac:(discriminate) ltac:(discriminate) ltac:(discriminate)) as K; cbn in K; injection K; auto. }
  assert (AR : arity_of (a_cfg b) = ARun) by (unfold arity_of; now rewrite TY).
  assert (HV : has_values (a_cfg b) = true) by (unfold has_values; now rewrite AR).
  rewrite EX in Ex. destruct (last_at_occ s ws pcs b U R Ib P HV Ex) as [p1 [w [used [p2 [os [o [LA [OS H]]]]]]]].
  assert (PV : plain_values (read_arg pcs b) = o_vals o).
  { rewrite (read_option_arg s ws pcs b W R Ib P). unfold plain_values. cbn [arg_dyn a_cfg a_dyn]. rewrite TY, OS, occs_last by auto. apply elem_word_value. }
  assert (HO : holds a (o_vals o)).
  { rewrite Ea, <- PV. apply holds_finished; [exact T | rewrite <- Ex; eapply read_exist; eassumption | exact HV]. }
  exists pcs, p1, w, used, p2. split; [exact R|].
  split. { destruct LA as [occs LA]. exists occs. now rewrite ID. }
  destruct H as [[_ [V TW]]|[NS [-> [[v [V SF]] _]]]].
  - left. rewrite AR in TW. cbn in TW. injection TW as TW. split; [now apply run_maximal | now rewrite <- V].
  - right. split; [reflexivity|]. exists v. rewrite <- V. auto.
Qed.
Print Assumptions C24_last.
Example C24_example : exists s', parseArguments ["prog"; "-i"; "0"; "f"; "--items"; "1"; "-"; "-z"; "--bogus"; "-v"; "g"] shop = (s', Ok tt) /\
  getAction (pick "-i" s') = INFINITE /\ getNargs (pick "-i" s') = 1%N /\ isExists (pick "-i" s') = true /\
  to_vector (pick "-i" s') = Ok ["1"; "-"; "-z"; "--bogus"] /\ to_vector (pick "SRC" s') = Ok ["g"].
Proof. eexists. split; [vm_compute; reflexivity | vm_compute; auto 10]. Qed.

(* ------------------------------------------------------------------ *)
(** * C35 *)
(** action(STORE_FALSE) is called on an argument that has not been declared as a flag
    before, nargs(0) is not called on a STORE_FALSE argument (C41 tells why) *)
Definition flags_once : policy :=
  Policy (fun _ _ => True)
    (fun m a _ => match m with
                  | MAction STORE_FALSE => getNargs a <> 0%N
                  | MNargs n => (n mod 2 ^ 64)%N = 0%N -> getAction a <> STORE_FALSE
                  | _ => True
                  end).
Lemma store_true_type : forall s a, reach s -> In a (arguments s) -> isPositional a = false -> getAction a = STORE_TRUE -> c_type (a_cfg a) = BOOLEAN_OPTION.
Proof.
  intros s a R Ia. apply reach_any in R. revert a Ia.
  change (all_kinds (fun k => is_positional (fst (fst k)) = false -> snd k = STORE_TRUE -> fst (fst k) = BOOLEAN_OPTION) s). revert s R.
  apply kind_invariant; try (intros; exact I); try discriminate.
  - intros m a s k _ _ _ K NP A. unfold kind_of in K. pose proof (kind_pos _ _ K) as KP. rewrite NP in KP. rewrite <- KP in K. injection K as <-.
    revert A. unfold option_kind. destruct (N.eqb _ 0); [reflexivity|].
    match goal with |- context [match ?x with NONE => _ | _ => _ end] => destruct x end; repeat (match goal with |- context [if ?b then _ else _] => destruct b end); cbn; congruence.
  - intros m a s _ _ _ [K|[k [K T]]] NP A.
    + unfold kind_of in K. cbn [kact fst snd] in NP. rewrite NP in K. discriminate.
    + unfold kind_of in K. cbn [kact fst snd] in NP, A. rewrite NP in K. injection K as <-. rewrite A in T. exfalso. revert T.
      unfold option_kind. destruct (N.eqb _ 0); cbn; intros [|]; discriminate.
Qed.
Lemma store_false_type : forall s a, reach_with flags_once s -> In a (arguments s) -> isPositional a = false -> getAction a = STORE_FALSE -> c_type (a_cfg a) = REVERSE_BOOLEAN_OPTION.
Proof.
  intros s a R Ia. revert a Ia.
  change (all_kinds (fun k => is_positional (fst (fst k)) = false -> snd k = STORE_FALSE -> fst (fst k) = REVERSE_BOOLEAN_OPTION) s). revert s R.
  apply kind_invariant; try (intros; exact I); try discriminate.
  - intros m a s k DM OK Pa K NP A. unfold kind_of in K. pose proof (kind_pos _ _ K) as KP. rewrite NP in KP. rewrite <- KP in K. injection K as <-.
    set (c := match m with MAction x => cfg_action (a_cfg a) x | MNargs n => cfg_nargs (a_cfg a) (n mod w64)%N | _ => a_cfg a end) in *.
    assert (AC : c_action c = STORE_FALSE).
    { revert A. unfold option_kind. destruct (N.eqb (c_nargs c) 0); [auto|].
      destruct (c_action c); repeat (match goal with |- context [if ?b then _ else _] => destruct b end); cbn; congruence. }
    unfold option_kind. destruct (N.eqb_spec (c_nargs c) 0) as [Z|Z]; [|now rewrite AC].
    exfalso. destruct m; try discriminate DM; cbn in OK; subst c; cbn [cfg_action c_action cfg_nargs c_nargs] in AC, Z.
    + subst. contradiction.
    + apply OK; assumption.
  - intros m a s _ _ _ [K|[k [K T]]] NP A.
    + unfold kind_of in K. cbn [kact fst snd] in NP. rewrite NP in K. discriminate.
    + unfold kind_of in K. cbn [kact fst snd] in NP, A. rewrite NP in K. injection K as <-. rewrite A in T. exfalso. revert T.
      unfold option_kind. destruct (N.eqb _ 0); cbn; intros [|]; discriminate.
Qed.
Lemma occurs_iff : forall s argv ws s' a, usable s -> interprets s -> command_line argv ws -> parseArguments argv s = (s', Ok tt) -> In a (arguments s') ->
  (isExists a = true <-> exists pcs, reads s ws pcs /\ on_line (a_id a) pcs = true).
Proof.
  intros s argv ws s' a U I C E Ia. destruct (result s argv ws s' a U C I E Ia) as [pcs [b [R [Ib [_ [_ [_ [ID [EX _]]]]]]]]]. rewrite EX, <- ID. split; intros H.
  - eauto.
  - destruct H as [q [Rq H]]. destruct (C14_unique s argv ws U C I) as [X _]. now rewrite (X _ _ R Rq).
Qed.
(** An option with action STORE_TRUE: true iff it occurs on the command line.  (Even when
    the action was declared several times.) *)
Theorem C35_true : forall s argv ws s' a, usable s -> interprets s -> command_line argv ws -> parseArguments argv s = (s', Ok tt) ->
  In a (arguments s') -> isPositional a = false -> getAction a = STORE_TRUE ->
  (to_bool a = true <-> exists pcs, reads s ws pcs /\ on_line (a_id a) pcs = true) /\
  getString a = (if to_bool a then "true" else "false").
Proof.
  intros s argv ws s' a U I C E Ia P A.
  destruct (result s argv ws s' a U C I E Ia) as [pcs [b [R [Ib [_ [_ [CF _]]]]]]].
  assert (TY : c_type (a_cfg a) = BOOLEAN_OPTION).
  { rewrite CF in *. apply (store_true_type (ready s)); try assumption. apply ready_reach, U. }
  unfold to_bool, getString. rewrite TY. split; [apply (occurs_iff s argv ws s' a U I C E Ia) | reflexivity].
Qed.
Print Assumptions C35_true.
(** An option declared once with action STORE_FALSE: false iff it occurs. *)
Theorem C35_false : forall s argv ws s' a, usable s -> reach_with flags_once s -> interprets s -> command_line argv ws -> parseArguments argv s = (s', Ok tt) ->
  In a (arguments s') -> isPositional a = false -> getAction a = STORE_FALSE ->
  (to_bool a = false <-> exists pcs, reads s ws pcs /\ on_line (a_id a) pcs = true) /\
  getString a = (if to_bool a then "true" else "false").
Proof.
  intros s argv ws s' a U F I C E Ia P A.
  assert (TY : c_type (a_cfg a) = REVERSE_BOOLEAN_OPTION).
  { apply (store_false_type s'); try assumption. apply (rw_step flags_once s (OpParse argv) s' (Ok tt) F); [exact Logic.I | exact E | exact Logic.I]. }
  unfold to_bool, getString. rewrite TY. split.
  - rewrite <- (occurs_iff s argv ws s' a U I C E Ia). destruct (isExists a); cbn; split; congruence.
  - destruct (isExists a); reflexivity.
Qed.
Print Assumptions C35_false.
Lemma shop_flags_once : reach_with flags_once shop.
Proof.
  apply (history_with flags_once (fun m a _ => match m with MAction STORE_FALSE => negb (N.eqb (getNargs a) 0) | MNargs n => negb (N.eqb (n mod 2 ^ 64) 0) | _ => true end)).
  - intros; exact I.
  - intros m a s H. destruct m as [f|[]|b|h|x|n|v|v b|d]; try exact I.
    + cbn in H |- *. destruct (N.eqb_spec (getNargs a) 0); [discriminate | assumption].
    + unfold p_meth, flags_once. destruct (N.eqb_spec (n mod 2 ^ 64) 0); [discriminate | contradiction].
  - vm_compute. reflexivity.
Qed.
Example C35_example : exists s', parseArguments ["prog"; "f"; "-vq"] shop = (s', Ok tt) /\
  to_bool (pick "-v" s') = true /\ getString (pick "-v" s') = "true" /\ getAction (pick "-q" s') = STORE_FALSE /\ to_bool (pick "-q" s') = false /\
  exists s2, parseArguments ["prog"; "f"] shop = (s2, Ok tt) /\ to_bool (pick "-v" s2) = false /\ getString (pick "-q" s2) = "true".
Proof. eexists. split; [vm_compute; reflexivity|]. split; [vm_compute; reflexivity|]. split; [vm_compute; reflexivity|].
  split; [vm_compute; reflexivity|]. split; [vm_compute; reflexivity|]. eexists. split; [vm_compute; reflexivity | vm_compute; auto]. Qed.
