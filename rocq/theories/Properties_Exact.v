(** Properties_Exact.v -- C23, C26: the cases that C23_partial and C26_partial leave out.
    What the arguments hold there is not what the properties promise (C23_refuted,
    C26_refuted), but it is determined: the values from before the parse are kept in front. *)
From Coq Require Import Permutation Sorted.
From Verif Require Import Base Model_Utils Model_Number Model_Types Model_Argument Model_Usage Model_Args Model_Api
  Spec_Order Spec_Names Spec_Reading Spec_Parse Spec_Decl Spec_Finish Spec_History Spec_Api Spec_Result
  Proofs_Base Proofs_Order Proofs_Frame Proofs_Inv Proofs_ReadFacts Proofs_Reading Proofs_Parse Proofs_Decl Proofs_Finish
  Proofs_Meth Proofs_History Proofs_Config Proofs_Check Proofs_Names Proofs_Central Proofs_Dyn Properties_Words Demo Properties_Parse Proofs_Kind
  Proofs_Values Properties_Values Properties_Positional Proofs_Fresh Properties_Defaults.

(** What [parseArguments] keeps of the values of an argument when it begins: a declared
    default stays (also when a validator had changed it), a word of an earlier command
    line becomes an empty string. *)
Definition kept_word (l : leaf) : str := lf_def l.
Definition kept (a : argument) : list str :=
  if grouped (c_type (a_cfg a)) then flat_map (fun e => map kept_word (el_subs e)) (d_elems (a_dyn a))
  else map (fun e => kept_word (el_leaf e)) (d_elems (a_dyn a)).

Lemma clear_value : forall es, map elem_value (map clear_elem es) = map (fun e => kept_word (el_leaf e)) es.
Proof. intros es. rewrite map_map. reflexivity. Qed.
Lemma clear_values : forall es, flat_map elem_values (map clear_elem es) = flat_map (fun e => map kept_word (el_subs e)) es.
Proof.
  intros es. induction es as [|e es IH]; [reflexivity|]. cbn [map flat_map]. rewrite IH. f_equal.
  unfold elem_values, clear_elem. cbn [el_subs]. rewrite map_map. reflexivity.
Qed.
Lemma positional_many : forall s b, usable s -> In b (arguments (ready s)) -> isPositional b = true -> getNargs b <> 0%N ->
  getAction b = INFINITE \/ (getAction b = NONE /\ getNargs b <> 1%N) -> c_type (a_cfg b) <> POSITIONAL_ARGUMENT.
Proof.
  intros s b U Ib P NZ [A|[A N1]] TY.
  - pose proof (ready_positional s b INFINITE _ U Ib P A eq_refl NZ (or_intror eq_refl)) as K. rewrite TY in K.
    unfold positional_kind in K. destruct (N.eqb_spec (getNargs b) 0); [contradiction|]. destruct (N.eqb_spec (getNargs b) 1); discriminate K.
  - pose proof (ready_positional s b NONE _ U Ib P A eq_refl NZ (or_introl eq_refl)) as K. rewrite TY in K.
    unfold positional_kind in K. destruct (N.eqb_spec (getNargs b) 0); [contradiction|]. destruct (N.eqb_spec (getNargs b) 1); [contradiction|].
    destruct (N.eqb_spec (getNargs b) 43); discriminate K.
Qed.
(** In an object that was not parsed yet, everything is kept. *)
Lemma kept_fresh : forall s b old, usable s -> fresh_with settled s -> In b (arguments (ready s)) -> has_values (a_cfg b) = true ->
  c_type (a_cfg b) <> SIMPLE_OPTION -> c_type (a_cfg b) <> POSITIONAL_ARGUMENT -> to_vector b = Ok old -> kept b = old.
Proof.
  intros s b old U F Ib V N1 N2 TV. pose proof (ready_values_In s b (usable_wf0 s U) Ib V) as Ibs.
  pose proof (cl_elems b (settled_clean s F b Ibs) V) as CE. unfold kept, elem_clean, to_vector in *.
  destruct (grouped (c_type (a_cfg b))) eqn:G; rewrite Forall_forall in CE.
  - assert (X : flat_map elem_values (d_elems (a_dyn b)) = old) by (destruct (c_type (a_cfg b)); try discriminate G; congruence).
    rewrite <- X, !flat_map_concat_map. f_equal. apply map_ext_in. intros e He. destruct (CE e He) as [_ CL]. rewrite Forall_forall in CL. unfold elem_values.
    apply map_ext_in. intros l Hl. symmetry. exact (CL l Hl).
  - assert (X : map elem_value (d_elems (a_dyn b)) = old).
    { unfold has_values, arity_of in V. destruct (c_type (a_cfg b)); try discriminate G; try discriminate V; congruence. }
    rewrite <- X. apply map_ext_in. intros e He. destruct (CE e He) as [_ CL]. symmetry. exact CL.
Qed.

(* ------------------------------------------------------------------ *)
(** * C26 *)
(** A positional with several words, or with the remaining words: the words come after what
    is kept.  With C26_partial (one word) this is every positional. *)
Theorem C26_exact : forall s argv ws s' pcs a vs b, usable s -> interprets s -> command_line argv ws -> parseArguments argv s = (s', Ok tt) ->
  reads s ws pcs -> In a (arguments s') -> isPositional a = true -> getNargs a <> 0%N -> In (a_id a, vs) (given_of pcs) ->
  getAction a = INFINITE \/ (getAction a = NONE /\ getNargs a <> 1%N) ->
  In b (arguments (ready s)) -> a_id b = a_id a -> holds a (kept b ++ vs).
Proof.
  intros s argv ws s' pcs a vs b U I C E R Ia P NZ G NV Ib IDb. destruct (result_with s argv ws s' a pcs U C I E Ia R) as [b' [Ib' [Ea [T [CF [ID [EX _]]]]]]].
  pose proof (usable_ready_wf s U) as W. assert (b = b') by (eapply wf_unique; [exact W | exact Ib | exact Ib' | congruence]). subst b'.
  rewrite CF in P, NZ, NV. rewrite ID in *.
  pose proof (positional_values s ws pcs b vs U R Ib P G) as D.
  assert (HV : has_values (a_cfg b) = true) by (unfold has_values, arity_of; destruct (c_type (a_cfg b)); try discriminate P; reflexivity).
  assert (EXR : isExists (read_arg pcs b) = true) by (rewrite D; apply pos_exist).
  assert (SZ : arity_ok (arity_of (a_cfg b)) vs).
  { destruct (reads_given s ws pcs (a_id b) vs W R G) as [b' [Ib'' [E' [_ TK]]]].
    assert (b' = b) by (eapply wf_unique; [exact W | exact Ib'' | exact Ib | exact E']). subst b'.
    assert (GN : forall m, arity_of (a_cfg b) = AGroups m -> 0 < m) by (intros m Hm; unfold arity_of in Hm; destruct (c_type (a_cfg b)); try discriminate; injection Hm as <-; lia).
    destruct TK as [w l _ TW|w l TW]; eapply take_words_ok; try exact GN; exact TW. }
  pose proof (positional_many s b U Ib P NZ NV) as NP.
  assert (PV : plain_values (read_arg pcs b) = kept b ++ vs).
  { unfold plain_values, kept. change (a_cfg (read_arg pcs b)) with (a_cfg b). rewrite D. unfold pos_dyn.
    assert (EV : forall l, map (fun e => lf_arg (el_leaf e)) l = map elem_value l) by reflexivity.
    assert (EG : forall l, flat_map (fun e => map lf_arg (el_subs e)) l = flat_map elem_values l) by reflexivity.
    destruct (c_type (a_cfg b)) eqn:TY; try discriminate P; try contradiction; cbn [d_elems d_arg set_arg set_elems grouped].
    - rewrite EV, map_app, elem_word_value. cbn [clear_arg arg_dyn a_dyn d_elems]. now rewrite clear_value.
    - rewrite EV, map_app, elem_word_value. cbn [clear_arg arg_dyn a_dyn d_elems]. now rewrite clear_value.
    - rewrite EG, flat_map_app. cbn [clear_arg arg_dyn a_dyn d_elems]. rewrite clear_values. f_equal. rewrite flat_map_map, elem_group_values.
      unfold arity_of in SZ. rewrite TY in SZ. destruct SZ as [k SZ]. apply (chunks_mult _ k); [|exact SZ]. lia. }
  rewrite Ea, <- PV. apply holds_finished; [exact T | exact EXR | exact HV].
Qed.
Print Assumptions C26_exact.
(** In an object that was not parsed yet: after the values the argument had before the
    call, which are its defaults (C27). *)
Theorem C26_defaults_kept : forall s argv ws s' pcs a vs b old, usable s -> fresh_with settled s -> interprets s -> command_line argv ws -> parseArguments argv s = (s', Ok tt) ->
  reads s ws pcs -> In a (arguments s') -> isPositional a = true -> getNargs a <> 0%N -> In (a_id a, vs) (given_of pcs) ->
  getAction a = INFINITE \/ (getAction a = NONE /\ getNargs a <> 1%N) ->
  In b (arguments (ready s)) -> a_id b = a_id a -> to_vector b = Ok old -> holds a (old ++ vs).
Proof.
  intros s argv ws s' pcs a vs b old U F I C E R Ia P NZ G NV Ib IDb TV.
  rewrite <- (kept_fresh s b old U F Ib); [| | | |exact TV].
  - exact (C26_exact s argv ws s' pcs a vs b U I C E R Ia P NZ G NV Ib IDb).
  - destruct (result_with s argv ws s' a pcs U C I E Ia R) as [b' [Ib' [_ [_ [CF [ID _]]]]]].
    assert (b = b') by (eapply wf_unique; [apply (usable_ready_wf s U) | exact Ib | exact Ib' | congruence]). subst b'.
    rewrite CF in P. unfold has_values, arity_of. destruct (c_type (a_cfg b)); try discriminate P; reflexivity.
  - intros X. destruct (result_with s argv ws s' a pcs U C I E Ia R) as [b' [Ib' [_ [_ [CF [ID _]]]]]].
    assert (b = b') by (eapply wf_unique; [apply (usable_ready_wf s U) | exact Ib | exact Ib' | congruence]). subst b'.
    rewrite CF, X in P. discriminate P.
  - destruct (result_with s argv ws s' a pcs U C I E Ia R) as [b' [Ib' [_ [_ [CF [ID _]]]]]].
    assert (b = b') by (eapply wf_unique; [apply (usable_ready_wf s U) | exact Ib | exact Ib' | congruence]). subst b'.
    rewrite CF in P, NZ, NV. exact (positional_many s b U Ib P NZ NV).
Qed.
Print Assumptions C26_defaults_kept.
Example C26_exact_example : exists s' s'' pcs, parseArguments ["prog"; "1"; "2"] dir = (s', Ok tt) /\ reads dir ["1"; "2"] pcs /\
  In (a_id (pick "D" s'), ["1"; "2"]) (given_of pcs) /\ kept (pick "D" (ready dir)) = ["x"; "y"] /\ to_vector (pick "D" s') = Ok ["x"; "y"; "1"; "2"] /\
  parseArguments ["prog"; "3"; "4"] s' = (s'', Ok tt) /\ kept (pick "D" (ready s')) = ["x"; "y"; ""; ""] /\
  to_vector (pick "D" s'') = Ok ["x"; "y"; ""; ""; "3"; "4"].
Proof.
  eexists. eexists. eexists. split; [vm_compute; reflexivity|]. split; [reading|]. split; [vm_compute; auto|]. split; [vm_compute; reflexivity|].
  split; [vm_compute; reflexivity|]. split; [vm_compute; reflexivity|]. split; vm_compute; reflexivity.
Qed.

(* ------------------------------------------------------------------ *)
(** * C23 *)
(** An APPEND or EXTEND option with nargs 1 whose first occurrence is written with its value
    attached (-nv): its values come after what is kept. *)
Theorem C23_exact : forall s argv ws s' pcs a b o os, usable s -> interprets s -> command_line argv ws -> parseArguments argv s = (s', Ok tt) ->
  reads s ws pcs -> In a (arguments s') -> isPositional a = false -> getAction a = APPEND \/ getAction a = EXTEND -> getNargs a = 1%N ->
  occs_for (a_id a) pcs = o :: os -> o_style o = Glued -> In b (arguments (ready s)) -> a_id b = a_id a ->
  holds a (kept b ++ flat_map o_vals (o :: os)).
Proof.
  intros s argv ws s' pcs a b o os U I C E R Ia P Act Nn EO GL Ib IDb.
  destruct (result_with s argv ws s' a pcs U C I E Ia R) as [b' [Ib' [Ea [T [CF [ID [EX _]]]]]]].
  pose proof (usable_ready_wf s U) as W. assert (b = b') by (eapply wf_unique; [exact W | exact Ib | exact Ib' | congruence]). subst b'.
  rewrite CF in P, Act, Nn. rewrite ID in *.
  assert (TY : c_type (a_cfg b) = MULTI_OPTION \/ c_type (a_cfg b) = MULTI_INFINITE_OPTION).
  { destruct Act as [Act|Act]; pose proof (ready_option s b _ 1 U Ib P Act Nn ltac:(discriminate) ltac:(discriminate) ltac:(discriminate)) as K; cbn in K; injection K; auto. }
  assert (AC : accumulates (c_type (a_cfg b)) = true) by (destruct TY as [->| ->]; reflexivity).
  assert (HV : has_values (a_cfg b) = true) by (unfold has_values, arity_of; destruct TY as [->| ->]; reflexivity).
  assert (OL : on_line (a_id b) pcs = true) by (rewrite on_line_eq, EO; reflexivity).
  assert (PV : plain_values (read_arg pcs b) = kept b ++ flat_map o_vals (o :: os)).
  { unfold plain_values, kept. change (a_cfg (read_arg pcs b)) with (a_cfg b).
    assert (EV : forall l, map (fun e => lf_arg (el_leaf e)) l = map elem_value l) by reflexivity.
    rewrite (read_option_arg s ws pcs b W R Ib P). cbn [arg_dyn a_dyn]. rewrite EO, occs_acc; [|exact AC | reflexivity]. rewrite GL.
    cbn [clear_arg arg_dyn a_dyn d_elems].
    assert (X : map elem_value (flat_map (occ_elems (a_cfg b)) (o :: os)) = flat_map o_vals (o :: os)).
    { rewrite <- (flat_map_elem_word (o :: os)). f_equal. apply flat_map_ext. intros q. unfold occ_elems. destruct TY as [->| ->]; reflexivity. }
    destruct TY as [->| ->]; cbn [grouped]; rewrite EV, map_app, clear_value, X; reflexivity. }
  rewrite Ea, <- PV. apply holds_finished; [exact T | rewrite <- OL; eapply read_exist; eassumption | exact HV].
Qed.
Print Assumptions C23_exact.
Theorem C23_defaults_kept : forall s argv ws s' pcs a b o os old, usable s -> fresh_with settled s -> interprets s -> command_line argv ws -> parseArguments argv s = (s', Ok tt) ->
  reads s ws pcs -> In a (arguments s') -> isPositional a = false -> getAction a = APPEND \/ getAction a = EXTEND -> getNargs a = 1%N ->
  occs_for (a_id a) pcs = o :: os -> o_style o = Glued -> In b (arguments (ready s)) -> a_id b = a_id a -> to_vector b = Ok old ->
  holds a (old ++ flat_map o_vals (o :: os)).
Proof.
  intros s argv ws s' pcs a b o os old U F I C E R Ia P Act Nn EO GL Ib IDb TV.
  assert (TY : c_type (a_cfg b) = MULTI_OPTION \/ c_type (a_cfg b) = MULTI_INFINITE_OPTION).
  { destruct (result_with s argv ws s' a pcs U C I E Ia R) as [b' [Ib' [_ [_ [CF [ID _]]]]]].
    assert (b = b') by (eapply wf_unique; [apply (usable_ready_wf s U) | exact Ib | exact Ib' | congruence]). subst b'. rewrite CF in P, Act, Nn.
    destruct Act as [Act|Act]; pose proof (ready_option s b _ 1 U Ib P Act Nn ltac:(discriminate) ltac:(discriminate) ltac:(discriminate)) as K; cbn in K; injection K; auto. }
  rewrite <- (kept_fresh s b old U F Ib); [| | | |exact TV].
  - exact (C23_exact s argv ws s' pcs a b o os U I C E R Ia P Act Nn EO GL Ib IDb).
  - unfold has_values, arity_of. destruct TY as [->| ->]; reflexivity.
  - destruct TY as [->| ->]; discriminate.
  - destruct TY as [->| ->]; discriminate.
Qed.
Print Assumptions C23_defaults_kept.
Example C23_exact_example : exists pcs o os s', reads shop ["f"; "-ax"; "-a"; "y"] pcs /\ parseArguments ["prog"; "f"; "-ax"; "-a"; "y"] shop = (s', Ok tt) /\
  occs_for (a_id (pick "-a" s')) pcs = o :: os /\ o_style o = Glued /\ kept (pick "-a" (ready shop)) = ["d1"; "d2"] /\
  to_vector (pick "-a" s') = Ok ["d1"; "d2"; "x"; "y"].
Proof.
  eexists. eexists. eexists. eexists. split; [reading|]. split; [vm_compute; reflexivity|]. split; [vm_compute; reflexivity|].
  split; [vm_compute; reflexivity|]. split; vm_compute; reflexivity.
Qed.
