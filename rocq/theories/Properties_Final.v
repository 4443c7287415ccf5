(** Properties_Final.v -- C30, C45: validation and destinations. *)
From Coq Require Import Permutation Sorted.
From Verif Require Import Base Model_Utils Model_Number Model_Types Model_Argument Model_Usage Model_Args Model_Api
  Spec_Order Spec_Names Spec_Reading Spec_Parse Spec_Decl Spec_Finish Spec_History Spec_Api Spec_Result
  Proofs_Base Proofs_Order Proofs_Frame Proofs_Inv Proofs_ReadFacts Proofs_Reading Proofs_Parse Proofs_Decl Proofs_Finish
  Proofs_Meth Proofs_History Proofs_Config Proofs_Check Proofs_Names Proofs_Central Proofs_Dyn Properties_Words Demo Properties_Parse Proofs_Swap Proofs_Kind
  Proofs_Values Properties_Values Properties_Positional Proofs_Quiet Proofs_Fresh Properties_Defaults Properties_Repeat Proofs_Alike.

(** the values an argument has at the beginning of a parse: its defaults (and what earlier
    parses left, see C28) *)
Definition start_values (b : argument) : list str := plain_values (clear_arg b).
(** The values a command line, read as [pcs], gives to the argument [b] that occurs on it:
    for a positional the words it got (several-valued ones keep the start values in
    front); for APPEND and EXTEND the values of all occurrences (with the start values in
    front if the first one is written -mV); for other options those of the last
    occurrence. *)
Definition line_values (pcs : list piece) (b : argument) : list str :=
  match given (a_id b) pcs with
  | Some vs => match c_type (a_cfg b) with POSITIONAL_ARGUMENT => vs | _ => start_values b ++ vs end
  | None =>
      match occs_for (a_id b) pcs with
      | [] => start_values b
      | o :: os => if accumulates (c_type (a_cfg b))
                   then match o_style o with Glued => start_values b | _ => [] end ++ flat_map o_vals (o :: os)
                   else o_vals (last (o :: os) o)
      end
  end.
Lemma chunks_ok : forall {A} n k (l : list A), length l = k * n -> concat (chunks n l) = l.
Proof.
  intros A n k l E. destruct n as [|n]; [|apply (chunks_mult (S n) k); [lia | exact E]].
  rewrite Nat.mul_0_r in E. destruct l; [reflexivity | discriminate E].
Qed.
Lemma groups_pos : forall s b n, usable s -> In b (arguments (ready s)) -> arity_of (a_cfg b) = AGroups n -> 0 < n.
Proof.
  intros s b n U Ib A. pose proof (usable_ready s U) as [Rr [SR _]]. destruct (SR b Ib) as [_ S2].
  pose proof (reach_opt_nargs _ Rr b Ib) as O.
  destruct (N.eq_dec (c_nargs (a_cfg b)) 0) as [Z|NZ].
  - unfold arity_of in *. destruct (c_type (a_cfg b)) eqn:T; try discriminate A.
    + specialize (O eq_refl Z). rewrite ?T in O. discriminate O.
    + specialize (S2 eq_refl). contradiction.
  - unfold arity_of in A. destruct (c_type (a_cfg b)); try discriminate A; injection A as <-; lia.
Qed.
Lemma occ_ok : forall s ws pcs b o, usable s -> reads s ws pcs -> In b (arguments (ready s)) -> In o (occs_for (a_id b) pcs) -> arity_ok (arity_of (a_cfg b)) (o_vals o).
Proof.
  intros s ws pcs b o U R Ib Ho. pose proof (usable_ready_wf s U) as W. unfold occs_for in Ho. apply filter_In in Ho. destruct Ho as [Ho Eo]. apply Nat.eqb_eq in Eo.
  destruct (reads_occ s ws pcs o W R Ho) as [b' [Ib' [Eb' [_ [OK _]]]]].
  assert (b' = b) by (eapply wf_unique; [exact W | exact Ib' | exact Ib | congruence]). subst b'. apply OK. intros n. now apply (groups_pos s b n U Ib).
Qed.
Lemma occ_chunks : forall s ws pcs b o, usable s -> reads s ws pcs -> In b (arguments (ready s)) -> In o (occs_for (a_id b) pcs) ->
  (arity_of (a_cfg b) = AFixed (N.to_nat (c_nargs (a_cfg b))) \/ arity_of (a_cfg b) = AGroups (N.to_nat (c_nargs (a_cfg b)))) ->
  concat (chunks (N.to_nat (c_nargs (a_cfg b))) (o_vals o)) = o_vals o.
Proof.
  intros s ws pcs b o U R Ib Ho A. pose proof (occ_ok s ws pcs b o U R Ib Ho) as OK. destruct A as [A|A]; rewrite A in OK; cbn in OK.
  - apply (chunks_ok _ 1). lia.
  - destruct OK as [k OK]. now apply (chunks_ok _ k).
Qed.
Lemma last_app : forall {A} (l : list A) x d, last (l ++ [x]) d = x.
Proof. induction l as [|y l IH]; intros x d; [reflexivity|]. cbn [app]. destruct l as [|z l]; [reflexivity|]. apply (IH x d). Qed.
Lemma last_In : forall {A} (l : list A) d, l <> [] -> In (last l d) l.
Proof. induction l as [|x l IH]; intros d N; [now elim N|]. destruct l as [|y l]; [now left|]. right. apply (IH d). discriminate. Qed.
Lemma read_values : forall s ws pcs b, usable s -> reads s ws pcs -> In b (arguments (ready s)) -> has_values (a_cfg b) = true ->
  on_line (a_id b) pcs = true -> plain_values (read_arg pcs b) = line_values pcs b.
Proof.
  intros s ws pcs b U R Ib HV OL. pose proof (usable_ready_wf s U) as W.
  assert (EV : forall l, map (fun e => lf_arg (el_leaf e)) l = map elem_value l) by reflexivity.
  assert (EG : forall l, flat_map (fun e => map lf_arg (el_subs e)) l = flat_map elem_values l) by reflexivity.
  destruct (isPositional b) eqn:P.
  - pose proof (occs_for_none s ws pcs b W R Ib P) as ON. rewrite on_line_eq, ON in OL. cbn [orb] in OL.
    unfold line_values. destruct (given (a_id b) pcs) as [vs|] eqn:G; [|discriminate OL].
    pose proof (positional_values s ws pcs b vs U R Ib P (given_in _ _ _ G)) as D.
    assert (SZ : arity_ok (arity_of (a_cfg b)) vs).
    { destruct (reads_given s ws pcs (a_id b) vs W R (given_in _ _ _ G)) as [b' [Ib' [E' [_ TK]]]].
      assert (b' = b) by (eapply wf_unique; [exact W | exact Ib' | exact Ib | exact E']). subst b'.
      pose proof (fun m => groups_pos s b m U Ib) as GN. destruct TK as [w l _ TW|w l TW]; eapply take_words_ok; try exact GN; exact TW. }
    unfold plain_values at 1. change (a_cfg (read_arg pcs b)) with (a_cfg b). rewrite D. unfold pos_dyn, start_values, plain_values. change (a_cfg (clear_arg b)) with (a_cfg b).
    destruct (c_type (a_cfg b)) eqn:TY; try discriminate P; cbn [d_elems d_arg set_arg set_elems].
    + unfold arity_of in SZ. rewrite TY in SZ. cbn in SZ. destruct vs as [|v [|? ?]]; try discriminate SZ. reflexivity.
    + now rewrite !EV, map_app, elem_word_value.
    + now rewrite !EV, map_app, elem_word_value.
    + rewrite !EG, flat_map_app. f_equal. rewrite flat_map_map, elem_group_values.
      unfold arity_of in SZ. rewrite TY in SZ. destruct SZ as [k SZ]. now apply (chunks_ok _ k).
  - unfold line_values. rewrite (given_option_none s ws pcs b W R Ib P).
    pose proof (exists_option s ws pcs b W R Ib P OL) as NE.
    assert (CH : forall o, In o (occs_for (a_id b) pcs) -> (arity_of (a_cfg b) = AFixed (N.to_nat (c_nargs (a_cfg b))) \/ arity_of (a_cfg b) = AGroups (N.to_nat (c_nargs (a_cfg b)))) ->
       concat (chunks (N.to_nat (c_nargs (a_cfg b))) (o_vals o)) = o_vals o) by (intros o Ho A; eapply occ_chunks; eassumption).
    pose proof (fun o => occ_ok s ws pcs b o U R Ib) as OK.
    unfold plain_values. change (a_cfg (read_arg pcs b)) with (a_cfg b). rewrite (read_option_arg s ws pcs b W R Ib P). cbn [arg_dyn a_dyn].
    destruct (accumulates (c_type (a_cfg b))) eqn:AC.
    + destruct (occs_for (a_id b) pcs) as [|o os] eqn:EO; [now elim NE|].
      assert (DE : d_elems (occs_dyn (a_cfg b) (o :: os) (a_dyn (clear_arg b))) = (match o_style o with Glued => d_elems (a_dyn (clear_arg b)) | _ => [] end) ++ flat_map (occ_elems (a_cfg b)) (o :: os)) by (apply occs_acc; [exact AC | reflexivity]).
      rewrite DE. clear DE NE.
      assert (X : forall l, (forall x, In x l -> In x (o :: os)) -> grouped (c_type (a_cfg b)) = false -> map elem_value (flat_map (occ_elems (a_cfg b)) l) = flat_map o_vals l).
      { intros l _ Gf. rewrite <- flat_map_elem_word. f_equal. apply flat_map_ext. intros x. unfold occ_elems. destruct (c_type (a_cfg b)); try discriminate AC; try discriminate Gf; reflexivity. }
      assert (Y : forall l, (forall x, In x l -> In x (o :: os)) -> grouped (c_type (a_cfg b)) = true -> flat_map elem_values (flat_map (occ_elems (a_cfg b)) l) = flat_map o_vals l).
      { intros l. induction l as [|x l IH]; intros Il Gt; [reflexivity|]. cbn [flat_map]. rewrite flat_map_app, IH; [|intros y Iy; apply Il; now right | exact Gt]. f_equal.
        rewrite flat_map_map. transitivity (concat (chunks (N.to_nat (c_nargs (a_cfg b))) (o_vals x))).
        - unfold occ_elems. destruct (c_type (a_cfg b)); try discriminate AC; try discriminate Gt; now rewrite elem_group_values.
        - apply CH; [apply Il; now left|]. unfold arity_of. destruct (c_type (a_cfg b)); try discriminate AC; try discriminate Gt; auto. }
      unfold start_values, plain_values. change (a_cfg (clear_arg b)) with (a_cfg b).
      destruct (c_type (a_cfg b)) eqn:TY; try discriminate AC; rewrite ?EV, ?EG, ?map_app, ?flat_map_app;
        first [rewrite (X (o :: os) (fun _ H => H) eq_refl) | rewrite (Y (o :: os) (fun _ H => H) eq_refl)]; destruct (o_style o); reflexivity.
    + destruct (exists_last NE) as [os [o EO]]. rewrite EO. 
      assert (LA : match os ++ [o] with [] => start_values b | x :: l => o_vals (last (x :: l) x) end = o_vals o).
      { destruct os as [|x l]; [reflexivity|]. cbn [app]. change (x :: l ++ [o]) with ((x :: l) ++ [o]). now rewrite last_app. }
      rewrite LA. clear LA. specialize (OK o ltac:(rewrite EO; apply in_or_app; right; now left)).
      destruct (c_type (a_cfg b)) eqn:TY; try discriminate P; try discriminate AC; try (unfold has_values, arity_of in HV; rewrite TY in HV; discriminate HV).
      * rewrite occs_simple by exact TY. unfold arity_of in OK. rewrite TY in OK. cbn in OK. destruct (o_vals o) as [|v [|? ?]]; try discriminate OK. reflexivity.
      * rewrite occs_last by auto. now rewrite EV, elem_word_value.
      * rewrite occs_last by auto. now rewrite EV, elem_word_value.
Qed.

(* ------------------------------------------------------------------ *)
(** * C30 *)
Lemma flag_values : forall s ws pcs b, usable s -> reads s ws pcs -> In b (arguments (ready s)) -> has_values (a_cfg b) = false ->
  plain_values (read_arg pcs b) = line_values pcs b.
Proof.
  intros s ws pcs b U R Ib HV. assert (A : arity_of (a_cfg b) = ANone) by (unfold has_values in HV; destruct (arity_of (a_cfg b)); try discriminate HV; reflexivity).
  assert (E : forall a, a_cfg a = a_cfg b -> plain_values a = []).
  { intros a Ea. unfold plain_values. rewrite Ea. unfold arity_of in A. destruct (c_type (a_cfg b)); try discriminate A; reflexivity. }
  rewrite (E (read_arg pcs b)) by reflexivity. unfold line_values, start_values. rewrite (E (clear_arg b)) by reflexivity.
  assert (P : isPositional b = false) by (unfold arity_of in A; destruct (c_type (a_cfg b)); try discriminate A; reflexivity).
  assert (AC : accumulates (c_type (a_cfg b)) = false) by (unfold arity_of in A; destruct (c_type (a_cfg b)); try discriminate A; reflexivity).
  rewrite (given_option_none s ws pcs b (usable_ready_wf s U) R Ib P), AC.
  pose proof (fun o => occ_ok s ws pcs b o U R Ib) as OK. destruct (occs_for (a_id b) pcs) as [|o os] eqn:EO; [reflexivity|].
  assert (IL : In (last (o :: os) o) (o :: os)).
  { apply last_In. discriminate. }
  specialize (OK _ IL). rewrite A in OK. unfold arity_ok in OK. symmetry. exact OK.
Qed.
Lemma line_read : forall s ws pcs b, usable s -> reads s ws pcs -> In b (arguments (ready s)) -> on_line (a_id b) pcs = true ->
  plain_values (read_arg pcs b) = line_values pcs b.
Proof. intros s ws pcs b U R Ib O. destruct (has_values (a_cfg b)) eqn:HV; [eapply read_values | eapply flag_values]; eassumption. Qed.

(** After a parse that returned: the validator of each argument that is present was given
    the values from the command line and accepted them, and what it left is stored,
    position by position.  (Without validator: the values themselves.) *)
Theorem C30_accepted : forall s argv ws s' pcs a, usable s -> interprets s -> command_line argv ws -> parseArguments argv s = (s', Ok tt) ->
  reads s ws pcs -> In a (arguments s') -> isExists a = true ->
  exists b, In b (arguments (ready s)) /\ a_id b = a_id a /\ a_cfg b = a_cfg a /\
    match c_valid (a_cfg a) with
    | Some v => exists out, v_fn v (line_values pcs b) = VOk true out /\ to_vector a = Ok (over (line_values pcs b) out)
    | None => has_values (a_cfg a) = true -> to_vector a = Ok (line_values pcs b)
    end.
Proof.
  intros s argv ws s' pcs a U I C E R Ia Ex. destruct (result_with s argv ws s' a pcs U C I E Ia R) as [b [Ib [Ea [T [CF [ID [EX _]]]]]]].
  exists b. split; [exact Ib|]. split; [now symmetry|]. split; [now symmetry|]. rewrite EX in Ex. pose proof (line_read s ws pcs b U R Ib Ex) as LV.
  pose proof (read_exist s ws pcs b (usable_ready_wf s U) R Ib) as RE. rewrite Ex in RE.
  assert (HV : c_valid (a_cfg a) <> None -> has_values (a_cfg (read_arg pcs b)) = true).
  { intros N. unfold trouble, refusal in T. change (a_cfg (read_arg pcs b)) with (a_cfg b) in *. rewrite CF in N. destruct (c_valid (a_cfg b)) as [v|]; [|now elim N]. rewrite RE in T.
    destruct (v_fn v (plain_values (read_arg pcs b))) as [[] out| |]; try discriminate T. destruct (has_values (a_cfg b)); [reflexivity | discriminate T]. }
  assert (H : has_values (a_cfg (read_arg pcs b)) = true -> holds a (line_values pcs b)) by (intros V; rewrite Ea, <- LV; now apply holds_finished).
  unfold holds in H. destruct (c_valid (a_cfg a)) as [v|]; [apply H, HV; discriminate|]. intros V. apply H. change (a_cfg (read_arg pcs b)) with (a_cfg b). now rewrite <- CF.
Qed.
Print Assumptions C30_accepted.

(** does validation refuse the argument [b]? *)
Definition refused (pcs : list piece) (b : argument) : option exn :=
  match c_valid (a_cfg b) with
  | None => None
  | Some v =>
      if on_line (a_id b) pcs then
        match v_fn v (line_values pcs b) with
        | VOk true _ => if has_values (a_cfg b) then None else Some (Exn KValid (hd "" (getNameOrFlags b)) "invalid type option for use valid")
        | VOk false _ => Some (Exn KValid (hd "" (getNameOrFlags b)) "invalid check function")
        | VThrow msg => Some (Exn KValid (hd "" (getNameOrFlags b)) msg)
        | VOther => Some (Exn KForeign "" "")
        end
      else None
  end.
Lemma refusal_refused : forall s ws pcs b, usable s -> reads s ws pcs -> In b (arguments (ready s)) -> refusal (read_arg pcs b) = refused pcs b.
Proof.
  intros s ws pcs b U R Ib. unfold refusal, refused. change (a_cfg (read_arg pcs b)) with (a_cfg b). destruct (c_valid (a_cfg b)) as [v|]; [|reflexivity].
  rewrite (read_exist s ws pcs b (usable_ready_wf s U) R Ib). destruct (on_line (a_id b) pcs) eqn:O; [|reflexivity].
  rewrite (line_read s ws pcs b U R Ib O). reflexivity.
Qed.
(** the destination, if any, can take the value *)
Definition writable (b : argument) : Prop := match c_dest (a_cfg b) with None => True | Some d => d_custom d = true \/ d_ty d <> TyUnsupported end.
Lemma str_to_ok : forall ty t w, ty <> TyUnsupported -> exists v, str_to ty t w = Ok v.
Proof. intros [] t w N; cbn; eauto. now elim N. Qed.
Lemma single_to_ok : forall ty a, ty <> TyUnsupported -> exists v, single_to ty a = Ok v.
Proof. intros ty a N. unfold single_to, bool_to. destruct (c_type (a_cfg a)); try (apply str_to_ok, N); destruct ty; eauto; now elim N. Qed.
Lemma ev_seq_none : forall l, Forall (fun x => snd x = None) l -> ev_seq l = (flat_map fst l, None).
Proof. intros l F. induction F as [|[es o] l E F IH]; [reflexivity|]. cbn in E. subst o. cbn [ev_seq flat_map fst]. now rewrite IH. Qed.
Lemma res_all_ok : forall ty t l, ty <> TyUnsupported -> exists vs, res_all (map (str_to ty t) l) = (vs, None).
Proof.
  intros ty t l N. induction l as [|w l IH]; [now exists []|]. destruct IH as [vs IH]. cbn [map res_all]. destruct (str_to_ok ty t w N) as [v ->]. rewrite IH. eauto.
Qed.
Lemma writable_events : forall b, writable b -> snd (arg_events b) = None.
Proof.
  intros b W. unfold writable in W. unfold arg_events. destruct (c_dest (a_cfg b)) as [d|]; [|reflexivity].
  unfold dest_events. destruct (d_custom d) eqn:C; [destruct (d_kind d); reflexivity|]. destruct W as [W|W]; [discriminate W|].
  destruct (d_kind d).
  - destruct (single_to_ok (d_ty d) b W) as [v ->]. reflexivity.
  - destruct (d_elems (a_dyn b)) as [|e es]; [destruct (single_to_ok (d_ty d) b W) as [v ->]; reflexivity|].
    rewrite ev_seq_none; [reflexivity|]. apply Forall_forall. intros x Hx. apply in_map_iff in Hx. destruct Hx as [w [<- _]]. destruct (str_to_ok (d_ty d) true w W) as [v ->]. reflexivity.
  - destruct (d_elems (a_dyn b)) as [|e es]; [destruct (single_to_ok (d_ty d) b W) as [v ->]; reflexivity|].
    rewrite ev_seq_none; [reflexivity|]. apply Forall_forall. intros x Hx. apply in_map_iff in Hx. destruct Hx as [w [<- _]].
    destruct (res_all_ok (d_ty d) true (elem_strings w) W) as [vs ->]. reflexivity.
Qed.
Lemma writable_finished : forall b, writable b -> snd (arg_events (finished b)) = None.
Proof. intros b W. apply writable_events. unfold writable. now rewrite finished_cfg. Qed.

Lemma no_help_met : forall s argv ws pcs, usable s -> reads s ws pcs ->
  (forall h, is_help (ready s) h \/ is_version (ready s) h -> on_line (a_id h) pcs = false) -> not_met (scanned argv pcs s).
Proof.
  intros s argv ws pcs U R H. pose proof (usable_ready_wf s U) as W. split.
  - destruct (met (s_help (scanned argv pcs s)) (scanned argv pcs s)) eqn:M; [|reflexivity]. apply (proj1 (met_iff s argv ws pcs _ W R)) in M. destruct M as [h [Ih [Eh O]]].
    rewrite scanned_help in Eh. rewrite (H h) in O; [discriminate O | left; split; assumption].
  - destruct (met (s_version (scanned argv pcs s)) (scanned argv pcs s)) eqn:M; [|reflexivity]. apply (proj1 (met_iff s argv ws pcs _ W R)) in M. destruct M as [h [Ih [Eh O]]].
    rewrite scanned_version in Eh. rewrite (H h) in O; [discriminate O | right; split; assumption].
Qed.
Lemma none_missing : forall s argv ws pcs, usable s -> reads s ws pcs -> (forall a, In a (arguments (ready s)) -> isRequired a = true -> on_line (a_id a) pcs = true) ->
  missing (scanned argv pcs s) = [].
Proof.
  intros s argv ws pcs U R H. rewrite (missing_scanned s argv ws pcs (usable_ready_wf s U) R). rewrite filter_nil; [reflexivity|].
  intros x Ix. destruct (isRequired x) eqn:Q; [|reflexivity]. now rewrite (H x Ix Q).
Qed.
(** The line can be read, shows neither help nor version, and lacks nothing: if an argument
    is refused, and no earlier one is (in listing order; nor has an earlier one a destination
    that cannot take a value), the exception is that of this argument. *)
Theorem C30_refused : forall s argv ws pcs l1 b l2 e, usable s -> interprets s -> command_line argv ws -> reads s ws pcs ->
  (forall h, is_help (ready s) h \/ is_version (ready s) h -> on_line (a_id h) pcs = false) ->
  (forall a, In a (arguments (ready s)) -> isRequired a = true -> on_line (a_id a) pcs = true) ->
  arguments (ready s) = l1 ++ b :: l2 -> (forall x, In x l1 -> refused pcs x = None /\ writable x) -> refused pcs b = Some e ->
  exists s', parseArguments argv s = (s', Throw e).
Proof.
  intros s argv ws pcs l1 b l2 e U I C R NH NM EL L1 RF. pose proof (parse_verdict s argv ws pcs U C I R) as [V _].
  destruct (parseArguments argv s) as [s' r]. cbn [snd] in V. exists s'. f_equal. rewrite V. unfold verdict.
  destruct (no_help_met s argv ws pcs U R NH) as [-> ->]. rewrite (none_missing s argv ws pcs U R NM).
  assert (EA : s_args (scanned argv pcs s) = map (read_arg pcs) l1 ++ read_arg pcs b :: map (read_arg pcs) l2).
  { unfold scanned. cbn [s_args with_additional with_args]. rewrite EL, map_app. reflexivity. }
  assert (Ib : In b (arguments (ready s))) by (rewrite EL; apply in_or_app; right; now left).
  rewrite EA, flat_map_app. cbn [flat_map]. unfold trouble at 2. rewrite (refusal_refused s ws pcs b U R Ib), RF.
  rewrite no_trouble; [reflexivity|]. apply Forall_forall. intros x Hx. apply in_map_iff in Hx. destruct Hx as [y [<- Iy]]. destruct (L1 y Iy) as [Y1 Y2].
  unfold trouble. rewrite (refusal_refused s ws pcs y U R), Y1 by (rewrite EL; apply in_or_app; now left). now apply writable_finished.
Qed.
Print Assumptions C30_refused.
(** Conversely: an exception of validation names a present argument that its validator
    refuses. *)
Theorem C30_names : forall s argv ws s' pcs n msg, usable s -> interprets s -> command_line argv ws -> reads s ws pcs ->
  parseArguments argv s = (s', Throw (Exn KValid n msg)) ->
  exists b, In b (arguments (ready s)) /\ on_line (a_id b) pcs = true /\ refused pcs b = Some (Exn KValid n msg) /\ n = hd "" (getNameOrFlags b).
Proof.
  intros s argv ws s' pcs n msg U I C R E. pose proof (parse_finish s argv ws pcs U C I R) as F. rewrite E in F. cbn [fst snd] in F.
  remember (Throw (Exn KValid n msg)) as r eqn:Er. destruct F as [H1|H1 H2|a l H1 H2 H3|before a after e H1 H2 H3 HL H4 H5|H1 H2 H3 H4].
  - destruct (m_helpex (s_modes (scanned argv pcs s))); discriminate Er.
  - destruct (m_verex (s_modes (scanned argv pcs s))); discriminate Er.
  - discriminate Er.
  - injection Er as ->. unfold scanned in HL. cbn [s_args with_additional with_args] in HL.
    assert (Ia : In a (map (read_arg pcs) (arguments (ready s)))) by (rewrite HL; apply in_or_app; right; now left).
    apply in_map_iff in Ia. destruct Ia as [b [Eb Ib]]. subst a. unfold trouble in H5. rewrite (refusal_refused s ws pcs b U R Ib) in H5.
    destruct (refused pcs b) as [x|] eqn:RF.
    + exists b. split; [exact Ib|]. injection H5 as ->. unfold refused in RF. destruct (c_valid (a_cfg b)) as [v|] eqn:VV; [|discriminate RF].
      destruct (on_line (a_id b) pcs) eqn:O; [|discriminate RF]. split; [reflexivity|].
      unfold refused. rewrite VV, O. destruct (v_fn v (line_values pcs b)) as [[] out|m|]; cbn in RF |- *; try (destruct (has_values (a_cfg b))); try discriminate RF;
        (split; [exact RF | congruence]).
    + exfalso. revert H5. generalize (finished (read_arg pcs b)). intros y H5. unfold arg_events, dest_events in H5.
      assert (ST : forall ty t w e, str_to ty t w = Throw e -> x_kind e = KParse) by (intros [] t w x X; cbn in X; try discriminate X; injection X as <-; reflexivity).
      assert (SI : forall ty a e, single_to ty a = Throw e -> x_kind e = KParse).
      { intros ty a x X. unfold single_to, bool_to in X. destruct (c_type (a_cfg a)); try (eapply ST, X); destruct ty; try discriminate X; injection X as <-; reflexivity. }
      assert (EV : forall r f x, (forall x, r = Throw x -> x_kind x = KParse) -> snd (ev_of r f) = Some x -> x_kind x = KParse).
      { intros r f x Hr X. destruct r; cbn in X; try discriminate X. injection X as <-. now apply Hr. }
      assert (ES : forall l x, (forall y, In y l -> forall z, snd y = Some z -> x_kind z = KParse) -> snd (ev_seq l) = Some x -> x_kind x = KParse).
      { induction l as [|[es [z|]] l IH]; intros x Hl X; cbn in X; [discriminate X | injection X as <-; eapply Hl; [now left | reflexivity] |].
        destruct (ev_seq l) as [es' o'] eqn:Q. cbn in X. apply IH; [|exact X]. intros y0 Iy. apply Hl. now right. }
      assert (RA : forall ty l vs z, res_all (map (str_to ty true) l) = (vs, Some z) -> x_kind z = KParse).
      { intros ty l. induction l as [|w l IH]; intros vs z X; cbn in X; [discriminate X|]. destruct (str_to ty true w) as [v|q| | |] eqn:Q.
        - destruct (res_all (map (str_to ty true) l)) as [vs' o']. injection X as <- ->. eapply IH. reflexivity.
        - injection X as <- <-. eapply ST, Q.
        - destruct ty; discriminate Q.
        - destruct ty; discriminate Q.
        - destruct ty; discriminate Q. }
      destruct (c_dest (a_cfg y)) as [d|]; [|discriminate H5]. assert (K : x_kind (Exn KValid n msg) = KParse); [|discriminate K].
      destruct (d_kind d), (d_custom d); try discriminate H5.
      * eapply EV; [|exact H5]. apply SI.
      * destruct (d_elems (a_dyn y)); [eapply EV; [|exact H5]; apply SI|]. eapply ES; [|exact H5]. intros q Hq z Hz. apply in_map_iff in Hq. destruct Hq as [w [<- _]]. eapply EV; [|exact Hz]. apply ST.
      * destruct (d_elems (a_dyn y)); [eapply EV; [|exact H5]; apply SI|]. eapply ES; [|exact H5]. intros q Hq z Hz. apply in_map_iff in Hq. destruct Hq as [w [<- _]].
        destruct (res_all (map (str_to (d_ty d) true) (elem_strings w))) as [vs [o|]] eqn:Q; cbn in Hz; [|discriminate Hz]. injection Hz as <-. eapply RA, Q.
  - discriminate Er.
Qed.
Print Assumptions C30_names.

(** the same argument with another validator *)
Definition reval (id : nat) (p : option validator) (del : bool) (a : argument) : argument :=
  if Nat.eqb (a_id a) id then arg_cfg a (cfg_valid (a_cfg a) p del) else a.
Section Reval.
Variables (id : nat) (p : option validator) (del : bool).
Let f := reval id p del.
Lemma reval_id : forall a, a_id (f a) = a_id a. Proof. intros a. unfold f, reval. now destruct (Nat.eqb (a_id a) id). Qed.
Lemma reval_gen : forall a, a_gen (f a) = a_gen a. Proof. intros a. unfold f, reval. now destruct (Nat.eqb (a_id a) id). Qed.
Lemma reval_dyn : forall a, a_dyn (f a) = a_dyn a. Proof. intros a. unfold f, reval. now destruct (Nat.eqb (a_id a) id). Qed.
Lemma reval_cfg : forall {A} (h : acfg -> A) a, (forall c, h (cfg_valid c p del) = h c) -> h (a_cfg (f a)) = h (a_cfg a).
Proof. intros A h a H. unfold f, reval. destruct (Nat.eqb (a_id a) id); [apply H | reflexivity]. Qed.
Lemma reval_lt : forall a b, arg_lt (f a) (f b) = arg_lt a b.
Proof. intros a b. unfold arg_lt, f, reval. destruct (Nat.eqb (a_id a) id), (Nat.eqb (a_id b) id); reflexivity. Qed.
Lemma insert_reval : forall a l, insert_by arg_lt (f a) (map f l) = map f (insert_by arg_lt a l).
Proof. intros a l. induction l as [|b l IH]; [reflexivity|]. cbn [map insert_by]. rewrite reval_lt. destruct (arg_lt b a); cbn [map]; [now rewrite IH | reflexivity]. Qed.
Lemma sort_reval : forall l, sort_by arg_lt (map f l) = map f (sort_by arg_lt l).
Proof. intros l. induction l as [|a l IH]; [reflexivity|]. cbn [map]. unfold sort_by in *. cbn [fold_right]. rewrite IH. apply insert_reval. Qed.
Lemma ids_reval : forall l, map a_id (map f l) = map a_id l.
Proof. intros l. rewrite map_map. apply map_ext, reval_id. Qed.
Lemma options_reval : forall {A} (h : acfg -> A) l, (forall c, h (cfg_valid c p del) = h c) ->
  map h (options_of (map f l)) = map h (options_of l) /\ map h (positionals_of (map f l)) = map h (positionals_of l).
Proof.
  intros A h l H. unfold options_of, positionals_of. induction l as [|a l [IH1 IH2]]; [split; reflexivity|]. cbn [map filter].
  assert (P : is_pos_arg (f a) = is_pos_arg a) by (apply (reval_cfg (fun c => is_positional (c_type c))); reflexivity). rewrite P.
  destruct (is_pos_arg a); cbn [negb map]; rewrite ?IH1, ?IH2, ?(reval_cfg h a H); auto.
Qed.
Lemma usage_reval : forall s s', s_args s' = map f (s_args s) -> s_usage s' = s_usage s -> s_bin s' = s_bin s -> getUsage s' = getUsage s.
Proof.
  intros s s' EA EU EB. unfold getUsage. rewrite EU.
  assert (D : forallb usage_defined (s_args s') = forallb usage_defined (s_args s)).
  { rewrite EA. clear EA. induction (s_args s) as [|a l IH]; [reflexivity|]. cbn [map forallb]. rewrite IH. f_equal. unfold usage_defined, has_name, is_pos_arg.
    unfold f, reval. destruct (Nat.eqb (a_id a) id); reflexivity. }
  rewrite D. destruct (u_usage (s_usage s)); [|reflexivity]. destruct (forallb usage_defined (s_args s)); [|reflexivity]. f_equal.
  unfold usage_text, synopsis. rewrite EU, EB, EA.
  destruct (options_reval option_item (s_args s) (fun _ => eq_refl)) as [O1 _].
  destruct (options_reval positional_item (s_args s) (fun _ => eq_refl)) as [_ O2].
  destruct (options_reval (fun c => row (s_usage s) (positional_label c) c) (s_args s) (fun _ => eq_refl)) as [_ O3].
  destruct (options_reval (fun c => row (s_usage s) (option_label c) c) (s_args s) (fun _ => eq_refl)) as [O4 _].
  destruct (options_reval (fun _ => tt) (s_args s) (fun _ => eq_refl)) as [O5 O6].
  assert (NE : forall (l l' : list acfg), map (fun _ => tt) l = map (fun _ => tt) l' -> nonempty l = nonempty l') by (intros [|] [|] X; try discriminate X; reflexivity).
  rewrite O1, O2, O3, O4, (NE _ _ O5), (NE _ _ O6). reflexivity.
Qed.
Lemma read_reval : forall pcs a, read_arg pcs (f a) = f (read_arg pcs a).
Proof. intros pcs a. unfold f, reval, read_arg. cbn [a_id]. destruct (Nat.eqb (a_id a) id); reflexivity. Qed.
Lemma finished_reval : forall a, (a_id a = id -> isExists a = false) -> finished (f a) = f (finished a) /\ refusal (f a) = refusal a.
Proof.
  intros a H. unfold f, reval. rewrite finished_id. destruct (Nat.eqb_spec (a_id a) id) as [E|E]; [|split; reflexivity]. specialize (H E).
  unfold finished, checked, refusal. cbn [a_dyn arg_cfg a_cfg c_valid cfg_valid]. rewrite H. destruct p, (c_valid (a_cfg a)); split; reflexivity.
Qed.
Lemma events_reval : forall a, arg_events (f a) = arg_events a.
Proof. intros a. unfold f, reval. destruct (Nat.eqb (a_id a) id); reflexivity. Qed.
Lemma trouble_reval : forall a, (a_id a = id -> isExists a = false) -> trouble (f a) = trouble a.
Proof. intros a H. destruct (finished_reval a H) as [E1 E2]. unfold trouble. now rewrite E2, E1, events_reval. Qed.

(** two parsers that differ in that validator only (and in the log of deletions) *)
Definition revalidated (s s1 : state) : Prop := with_freed s1 [] = with_freed (with_args s (map f (s_args s))) [].
Lemma revalidated_fields : forall s s1, revalidated s s1 ->
  s_args s1 = map f (s_args s) /\ s_map s1 = s_map s /\ s_help s1 = s_help s /\ s_version s1 = s_version s /\ s_modes s1 = s_modes s /\ s_verstr s1 = s_verstr s /\
  s_usage s1 = s_usage s /\ s_bin s1 = s_bin s /\ s_additional s1 = s_additional s /\ s_dlog s1 = s_dlog s.
Proof. intros [] []. unfold revalidated. cbn. intros E. injection E as. subst. repeat split; assumption. Qed.
Lemma revalidated_intro : forall s s1, s_args s1 = map f (s_args s) -> s_map s1 = s_map s -> s_help s1 = s_help s -> s_version s1 = s_version s -> s_modes s1 = s_modes s -> s_verstr s1 = s_verstr s ->
  s_usage s1 = s_usage s -> s_bin s1 = s_bin s -> s_additional s1 = s_additional s -> s_dlog s1 = s_dlog s -> revalidated s s1.
Proof. intros [] []. unfold revalidated. unfold with_freed, with_args. cbn. intros. subst. reflexivity. Qed.
Lemma revalidated_ready : forall s s1, wf0 s -> wf0 s1 -> revalidated s s1 -> (exists a, In a (s_args s) /\ a_id a = id) -> revalidated (ready s) (ready s1).
Proof.
  intros s s1 W W1 R [a0 [Ia0 Ea0]]. destruct (revalidated_fields s s1 R) as [EA [EM [EH [EV [EMo [EVs [EU [EB [EAd ED]]]]]]]]].
  assert (FH : free_help s1 = free_help s) by (unfold free_help; now rewrite EM).
  destruct (ready_cases s W) as [[-> [H|H]]|[-> [H1 H2]]]; destruct (ready_cases s1 W1) as [[-> [H'|H']]|[-> [H1' H2']]]; try exact R; try congruence.
  assert (FI : fresh_id s1 = fresh_id s) by (unfold fresh_id; now rewrite EH, EV, EA, ids_reval).
  assert (NI : fresh_id s <> id).
  { intros Z. rewrite <- Ea0 in Z. unfold fresh_id in Z. assert (a_id a0 <= fold_right Nat.max (Nat.max (opt_id (s_help s)) (opt_id (s_version s))) (map a_id (s_args s))).
    { clear - Ia0. induction (s_args s) as [|x l IH]; [destruct Ia0|]. cbn. destruct Ia0 as [->|Ia0]; [lia | specialize (IH Ia0); lia]. }
    lia. }
  apply revalidated_intro; unfold with_auto_help, registered; cbn; rewrite ?FI, ?FH, ?EM, ?EA; auto.
  pose proof (sort_reval (s_args s ++ [Arg (fresh_id s) 0 (help_cfg (free_help s)) new_dyn])) as SR. unfold sort_by in SR. rewrite <- SR, map_app. f_equal. f_equal. cbn [map]. unfold f, reval. cbn [a_id]. now apply Nat.eqb_neq in NI as ->.
Qed.
Lemma revalidated_calike : forall s s1, revalidated s s1 -> calike (conf_of s) (conf_of s1).
Proof.
  intros s s1 R. destruct (revalidated_fields s s1 R) as [EA [EM [_ [_ [EMo _]]]]]. unfold conf_of. split; cbn; rewrite ?EM, ?EMo; auto.
  rewrite EA. clear EA. induction (s_args s) as [|a l IH]; [constructor|]. cbn [map]. constructor; [|exact IH]. split; cbn [fst snd]; [apply reval_id|].
  unfold f, reval. destruct (Nat.eqb (a_id a) id); repeat split.
Qed.
Lemma revalidated_met : forall t t1, revalidated t t1 -> forall q, met q t1 = met q t.
Proof.
  intros t t1 R q. destruct (revalidated_fields t t1 R) as [EA _]. unfold met. destruct q as [q|]; [|reflexivity]. rewrite EA. clear EA.
  unfold find_ptr. induction (s_args t) as [|a l IH]; [reflexivity|]. cbn [map find]. unfold ptr_of. rewrite reval_id, reval_gen.
  match goal with |- context [if ?b then _ else _] => destruct b end; [now rewrite reval_dyn | exact IH].
Qed.
Lemma revalidated_missing : forall t t1, revalidated t t1 -> map required_error (missing t1) = map required_error (missing t).
Proof.
  intros t t1 R. destruct (revalidated_fields t t1 R) as [EA _]. unfold missing. rewrite EA. clear EA. induction (s_args t) as [|a l IH]; [reflexivity|]. cbn [map filter].
  rewrite reval_dyn, (reval_cfg c_required a) by reflexivity. destruct (c_required (a_cfg a) && negb (d_exist (a_dyn a))); [|exact IH]. cbn [map]. rewrite IH. f_equal.
  unfold required_error. now rewrite (reval_cfg first_of a), (reval_cfg c_type a) by reflexivity.
Qed.
Lemma revalidated_scanned : forall s s1 argv pcs, revalidated (ready s) (ready s1) -> revalidated (scanned argv pcs s) (scanned argv pcs s1).
Proof.
  intros s s1 argv pcs R. destruct (revalidated_fields _ _ R) as [EA [EM [EH [EV [EMo [EVs [EU [EB [EAd ED]]]]]]]]].
  unfold scanned. apply revalidated_intro; cbn [s_args s_map s_help s_version s_modes s_verstr s_usage s_bin s_additional s_dlog with_additional with_args].
  { rewrite EA, !map_map. apply map_ext. intros a. apply read_reval. }
  all: unfold named; rewrite ?EB; destruct (s_bin (ready s)) eqn:Q; cbn; congruence.
Qed.
Lemma revalidated_verdict : forall t t1, revalidated t t1 -> (forall a, In a (s_args t) -> a_id a = id -> isExists a = false) ->
  verdict t1 = verdict t /\ s_args (completion t1) = map f (s_args (completion t)) /\ s_additional (completion t1) = s_additional (completion t) /\ s_dlog (completion t1) = s_dlog (completion t).
Proof.
  intros t t1 R A. destruct (revalidated_fields _ _ R) as [EA [EM [EH [EV [EMo [EVs [EU [EB [EAd ED]]]]]]]]]. split; [|split; [|split]].
  - apply verdict_same.
    + rewrite EH. now apply revalidated_met.
    + rewrite EV. now apply revalidated_met.
    + exact EMo.
    + exact EVs.
    + unfold usage_of. now rewrite (usage_reval t t1 EA EU EB).
    + now apply revalidated_missing.
    + right. right. right. rewrite EA, map_map. apply map_ext_in. intros a Ia. apply trouble_reval. now apply A.
  - unfold completion. cbn [s_args with_dlog with_args]. rewrite EA, !map_map. apply map_ext_in. intros a Ia. apply finished_reval. now apply A.
  - exact EAd.
  - unfold completion. cbn [s_dlog with_dlog]. rewrite ED. f_equal. unfold all_events. rewrite EA.
    assert (X : forall l, (forall a, In a l -> a_id a = id -> isExists a = false) -> flat_map (fun a => fst (arg_events (finished a))) (map f l) = flat_map (fun a => fst (arg_events (finished a))) l).
    { induction l as [|a l IH]; intros H; [reflexivity|]. cbn [map flat_map]. rewrite IH by (intros b Ib; apply H; now right). f_equal.
      destruct (finished_reval a (H a (or_introl eq_refl))) as [-> _]. now rewrite events_reval. }
    now apply X.
Qed.
End Reval.
Lemma update_valid : forall s n p del s1, wf0 s -> step (OpUpdate n [MValid p del]) s = (s1, Ok tt) ->
  exists a, getArgument s n = Ok a /\ In a (arguments s) /\ revalidated (a_id a) p del s s1.
Proof.
  intros s n p del s1 W E. cbn [step] in E. unfold updateArgument in E. unfold bind at 1 2, find_name in E. destruct (assoc n (s_map s)) as [id|] eqn:A; [|discriminate E].
  unfold bind at 1, bind in E. rewrite deref_eq in E. destruct (find_id id (s_args s)) as [a|] eqn:F; [|discriminate E]. cbn [ret] in E.
  destruct (find_id_In _ _ _ F) as [Ia Ea]. subst id. exists a. split; [unfold getArgument; now rewrite A, F|]. split; [exact Ia|].
  cbn [ret run_meths] in E. unfold bind in E. rewrite (meth_eq (MValid p del) s a W Ia) in E. cbn [meth_state outcome] in E. injection E as <-.
  apply revalidated_intro; try reflexivity. cbn. unfold upd_id. apply map_ext_in. intros x Ix. unfold reval.
  destruct (Nat.eqb_spec (a_id x) (a_id a)) as [X|X]; [|reflexivity]. now rewrite (wf_unique s x a W Ix Ia X).
Qed.
Lemma update_valid_usable : forall s n p del s1, usable s -> step (OpUpdate n [MValid p del]) s = (s1, Ok tt) -> usable s1.
Proof.
  intros s n p del s1 U E. pose proof (usable_wf0 s U) as W. destruct (update_valid s n p del s1 W E) as [a [_ [_ R]]]. destruct U as [U1 [U2 U3]].
  destruct (revalidated_fields _ _ _ _ _ R) as [EA [_ [EH [EV _]]]]. split; [|split].
  - eapply reach_step; [exact U1 | exact E | exact Logic.I].
  - intros b Ib. rewrite EA in Ib. apply in_map_iff in Ib. destruct Ib as [c [<- Ic]]. unfold reval. destruct (Nat.eqb (a_id c) (a_id a)); exact (U2 c Ic).
  - destruct U3 as [U3 U4]. unfold pointers_ok, live_ptr in *. rewrite EH, EV, EA.
    assert (X : forall q l x, find_ptr q l = Some x -> exists y, find_ptr q (map (reval (a_id a) p del) l) = Some y).
    { intros q l x. unfold find_ptr. induction l as [|y l IH]; intros F; [discriminate F|]. cbn [map find] in *. rewrite reval_id, reval_gen.
      match goal with H : context [if ?b then _ else _] |- _ => destruct b end; [eexists; reflexivity | now apply IH]. }
    split; [destruct (s_help s); [|exact Logic.I]; destruct U3 as [x F]; eapply X, F | destruct (s_version s); [|exact Logic.I]; destruct U4 as [x F]; eapply X, F].
Qed.
(** The validator of an argument that is not on the command line plays no role: after
    parser.updateArgument(n).valid(p) parseArguments ends the same way, and leaves the same
    values, the same additional arguments and the same writes to destinations. *)
Theorem C30_absent : forall s n p del s1 a argv ws pcs, usable s -> interprets s -> command_line argv ws -> reads s ws pcs ->
  step (OpUpdate n [MValid p del]) s = (s1, Ok tt) -> getArgument s n = Ok a -> on_line (a_id a) pcs = false ->
  exists t t1 r, parseArguments argv s = (t, r) /\ parseArguments argv s1 = (t1, r) /\
    (r = Ok tt -> arguments t1 = map (fun x => if Nat.eqb (a_id x) (a_id a) then arg_cfg x (cfg_valid (a_cfg x) p del) else x) (arguments t) /\
       getAdditionalArguments t1 = getAdditionalArguments t /\ s_dlog t1 = s_dlog t).
Proof.
  intros s n p del s1 a argv ws pcs U I C R E G O. pose proof (usable_wf0 s U) as W. destruct (update_valid s n p del s1 W E) as [a' [G' [Ia RV]]].
  assert (a' = a) by congruence. subst a'. pose proof (update_valid_usable s n p del s1 U E) as U1. pose proof (usable_wf0 s1 U1) as W1.
  destruct (revalidated_fields _ _ _ _ _ RV) as [_ [EM [EH _]]].
  assert (I1 : interprets s1) by (unfold interprets, free_help in *; now rewrite EH, EM).
  pose proof (revalidated_ready _ _ _ s s1 W W1 RV (ex_intro _ a (conj Ia eq_refl))) as RR.
  assert (R1 : reads s1 ws pcs) by (unfold reads, setup; apply (alike_readings _ _ (revalidated_calike _ _ _ _ _ RR)); exact R).
  destruct (parse_verdict s argv ws pcs U C I R) as [V1 V2]. destruct (parse_verdict s1 argv ws pcs U1 C I1 R1) as [V3 V4].
  destruct (revalidated_verdict _ _ _ _ _ (revalidated_scanned _ _ _ s s1 argv pcs RR)) as [VE [VA [VB VC]]].
  { intros x Ix Ex. change (s_args (scanned argv pcs s)) with (map (read_arg pcs) (s_args (ready s))) in Ix. apply in_map_iff in Ix. destruct Ix as [y [<- Iy]].
    rewrite (read_exist s ws pcs y (usable_ready_wf s U) R Iy). change (a_id (read_arg pcs y)) with (a_id y) in Ex. now rewrite Ex. }
  destruct (parseArguments argv s) as [t r]. destruct (parseArguments argv s1) as [t1 r1]. cbn [fst snd] in *. exists t, t1, r. split; [reflexivity|]. split; [f_equal; congruence|].
  intros ->. rewrite (V2 eq_refl), (V4 ltac:(congruence)). split; [exact VA|]. split; [exact VB | exact VC].
Qed.
Print Assumptions C30_absent.

(** a parser with validators: -u must be in angle brackets afterwards, -c must not be "bad" *)
Definition picky : state := history
  [OpAdd ["-u"] [MValid (Some (Validator 0 (fun vs => VOk true (map (fun v => "<" ^^ v ^^ ">") vs)))) true];
   OpAdd ["-c"; "--check"] [MValid (Some (Validator 1 (fun vs => if mem_str "bad" vs then VThrow "no" else VOk true vs))) true]].
Lemma picky_usable : usable picky /\ interprets picky.
Proof. split; [apply careful_usable, careful_history; vm_compute; reflexivity | right; vm_compute; discriminate]. Qed.
Example C30_example : exists s', parseArguments ["prog"; "-u"; "k"; "-c"; "ok"] picky = (s', Ok tt) /\
  to_vector (pick "-u" s') = Ok ["<k>"] /\ to_vector (pick "-c" s') = Ok ["ok"].
Proof. eexists. split; [vm_compute; reflexivity | split; vm_compute; reflexivity]. Qed.
Example C30_refused_example : exists pcs l1 b l2 s', reads picky ["-u"; "k"; "-c"; "bad"] pcs /\ arguments (ready picky) = l1 ++ b :: l2 /\
  refused pcs b = Some (Exn KValid "-c" "no") /\ parseArguments ["prog"; "-u"; "k"; "-c"; "bad"] picky = (s', Throw (Exn KValid "-c" "no")).
Proof.
  eexists. exists [], (pick "-c" (ready picky)). eexists. eexists. split; [reading|]. split; [vm_compute; reflexivity|]. split; vm_compute; reflexivity.
Qed.
(** -c is absent: with another validator for it the result is the same *)
Example C30_absent_example : exists s1 pcs, step (OpUpdate "-c" [MValid None false]) picky = (s1, Ok tt) /\ reads picky ["-u"; "k"] pcs /\
  (exists a, getArgument picky "-c" = Ok a /\ on_line (a_id a) pcs = false).
Proof. eexists. eexists. split; [vm_compute; reflexivity|]. split; [reading|]. eexists. split; vm_compute; reflexivity. Qed.
