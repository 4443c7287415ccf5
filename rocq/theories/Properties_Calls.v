(** Properties_Calls.v -- C71: which validators parseArguments calls, when, and with what. *)
From Coq Require Import Permutation Sorted.
From Verif Require Import Base Model_Utils Model_Number Model_Types Model_Argument Model_Usage Model_Args Model_Api Model_Calls
  Spec_Order Spec_Names Spec_Reading Spec_Parse Spec_Decl Spec_Finish Spec_History Spec_Api Spec_Result
  Proofs_Base Proofs_Order Proofs_Frame Proofs_Inv Proofs_ReadFacts Proofs_Reading Proofs_Parse Proofs_Decl Proofs_Finish
  Proofs_Meth Proofs_History Proofs_Config Proofs_Check Proofs_Names Proofs_Central Proofs_Dyn Properties_Words Demo Properties_Parse Proofs_Swap Proofs_Kind
  Proofs_Values Properties_Values Properties_Positional Proofs_Quiet Proofs_Fresh Properties_Defaults Properties_Repeat Proofs_Alike Properties_Final Proofs_Shape Properties_Exact Properties_Views Properties_Errors.

(* ------------------------------------------------------------------ *)
(** * the record changes nothing *)
Lemma tbind_erase : forall A B (m : T A) (f : A -> T B) (m' : M A) (f' : A -> M B) s,
  fst (m s) = m' s -> (forall a s1, fst (f a s1) = f' a s1) -> fst (tbind m f s) = bind m' f' s.
Proof.
  intros A B m f m' f' s H1 H2. unfold tbind, bind. destruct (m s) as [[s1 r] l]. cbn [fst] in H1. rewrite <- H1.
  destruct r; try reflexivity. rewrite <- H2. destruct (f a s1). reflexivity.
Qed.
Lemma finish_one_erase : forall id s, fst (finish_one_traced id s) = finish_one id s.
Proof.
  intros id s. unfold finish_one_traced, finish_one. apply tbind_erase; [reflexivity|]. intros a s1. apply tbind_erase.
  - destruct (c_valid (a_cfg a)); [|reflexivity]. destruct (d_exist (a_dyn a)); reflexivity.
  - intros _ s2. apply tbind_erase; reflexivity.
Qed.
Lemma finish_erase : forall ids s, fst (finish_traced ids s) = finish ids s.
Proof.
  induction ids as [|id r IH]; intros s; [reflexivity|]. cbn [finish_traced finish]. apply tbind_erase; [apply finish_one_erase|]. intros _ s1. apply IH.
Qed.
Lemma after_scan_erase : forall s, fst (after_scan_traced s) = after_scan s.
Proof.
  intros s. unfold after_scan_traced, after_scan. do 3 (apply tbind_erase; [reflexivity|]; intros _ ?).
  apply tbind_erase; [reflexivity|]. intros t s3. apply finish_erase.
Qed.
(** The record is only a record: the object and the result are those of parseArguments. *)
Theorem C71_same : forall argv s, fst (parseArguments_traced argv s) = parseArguments argv s.
Proof.
  intros argv s. unfold parseArguments_traced, parseArguments, parse_with_traced, parse_with.
  apply tbind_erase; [reflexivity|]. intros _ s1. apply tbind_erase; [reflexivity|]. intros [] s2; [reflexivity|].
  apply tbind_erase; [reflexivity|]. intros _ s3. apply after_scan_erase.
Qed.
Print Assumptions C71_same.

(** what parseArguments(argv) does to user code and variables, in order *)
Definition happenings (argv : list str) (s : state) : list happening := snd (parseArguments_traced argv s).

(* ------------------------------------------------------------------ *)
(** * closed forms *)
Definition checks (a : argument) : list happening :=
  match c_valid (a_cfg a) with
  | Some v => if d_exist (a_dyn a) then [Called (v_id v) (plain_values a)] else []
  | None => []
  end.
Definition served (a : argument) : list happening := match refusal a with Some _ => [] | None => map Delivered (fst (arg_events (finished a))) end.

Lemma tbind_ok : forall A B (m : T A) (f : A -> T B) s s1 a l, m s = (s1, Ok a, l) -> snd (tbind m f s) = l ++ snd (f a s1) /\ fst (tbind m f s) = fst (f a s1).
Proof. intros A B m f s s1 a l E. unfold tbind. rewrite E. destruct (f a s1). split; reflexivity. Qed.
Lemma tbind_stop : forall A B (m : T A) (f : A -> T B) s, (forall a, snd (fst (m s)) <> Ok a) -> snd (tbind m f s) = snd (m s).
Proof. intros A B m f s H. unfold tbind. destruct (m s) as [[s1 r] l]. destruct r; try reflexivity. exfalso. exact (H a eq_refl). Qed.

Lemma skipn_app_len : forall A (l m : list A), skipn (length l) (l ++ m) = m.
Proof. induction l as [|x l IH]; intros m; [reflexivity | exact (IH m)]. Qed.

Lemma dest_trace : forall s a, find_id (a_id a) (s_args s) = Some a -> snd (toDest_traced (a_id a) s) = map Delivered (fst (arg_events a)).
Proof.
  intros s a F. unfold toDest_traced. cbn [snd]. f_equal. unfold toDest, arg_events, deref, bind. unfold get, ret, ub. rewrite F.
  destruct (c_dest (a_cfg a)) as [d|].
  - destruct (dest_events a d) as [evs o]. unfold modify. destruct o; cbn [fst snd s_dlog with_dlog]; apply skipn_app_len.
  - cbn [fst]. rewrite <- (app_nil_r (s_dlog s)) at 2. apply skipn_app_len.
Qed.

Lemma check_step : forall s a, NoDup (map a_id (s_args s)) -> find_id (a_id a) (s_args s) = Some a -> has_name a = true ->
  forall v, c_valid (a_cfg a) = Some v -> d_exist (a_dyn a) = true ->
  validate a v s = match refusal a with Some e => (s, Throw e) | None => (put (checked a) s, Ok tt) end.
Proof.
  intros s a ND F HN v EV EX. unfold refusal, checked. rewrite EV, EX.
  unfold validate. rewrite plain_values_eq.
  assert (FR : forall m, (do f <- front (c_names (a_cfg a));; throw KValid f m) s = (s, Throw (invalid a m)) :> state * res unit).
  { intros m. unfold has_name in HN. unfold invalid, first_of. destruct (c_names (a_cfg a)); [discriminate | reflexivity]. }
  destruct (v_fn v (plain_values a)) as [[] vs|msg|]; try apply FR; try reflexivity.
  unfold has_values, arity_of, stored. destruct (find_id_In _ _ _ F) as [Ia _].
  destruct (c_type (a_cfg a)); try apply FR; try (rewrite set_dyn_put by assumption; reflexivity);
    (destruct vs as [|x vs]; [simpl; rewrite arg_dyn_id, put_same by assumption; reflexivity | rewrite set_dyn_put by assumption; reflexivity]).
Qed.

Lemma number_step : forall s a, NoDup (map a_id (s_args s)) -> find_id (a_id a) (s_args s) = Some a ->
  toNumber (a_id a) (put (checked a) s) = (put (finished a) s, Ok tt).
Proof.
  intros s a ND F. set (b := checked a). assert (Eb : a_id b = a_id a) by apply checked_id.
  assert (ND1 : NoDup (map a_id (s_args (put b s)))) by (rewrite put_ids; exact ND).
  assert (F1 : find_id (a_id a) (s_args (put b s)) = Some b).
  { rewrite <- Eb. eapply put_find. rewrite Eb. exact F. }
  unfold toNumber. assert (D1 : deref (a_id a) (put b s) = (put b s, Ok b)) by (rewrite deref_eq, F1; reflexivity).
  rewrite (bind_ok _ _ _ _ _ D1). rewrite <- Eb at 1. rewrite set_dyn_put; [|exact ND1|rewrite Eb; exact F1].
  rewrite put_put; reflexivity.
Qed.

Lemma finish_one_trace : forall s a, NoDup (map a_id (s_args s)) -> find_id (a_id a) (s_args s) = Some a -> has_name a = true ->
  snd (finish_one_traced (a_id a) s) = checks a ++ served a.
Proof.
  intros s a ND F HN. unfold finish_one_traced.
  assert (D : quietly (deref (a_id a)) s = (s, Ok a, [])) by (unfold quietly; rewrite deref_eq, F; reflexivity).
  rewrite (proj1 (tbind_ok _ _ _ _ _ _ _ _ D)). cbn [app]. clear D.
  assert (REST : snd ((quietly (toNumber (a_id a)) ;;;; toDest_traced (a_id a)) (put (checked a) s)) = map Delivered (fst (arg_events (finished a)))).
  { assert (TN : quietly (toNumber (a_id a)) (put (checked a) s) = (put (finished a) s, Ok tt, [])) by (unfold quietly; rewrite number_step by assumption; reflexivity).
    rewrite (proj1 (tbind_ok _ _ _ _ _ _ _ _ TN)). cbn [app]. rewrite <- (finished_id a). apply dest_trace. eapply put_find. rewrite finished_id. exact F. }
  assert (NOV : checked a = a -> refusal a = None -> forall m : T unit, m s = (s, Ok tt, []) ->
     snd ((m ;;;; quietly (toNumber (a_id a)) ;;;; toDest_traced (a_id a)) s) = served a).
  { intros HC HR m E. rewrite (proj1 (tbind_ok _ _ _ _ _ _ _ _ E)). cbn [app]. unfold served. rewrite HR. rewrite <- REST. f_equal. f_equal.
    rewrite HC. symmetry. apply put_same; [exact ND | exact (proj1 (find_id_In _ _ _ F))]. }
  destruct (c_valid (a_cfg a)) as [v|] eqn:EV.
  2:{ replace (checks a) with (@nil happening) by (unfold checks; rewrite EV; reflexivity). cbn [app]. apply NOV; [unfold checked; rewrite EV; reflexivity | unfold refusal; rewrite EV; reflexivity | reflexivity]. }
  destruct (d_exist (a_dyn a)) eqn:EX.
  2:{ replace (checks a) with (@nil happening) by (unfold checks; rewrite EV, EX; reflexivity). cbn [app]. apply NOV; [unfold checked; rewrite EV, EX; reflexivity | unfold refusal; rewrite EV, EX; reflexivity | reflexivity]. }
  pose proof (check_step s a ND F HN v EV EX) as CS.
  assert (CK : (record [Called (v_id v) (match to_vector a with Ok l => l | _ => [] end)] ;;;; quietly (validate a v)) s = (validate a v s, checks a)).
  { unfold tbind, record, quietly. unfold checks. rewrite EV, EX, plain_values_eq. reflexivity. }
  unfold served. destruct (refusal a) as [e|].
  - rewrite tbind_stop by (rewrite CK, CS; cbn [fst snd]; discriminate). rewrite CK. cbn [snd]. rewrite app_nil_r. reflexivity.
  - rewrite CS in CK. rewrite (proj1 (tbind_ok _ _ _ _ _ _ _ _ CK)). rewrite REST. reflexivity.
Qed.

Lemma finish_trace : forall todo done s, NoDup (map a_id (done ++ todo)) -> s_args s = done ++ todo ->
  (forall a, In a todo -> has_name a = true) ->
  (Forall (fun b => trouble b = None) todo -> snd (finish_traced (map a_id todo) s) = flat_map (fun a => checks a ++ served a) todo) /\
  (forall before a after e, todo = before ++ a :: after -> Forall (fun b => trouble b = None) before -> trouble a = Some e ->
     snd (finish_traced (map a_id todo) s) = flat_map (fun a => checks a ++ served a) (before ++ [a])).
Proof.
  induction todo as [|a todo IH]; intros done s ND ES HN.
  - split; [reflexivity|]. intros before a after e H. destruct before; discriminate H.
  - cbn [map finish_traced].
    assert (F : find_id (a_id a) (s_args s) = Some a).
    { apply In_find_id; [rewrite ES; exact ND|]. rewrite ES. apply in_or_app. right. now left. }
    assert (ND1 : NoDup (map a_id (s_args s))) by (rewrite ES; exact ND).
    pose proof (finish_one_eq s a ND1 F (HN a (or_introl eq_refl))) as FO.
    pose proof (finish_one_trace s a ND1 F (HN a (or_introl eq_refl))) as FT.
    assert (GO : trouble a = None -> exists s1, finish_one_traced (a_id a) s = (s1, Ok tt, checks a ++ served a) /\ s_args s1 = (done ++ [finished a]) ++ todo).
    { intros T0. unfold trouble in T0. destruct (refusal a); [discriminate T0|]. rewrite T0 in FO. cbn [outcome fst snd] in FO.
      assert (EP : s_args (put (finished a) s) = done ++ finished a :: todo) by apply (put_middle s done a (finished a) todo ND (finished_id a) ES).
      eexists. split.
      - rewrite <- FT. rewrite <- (finish_one_erase (a_id a) s) in FO. destruct (finish_one_traced (a_id a) s) as [p l]. cbn [fst snd] in *. rewrite FO. reflexivity.
      - rewrite <- app_assoc. exact EP. }
    assert (ND2 : NoDup (map a_id ((done ++ [finished a]) ++ todo))).
    { rewrite <- app_assoc. rewrite map_app in ND |- *. cbn [map app] in ND |- *. rewrite finished_id. exact ND. }
    split.
    + intros FA. inversion FA; subst. destruct (GO H1) as [s1 [E1 A1]]. rewrite (proj1 (tbind_ok _ _ _ _ _ _ _ _ E1)).
      cbn [flat_map]. f_equal. apply (IH (done ++ [finished a]) s1 ND2 A1 (fun b Hb => HN b (or_intror Hb))). exact H2.
    + intros before b after e Q FB TB. destruct before as [|x before]; cbn [app] in Q; injection Q as -> Q.
      * subst after. cbn [app flat_map]. rewrite app_nil_r. rewrite tbind_stop; [exact FT|]. intros u. rewrite finish_one_erase.
        unfold trouble in TB. destruct (refusal b); [rewrite FO; discriminate|]. rewrite FO, TB. cbn [outcome fst snd]. discriminate.
      * inversion FB; subst. destruct (GO H1) as [s1 [E1 A1]]. rewrite (proj1 (tbind_ok _ _ _ _ _ _ _ _ E1)).
        cbn [flat_map app]. f_equal. exact (proj2 (IH (done ++ [finished x]) s1 ND2 A1 (fun c Hc => HN c (or_intror Hc))) before b after e eq_refl H2 TB).
Qed.

Lemma checks_of_help : forall s, wf0 s -> pointers_ok s ->
  (met (s_help s) s = true \/ met (s_version s) s = true \/ missing s <> [] -> snd (after_scan_traced s) = []) /\
  (met (s_help s) s = false -> met (s_version s) s = false -> missing s = [] -> snd (after_scan_traced s) = snd (finish_traced (map a_id (s_args s)) s)).
Proof.
  intros s W [PH PV]. unfold after_scan_traced.
  destruct (usage_ok s W) as [t Ht].
  assert (CH : check_help s = if met (s_help s) s then (if m_helpex (s_modes s) then (s, Throw (Exn KHelp "" t)) else (fst (clear s), Exit (t ^^ nl))) else (s, Ok tt)).
  { unfold check_help. unfold bind at 1, get. unfold print_or_throw, bind at 1, get. rewrite Ht. unfold met. destruct (s_help s) as [q|]; [|reflexivity].
    destruct PH as [a Fa]. rewrite Fa. destruct (d_exist (a_dyn a)); [|reflexivity]. destruct (m_helpex (s_modes s)); reflexivity. }
  assert (CV : check_version s = if met (s_version s) s then (if m_verex (s_modes s) then (s, Throw (Exn KVersion "" (s_verstr s))) else (fst (clear s), Exit (s_verstr s ^^ nl))) else (s, Ok tt)).
  { unfold check_version. unfold bind at 1, get. unfold print_or_throw, bind at 1, get. unfold met. destruct (s_version s) as [q|]; [|reflexivity].
    destruct PV as [a Fa]. rewrite Fa. destruct (d_exist (a_dyn a)); [|reflexivity]. destruct (m_verex (s_modes s)); reflexivity. }
  assert (CR : check_required s = match missing s with a :: _ => (s, Throw (required_error a)) | [] => (s, Ok tt) end).
  { unfold check_required, missing, bind at 1, get.
    assert (FF : forall {A} (p : A -> bool) l, find p l = hd_error (filter p l)).
    { intros A p l. induction l as [|x l IH]; simpl; [reflexivity|]. destruct (p x); [reflexivity | exact IH]. }
    rewrite FF.
    destruct (filter (fun a => c_required (a_cfg a) && negb (d_exist (a_dyn a))) (s_args s)) as [|a l] eqn:FL; cbn [hd_error]; [reflexivity|].
    assert (Ia : In a (s_args s)) by (eapply proj1, filter_In; rewrite FL; now left).
    pose proof (wf0_has_name s W) as HN. rewrite forallb_forall in HN. specialize (HN a Ia). unfold has_name in HN.
    unfold required_error, first_of. destruct (c_names (a_cfg a)); [discriminate|].
    destruct (c_type (a_cfg a)); reflexivity. }
  destruct (met (s_help s) s).
  { split; [|discriminate]. intros _. rewrite tbind_stop; [reflexivity|]. intros u. unfold quietly. cbn [fst]. rewrite CH. destruct (m_helpex (s_modes s)); discriminate. }
  assert (QH : quietly check_help s = (s, Ok tt, [])) by (unfold quietly; rewrite CH; reflexivity).
  rewrite (proj1 (tbind_ok _ _ _ _ _ _ _ _ QH)). cbn [app].
  destruct (met (s_version s) s).
  { split; [|discriminate]. intros _. rewrite tbind_stop; [reflexivity|]. intros u. unfold quietly. cbn [fst]. rewrite CV. destruct (m_verex (s_modes s)); discriminate. }
  assert (QV : quietly check_version s = (s, Ok tt, [])) by (unfold quietly; rewrite CV; reflexivity).
  rewrite (proj1 (tbind_ok _ _ _ _ _ _ _ _ QV)). cbn [app].
  destruct (missing s) as [|a l].
  - assert (QR : quietly check_required s = (s, Ok tt, [])) by (unfold quietly; rewrite CR; reflexivity).
    rewrite (proj1 (tbind_ok _ _ _ _ _ _ _ _ QR)). cbn [app]. split; [intros [H|[H|H]]; [discriminate H | discriminate H | elim H; reflexivity]|]. intros _ _ _.
    assert (QG : quietly get s = (s, Ok s, [])) by reflexivity. rewrite (proj1 (tbind_ok _ _ _ _ _ _ _ _ QG)). reflexivity.
  - split; [|discriminate]. intros _. rewrite tbind_stop; [reflexivity|]. intros u. unfold quietly. cbn [fst]. rewrite CR. discriminate.
Qed.

(** the record of the whole call *)
Lemma parse_trace : forall s argv, wf0 s ->
  (interprets s -> happenings argv s = snd ((quietly (scan (parse_fuel argv s) argv) ;;;; after_scan_traced) (prepared s))) /\ (~ interprets s -> happenings argv s = []).
Proof.
  intros s argv W. unfold happenings, parseArguments_traced, parse_with_traced. set (fuel := parse_fuel argv s).
  assert (Q : quietly (modify (fun s => with_args s (map clear_arg (s_args s)))) s = (cleared s, Ok tt, [])) by reflexivity.
  rewrite (proj1 (tbind_ok _ _ _ _ _ _ _ _ Q)). cbn [app]. clear Q.
  pose proof (help_setup_eq (cleared s) (wf0_cleared s W)) as HS.
  change (s_help (cleared s)) with (s_help s) in HS. change (free_help (cleared s)) with (free_help s) in HS.
  unfold interprets, prepared. destruct (s_help s) as [p|].
  - assert (Q : quietly help_setup (cleared s) = (cleared s, Ok false, [])) by (unfold quietly; rewrite HS; reflexivity).
    rewrite (proj1 (tbind_ok _ _ _ _ _ _ _ _ Q)). cbn [app]. split; [reflexivity | intros H; exfalso; apply H; left; discriminate].
  - destruct (free_help s) as [|x l].
    + assert (Q : quietly help_setup (cleared s) = (cleared s, Ok true, [])) by (unfold quietly; rewrite HS; reflexivity).
      rewrite (proj1 (tbind_ok _ _ _ _ _ _ _ _ Q)). cbn [app]. split; [intros [H|H]; [elim H; reflexivity | elim H; reflexivity] | reflexivity].
    + assert (Q : quietly help_setup (cleared s) = (with_auto_help (cleared s), Ok false, [])) by (unfold quietly; rewrite HS; reflexivity).
      rewrite (proj1 (tbind_ok _ _ _ _ _ _ _ _ Q)). cbn [app]. split; [reflexivity | intros H; exfalso; apply H; right; discriminate].
Qed.

Lemma scan_total : forall s argv ws, usable s -> command_line argv ws ->
  (exists pcs, reads s ws pcs /\ scan (parse_fuel argv s) argv (prepared s) = (scanned argv pcs s, Ok tt)) \/
  (exists e s0, rejects s ws e /\ scan (parse_fuel argv s) argv (prepared s) = (s0, Throw e)).
Proof.
  intros s argv ws U C. pose proof (usable_wf s U) as W. destruct U as [R [S P]].
  destruct (scan_eq (prepared s) argv ws (parse_fuel argv s) (wf_prepared s W) (opt_nargs_prepared s (reach_opt_nargs s R)) (sensible_prepared s S) C)
    as [[pcs [RD E]]|[e' [s' [RD [F E]]]]].
  - unfold parse_fuel.
    assert (length (s_args (prepared s)) <= length (s_args s) + 1); [|lia].
    unfold prepared. destruct (s_help s); [simpl; rewrite map_length; lia|]. destruct (free_help s); [simpl; rewrite map_length; lia|].
    unfold with_auto_help, registered; simpl. rewrite <- (Permutation_length (sort_perm arg_lt _)), app_length, map_length; simpl; lia.
  - intros a Ia. now apply prepared_absent in Ia.
  - apply pos_left_prepared.
  - left. exists pcs. rewrite (setup_prepared s (proj1 W)) in RD. split; [exact RD|]. rewrite E, (prepared_ready s (proj1 W)), after_reading_scanned. reflexivity.
  - right. exists e', s'. rewrite (setup_prepared s (proj1 W)) in RD. split; [exact RD | exact E].
Qed.

Lemma trace_reads : forall s argv ws pcs, usable s -> command_line argv ws -> interprets s -> reads s ws pcs ->
  happenings argv s = snd (after_scan_traced (scanned argv pcs s)).
Proof.
  intros s argv ws pcs U C I R. rewrite (proj1 (parse_trace s argv (usable_wf0 s U)) I).
  destruct (scan_total s argv ws U C) as [[p [Rp E]]|[e [s0 [RJ _]]]].
  - rewrite (Reading_det _ _ _ _ R _ Rp).
    assert (Q : quietly (scan (parse_fuel argv s) argv) (prepared s) = (scanned argv p s, Ok tt, [])) by (unfold quietly; rewrite E; reflexivity).
    rewrite (proj1 (tbind_ok _ _ _ _ _ _ _ _ Q)). reflexivity.
  - exfalso. exact (Reading_not_fails _ _ _ _ R _ RJ).
Qed.
Lemma trace_rejects : forall s argv ws e, usable s -> command_line argv ws -> interprets s -> rejects s ws e -> happenings argv s = [].
Proof.
  intros s argv ws e U C I R. rewrite (proj1 (parse_trace s argv (usable_wf0 s U)) I).
  destruct (scan_total s argv ws U C) as [[p [Rp E]]|[e' [s0 [RJ E]]]].
  - exfalso. exact (Reading_not_fails _ _ _ _ Rp _ R).
  - rewrite tbind_stop; [reflexivity|]. intros u. unfold quietly. cbn [fst]. rewrite E. discriminate.
Qed.

(* ------------------------------------------------------------------ *)
(** * C71 *)
(** the call of the validator of [b], if it has one and is on the line read as [pcs]: with
    the values the line gives it *)
Definition call (pcs : list piece) (b : argument) : list happening :=
  match c_valid (a_cfg b) with
  | Some v => if on_line (a_id b) pcs then [Called (v_id v) (line_values pcs b)] else []
  | None => []
  end.
(** the variable a write concerns *)
Definition target (e : devent) : nat :=
  match e with EvAssign c _ | EvPush c _ | EvPushVec c _ | EvCall c _ _ | EvCallV c _ _ | EvCallVV c _ _ => c end.
(** a write to the destination of [b] *)
Definition goes_to (b : argument) (e : devent) : Prop := exists d, c_dest (a_cfg b) = Some d /\ target e = d_cell d.

Lemma ev_seq_In : forall l e, In e (fst (ev_seq l)) -> exists x, In x l /\ In e (fst x).
Proof.
  induction l as [|[es o] l IH]; intros e H; [destruct H|]. cbn [ev_seq] in H. destruct o as [x|].
  - exists (es, Some x). split; [left; reflexivity | exact H].
  - destruct (ev_seq l) as [es' o'] eqn:Q. cbn [fst] in *. apply in_app_iff in H. destruct H as [H|H].
    + exists (es, None). split; [left; reflexivity | exact H].
    + destruct (IH e H) as [x [Ix Hx]]. exists x. split; [right; exact Ix | exact Hx].
Qed.
Lemma events_goes : forall a e, In e (fst (arg_events a)) -> goes_to a e.
Proof.
  intros a e H. unfold arg_events in H. destruct (c_dest (a_cfg a)) as [d|] eqn:D; [|destruct H]. exists d. split; [exact D|].
  assert (OF : forall r f, (forall v, target (f v) = d_cell d) -> In e (fst (ev_of r f)) -> target e = d_cell d).
  { intros r f Hf I. unfold ev_of in I. destruct r; cbn [fst] in I; try (destruct I; fail). destruct I as [<-|[]]. apply Hf. }
  unfold dest_events in H. destruct (d_kind d).
  - destruct (d_custom d); [destruct H as [<-|[]]; reflexivity|]. exact (OF _ (EvAssign (d_cell d)) (fun _ => eq_refl) H).
  - destruct (d_custom d); [destruct H as [<-|[]]; reflexivity|]. destruct (d_elems (a_dyn a)) as [|x es].
    + exact (OF _ (EvPush (d_cell d)) (fun _ => eq_refl) H).
    + apply ev_seq_In in H. destruct H as [y [Iy H]]. apply in_map_iff in Iy. destruct Iy as [w [<- _]]. exact (OF _ (EvPush (d_cell d)) (fun _ => eq_refl) H).
  - destruct (d_custom d); [destruct H as [<-|[]]; reflexivity|]. destruct (d_elems (a_dyn a)) as [|x es].
    + exact (OF _ (fun v => EvPushVec (d_cell d) [v]) (fun _ => eq_refl) H).
    + apply ev_seq_In in H. destruct H as [y [Iy H]]. apply in_map_iff in Iy. destruct Iy as [w [<- _]].
      destruct (res_all (map (str_to (d_ty d) true) (elem_strings w))) as [vs [q|]]; [destruct H|]. destruct H as [<-|[]]. reflexivity.
Qed.
Lemma no_events : forall a e, snd (arg_events a) = Some e -> fst (arg_events a) = [] /\ exists d, c_dest (a_cfg a) = Some d /\ d_custom d = false /\ d_ty d = TyUnsupported.
Proof.
  intros a e X. unfold arg_events in *. destruct (c_dest (a_cfg a)) as [d|] eqn:D; [|discriminate X].
  assert (NS : ~ supported d).
  { intros SU. assert (WB : writable a) by (unfold writable; rewrite D; exact SU). apply writable_events in WB. unfold arg_events in WB. rewrite D in WB. congruence. }
  unfold supported in NS. assert (CU : d_custom d = false) by (destruct (d_custom d); [elim NS; now left | reflexivity]).
  assert (TY : d_ty d = TyUnsupported) by (destruct (d_ty d); [elim NS; right; discriminate | elim NS; right; discriminate | reflexivity]).
  split; [|exists d; split; [reflexivity | split; assumption]].
  unfold dest_events. rewrite CU, TY.
  assert (ST : single_to TyUnsupported a = Throw (Exn KParse "" "destination method not found for this type")) by (unfold single_to, bool_to, str_to; destruct (c_type (a_cfg a)); reflexivity).
  rewrite ST. destruct (d_kind d); [reflexivity | |]; destruct (d_elems (a_dyn a)) as [|x es]; try reflexivity.
  - cbn [flat_map]. unfold elem_strings at 1. destruct (el_subs x) eqn:L; [reflexivity|]. unfold elem_values. rewrite L. reflexivity.
  - cbn [map]. unfold elem_strings at 1. destruct (el_subs x) eqn:L; [reflexivity|]. unfold elem_values. rewrite L. reflexivity.
Qed.

Lemma checks_call : forall s ws pcs b, usable s -> reads s ws pcs -> In b (arguments (ready s)) -> checks (read_arg pcs b) = call pcs b.
Proof.
  intros s ws pcs b U R Ib. unfold checks, call. change (a_cfg (read_arg pcs b)) with (a_cfg b).
  rewrite (read_exist s ws pcs b (usable_ready_wf s U) R Ib). destruct (c_valid (a_cfg b)); [|reflexivity]. destruct (on_line (a_id b) pcs) eqn:O; [|reflexivity].
  rewrite (line_read s ws pcs b U R Ib O). reflexivity.
Qed.
(** what is written to the destination of [b] *)
Definition written (pcs : list piece) (b : argument) : list devent := fst (arg_events (finished (read_arg pcs b))).
Lemma written_goes : forall pcs b e, In e (written pcs b) -> goes_to b e.
Proof.
  intros pcs b e H. apply events_goes in H. destruct H as [d [D T]]. exists d. rewrite finished_cfg in D. split; [exact D | exact T].
Qed.

Lemma part_trace : forall s ws pcs l, usable s -> reads s ws pcs -> (forall b, In b l -> In b (arguments (ready s))) ->
  Forall (fun b => trouble b = None) (map (read_arg pcs) l) ->
  flat_map (fun a => checks a ++ served a) (map (read_arg pcs) l) = flat_map (fun b => call pcs b ++ map Delivered (written pcs b)) l.
Proof.
  intros s ws pcs l U R IN FA. rewrite !flat_map_concat_map, map_map. f_equal. apply map_ext_in. intros b Ib.
  rewrite (checks_call s ws pcs b U R (IN b Ib)). f_equal. unfold served, written.
  rewrite Forall_forall in FA. specialize (FA (read_arg pcs b) (in_map _ _ _ Ib)). unfold trouble in FA. destruct (refusal (read_arg pcs b)); [discriminate FA | reflexivity].
Qed.
Lemma scanned_names : forall s argv pcs, usable s -> forall a, In a (s_args (scanned argv pcs s)) -> has_name a = true.
Proof.
  intros s argv pcs U a Ia. destruct (usable_scanned s argv pcs U) as [W _]. pose proof (wf0_has_name _ (proj1 W)) as HN. rewrite forallb_forall in HN. exact (HN a Ia).
Qed.

(** parseArguments returned: the validator of each argument on the command line was called
    once, with the values of the line, in the order of the listing, and after each call
    the destination of that argument was served before the next argument's turn; no other
    validator was called. *)
Theorem C71_accepted : forall s argv ws s' pcs, usable s -> interprets s -> command_line argv ws -> parseArguments argv s = (s', Ok tt) -> reads s ws pcs ->
  exists W, happenings argv s = flat_map (fun b => call pcs b ++ map Delivered (W b)) (arguments (ready s)) /\
    s_dlog s' = s_dlog s ++ flat_map W (arguments (ready s)) /\ (forall b e, In e (W b) -> goes_to b e).
Proof.
  intros s argv ws s' pcs U I C E R. exists (written pcs). split; [|split; [|exact (written_goes pcs)]].
  - rewrite (trace_reads s argv ws pcs U C I R). set (t := scanned argv pcs s). destruct (usable_scanned s argv pcs U) as [W P]. fold t in W, P.
    destruct (parse_ok s argv ws s' U C I E) as [p [Rp [_ [[M1 M2] [MI FA]]]]]. rewrite <- (Reading_det _ _ _ _ R _ Rp) in *. fold t in M1, M2, MI, FA.
    rewrite (proj2 (checks_of_help t (proj1 W) P) M1 M2 MI).
    rewrite (proj1 (finish_trace (s_args t) [] t (wf_ids t (proj1 W)) eq_refl (scanned_names s argv pcs U)) FA).
    change (s_args t) with (map (read_arg pcs) (s_args (ready s))) in *. apply (part_trace s ws pcs _ U R); [intros b Ib; exact Ib | exact FA].
  - destruct (parse_ok s argv ws s' U C I E) as [p [Rp [ES _]]]. rewrite <- (Reading_det _ _ _ _ R _ Rp) in ES. cbv zeta in ES. rewrite ES. cbn [s_dlog with_dlog].
    rewrite (scanned_dlog s argv pcs (usable_wf0 s U)). f_equal. unfold all_events, written, scanned. cbn [s_args with_additional with_args].
    rewrite !flat_map_concat_map, map_map. reflexivity.
Qed.
Print Assumptions C71_accepted.

(** The last stage failed: the arguments before the one in trouble had their turn, the
    validator of that one was called if it is on the line, and then nothing was called or
    written any more. *)
Theorem C71_stopped : forall s argv ws s' pcs e, usable s -> interprets s -> command_line argv ws -> parseArguments argv s = (s', Throw e) -> reads s ws pcs ->
  x_kind e <> KHelp -> x_kind e <> KVersion -> x_kind e <> KRequired ->
  exists l1 b l2 W, arguments (ready s) = l1 ++ b :: l2 /\
    happenings argv s = flat_map (fun x => call pcs x ++ map Delivered (W x)) l1 ++ call pcs b /\
    s_dlog s' = s_dlog s ++ flat_map W l1 /\ (forall x ev, In ev (W x) -> goes_to x ev) /\
    (forall x, In x l1 -> refused pcs x = None) /\
    (refused pcs b = Some e \/ (refused pcs b = None /\ exists d, c_dest (a_cfg b) = Some d /\ d_custom d = false /\ d_ty d = TyUnsupported)).
Proof.
  intros s argv ws s' pcs e U I C E R K1 K2 K3.
  pose proof (trace_reads s argv ws pcs U C I R) as TR. set (t := scanned argv pcs s) in *. destruct (usable_scanned s argv pcs U) as [W P]. fold t in W, P.
  pose proof (parse_finish s argv ws pcs U C I R) as F. rewrite E in F. cbn [fst snd] in F. fold t in F.
  remember (Throw e) as r eqn:Er. destruct F as [H1|H1 H2|a l H1 H2 H3|before a after e' H1 H2 H3 HL H4 H5|H1 H2 H3 H4].
  - exfalso. destruct (m_helpex _); [injection Er as <-; now apply K1 | discriminate Er].
  - exfalso. destruct (m_verex _); [injection Er as <-; now apply K2 | discriminate Er].
  - exfalso. injection Er as <-. now apply K3.
  - injection Er as ->.
    assert (SP : exists l1 b l2, arguments (ready s) = l1 ++ b :: l2 /\ before = map (read_arg pcs) l1 /\ a = read_arg pcs b /\ after = map (read_arg pcs) l2).
    { change (s_args t) with (map (read_arg pcs) (s_args (ready s))) in HL. apply map_eq_app in HL. destruct HL as [l1 [q [E1 [E2 E3]]]].
      apply map_eq_cons in E3. destruct E3 as [b [l2 [E4 [E5 E6]]]]. exists l1, b, l2. rewrite E1, E4. split; [reflexivity|]. split; [symmetry; exact E2|]. split; [symmetry; exact E5 | symmetry; exact E6]. }
    destruct SP as [l1 [b [l2 [EA [EB [Ea EF]]]]]]. exists l1, b, l2, (written pcs). split; [exact EA|].
    assert (Ib : In b (arguments (ready s))) by (rewrite EA; apply in_or_app; right; left; reflexivity).
    assert (IL : forall x, In x l1 -> In x (arguments (ready s))) by (intros x Ix; rewrite EA; apply in_or_app; left; exact Ix).
    assert (SV : served a = []) by (unfold served; unfold trouble in H5; destruct (refusal a); [reflexivity|]; rewrite (proj1 (no_events _ _ H5)); reflexivity).
    split; [|split; [|split; [exact (written_goes pcs) | split]]].
    + rewrite TR, (proj2 (checks_of_help t (proj1 W) P) H1 H2 H3).
      rewrite (proj2 (finish_trace (s_args t) [] t (wf_ids t (proj1 W)) eq_refl (scanned_names s argv pcs U)) before a after e HL H4 H5).
      rewrite flat_map_app. cbn [flat_map]. rewrite SV, !app_nil_r, Ea, (checks_call s ws pcs b U R Ib). f_equal. subst before. exact (part_trace s ws pcs l1 U R IL H4).
    + unfold stopped. cbn [s_dlog with_dlog]. unfold t at 1. rewrite (scanned_dlog s argv pcs (usable_wf0 s U)). f_equal.
      assert (TL : (match refusal a with Some _ => [] | None => fst (arg_events (finished a)) end) = []).
      { unfold trouble in H5. destruct (refusal a); [reflexivity|]. exact (proj1 (no_events _ _ H5)). }
      rewrite TL, app_nil_r, EB. unfold all_events, written. rewrite !flat_map_concat_map, map_map. reflexivity.
    + intros x Ix. rewrite <- (refusal_refused s ws pcs x U R (IL x Ix)). rewrite Forall_forall in H4. subst before. specialize (H4 _ (in_map _ _ _ Ix)).
      unfold trouble in H4. destruct (refusal (read_arg pcs x)); [discriminate H4 | reflexivity].
    + rewrite <- (refusal_refused s ws pcs b U R Ib), <- Ea. unfold trouble in H5. destruct (refusal a) as [q|]; [left; exact H5|]. right. split; [reflexivity|].
      destruct (proj2 (no_events _ _ H5)) as [d [D [D1 D2]]]. exists d. rewrite finished_cfg, Ea in D. split; [exact D | split; assumption].
  - discriminate Er.
Qed.
Print Assumptions C71_stopped.

(** No validator is called, and no destination written, if the command line cannot be read,
    if help or version was asked for, or if a required argument is missing. *)
Theorem C71_none : forall s argv ws s' r, usable s -> interprets s -> command_line argv ws -> parseArguments argv s = (s', r) ->
  (exists e, rejects s ws e) \/ (exists out, r = Exit out) \/ (exists e, r = Throw e /\ (x_kind e = KHelp \/ x_kind e = KVersion \/ x_kind e = KRequired)) ->
  happenings argv s = [].
Proof.
  intros s argv ws s' r U I C E H. destruct (read_or_reject s argv ws U C I) as [[pcs R]|[e R]].
  - pose proof (trace_reads s argv ws pcs U C I R) as TR. set (t := scanned argv pcs s) in *. destruct (usable_scanned s argv pcs U) as [W P]. fold t in W, P.
    pose proof (parse_finish s argv ws pcs U C I R) as F. rewrite E in F. cbn [fst snd] in F. fold t in F.
    destruct (C14_unique s argv ws U C I) as [_ [X _]]. rewrite TR.
    destruct F as [H1|H1 H2|a l H1 H2 H3|before a after e H1 H2 H3 HL H4 H5|H1 H2 H3 H4].
    + apply (checks_of_help t (proj1 W) P). left. exact H1.
    + apply (checks_of_help t (proj1 W) P). right. left. exact H2.
    + apply (checks_of_help t (proj1 W) P). right. right. rewrite H3. discriminate.
    + exfalso. destruct H as [[e' RJ]|[[out H]|[e' [H K]]]]; [exact (X pcs e' R RJ) | discriminate H | injection H as ->].
      apply trouble_kind in H5. destruct H5 as [Z|[Z|Z]], K as [K|[K|K]]; rewrite Z in K; discriminate K.
    + exfalso. destruct H as [[e' RJ]|[[out H]|[e' [H K]]]]; [exact (X pcs e' R RJ) | discriminate H | discriminate H].
  - exact (trace_rejects s argv ws e U C I R).
Qed.
Print Assumptions C71_none.

(** In every case: a validator that was given to one argument only is called at most once
    by a call of parseArguments. *)
Definition is_call (i : nat) (h : happening) : bool := match h with Called v _ => Nat.eqb v i | Delivered _ => false end.
Definition validated_by (i : nat) (b : argument) : bool := match c_valid (a_cfg b) with Some v => Nat.eqb (v_id v) i | None => false end.

Lemma calls_count : forall i pcs W l, length (filter (is_call i) (flat_map (fun b => call pcs b ++ map Delivered (W b)) l)) <= length (filter (validated_by i) l).
Proof.
  intros i pcs W l. induction l as [|b l IH]; [apply le_n|]. cbn [flat_map]. rewrite !filter_app, !app_length.
  assert (Z : forall q, filter (is_call i) (map Delivered q) = []) by (induction q as [|x q Q]; [reflexivity | exact Q]). rewrite Z. cbn [length].
  cbn [filter]. unfold call at 1, validated_by at 1. destruct (c_valid (a_cfg b)) as [v|]; [|cbn [filter length]; exact IH].
  destruct (on_line (a_id b) pcs); cbn [filter length is_call].
  - destruct (Nat.eqb (v_id v) i); cbn [length]; lia.
  - destruct (Nat.eqb (v_id v) i); cbn [length]; lia.
Qed.
Theorem C71_once : forall s argv ws i, usable s -> command_line argv ws -> length (filter (validated_by i) (arguments (ready s))) <= 1 ->
  length (filter (is_call i) (happenings argv s)) <= 1.
Proof.
  intros s argv ws i U C L. assert (D : interprets s \/ ~ interprets s).
  { unfold interprets. destruct (s_help s) as [p|]; [left; left; discriminate|]. destruct (free_help s) as [|x l]; [right; intros [H|H]; elim H; reflexivity | left; right; discriminate]. }
  destruct D as [I|NI]; [|rewrite (proj2 (parse_trace s argv (usable_wf0 s U)) NI); cbn; lia].
  destruct (read_or_reject s argv ws U C I) as [[pcs R]|[e R]]; [|rewrite (trace_rejects s argv ws e U C I R); cbn; lia].
  destruct (parseArguments argv s) as [s' r] eqn:E.
  pose proof (parse_finish s argv ws pcs U C I R) as F. rewrite E in F. cbn [fst snd] in F.
  destruct r as [[]|e|out| |].
  - destruct (C71_accepted s argv ws s' pcs U I C E R) as [W [-> _]]. eapply Nat.le_trans; [apply calls_count | exact L].
  - assert (K : (x_kind e = KHelp \/ x_kind e = KVersion \/ x_kind e = KRequired) \/ (x_kind e <> KHelp /\ x_kind e <> KVersion /\ x_kind e <> KRequired)).
    { destruct (x_kind e); try (left; auto; fail); right; (split; [discriminate | split; discriminate]). }
    destruct K as [K|[K1 [K2 K3]]].
    + rewrite (C71_none s argv ws s' (Throw e) U I C E (or_intror (or_intror (ex_intro _ e (conj eq_refl K))))). cbn. lia.
    + destruct (C71_stopped s argv ws s' pcs e U I C E R K1 K2 K3) as [l1 [b [l2 [W [EA [-> _]]]]]].
      assert (Q : length (filter (is_call i) (flat_map (fun x => call pcs x ++ map Delivered (W x)) l1 ++ call pcs b)) <= length (filter (validated_by i) (l1 ++ [b]))).
      { pose proof (calls_count i pcs (fun x => []) [b]) as B. cbn [flat_map map] in B. rewrite !app_nil_r in B.
        rewrite !filter_app, !app_length. pose proof (calls_count i pcs W l1). lia. }
      rewrite EA in L. replace (l1 ++ b :: l2) with ((l1 ++ [b]) ++ l2) in L by (rewrite <- app_assoc; reflexivity). rewrite filter_app, app_length in L. lia.
  - rewrite (C71_none s argv ws s' (Exit out) U I C E (or_intror (or_introl (ex_intro _ out eq_refl)))). cbn. lia.
  - exfalso. remember UB as r eqn:Er. destruct F; try discriminate Er; [destruct (m_helpex _) | destruct (m_verex _)]; discriminate Er.
  - exfalso. remember OutOfFuel as r eqn:Er. destruct F; try discriminate Er; [destruct (m_helpex _) | destruct (m_verex _)]; discriminate Er.
Qed.
Print Assumptions C71_once.

(** -u is validated by validator 0 and has the destination 3, -c by validator 1, and -z by
    validator 2, which is not consulted as -z is absent *)
Definition watched : state := history
  [OpAdd ["-u"] [MValid (Some (Validator 0 (fun vs => VOk true (map (fun v => "<" ^^ v ^^ ">") vs)))) true; MDest (Dest 3 DScalar false TyValue)];
   OpAdd ["-c"; "--check"] [MValid (Some (Validator 1 (fun vs => if mem_str "bad" vs then VThrow "no" else VOk true vs))) true; MDest (Dest 4 DScalar false TyValue)];
   OpAdd ["-z"] [MValid (Some (Validator 2 (fun vs => VOk false vs))) true]].
Lemma watched_usable : usable watched /\ interprets watched.
Proof. split; [apply careful_usable, careful_history; vm_compute; reflexivity | right; vm_compute; discriminate]. Qed.
Example C71_example :
  happenings ["prog"; "-u"; "k"; "-c"; "ok"] watched = [Called 1 ["ok"]; Delivered (EvAssign 4 (CvStr "ok")); Called 0 ["k"]; Delivered (EvAssign 3 (CvStr "<k>"))] /\
  happenings ["prog"; "-u"; "k"; "-c"; "bad"] watched = [Called 1 ["bad"]] /\
  happenings ["prog"; "-u"; "k"; "-c"; "bad"; "--help"] watched = [] /\
  snd (parseArguments ["prog"; "-u"; "k"; "-c"; "ok"] watched) = Ok tt.
Proof. split; [|split; [|split]]; vm_compute; reflexivity. Qed.
