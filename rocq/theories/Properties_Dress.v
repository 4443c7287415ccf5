(** Properties_Dress.v -- C65: the validator and the destination of an argument concern this
    argument only. *)
From Coq Require Import Permutation Sorted.
From Verif Require Import Base Model_Utils Model_Number Model_Types Model_Argument Model_Usage Model_Args Model_Api
  Spec_Order Spec_Names Spec_Reading Spec_Parse Spec_Decl Spec_Finish Spec_History Spec_Api Spec_Result Spec_Errors Spec_Dress
  Proofs_Base Proofs_Order Proofs_Frame Proofs_Inv Proofs_ReadFacts Proofs_Reading Proofs_Parse Proofs_Decl Proofs_Finish
  Proofs_Meth Proofs_History Proofs_Config Proofs_Names Proofs_Central Proofs_Redecl Proofs_Swap Proofs_Alike Proofs_Dress Properties_Parse Properties_Errors Demo.

Lemma dest_snd : forall a d, snd (dest_events a d) = (if d_custom d then None else match d_ty d with TyUnsupported => Some no_conversion | _ => None end).
Proof.
  intros a [cell kind cus ty]. unfold dest_events. cbn [d_cell d_ty d_kind d_custom].
  assert (SG : forall f, snd (ev_of (single_to ty a) f) = match ty with TyUnsupported => Some no_conversion | _ => None end).
  { intros f. unfold single_to, bool_to, str_to. destruct (c_type (a_cfg a)), ty; reflexivity. }
  destruct kind; destruct cus; try reflexivity; [apply SG| |].
  - destruct (d_elems (a_dyn a)) as [|e es]; [apply SG|].
    assert (NE : flat_map elem_strings (e :: es) <> []) by (cbn [flat_map]; unfold elem_strings at 1; destruct (el_subs e) eqn:E; [discriminate|]; unfold elem_values; rewrite E; discriminate).
    destruct ty; [| |destruct (flat_map elem_strings (e :: es)); [contradiction | reflexivity]].
    all: clear NE; induction (flat_map elem_strings (e :: es)) as [|w ws IH]; [reflexivity|]; cbn [map ev_seq str_to ev_of]; destruct (ev_seq _) as [x o]; exact IH.
  - destruct (d_elems (a_dyn a)) as [|e es]; [apply SG|].
    assert (RA : forall t ws, t <> TyUnsupported -> snd (res_all (map (str_to t true) ws)) = None).
    { intros t ws N. induction ws as [|w ws IH]; [reflexivity|]. cbn [map res_all]. destruct t; [| |contradiction]; cbn [str_to]; destruct (res_all _) as [x o]; exact IH. }
    destruct ty.
    3:{ cbn [map]. unfold elem_strings. destruct (el_subs e) eqn:E; cbn [map res_all str_to ev_seq]; [reflexivity|]. unfold elem_values. rewrite E. reflexivity. }
    all: induction (e :: es) as [|y ys IH]; [reflexivity|]; cbn [map ev_seq]; specialize (RA) with (ws := elem_strings y);
      match goal with |- context [res_all (map (str_to ?t true) (elem_strings y))] => specialize (RA t ltac:(discriminate)) end;
      destruct (res_all _) as [x o]; cbn [snd] in RA; subst o; destruct (ev_seq _) as [x' o]; exact IH.
Qed.
Lemma trouble_dest : forall a, refusal a = None -> trouble a = match c_dest (a_cfg a) with None => None | Some d => if d_custom d then None else match d_ty d with TyUnsupported => Some no_conversion | _ => None end end.
Proof. intros a R. unfold trouble. rewrite R. unfold arg_events. rewrite finished_cfg. destruct (c_dest (a_cfg a)); [apply dest_snd | reflexivity]. Qed.
Lemma refusal_kind : forall a e, refusal a = Some e -> (x_kind e = KValid /\ x_arg e = first_of (a_cfg a)) \/ e = Exn KForeign "" "".
Proof.
  intros a e. unfold refusal. destruct (c_valid (a_cfg a)) as [v|]; [|discriminate]. destruct (d_exist (a_dyn a)); [|discriminate].
  destruct (v_fn v (plain_values a)) as [[] vs|m|]; try (destruct (has_values _); [discriminate|]); intros [= <-]; auto; left; split; reflexivity.
Qed.
Lemma refusal_absent : forall a, d_exist (a_dyn a) = false -> refusal a = None.
Proof. intros a E. unfold refusal. destruct (c_valid (a_cfg a)); [now rewrite E | reflexivity]. Qed.
Lemma finished_seen : forall a, d_exist (a_dyn (finished a)) = d_exist (a_dyn a) /\ d_count (a_dyn (finished a)) = d_count (a_dyn a).
Proof.
  intros a.
  assert (N : forall t d, d_exist (num_dyn t d) = d_exist d /\ d_count (num_dyn t d) = d_count d) by (intros t d; unfold num_dyn; destruct t; try (split; reflexivity); destruct (d_elems d); split; reflexivity).
  assert (S : forall t d vs, d_exist (stored t d vs) = d_exist d /\ d_count (stored t d vs) = d_count d) by (intros t d vs; unfold stored; destruct t; try (split; reflexivity); destruct vs; split; reflexivity).
  unfold finished. cbn [a_dyn arg_dyn]. destruct (N (c_type (a_cfg (checked a))) (a_dyn (checked a))) as [-> ->]. unfold checked. destruct (c_valid (a_cfg a)) as [v|]; [|split; reflexivity].
  destruct (d_exist (a_dyn a)) eqn:E; [|split; [exact E | reflexivity]]. destruct (v_fn v (plain_values a)) as [[] vs|m|]; try (split; [exact E | reflexivity]).
  cbn [a_dyn arg_dyn]. rewrite <- E. apply S.
Qed.
Definition troubles (l : list argument) : list exn := flat_map (fun a => match trouble a with Some e => [e] | None => [] end) l.
Definition first_trouble (l : list argument) : res unit := match troubles l with e :: _ => Throw e | [] => Ok tt end.

Section Change.
Variables (s s1 : state) (a : argument) (k : nat) (v : option validator) (b : bool) (l : list str) (d : option dest) (argv ws : list str).
Let id := a_id a.
Let f := dress id k v b l d.
Hypotheses (U : usable s) (U1 : usable s1) (C : command_line argv ws) (Ia : In a (s_args s)) (DR : dressed id k v b l d s s1) (NM : not_marked id k s).
Lemma ready_a : In a (s_args (ready s)).
Proof. destruct (ready_cases s (usable_wf0 s U)) as [[-> _]|[-> _]]; [exact Ia|]. unfold with_auto_help. cbn [s_args with_help]. apply (registered_In s (help_cfg (free_help s))). now right. Qed.
Lemma ready_unique : forall x, In x (s_args (ready s)) -> a_id x = id -> x = a.
Proof. intros x Ix E. apply (wf_unique (ready s) x a (usable_ready_wf s U) Ix ready_a E). Qed.
Lemma ready_not_marked : not_marked id k (ready s).
Proof.
  destruct NM as [N|N]; [now left|right]. intros q Q. destruct (ready_cases s (usable_wf0 s U)) as [[E _]|[E _]]; rewrite E in Q; [now apply N|].
  unfold with_auto_help in Q. cbn [s_help s_version with_help registered with_args with_map] in Q. destruct Q as [Q|Q]; [|apply N; now right].
  injection Q as <-. cbn [fst]. intros Z. apply (fresh_id_new s). rewrite Z. now apply in_map.
Qed.
Lemma interprets_same : interprets s <-> interprets s1.
Proof. destruct DR as [fr ->]. reflexivity. Qed.
(** both read the same, or are rejected the same, or do not look *)
Lemma change_cases :
  (~ interprets s /\ parseArguments argv s = (cleared s, Ok tt) /\ parseArguments argv s1 = (cleared s1, Ok tt)) \/
  (exists e x x1, parseArguments argv s = (x, Throw e) /\ parseArguments argv s1 = (x1, Throw e)) \/
  (exists pcs, interprets s /\ reads s ws pcs /\ reads s1 ws pcs /\ dressed id k v b l d (scanned argv pcs s) (scanned argv pcs s1) /\
     not_marked id k (scanned argv pcs s)).
Proof.
  destruct (interprets_dec s) as [I|N].
  2:{ left. split; [exact N|]. unfold parseArguments. split; [now apply (parse_with_eq _ _ s (usable_wf0 s U))|]. apply (parse_with_eq _ _ s1 (usable_wf0 s1 U1)). now rewrite <- interprets_same. }
  right. pose proof (proj1 interprets_same I) as I1.
  pose proof (dressed_ready id k v b l d s s1 (usable_wf0 s U) (usable_wf0 s1 U1) DR (ex_intro _ a (conj Ia eq_refl))) as RR.
  pose proof (dressed_calike _ _ _ _ _ _ _ _ RR) as CA.
  destruct (read_or_reject s argv ws U C I) as [[pcs R]|[x R]].
  - right. exists pcs. split; [exact I|]. split; [exact R|]. split; [unfold reads, setup; apply (alike_readings _ _ CA); exact R|]. split; [now apply dressed_scanned|].
    pose proof ready_not_marked as NM1. destruct NM1 as [N|N]; [now left|right]. intros q Q. apply N. unfold scanned, named in Q. destruct (s_bin (ready s)); exact Q.
  - left. assert (R' : rejects s1 ws x) by (unfold rejects, setup; apply (alike_rejections _ _ CA); exact R).
    destruct (parse_rejects s argv ws x U C I R) as [t [E1 _]]. destruct (parse_rejects s1 argv ws x U1 C I1 R') as [t' [E2 _]]. exists x, t, t'. now split.
Qed.
(** the arguments when the words were read: [a] among others *)
Lemma scanned_split : forall pcs, exists l1 l2, s_args (scanned argv pcs s) = l1 ++ read_arg pcs a :: l2 /\ Forall (fun x => a_id x <> id) l1 /\ Forall (fun x => a_id x <> id) l2.
Proof.
  intros pcs. destruct (in_split _ _ ready_a) as [l1 [l2 E]]. exists (map (read_arg pcs) l1), (map (read_arg pcs) l2).
  assert (SA : s_args (scanned argv pcs s) = map (read_arg pcs) (s_args (ready s))) by (unfold scanned, named; destruct (s_bin (ready s)); reflexivity).
  rewrite SA, E, map_app. split; [reflexivity|]. pose proof (wf_ids _ (usable_ready_wf s U)) as ND. rewrite E, map_app in ND. cbn [map] in ND. apply NoDup_remove_2 in ND.
  split; apply Forall_map, Forall_forall; intros x Ix Q; apply ND; rewrite in_app_iff; [left | right]; change (a_id (read_arg pcs x)) with (a_id x) in Q; fold id; rewrite <- Q; now apply in_map.
Qed.
End Change.
Lemma Finish_seen : forall t x r, Finish t x r -> completed r -> forall y, In y (s_args x) -> exists z, In z (s_args t) /\ a_id y = a_id z /\ d_exist (a_dyn y) = d_exist (a_dyn z).
Proof.
  intros t x r F CO y Iy.
  assert (FN : forall L, In y (map finished L) -> exists z, In z L /\ a_id y = a_id z /\ d_exist (a_dyn y) = d_exist (a_dyn z)).
  { intros L H. apply in_map_iff in H. destruct H as [z [<- Iz]]. exists z. split; [exact Iz|]. split; [apply finished_id | apply finished_seen]. }
  inversion F; subst.
  - destruct (m_helpex (s_modes t)); [|destruct CO]. now exists y.
  - destruct (m_verex (s_modes t)); [|destruct CO]. now exists y.
  - now exists y.
  - unfold stopped in Iy. cbn [s_args with_dlog with_args] in Iy. rewrite H2. apply in_app_iff in Iy. destruct Iy as [Iy|[Iy|Iy]].
    + destruct (FN _ Iy) as [z [Iz Z]]. exists z. split; [apply in_app_iff; now left | exact Z].
    + exists a. split; [apply in_app_iff; right; now left|]. subst y. destruct (refusal a); [now split|]. split; [apply finished_id | apply finished_seen].
    + exists y. split; [apply in_app_iff; right; now right | now split].
  - cbn [s_args with_dlog with_args] in Iy. now apply FN.
Qed.
Lemma troubles_app : forall x y, troubles (x ++ y) = troubles x ++ troubles y. Proof. intros. apply flat_map_app. Qed.
Lemma others_same : forall id k v b l d L, Forall (fun x => a_id x <> id) L -> map (dress id k v b l d) L = L.
Proof. intros. induction H as [|x L N F IH]; [reflexivity|]. cbn [map]. now rewrite IH, dr_other. Qed.
(** a change of the validator only *)
Lemma update_valid : forall s n a p del s', usable s -> getArgument s n = Ok a -> step (OpUpdate n [MValid p del]) s = (s', Ok tt) ->
  dressed (a_id a) 0 p del (c_defaults (a_cfg a)) (c_dest (a_cfg a)) s s' /\ usable s'.
Proof.
  intros s n a p del s' U G E. pose proof (usable_wf0 s U) as W. destruct (getArgument_inv s n a W G) as [Ia _]. pose proof E as E0.
  rewrite (update_get s n a _ W G), (one_meth _ s a W Ia) in E. cbn [meth_state outcome] in E. injection E as E.
  assert (D : dressed (a_id a) 0 p del (c_defaults (a_cfg a)) (c_dest (a_cfg a)) s s').
  { exists (s_freed s ++ owned (a_cfg a)). rewrite <- E. unfold put, with_freed, with_args. cbn. f_equal. unfold upd_id. apply map_ext_in. intros x Ix. unfold dress.
    cbn [a_id arg_cfg]. destruct (Nat.eqb_spec (a_id x) (a_id a)) as [X|X]; [|reflexivity].
    rewrite (wf_unique s x a W Ix Ia X). unfold arg_cfg. now rewrite Nat.add_0_r. }
  split; [exact D|]. destruct U as [U1 [U2 U3]]. split; [exact (reach_step _ _ _ _ U1 E0 Logic.I)|]. destruct D as [fr ->]. split.
  - intros x Ix. cbn [s_args with_args with_freed] in Ix. apply in_map_iff in Ix. destruct Ix as [c [<- Ic]]. pose proof (U2 c Ic) as Q. unfold dress. destruct (Nat.eqb (a_id c) (a_id a)); exact Q.
  - destruct U3 as [P1 P2]. unfold pointers_ok, live_ptr in *. cbn [s_help s_version s_args with_args with_freed].
    split; [destruct (s_help s) as [q|]; [destruct P1 as [x F] | exact Logic.I] | destruct (s_version s) as [q|]; [destruct P2 as [x F] | exact Logic.I]];
      (rewrite find_ptr_dr by (now left); rewrite F; eexists; reflexivity).
Qed.
(** Give another validator to an argument (or take it away), and parse the same command
    line.  The call ends in the same way, unless the argument is on the command line and
    one of the two validators refuses its values.  If both calls return, everything is the
    same but the validator and, if it is on the command line, the values of that argument.
    Without a validator nothing is refused that was accepted with one. *)
Theorem C65_validator : forall s n a p del s' argv ws, usable s -> command_line argv ws -> getArgument s n = Ok a ->
  step (OpUpdate n [MValid p del]) s = (s', Ok tt) ->
  let q := parseArguments argv s in let q' := parseArguments argv s' in
  (snd q' = snd q \/ (present n (fst q) /\ (refused_value a (snd q) \/ refused_value a (snd q')))) /\
  (snd q = Ok tt -> snd q' = Ok tt -> Forall2 (revalidated (a_id a) p del) (arguments (fst q)) (arguments (fst q')) /\ same_rest (fst q) (fst q')) /\
  (snd q = Ok tt -> p = None -> snd q' = Ok tt).
Proof.
  intros s n a p del s' argv ws U C G E. cbv zeta. pose proof (usable_wf0 s U) as W. destruct (getArgument_inv s n a W G) as [Ia _].
  destruct (update_valid s n a p del s' U G E) as [DR U']. set (dl := c_defaults (a_cfg a)) in *. set (dd := c_dest (a_cfg a)) in *.
  assert (NM : not_marked (a_id a) 0 s) by now left.
  pose proof (ready_unique s a U Ia) as UNI.
  assert (PW : forall L (g h : argument -> argument), (forall x, In x L -> revalidated (a_id a) p del (g x) (h x)) -> Forall2 (revalidated (a_id a) p del) (map g L) (map h L)).
  { intros L g h. induction L as [|x L IH]; intros H; [constructor|]. cbn [map]. constructor; [apply H; now left | apply IH; intros y Iy; apply H; now right]. }
  destruct (change_cases s s' a 0 p del dl dd argv ws U U' C Ia DR NM) as [[NI [Q Q']]|[[e [x [x' [Q Q']]]]|[pcs [I [R [R' [DS NS]]]]]]].
  - rewrite Q, Q'. cbn [fst snd]. split; [now left|]. split; [|auto]. intros _ _. destruct DR as [fr ->]. split; [|repeat split].
    unfold cleared. cbn [s_args with_args with_freed]. rewrite map_map. apply PW. intros x Ix. unfold revalidated, dress. change (a_id (clear_arg x)) with (a_id x).
    destruct (Nat.eqb_spec (a_id x) (a_id a)) as [X|X]; [|reflexivity]. rewrite (wf_unique s x a W Ix Ia X). unfold clear_arg. cbn [a_id a_gen a_cfg a_dyn]. rewrite Nat.add_0_r. repeat split.
  - rewrite Q, Q'. cbn [fst snd]. split; [now left|]. split; [discriminate | discriminate].
  - pose proof (proj1 (interprets_same s s' a 0 p del dl dd U' DR) I) as I'.
    destruct (parse_verdict s argv ws pcs U C I R) as [V K]. destruct (parse_verdict s' argv ws pcs U' C I' R') as [V' K'].
    pose proof (parse_finish s argv ws pcs U C I R) as FI. rewrite V, V' in *. set (t := scanned argv pcs s) in *. set (t' := scanned argv pcs s') in *.
    destruct (scanned_split s a argv U Ia pcs) as [l1 [l2 [SL [F1 F2]]]]. fold t in SL. set (c := read_arg pcs a) in *.
    set (c' := dress (a_id a) 0 p del dl dd c).
    assert (CC : c' = Arg (a_id c) (a_gen c) (cfg_valid (a_cfg c) p del) (a_dyn c)) by (unfold c', dress; change (a_id c) with (a_id a); rewrite Nat.eqb_refl, Nat.add_0_r; reflexivity).
    assert (SL' : s_args t' = l1 ++ c' :: l2).
    { destruct DS as [fr ->]. cbn [s_args with_args with_freed]. rewrite SL, map_app. cbn [map]. fold c'. now rewrite !others_same. }
    assert (NR : refusal c = None -> refusal c' = None -> trouble c' = trouble c).
    { intros N1 N2. rewrite !trouble_dest by assumption. rewrite CC. reflexivity. }
    assert (PR : forall e, refusal c = Some e \/ refusal c' = Some e -> completed (verdict t) -> present n (fst (parseArguments argv s))).
    { intros e RE CO. assert (EX : d_exist (a_dyn c) = true).
      { destruct (d_exist (a_dyn c)) eqn:EX; [reflexivity|]. assert (EX' : d_exist (a_dyn c') = false) by (rewrite CC; exact EX). rewrite (refusal_absent c EX), (refusal_absent c' EX') in RE. destruct RE; discriminate. }
      destruct (parseArguments argv s) as [x r] eqn:EP. cbn [fst snd] in *. rewrite <- V in CO, FI. 
      destruct (C08_existing s argv x r n a (proj1 U) EP CO G) as [a' [G' [E1 E2]]]. exists a'. split; [exact G'|].
      assert (WX : wf0 x). { apply reach_wf. exact (reach_step s (OpParse argv) x r (proj1 U) EP CO). }
      destruct (getArgument_inv x n a' WX G') as [Ia' _]. destruct (Finish_seen t x r FI CO a' Ia') as [z [Iz [Z1 Z2]]].
      cbv beta; rewrite Z2. assert (ZC : z = c).
      { rewrite SL in Iz. apply in_app_iff in Iz. rewrite Forall_forall in F1, F2. destruct Iz as [Iz|[Iz|Iz]]; [exfalso; apply (F1 z Iz); congruence | now symmetry | exfalso; apply (F2 z Iz); congruence]. }
      now rewrite ZC. }
    assert (TT : verdict t' = verdict t \/ completed (verdict t) /\ ((exists e, refusal c = Some e /\ verdict t = Throw e) \/ (exists e, refusal c' = Some e /\ verdict t' = Throw e))).
    { destruct (verdict_dr _ _ _ _ _ _ t t' DS NS) as [VS|[_ [_ [_ [VT VT']]]]]; [now left|]. rewrite VT, VT'. change (flat_map _ (s_args t)) with (troubles (s_args t)). change (flat_map _ (s_args t')) with (troubles (s_args t')).
      rewrite SL, SL', !troubles_app. cbn [troubles flat_map]. destruct (troubles l1) as [|e es]; [|now left]. cbn [app].
      destruct (refusal c) as [e|] eqn:RC.
      { right. assert (TC : trouble c = Some e) by (unfold trouble; now rewrite RC). rewrite TC. cbn [app completed]. split; [exact Logic.I|]. left. exists e. now split. }
      destruct (refusal c') as [e|] eqn:RC'.
      { right. assert (TC : trouble c' = Some e) by (unfold trouble; now rewrite RC'). rewrite TC. cbn [app]. split; [|right; exists e; now split]. destruct (match trouble c with Some e0 => [e0] | None => [] end ++ _); exact Logic.I. }
      left. now rewrite NR. }
    split; [|split].
    + destruct TT as [T|[CO [[e [T1 T2]]|[e [T1 T2]]]]]; [now left| |].
      * right. split; [apply (PR e); auto|]. left. exists e. split; [exact T2|]. exact (refusal_kind c e T1).
      * right. split; [apply (PR e); auto|]. right. exists e. split; [exact T2|]. pose proof (refusal_kind c' e T1) as RK. rewrite CC in RK. exact RK.
    + intros O O'. rewrite (K O), (K' O'). split.
      * unfold completion. cbn [s_args with_dlog with_args]. destruct DS as [fr ->]. cbn [s_args with_args with_freed]. rewrite map_map. apply PW. intros x Ix.
        unfold revalidated. rewrite finished_id. destruct (Nat.eqb_spec (a_id x) (a_id a)) as [X|X]; [|now rewrite dr_other].
        assert (XC : x = c).
        { rewrite SL in Ix. apply in_app_iff in Ix. rewrite Forall_forall in F1, F2. destruct Ix as [Ix|[Ix|Ix]]; [exfalso; exact (F1 x Ix X) | now symmetry | exfalso; exact (F2 x Ix X)]. }
        subst x. fold c'. rewrite !finished_id, !finished_gen, !finished_cfg. destruct (finished_seen c) as [-> ->], (finished_seen c') as [-> ->]. rewrite CC.
        repeat split. intros EX. unfold finished, checked. cbn [a_cfg c_valid cfg_valid a_dyn]. rewrite EX. destruct (c_valid (a_cfg c)), p; reflexivity.
      * destruct DS as [fr ->]. repeat split.
    + intros O ->. destruct TT as [T|[CO [[e [T1 T2]]|[e [T1 T2]]]]]; [congruence | congruence|]. rewrite CC in T1. discriminate T1.
Qed.
Print Assumptions C65_validator.

(* ------------------------------------------------------------------ *)
(** * destinations *)
(** the parse can write to the destination *)
Definition writable (d : dest) : Prop := d_custom d = true \/ ~ unsupported d.
Lemma writable_events : forall x d, writable d -> snd (dest_events x d) = None.
Proof. intros x d Q. rewrite dest_snd. unfold writable, unsupported in Q. destruct (d_custom d), (d_ty d); try reflexivity. destruct Q as [Q|Q]; [discriminate Q | now contradiction Q]. Qed.
Lemma update_dest : forall s n a d s', usable s -> getArgument s n = Ok a -> ~ is_help s a -> ~ is_version s a -> step (OpUpdate n [MDest d]) s = (s', Ok tt) ->
  dressed (a_id a) 1 (c_valid (a_cfg a)) (c_valid_del (a_cfg a)) [] (Some d) s s' /\ not_marked (a_id a) 1 s /\ usable s'.
Proof.
  intros s n a d s' U G NH NV E. pose proof (usable_wf0 s U) as W. destruct (getArgument_inv s n a W G) as [Ia _]. pose proof E as E0.
  rewrite (update_get s n a _ W G), (one_meth _ s a W Ia) in E. cbn [meth_state outcome] in E. injection E as E.
  assert (D : dressed (a_id a) 1 (c_valid (a_cfg a)) (c_valid_del (a_cfg a)) [] (Some d) s s').
  { exists (s_freed s). rewrite <- E. unfold put, with_freed, with_args. cbn. f_equal. unfold upd_id. apply map_ext_in. intros x Ix. unfold dress.
    destruct (Nat.eqb_spec (a_id x) (a_id a)) as [X|X]; [|reflexivity].
    rewrite (wf_unique s x a W Ix Ia X). rewrite Nat.add_1_r. reflexivity. }
  assert (NP : forall q y, find_ptr q (s_args s) = Some y -> (s_help s = Some q \/ s_version s = Some q) -> fst q <> a_id a).
  { intros q y F Q Z. unfold find_ptr in F. apply find_some in F. destruct F as [Iy F]. apply andb_true_iff in F. destruct F as [F1 F2]. apply Nat.eqb_eq in F1, F2.
    assert (y = a) as -> by (apply (wf_unique s y a W Iy Ia); congruence). destruct q as [q1 q2]. cbn [fst snd] in *. subst q1 q2.
    destruct Q as [Q|Q]; [apply NH | apply NV]; (split; [exact Ia | exact Q]). }
  destruct U as [U1 [U2 [P1 P2]]].
  assert (NM : forall q, s_help s = Some q \/ s_version s = Some q -> fst q <> a_id a).
  { intros q Q. destruct Q as [Q|Q]; [unfold live_ptr in P1; rewrite Q in P1; destruct P1 as [y F] | unfold live_ptr in P2; rewrite Q in P2; destruct P2 as [y F]]; apply (NP q y F); auto. }
  split; [exact D|]. split; [now right|]. split; [exact (reach_step _ _ _ _ U1 E0 Logic.I)|]. destruct D as [fr ->]. split.
  - intros x Ix. cbn [s_args with_args with_freed] in Ix. apply in_map_iff in Ix. destruct Ix as [c [<- Ic]]. pose proof (U2 c Ic) as Q. unfold dress. destruct (Nat.eqb (a_id c) (a_id a)); exact Q.
  - unfold pointers_ok, live_ptr in *. cbn [s_help s_version s_args with_args with_freed].
    split; [destruct (s_help s) as [q|]; [destruct P1 as [x F] | exact Logic.I] | destruct (s_version s) as [q|]; [destruct P2 as [x F] | exact Logic.I]];
      (rewrite find_ptr_dr by (right; apply NM; auto); rewrite F; eexists; reflexivity).
Qed.
Lemma all_events_app : forall x y, all_events (x ++ y) = all_events x ++ all_events y. Proof. intros. apply flat_map_app. Qed.
(** Give a destination to an argument without one, and parse the same command line.  The
    call ends in the same way; if it returns, everything is the same, but the argument
    has its destination, and what this destination receives is delivered in addition,
    between the other deliveries. *)
Theorem C65_dest : forall s n a d s' argv ws, usable s -> command_line argv ws -> getArgument s n = Ok a ->
  ~ is_help s a -> ~ is_version s a -> c_dest (a_cfg a) = None -> writable d ->
  step (OpUpdate n [MDest d]) s = (s', Ok tt) ->
  let q := parseArguments argv s in let q' := parseArguments argv s' in
  snd q' = snd q /\
  (snd q = Ok tt -> Forall2 (bound_to (a_id a) d) (arguments (fst q)) (arguments (fst q')) /\ same_rest (fst q) (fst q') /\ s_freed (fst q') = s_freed (fst q) /\
     (interprets s -> exists x l1 l2, getArgument (fst q') n = Ok x /\
        s_dlog (fst q) = l1 ++ l2 /\ s_dlog (fst q') = l1 ++ fst (dest_events x d) ++ l2)).
Proof.
  intros s n a d s' argv ws U C G NH NV ND WR E. cbv zeta. pose proof (usable_wf0 s U) as W. destruct (getArgument_inv s n a W G) as [Ia [In' AM]].
  destruct (update_dest s n a d s' U G NH NV E) as [DR [NM U']]. set (dv := c_valid (a_cfg a)) in *. set (db := c_valid_del (a_cfg a)) in *.
  assert (FR : s_freed s' = s_freed s). { rewrite (update_get s n a _ W G), (one_meth _ s a W Ia) in E. cbn [meth_state outcome] in E. injection E as <-. reflexivity. }
  pose proof (ready_unique s a U Ia) as UNI.
  assert (PW : forall L (g h : argument -> argument), (forall x, In x L -> bound_to (a_id a) d (g x) (h x)) -> Forall2 (bound_to (a_id a) d) (map g L) (map h L)).
  { intros L g h. induction L as [|x L IH]; intros H; [constructor|]. cbn [map]. constructor; [apply H; now left | apply IH; intros y Iy; apply H; now right]. }
  destruct (change_cases s s' a 1 dv db [] (Some d) argv ws U U' C Ia DR NM) as [[NI [Q Q']]|[[e [x [x' [Q Q']]]]|[pcs [I [R [R' [DS NS]]]]]]].
  - rewrite Q, Q'. cbn [fst snd]. split; [reflexivity|]. intros _. destruct DR as [fr ->]. split; [|split; [repeat split|split; [exact FR | intros I; contradiction]]].
    unfold cleared. cbn [s_args with_args with_freed]. rewrite map_map. apply PW. intros x Ix. unfold bound_to, dress. change (a_id (clear_arg x)) with (a_id x).
    destruct (Nat.eqb_spec (a_id x) (a_id a)) as [X|X]; [|reflexivity]. rewrite (wf_unique s x a W Ix Ia X). unfold clear_arg. cbn [a_id a_gen a_cfg a_dyn]. rewrite Nat.add_1_r. reflexivity.
  - rewrite Q, Q'. cbn [fst snd]. split; [reflexivity | discriminate].
  - pose proof (proj1 (interprets_same s s' a 1 dv db [] (Some d) U' DR) I) as I'.
    destruct (parse_verdict s argv ws pcs U C I R) as [V K]. destruct (parse_verdict s' argv ws pcs U' C I' R') as [V' K'].
    rewrite V, V' in *. set (t := scanned argv pcs s) in *. set (t' := scanned argv pcs s') in *.
    destruct (scanned_split s a argv U Ia pcs) as [l1 [l2 [SL [F1 F2]]]]. fold t in SL. set (c := read_arg pcs a) in *.
    set (c' := dress (a_id a) 1 dv db [] (Some d) c).
    assert (CC : c' = Arg (a_id c) (S (a_gen c)) (cfg_dest (cfg_defaults (a_cfg c) []) (Some d)) (a_dyn c)) by (unfold c', dress; change (a_id c) with (a_id a); rewrite Nat.eqb_refl, Nat.add_1_r; reflexivity).
    assert (SL' : s_args t' = l1 ++ c' :: l2).
    { destruct DS as [fr ->]. cbn [s_args with_args with_freed]. rewrite SL, map_app. cbn [map]. fold c'. now rewrite !others_same. }
    assert (FC : finished c' = Arg (a_id (finished c)) (S (a_gen (finished c))) (cfg_dest (cfg_defaults (a_cfg (finished c)) []) (Some d)) (a_dyn (finished c)) /\ refusal c' = refusal c).
    { rewrite CC. unfold finished, checked, refusal. cbn [a_cfg c_valid cfg_dest cfg_defaults a_dyn]. destruct (c_valid (a_cfg c)) as [v|]; [|split; reflexivity].
      destruct (d_exist (a_dyn c)); [|split; reflexivity]. change (plain_values (Arg (a_id c) (S (a_gen c)) _ (a_dyn c))) with (plain_values c). destruct (v_fn v (plain_values c)) as [[] vs|m|]; split; reflexivity. }
    destruct FC as [FC RC].
    assert (TR : trouble c' = trouble c).
    { unfold trouble. rewrite RC. destruct (refusal c); [reflexivity|]. unfold arg_events. rewrite !finished_cfg. replace (c_dest (a_cfg c')) with (Some d) by (now rewrite CC). replace (c_dest (a_cfg c)) with (@None dest) by (now rewrite <- ND).
      rewrite writable_events by exact WR. reflexivity. }
    assert (VV : verdict t' = verdict t).
    { destruct (verdict_dr _ _ _ _ _ _ t t' DS NS) as [VS|[_ [_ [_ [VT VT']]]]]; [exact VS|]. rewrite VT, VT'. change (flat_map _ (s_args t)) with (troubles (s_args t)). change (flat_map _ (s_args t')) with (troubles (s_args t')).
      rewrite SL, SL', !troubles_app. cbn [troubles flat_map]. now rewrite TR. }
    split; [exact VV|]. intros O. rewrite (K O), (K' (eq_trans VV O)).
    assert (FT : s_freed t' = s_freed t).
    { pose proof (frame_scanned) as _. unfold t, t', scanned, named. destruct (ready_cases s W) as [[-> _]|[-> _]], (ready_cases s' (usable_wf0 s' U')) as [[-> _]|[-> _]]; unfold with_auto_help;
        repeat match goal with |- context [match s_bin ?z with _ => _ end] => destruct (s_bin z) end; exact FR. }
    split; [|split; [|split; [exact FT|]]].
    + unfold completion. cbn [s_args with_dlog with_args]. destruct DS as [fr ->]. cbn [s_args with_args with_freed]. rewrite map_map. apply PW. intros x Ix.
      unfold bound_to. rewrite finished_id. destruct (Nat.eqb_spec (a_id x) (a_id a)) as [X|X]; [|now rewrite dr_other].
      assert (XC : x = c).
      { rewrite SL in Ix. apply in_app_iff in Ix. rewrite Forall_forall in F1, F2. destruct Ix as [Ix|[Ix|Ix]]; [exfalso; exact (F1 x Ix X) | now symmetry | exfalso; exact (F2 x Ix X)]. }
      subst x. fold c'. rewrite FC, finished_id. reflexivity.
    + destruct DS as [fr ->]. repeat split.
    + intros _. exists (finished c'), (s_dlog t ++ all_events l1), (all_events l2). split; [|split].
      * assert (P : parseArguments argv s' = (completion t', Ok tt)). { rewrite <- (K' (eq_trans VV O)). rewrite (surjective_pairing (parseArguments argv s')) at 1. f_equal. now rewrite V', VV. }
        assert (WX : wf0 (completion t')) by (apply reach_wf; exact (reach_step s' (OpParse argv) _ _ (proj1 U') P Logic.I)).
        assert (G1 : getArgument s' n = Ok (dress (a_id a) 1 dv db [] (Some d) a)).
        { apply getArgument_by; [exact (usable_wf0 s' U') | |]; destruct DR as [fr ->]; cbn [s_args s_map with_args with_freed]; [now apply in_map | now rewrite dr_id]. }
        destruct (C08_existing s' argv _ _ n _ (proj1 U') P Logic.I G1) as [a' [G' [E1 _]]]. rewrite dr_id in E1. destruct (getArgument_inv _ n a' WX G') as [Ia' _].
        rewrite G'. f_equal. apply (wf_unique _ a' (finished c') WX Ia').
        -- unfold completion. cbn [s_args with_dlog with_args]. rewrite SL'. apply in_map. apply in_app_iff. right. now left.
        -- rewrite finished_id, CC. exact E1.
      * unfold completion. cbn [s_dlog with_dlog]. rewrite SL, all_events_app. cbn [all_events flat_map]. rewrite app_assoc. f_equal. unfold arg_events. rewrite finished_cfg. replace (c_dest (a_cfg c)) with (@None dest) by (now rewrite <- ND). reflexivity.
      * unfold completion. cbn [s_dlog with_dlog]. rewrite SL', all_events_app. cbn [all_events flat_map].
        assert (SD : s_dlog t' = s_dlog t) by (destruct DS as [fr ->]; reflexivity). rewrite SD, app_assoc. f_equal. unfold arg_events at 1. rewrite finished_cfg. replace (c_dest (a_cfg c')) with (Some d) by (now rewrite CC). reflexivity.
Qed.
Print Assumptions C65_dest.

(** the demonstration parser: --name with a validator that refuses "bad" and writes "x"
    over what it accepts; with a destination; the command lines agree and differ as said *)
Definition picky : option validator := Some (Validator 9 (fun vs => match vs with ["bad"] => VThrow "is bad" | _ => VOk true (map (fun _ => "x") vs) end)).
Example C65_example : exists s1 s2, usable shop /\ getArgument shop "-n" = Ok (pick "-n" shop) /\ c_dest (a_cfg (pick "-n" shop)) = None /\ writable (Dest 4 DScalar false TyValue) /\
  ~ is_help shop (pick "-n" shop) /\ ~ is_version shop (pick "-n" shop) /\
  step (OpUpdate "-n" [MValid picky true]) shop = (s1, Ok tt) /\ step (OpUpdate "-n" [MDest (Dest 4 DScalar false TyValue)]) shop = (s2, Ok tt) /\
  snd (parseArguments ["p"; "a"; "-n"; "bad"; "-v"] shop) = Ok tt /\ refused_value (pick "-n" shop) (snd (parseArguments ["p"; "a"; "-n"; "bad"; "-v"] s1)) /\
  getString (pick "-n" (fst (parseArguments ["p"; "a"; "-n"; "good"] shop))) = "good" /\ getString (pick "-n" (fst (parseArguments ["p"; "a"; "-n"; "good"] s1))) = "x" /\
  snd (parseArguments ["p"; "a"] s1) = Ok tt /\ s_dlog (fst (parseArguments ["p"; "a"; "-n"; "good"] s2)) = [EvAssign 4 (CvStr "good")].
Proof.
  eexists. eexists. split; [exact shop_usable|]. split; [vm_compute; reflexivity|]. split; [vm_compute; reflexivity|]. split; [right; unfold unsupported; cbn; discriminate|].
  split; [intros [_ X]; vm_compute in X; discriminate X|]. split; [intros [_ X]; vm_compute in X; discriminate X|]. split; [vm_compute; reflexivity|]. split; [vm_compute; reflexivity|].
  split; [vm_compute; reflexivity|]. split; [eexists; split; [vm_compute; reflexivity | left; split; vm_compute; reflexivity]|]. split; [vm_compute; reflexivity|]. split; [vm_compute; reflexivity|].
  split; vm_compute; reflexivity.
Qed.
