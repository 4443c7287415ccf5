(** Properties_Repeat.v -- C28: repeated parses. *)
From Coq Require Import Permutation Sorted.
From Verif Require Import Base Model_Utils Model_Number Model_Types Model_Argument Model_Usage Model_Args Model_Api
  Spec_Order Spec_Names Spec_Reading Spec_Parse Spec_Decl Spec_Finish Spec_History Spec_Api Spec_Result
  Proofs_Base Proofs_Order Proofs_Frame Proofs_Inv Proofs_ReadFacts Proofs_Reading Proofs_Parse Proofs_Decl Proofs_Finish
  Proofs_Meth Proofs_History Proofs_Config Proofs_Check Proofs_Names Proofs_Central Proofs_Dyn Properties_Words Demo Properties_Parse Proofs_Swap Proofs_Kind
  Proofs_Values Properties_Values Properties_Positional Proofs_Quiet Proofs_Fresh Properties_Defaults.

(** [s1] is the object [s] after any number of parseArguments calls that returned or threw,
    each of which had an end state and an outcome satisfying [P] *)
Inductive reparsed (P : state -> res unit -> Prop) (s : state) : state -> Prop :=
| Rp_none : reparsed P s s
| Rp_more : forall s1 argv ws s2 r, reparsed P s s1 -> command_line argv ws -> parseArguments argv s1 = (s2, r) ->
    completed r -> P s2 r -> reparsed P s s2.
Definition anyhow (t : state) (r : res unit) : Prop := True.

(* ------------------------------------------------------------------ *)
(** * what a parse leaves *)
Definition kcore (a : argument) : (nat * nat * acfg) * list elem :=
  (static a, if flat (c_type (a_cfg a)) then map clear_elem (d_elems (a_dyn a)) else []).
Lemma clear_clear : forall e, clear_elem (clear_elem e) = clear_elem e.
Proof. intros [l ls]. unfold clear_elem. cbn. rewrite map_map. reflexivity. Qed.
Lemma clear_num : forall e, clear_elem (num_elem e) = clear_elem e.
Proof. intros [l [|x ls]]; unfold clear_elem, num_elem; cbn; [reflexivity|]. rewrite !map_map. reflexivity. Qed.
Lemma num_elems : forall t d, map clear_elem (d_elems (num_dyn t d)) = map clear_elem (d_elems d).
Proof.
  intros t d. assert (H : map clear_elem (d_elems (match d_elems d with [] => ADyn (d_exist d) (d_count d) (d_arg d) (istream_double (d_arg d)) []
    | e :: es => ADyn (d_exist d) (d_count d) (d_arg d) (d_num d) (map num_elem (e :: es)) end)) = map clear_elem (d_elems d)).
  { destruct (d_elems d) as [|e es] eqn:D; cbn [d_elems]; [reflexivity|]. rewrite map_map. apply map_ext. intros; apply clear_num. }
  destruct t; try reflexivity; exact H.
Qed.
Lemma kcore_clear : forall a, kcore (clear_arg a) = kcore a.
Proof. intros a. unfold kcore, clear_arg, static. cbn. rewrite map_map. destruct (flat _); [|reflexivity]. f_equal. apply map_ext, clear_clear. Qed.
Lemma kcore_core : forall l l', map core l = map core l' -> map kcore l = map kcore l'.
Proof.
  intros l l' H. assert (E : forall l, map kcore l = map (fun x => (fst x, map clear_elem (snd x))) (map core l)).
  { intros l0. rewrite map_map. apply map_ext. intros a. unfold kcore, core. cbn. destruct (flat _); reflexivity. }
  now rewrite !E, H.
Qed.
Lemma kcore_finished : forall a, kcore (finished a) = kcore a.
Proof.
  intros a. unfold kcore, static. rewrite finished_id, finished_gen, finished_cfg. destruct (flat (c_type (a_cfg a))) eqn:F; [|reflexivity]. f_equal.
  unfold finished. cbn [a_dyn arg_dyn]. rewrite num_elems. unfold checked. destruct (c_valid (a_cfg a)) as [v|]; [|reflexivity].
  destruct (d_exist (a_dyn a)); [|reflexivity]. destruct (v_fn v (plain_values a)) as [[] vs| |]; try reflexivity.
  cbn [a_dyn arg_dyn]. unfold stored. destruct (c_type (a_cfg a)); try discriminate F; try reflexivity; destruct vs; reflexivity.
Qed.
Lemma Finish_kcore : forall s s1 r, Finish s s1 r -> completed r -> map kcore (s_args s1) = map kcore (s_args s).
Proof.
  intros s s1 r F C. destruct F.
  - destruct (m_helpex (s_modes s)); [reflexivity | destruct C].
  - destruct (m_verex (s_modes s)); [reflexivity | destruct C].
  - reflexivity.
  - unfold stopped. cbn [s_args with_dlog with_args]. rewrite H2, !map_app. cbn [map]. rewrite map_map, (map_ext _ _ kcore_finished). f_equal.
    destruct (refusal a); [reflexivity|]. now rewrite kcore_finished.
  - cbn [s_args with_dlog with_args]. rewrite map_map. apply map_ext, kcore_finished.
Qed.
Lemma parse_split : forall s argv, wf0 s -> pointers_ok s -> interprets s ->
  (exists s0, scan (parse_fuel argv s) argv (prepared s) = (s0, Ok tt) /\ parseArguments argv s = after_scan s0) \/
  (exists s0 r, scan (parse_fuel argv s) argv (prepared s) = (s0, r) /\ parseArguments argv s = (s0, r) /\ r <> Ok tt).
Proof.
  intros s argv W P I. unfold parseArguments. destruct (parse_with_eq (parse_fuel argv s) argv s W) as [E _]. rewrite (E I).
  unfold bind. destruct (scan _ argv (prepared s)) as [s0 [[]|e|o| |]] eqn:S.
  - left. exists s0. auto.
  - right. exists s0, (Throw e). split; [reflexivity|]. split; [reflexivity | intros Z; discriminate Z].
  - right. exists s0, (Exit o). split; [reflexivity|]. split; [reflexivity | intros Z; discriminate Z].
  - right. exists s0, UB. split; [reflexivity|]. split; [reflexivity | intros Z; discriminate Z].
  - right. exists s0, OutOfFuel. split; [reflexivity|]. split; [reflexivity | intros Z; discriminate Z].
Qed.
Lemma parse_kcore : forall s argv s1 r, usable s -> interprets s -> parseArguments argv s = (s1, r) -> completed r ->
  map kcore (s_args s1) = map kcore (s_args (ready s)).
Proof.
  intros s argv s1 r U I E C. pose proof (usable_wf0 s U) as W. pose proof (usable_ready s U) as UR.
  assert (P : pointers_ok s) by apply U.
  assert (WR : wf0 (prepared s)) by (rewrite (prepared_ready s W); apply wf0_cleared, usable_wf0, UR).
  assert (P0 : pointers_ok (prepared s)).
  { rewrite (prepared_ready s W). eapply pointers_frame; [apply frame_clear_args | apply UR]. }
  assert (K0 : map kcore (s_args (prepared s)) = map kcore (s_args (ready s))).
  { rewrite (prepared_ready s W). unfold cleared. cbn [s_args with_args]. rewrite map_map. apply map_ext, kcore_clear. }
  assert (Q : forall s0, fst (scan (parse_fuel argv s) argv (prepared s)) = s0 -> map kcore (s_args s0) = map kcore (s_args (ready s))).
  { intros s0 <-. rewrite <- K0. apply kcore_core. apply (qu_core _ _ (quiet_scan _ argv (prepared s) (wf_ids _ WR))). }
  destruct (parse_split s argv W P I) as [[s0 [S A]]|[s0 [r0 [S [A _]]]]].
  - rewrite S in Q. specialize (Q s0 eq_refl). rewrite <- Q.
    assert (Fr : frame (prepared s) s0) by (pose proof (frame_scan (parse_fuel argv s) argv (prepared s)) as H; rewrite S in H; exact H).
    pose proof (after_scan_cases s0 (frame_wf0 _ _ WR Fr) (pointers_frame _ _ Fr P0)) as F. rewrite <- A, E in F. cbn [fst snd] in F.
    eapply Finish_kcore; eassumption.
  - rewrite S in Q. rewrite A in E. assert (s1 = s0) by congruence. subst. now apply Q.
Qed.

(** what stays the same, however often parseArguments was called *)
Record resumed (s s1 : state) : Prop := Resumed {
  rs_usable : usable s1;
  rs_interprets : interprets s1;
  rs_frame : frame (ready s) (ready s1);
  rs_kcore : map kcore (s_args (ready s1)) = map kcore (s_args (ready s));
  rs_additional : s1 = s \/ ready s1 = s1
}.
Lemma ready_some : forall s, s_help s <> None -> ready s = s.
Proof. intros s H. unfold ready. destruct (s_help s); [reflexivity | now elim H]. Qed.
Lemma sensible_frame : forall s s', frame s s' -> sensible s -> sensible s'.
Proof.
  intros s s' F S a Ia. destruct (frame_arg s' s a (frame_sym _ _ F) Ia) as [b [Ib [_ [_ Eb]]]]. rewrite <- Eb. now apply S.
Qed.
Lemma parse_resumed : forall s argv s1 r, usable s -> interprets s -> parseArguments argv s = (s1, r) -> completed r ->
  usable s1 /\ s_help s1 <> None /\ frame (ready s) s1 /\ map kcore (s_args s1) = map kcore (s_args (ready s)).
Proof.
  intros s argv s1 r U I E C. pose proof (usable_wf0 s U) as W. pose proof (parse_frame s argv s1 r W E C) as F.
  destruct (usable_ready s U) as [_ [SR PR]]. split; [|split; [|split]].
  - split; [|split].
    + apply (reach_step s (OpParse argv) s1 r); [apply U | exact E | exact C].
    + eapply sensible_frame; eassumption.
    + eapply pointers_frame; eassumption.
  - rewrite (fr_help _ _ F). now apply ready_help.
  - exact F.
  - eapply parse_kcore; eassumption.
Qed.
Lemma reparsed_resumed : forall P s s1, usable s -> interprets s -> reparsed P s s1 -> resumed s s1.
Proof.
  intros P s s1 U I R. induction R as [|s1 argv ws s2 r R IH L E C _].
  - split; auto. apply frame_refl.
  - destruct IH as [U1 I1 F1 K1 _]. destruct (parse_resumed s1 argv s2 r U1 I1 E C) as [U2 [H2 [F2 K2]]].
    assert (RE : ready s2 = s2) by now apply ready_some.
    split; [exact U2 | now left | rewrite RE; eapply frame_trans; eassumption | rewrite RE; congruence | now right].
Qed.
Lemma resumed_setup : forall s s1, resumed s s1 -> setup s1 = setup s.
Proof. intros s s1 R. apply conf_frame, R. Qed.

(* ------------------------------------------------------------------ *)
(** * C28 *)
(** Whatever was parsed before, a command line is read in the same way, and if it cannot
    be read, the exception is the same. *)
Theorem C28_reading : forall s s1 argv ws, usable s -> interprets s -> reparsed anyhow s s1 -> command_line argv ws ->
  (forall pcs, reads s1 ws pcs <-> reads s ws pcs) /\ (forall e, rejects s1 ws e <-> rejects s ws e) /\
  (forall e, rejects s ws e -> snd (parseArguments argv s) = Throw e /\ snd (parseArguments argv s1) = Throw e).
Proof.
  intros s s1 argv ws U I R L. destruct (reparsed_resumed _ s s1 U I R) as [U1 I1 F1 K1 _].
  assert (E : setup s1 = setup s) by now apply conf_frame.
  assert (RJ : forall e, rejects s1 ws e <-> rejects s ws e) by (intros e; unfold rejects; rewrite E; reflexivity).
  split; [intros pcs; unfold reads; rewrite E; reflexivity|]. split; [exact RJ|]. intros e J.
  destruct (parse_rejects s argv ws e U L I J) as [t [-> _]]. apply RJ in J. destruct (parse_rejects s1 argv ws e U1 L I1 J) as [t1 [-> _]]. auto.
Qed.

Lemma resumed_met : forall s s1 argv ws pcs, usable s -> resumed s s1 -> reads s ws pcs -> 
  forall p, met p (scanned argv pcs s1) = met p (scanned argv pcs s).
Proof.
  intros s s1 argv ws pcs U R RD p. assert (RD1 : reads s1 ws pcs) by (unfold reads; rewrite (resumed_setup _ _ R); exact RD).
  pose proof (met_iff s argv ws pcs p (usable_ready_wf s U) RD) as M. pose proof (met_iff s1 argv ws pcs p (usable_ready_wf s1 (rs_usable _ _ R)) RD1) as M1.
  assert (X : met p (scanned argv pcs s1) = true <-> met p (scanned argv pcs s) = true).
  { rewrite M, M1. split; intros [h [Ih [Ep O]]].
    - destruct (frame_arg _ _ h (frame_sym _ _ (rs_frame _ _ R)) Ih) as [b [Ib [E1 [E2 E3]]]]. exists b. split; [exact Ib|]. split; [unfold ptr_of in *; congruence | congruence].
    - destruct (frame_arg _ _ h (rs_frame _ _ R) Ih) as [b [Ib [E1 [E2 E3]]]]. exists b. split; [exact Ib|]. split; [unfold ptr_of in *; congruence | congruence]. }
  destruct (met p (scanned argv pcs s1)), (met p (scanned argv pcs s)); try reflexivity; [symmetry; apply X; reflexivity | apply X; reflexivity].
Qed.
Definition required_cfg (c : acfg) : exn :=
  Exn KRequired (first_of c) (match c_type c with POSITIONAL_ARGUMENT => "argument is required" | _ => "option is required" end).
Lemma missing_static : forall s argv ws pcs, wf0 (ready s) -> reads s ws pcs ->
  map required_error (missing (scanned argv pcs s)) =
  map (fun x => required_cfg (snd x)) (filter (fun x => c_required (snd x) && negb (on_line (fst (fst x)) pcs)) (map static (s_args (ready s)))).
Proof.
  intros s argv ws pcs W R. rewrite (missing_scanned s argv ws pcs W R). induction (s_args (ready s)) as [|a l IH]; [reflexivity|].
  cbn [filter map]. cbn [snd fst static]. destruct (isRequired a && negb (on_line (a_id a) pcs)); [|exact IH]. cbn [map]. f_equal. exact IH.
Qed.
Lemma resumed_missing : forall s s1 argv ws pcs, usable s -> resumed s s1 -> reads s ws pcs ->
  map required_error (missing (scanned argv pcs s1)) = map required_error (missing (scanned argv pcs s)).
Proof.
  intros s s1 argv ws pcs U R RD. assert (RD1 : reads s1 ws pcs) by (unfold reads; rewrite (resumed_setup _ _ R); exact RD).
  rewrite (missing_static s argv ws pcs (usable_ready_wf s U) RD), (missing_static s1 argv ws pcs (usable_ready_wf s1 (rs_usable _ _ R)) RD1).
  now rewrite (fr_args _ _ (rs_frame _ _ R)).
Qed.
(** the verdict as a function of fewer things *)
Lemma verdict_same : forall t t1, met (s_help t1) t1 = met (s_help t) t -> met (s_version t1) t1 = met (s_version t) t ->
  s_modes t1 = s_modes t -> s_verstr t1 = s_verstr t -> usage_of t1 = usage_of t -> map required_error (missing t1) = map required_error (missing t) ->
  (met (s_help t) t = true \/ met (s_version t) t = true \/ missing t <> [] \/ map trouble (s_args t1) = map trouble (s_args t)) -> verdict t1 = verdict t.
Proof.
  intros t t1 E1 E2 E3 E4 E5 E6 D. unfold verdict. rewrite E1, E2, E3, E4, E5.
  destruct (met (s_help t) t); [reflexivity|]. destruct (met (s_version t) t); [reflexivity|].
  destruct (missing t) as [|a l], (missing t1) as [|a1 l1]; try discriminate E6.
  - destruct D as [D|[D|[D|D]]]; try discriminate D; [now elim D|].
    assert (F : forall l, flat_map (fun a => match trouble a with Some e => [e] | None => [] end) l = flat_map (fun o => match o with Some e => [e] | None => [] end) (map trouble l)).
    { intros l. induction l as [|x l IH]; cbn; [reflexivity | now rewrite IH]. }
    now rewrite !F, D.
  - cbn [map] in E6. congruence.
Qed.
Lemma resumed_verdict : forall s s1 argv ws pcs, usable s -> resumed s s1 -> reads s ws pcs -> s_bin (named argv s1) = s_bin (named argv s) ->
  let t := scanned argv pcs s in let t1 := scanned argv pcs s1 in
  (met (s_help t) t = true \/ met (s_version t) t = true \/ missing t <> [] \/ map trouble (s_args t1) = map trouble (s_args t)) -> verdict t1 = verdict t.
Proof.
  intros s s1 argv ws pcs U R RD B t t1 D. pose proof (rs_frame _ _ R) as F. 
  assert (FS : frame t t1) by (eapply frame_trans; [apply frame_sym, frame_scanned | eapply frame_trans; [exact F | apply frame_scanned]]).
  assert (BI : forall x, usable x -> s_bin (scanned argv pcs x) = s_bin (named argv x)).
  { intros x Ux. unfold scanned. cbn. assert (s_bin (ready x) = s_bin x).
    { destruct (ready_cases x (usable_wf0 x Ux)) as [[-> _]|[-> _]]; reflexivity. }
    unfold named. rewrite H. destruct (s_bin x) eqn:Bx; cbn; [reflexivity | now rewrite H, Bx]. }
  apply verdict_same; auto.
  - rewrite (fr_help _ _ FS). eapply resumed_met; eassumption.
  - rewrite (fr_version _ _ FS). eapply resumed_met; eassumption.
  - apply (fr_modes _ _ FS).
  - apply (fr_verstr _ _ FS).
  - unfold usage_of. rewrite (usage_frame t t1 FS); [reflexivity|]. unfold t, t1. rewrite !BI; auto. apply R.
  - eapply resumed_missing; eassumption.
Qed.
(** The command line shows the help or the version, or lacks a required argument: the
    outcome is the same (including the text of the usage, if the name of the program is the
    same). *)
Theorem C28_outcome : forall s s1 argv ws pcs, usable s -> interprets s -> reparsed anyhow s s1 -> command_line argv ws -> reads s ws pcs ->
  s_bin (named argv s1) = s_bin (named argv s) ->
  (exists h, (is_help (ready s) h \/ is_version (ready s) h) /\ on_line (a_id h) pcs = true) \/
  (exists a, In a (arguments (ready s)) /\ isRequired a = true /\ on_line (a_id a) pcs = false) ->
  snd (parseArguments argv s1) = snd (parseArguments argv s).
Proof.
  intros s s1 argv ws pcs U I RP L RD B D. pose proof (reparsed_resumed _ s s1 U I RP) as R.
  assert (RD1 : reads s1 ws pcs) by (unfold reads; rewrite (resumed_setup _ _ R); exact RD).
  rewrite (proj1 (parse_verdict s argv ws pcs U L I RD)), (proj1 (parse_verdict s1 argv ws pcs (rs_usable _ _ R) L (rs_interprets _ _ R) RD1)).
  eapply resumed_verdict; try eassumption. pose proof (usable_ready_wf s U) as W.
  destruct D as [[h [[[Ih Eh]|[Ih Eh]] O]]|[a [Ia [Q O]]]].
  - left. apply (proj2 (met_iff s argv ws pcs _ W RD)). exists h. rewrite scanned_help. auto.
  - right. left. apply (proj2 (met_iff s argv ws pcs _ W RD)). exists h. rewrite scanned_version. auto.
  - right. right. left. rewrite (missing_scanned s argv ws pcs W RD). intros Z. apply map_eq_nil in Z.
    assert (X : In a (filter (fun a => isRequired a && negb (on_line (a_id a) pcs)) (arguments (ready s)))) by (apply filter_In; split; [exact Ia | now rewrite Q, O]).
    rewrite Z in X. destruct X.
Qed.
Print Assumptions C28_outcome.

(** [steady pcs a]: a parse that reads the pieces [pcs] gives [a] its values anew. Either
    [a] is a flag or has one value; or it is an option with a list of values that is on
    the command line (for an option that accumulates: with its first value not glued to
    the flag as in -mV). *)
Definition steady (pcs : list piece) (a : argument) : Prop :=
  flat (c_type (a_cfg a)) = true \/
  (isPositional a = false /\ match occs_for (a_id a) pcs with
                             | [] => False
                             | o :: _ => accumulates (c_type (a_cfg a)) = true -> o_style o <> Glued
                             end).
Lemma occ_fresh : forall c o e c0 x n es es', flat (c_type c) = false -> is_positional (c_type c) = false ->
  (accumulates (c_type c) = true -> o_style o <> Glued /\ e = false) ->
  occ_dyn c o (ADyn e c0 x n es) = occ_dyn c o (ADyn e c0 x n es').
Proof.
  intros c o e c0 x n es es' F P A. unfold occ_dyn. destruct (c_type c); try discriminate F; try discriminate P;
    try (destruct (o_style o); reflexivity);
    (destruct (A eq_refl) as [G ->]; destruct (o_style o); [| |now elim G] || idtac; reflexivity).
Qed.
Lemma steady_read : forall s ws pcs a b, wf0 (ready s) -> reads s ws pcs -> In a (arguments (ready s)) -> kcore b = kcore a -> steady pcs a ->
  read_arg pcs b = read_arg pcs a.
Proof.
  intros s ws pcs a b W R Ia K S. unfold kcore, static in K. assert (E1 : a_id b = a_id a) by congruence. assert (E2 : a_gen b = a_gen a) by congruence.
  assert (E3 : a_cfg b = a_cfg a) by congruence. destruct S as [S|[P S]].
  - rewrite E3, S in K. assert (E4 : map clear_elem (d_elems (a_dyn b)) = map clear_elem (d_elems (a_dyn a))) by congruence.
    unfold read_arg, clear_arg. cbn [a_dyn arg_dyn]. now rewrite E1, E2, E3, E4.
  - destruct (flat (c_type (a_cfg a))) eqn:F.
    { rewrite E3, F in K. assert (E4 : map clear_elem (d_elems (a_dyn b)) = map clear_elem (d_elems (a_dyn a))) by congruence.
      unfold read_arg, clear_arg. cbn [a_dyn arg_dyn]. now rewrite E1, E2, E3, E4. }
    unfold read_arg. rewrite E1, E2, E3. f_equal.
    assert (NP : forall vs, ~ In (PcPositional (a_id a) vs) pcs).
    { intros vs Iv. pose proof (given_option_none s ws pcs a W R Ia P) as G. apply (given_none _ _ G vs). unfold given_of. apply in_flat_map. exists (PcPositional (a_id a) vs). split; [exact Iv | now left]. }
    rewrite !option_dyn by exact NP. destruct (occs_for (a_id a) pcs) as [|o os]; [destruct S|].
    unfold occs_dyn. cbn [fold_left]. f_equal. unfold clear_arg. cbn [a_dyn arg_dyn]. rewrite E3. apply occ_fresh; auto.
Qed.
Lemma map_Forall2 : forall {A B} (f : A -> B) l l', map f l' = map f l -> Forall2 (fun a b => f b = f a) l l'.
Proof. intros A B f. induction l as [|x l IH]; intros [|y l'] E; cbn in E; try discriminate; constructor; [congruence | apply IH; congruence]. Qed.
Lemma Forall2_In : forall {A B} (P Q : A -> B -> Prop) l l', Forall2 P l l' -> (forall a b, In a l -> In b l' -> P a b -> Q a b) -> Forall2 Q l l'.
Proof. intros A B P Q l l' F. induction F; intros H'; constructor; [apply H'; [now left | now left | assumption] | apply IHF; intros; apply H'; [now right | now right | assumption]]. Qed.
Lemma Forall2_map_both : forall {A B C D} (R : C -> D -> Prop) (f : A -> C) (g : B -> D) l l', Forall2 (fun a b => R (f a) (g b)) l l' -> Forall2 R (map f l) (map g l').
Proof. intros A B C D R f g l l' F. induction F; constructor; assumption. Qed.
Lemma Forall2_eq_map : forall {A B} (f : A -> B) l l', Forall2 (fun a b => f b = f a) l l' -> map f l' = map f l.
Proof. intros A B f l l' F. induction F; cbn; congruence. Qed.

(** The calls return: the same arguments exist, with the same counts, the additional
    arguments of this command line are appended to the earlier ones, and every steady
    argument is the same. *)
Theorem C28_results : forall s s1 argv ws pcs t t1, usable s -> interprets s -> reparsed anyhow s s1 -> command_line argv ws -> reads s ws pcs ->
  parseArguments argv s = (t, Ok tt) -> parseArguments argv s1 = (t1, Ok tt) ->
  getAdditionalArguments t = getAdditionalArguments s ++ additional_of pcs /\
  getAdditionalArguments t1 = getAdditionalArguments s1 ++ additional_of pcs /\
  Forall2 (fun a b => a_id b = a_id a /\ a_cfg b = a_cfg a /\ isExists b = isExists a /\ count b = count a /\ (steady pcs a -> b = a))
    (arguments t) (arguments t1).
Proof.
  intros s s1 argv ws pcs t t1 U I RP L RD E E1. pose proof (reparsed_resumed _ s s1 U I RP) as R.
  assert (RD1 : reads s1 ws pcs) by (unfold reads; rewrite (resumed_setup _ _ R); exact RD).
  destruct (parse_ok_args s argv ws t U L I E) as [p [Rp [At [Ad _]]]]. rewrite (Reading_det _ _ _ _ Rp _ RD) in *. clear p Rp.
  destruct (parse_ok_args s1 argv ws t1 (rs_usable _ _ R) L (rs_interprets _ _ R) E1) as [p [Rp [At1 [Ad1 _]]]]. rewrite (Reading_det _ _ _ _ Rp _ RD1) in *. clear p Rp.
  split; [exact Ad|]. split; [exact Ad1|]. rewrite At, At1. apply Forall2_map_both.
  pose proof (usable_ready_wf s U) as W. pose proof (usable_ready_wf s1 (rs_usable _ _ R)) as W1.
  eapply Forall2_In; [exact (map_Forall2 _ _ _ (rs_kcore _ _ R))|]. cbv beta. intros a b Ia Ib K.
  assert (X : a_id b = a_id a /\ a_cfg b = a_cfg a) by (unfold kcore, static in K; split; congruence). destruct X as [X1 X2].
  rewrite !finished_id, !finished_cfg. destruct (finished_exist (read_arg pcs a)) as [-> ->]. destruct (finished_exist (read_arg pcs b)) as [-> ->].
  cbn [a_id a_cfg read_arg]. split; [exact X1|]. split; [exact X2|].
  fold (read_arg pcs a) (read_arg pcs b). rewrite (read_exist s ws pcs a W RD Ia), (read_exist s1 ws pcs b W1 RD1 Ib), (read_count s ws pcs a W RD Ia), (read_count s1 ws pcs b W1 RD1 Ib), X1.
  split; [reflexivity|]. split; [reflexivity|]. intros S. f_equal. apply (steady_read s ws pcs a b W RD Ia K).
  unfold steady in *. rewrite finished_id, finished_cfg in S. exact S.
Qed.
Print Assumptions C28_results.

(** All arguments are steady: the outcome is the same, and after a return all arguments are.
    Missing for the full property: exactly the arguments that are not steady, and the
    additional arguments of earlier calls (both: C28_refuted). *)
Theorem C28_partial : forall s s1 argv ws pcs, usable s -> interprets s -> reparsed anyhow s s1 -> command_line argv ws -> reads s ws pcs ->
  s_bin (named argv s1) = s_bin (named argv s) -> (forall a, In a (arguments (ready s)) -> steady pcs a) ->
  snd (parseArguments argv s1) = snd (parseArguments argv s) /\
  (snd (parseArguments argv s) = Ok tt ->
     arguments (fst (parseArguments argv s1)) = arguments (fst (parseArguments argv s)) /\
     getAdditionalArguments (fst (parseArguments argv s)) = getAdditionalArguments s ++ additional_of pcs /\
     getAdditionalArguments (fst (parseArguments argv s1)) = getAdditionalArguments s1 ++ additional_of pcs).
Proof.
  intros s s1 argv ws pcs U I RP L RD B S. pose proof (reparsed_resumed _ s s1 U I RP) as R.
  assert (RD1 : reads s1 ws pcs) by (unfold reads; rewrite (resumed_setup _ _ R); exact RD).
  assert (E : snd (parseArguments argv s1) = snd (parseArguments argv s)).
  { rewrite (proj1 (parse_verdict s argv ws pcs U L I RD)), (proj1 (parse_verdict s1 argv ws pcs (rs_usable _ _ R) L (rs_interprets _ _ R) RD1)).
    eapply resumed_verdict; try eassumption. right. right. right. unfold scanned. cbn [s_args with_additional with_args]. f_equal.
    apply (f_equal (map trouble)) || idtac.
    apply Forall2_eq_map. eapply Forall2_In; [exact (map_Forall2 _ _ _ (rs_kcore _ _ R))|]. cbv beta. intros a b Ia Ib K. apply (steady_read s ws pcs a b (usable_ready_wf s U) RD Ia K). now apply S. }
  split; [exact E|]. intros K. rewrite K in E. destruct (parseArguments argv s) as [t r] eqn:Pt, (parseArguments argv s1) as [t1 r1] eqn:Pt1. cbn [fst snd] in *. subst r r1.
  destruct (C28_results s s1 argv ws pcs t t1 U I RP L RD Pt Pt1) as [A [A1 F]]. split; [|auto].
  destruct (parse_ok_args s argv ws t U L I Pt) as [p [Rp [At _]]]. rewrite (Reading_det _ _ _ _ Rp _ RD) in *.
  rewrite <- (map_id (arguments t1)), <- (map_id (arguments t)). apply Forall2_eq_map.
  eapply Forall2_In; [exact F|]. cbn. intros a b Ia Ib [_ [_ [_ [_ H]]]]. apply H.
  rewrite At in Ia. apply in_map_iff in Ia. destruct Ia as [a0 [<- Ia0]]. specialize (S a0 Ia0). unfold steady in *. rewrite finished_id, finished_cfg. exact S.
Qed.
Print Assumptions C28_partial.

(** An argument that was absent in all earlier calls (which returned) is treated as if
    there had been none. *)
Lemma clear_absent : forall b, isExists b = false -> clear_arg (finished b) = clear_arg b.
Proof.
  intros b E. unfold clear_arg. rewrite finished_cfg. unfold arg_dyn. rewrite finished_id, finished_gen, finished_cfg. f_equal. f_equal.
  unfold finished. cbn [a_dyn arg_dyn]. rewrite num_elems. unfold checked. rewrite E. destruct (c_valid (a_cfg b)); reflexivity.
Qed.
Lemma clear_arg_clear : forall b, clear_arg (clear_arg b) = clear_arg b.
Proof. intros b. unfold clear_arg. cbn. unfold arg_dyn. cbn. f_equal. f_equal. rewrite map_map. apply map_ext, clear_clear. Qed.
Definition absent_in (id : nat) (t : state) (r : res unit) : Prop := r = Ok tt /\ forall a, In a (arguments t) -> a_id a = id -> isExists a = false.
Lemma untouched_clear : forall id s s1, usable s -> interprets s -> reparsed (absent_in id) s s1 ->
  forall b, In b (arguments (ready s1)) -> a_id b = id -> exists a, In a (arguments (ready s)) /\ a_id a = id /\ clear_arg b = clear_arg a.
Proof.
  intros id s s1 U I R. induction R as [|s1 argv ws s2 r R IH L E C [Er A]]; intros b Ib Eb; [exists b; auto|].
  subst r. pose proof (reparsed_resumed _ s s1 U I R) as [U1 I1 F1 K1 _].
  destruct (parse_resumed s1 argv s2 _ U1 I1 E C) as [U2 [H2 [F2 K2]]]. rewrite (ready_some s2 H2) in Ib.
  destruct (parse_ok_args s1 argv ws s2 U1 L I1 E) as [p [Rp [At _]]]. pose proof (A b Ib Eb) as X. rewrite At in Ib. apply in_map_iff in Ib.
  destruct Ib as [b0 [Eb0 Ib0]]. subst b. rewrite finished_id in Eb. cbn in Eb. destruct (IH b0 Ib0 Eb) as [a [Ia [Ea Ca]]].
  exists a. split; [exact Ia|]. split; [exact Ea|]. rewrite <- Ca. destruct (finished_exist (read_arg p b0)) as [Fe _]. rewrite Fe in X.
  rewrite (clear_absent _ X). pose proof (usable_ready_wf s1 U1) as W1.
  rewrite (read_absent s1 ws p b0 W1 Rp Ib0); [apply clear_arg_clear|]. rewrite <- (read_exist s1 ws p b0 W1 Rp Ib0). exact X.
Qed.
Theorem C28_untouched : forall s s1 argv ws t t1 b, usable s -> interprets s -> command_line argv ws ->
  parseArguments argv s = (t, Ok tt) -> parseArguments argv s1 = (t1, Ok tt) ->
  In b (arguments t1) -> reparsed (absent_in (a_id b)) s s1 -> In b (arguments t).
Proof.
  intros s s1 argv ws t t1 b U I L E E1 Ib RP. pose proof (reparsed_resumed _ s s1 U I RP) as R.
  destruct (parse_ok_args s argv ws t U L I E) as [p [Rp [At _]]].
  destruct (parse_ok_args s1 argv ws t1 (rs_usable _ _ R) L (rs_interprets _ _ R) E1) as [p1 [Rp1 [At1 _]]].
  assert (EP : p1 = p) by (eapply Reading_det; [exact Rp1 | unfold reads in Rp; rewrite (resumed_setup _ _ R); exact Rp]). subst p1.
  rewrite At1 in Ib. apply in_map_iff in Ib. destruct Ib as [b0 [Eb Ib0]]. subst b. rewrite finished_id in RP. cbn in RP.
  destruct (untouched_clear _ s s1 U I RP b0 Ib0 eq_refl) as [a [Ia [Ea Ca]]]. rewrite At. apply in_map_iff. exists a. split; [|exact Ia].
  f_equal. unfold read_arg. assert (a_gen (clear_arg b0) = a_gen (clear_arg a) /\ a_cfg (clear_arg b0) = a_cfg (clear_arg a)) as [G1 G2] by now rewrite Ca. cbn in G1, G2.
  now rewrite Ea, Ca, G1, G2.
Qed.
Print Assumptions C28_untouched.

(** Not true in general: earlier additional arguments are kept; the values of an earlier
    call stay behind as empty strings; and so a validator can refuse what it accepted. *)
Definition no_empty : validator := Validator 0 (fun l => VOk (forallb (fun v => negb (String.eqb v "")) l) l).
Definition stale : state := history [OpAdd ["-n"] [MNargs 2]; OpAdd ["-m"] [MAction APPEND; MValid (Some no_empty) false]].
Definition stale1 : state := fst (parseArguments ["p"; "w"; "-n"; "a"; "b"; "-m"; "x"] stale).
Lemma stale_usable : usable stale. Proof. apply careful_usable, careful_history; vm_compute; reflexivity. Qed.
Lemma stale_interprets : interprets stale. Proof. right. vm_compute. discriminate. Qed.
Lemma stale1_reparsed : reparsed anyhow stale stale1.
Proof.
  apply (Rp_more anyhow stale stale ["p"; "w"; "-n"; "a"; "b"; "-m"; "x"] ["w"; "-n"; "a"; "b"; "-m"; "x"] stale1 (Ok tt)); [apply Rp_none | line | vm_compute; reflexivity | exact Logic.I | exact Logic.I].
Qed.
Theorem C28_refuted :
  ~ (forall s s1 argv ws t t1, usable s -> interprets s -> reparsed anyhow s s1 -> command_line argv ws ->
       parseArguments argv s = (t, Ok tt) -> parseArguments argv s1 = (t1, Ok tt) -> getAdditionalArguments t1 = getAdditionalArguments t) /\
  ~ (forall s s1 argv ws t t1 a b, usable s -> interprets s -> reparsed anyhow s s1 -> command_line argv ws ->
       parseArguments argv s = (t, Ok tt) -> parseArguments argv s1 = (t1, Ok tt) ->
       In a (arguments t) -> In b (arguments t1) -> a_id b = a_id a -> to_vector b = to_vector a) /\
  ~ (forall s s1 argv ws, usable s -> interprets s -> reparsed anyhow s s1 -> command_line argv ws ->
       snd (parseArguments argv s1) = snd (parseArguments argv s)).
Proof.
  split; [|split]; intros H.
  - assert (L : command_line ["p"] []) by line.
    assert (E : parseArguments ["p"] stale = (fst (parseArguments ["p"] stale), Ok tt)) by (vm_compute; reflexivity).
    assert (E1 : parseArguments ["p"] stale1 = (fst (parseArguments ["p"] stale1), Ok tt)) by (vm_compute; reflexivity).
    specialize (H _ _ _ _ _ _ stale_usable stale_interprets stale1_reparsed L E E1).
    assert (X : getAdditionalArguments (fst (parseArguments ["p"] stale1)) = ["w"]) by (vm_compute; reflexivity).
    assert (Y : getAdditionalArguments (fst (parseArguments ["p"] stale)) = []) by (vm_compute; reflexivity).
    rewrite X, Y in H. discriminate H.
  - assert (L : command_line ["p"] []) by line.
    assert (E : parseArguments ["p"] stale = (fst (parseArguments ["p"] stale), Ok tt)) by (vm_compute; reflexivity).
    assert (E1 : parseArguments ["p"] stale1 = (fst (parseArguments ["p"] stale1), Ok tt)) by (vm_compute; reflexivity).
    specialize (H _ _ _ _ _ _ (pick "-n" (fst (parseArguments ["p"] stale))) (pick "-n" (fst (parseArguments ["p"] stale1))) stale_usable stale_interprets stale1_reparsed L E E1).
    assert (X : to_vector (pick "-n" (fst (parseArguments ["p"] stale1))) = Ok [""; ""]) by (vm_compute; reflexivity).
    assert (Y : to_vector (pick "-n" (fst (parseArguments ["p"] stale))) = Ok []) by (vm_compute; reflexivity).
    rewrite X, Y in H. assert (Z : Ok [""; ""] = Ok []) by (apply H; [apply pick_In; vm_compute; reflexivity | apply pick_In; vm_compute; reflexivity | vm_compute; reflexivity]).
    discriminate Z.
  - assert (L : command_line ["p"; "-my"] ["-my"]) by line.
    specialize (H _ _ _ _ stale_usable stale_interprets stale1_reparsed L).
    assert (X : snd (parseArguments ["p"; "-my"] stale1) = Throw (Exn KValid "-m" "invalid check function")) by (vm_compute; reflexivity).
    assert (Y : snd (parseArguments ["p"; "-my"] stale) = Ok tt) by (vm_compute; reflexivity).
    rewrite X, Y in H. discriminate H.
Qed.
Print Assumptions C28_refuted.
(** two earlier calls, one of them with an exception; -a and -i were used *)
Definition shop1 : state := fst (parseArguments ["p"; "x"; "y"; "-a"; "1"; "2"; "3"; "--what"] shop).
Definition shop2 : state := fst (parseArguments ["p"; "x"; "-v"; "-n"; "k"] shop1).
Example C28_example : exists pcs, reparsed anyhow shop shop2 /\ reads shop ["-v"; "f"; "--name"; "z"; "-vqv"] pcs /\
  steady pcs (pick "-v" (ready shop)) /\ steady pcs (pick "-n" (ready shop)) /\ ~ steady pcs (pick "-a" (ready shop)) /\
  snd (parseArguments ["p"; "-v"; "f"; "--name"; "z"; "-vqv"] shop2) = Ok tt /\
  pick "-n" (fst (parseArguments ["p"; "-v"; "f"; "--name"; "z"; "-vqv"] shop2)) = pick "-n" (fst (parseArguments ["p"; "-v"; "f"; "--name"; "z"; "-vqv"] shop)).
Proof.
  eexists. split.
  { eapply Rp_more with (argv := ["p"; "x"; "-v"; "-n"; "k"]) (ws := ["x"; "-v"; "-n"; "k"]) (s1 := shop1) (r := Ok tt).
    - eapply Rp_more with (s1 := shop) (argv := ["p"; "x"; "y"; "-a"; "1"; "2"; "3"; "--what"]) (ws := ["x"; "y"; "-a"; "1"; "2"; "3"; "--what"]);
        [apply Rp_none | line | vm_compute; reflexivity | exact Logic.I | exact Logic.I].
    - line.
    - vm_compute. reflexivity.
    - exact Logic.I.
    - exact Logic.I. }
  split; [reading|]. split; [left; vm_compute; reflexivity|]. split; [left; vm_compute; reflexivity|].
  split; [vm_compute; intros [Z|[_ Z]]; [discriminate Z | exact Z]|]. split; vm_compute; reflexivity.
Qed.
