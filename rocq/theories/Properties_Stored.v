(** Properties_Stored.v -- C12, C13, C14, C28: where the words of the command line are after
    parseArguments, and that those of earlier calls are nowhere. *)
From Verif Require Import Base Model_Utils Model_Number Model_Types Model_Argument Model_Usage Model_Args Model_Api
  Spec_Order Spec_Names Spec_Reading Spec_Parse Spec_Decl Spec_Finish Spec_History Spec_Api Spec_Result
  Proofs_Base Proofs_Order Proofs_Frame Proofs_Inv Proofs_ReadFacts Proofs_Reading Proofs_Parse Proofs_Decl Proofs_Finish
  Proofs_Meth Proofs_History Proofs_Config Proofs_Check Proofs_Names Proofs_Central Proofs_Dyn Properties_Words Demo Properties_Parse Proofs_Swap Proofs_Kind
  Proofs_Values Properties_Values Properties_Positional Proofs_Quiet Proofs_Fresh Properties_Defaults Properties_Repeat Properties_Final Proofs_Defs.

Lemma stored_arg : forall s argv ws s' pcs b, usable s -> interprets s -> command_line argv ws -> parseArguments argv s = (s', Ok tt) ->
  reads s ws pcs -> In b (arguments (ready s)) -> on_line (a_id b) pcs = true ->
  exists a, In a (arguments s') /\ a_id a = a_id b /\ a_cfg a = a_cfg b /\ isExists a = true /\
    (c_valid (a_cfg a) = None -> has_values (a_cfg a) = true -> to_vector a = Ok (line_values pcs b)).
Proof.
  intros s argv ws s' pcs b U I C E R Ib O. destruct (parse_ok_args s argv ws s' U C I E) as [pcs' [R' [EA _]]].
  destruct (C14_unique s argv ws U C I) as [X _]. pose proof (X _ _ R' R) as ->. clear R'.
  set (a := finished (read_arg pcs b)). assert (Ia : In a (arguments s')) by (rewrite EA; apply in_map_iff; now exists b).
  assert (ID : a_id a = a_id b) by (unfold a; rewrite finished_id; reflexivity). assert (CF : a_cfg a = a_cfg b) by (unfold a; rewrite finished_cfg; reflexivity).
  exists a. split; [exact Ia|]. split; [exact ID|]. split; [exact CF|].
  destruct (result_with s argv ws s' a pcs U C I E Ia R) as [b' [Ib' [_ [_ [_ [ID' [EX _]]]]]]]. assert (EX' : isExists a = true) by (rewrite EX, <- ID', ID; exact O).
  split; [exact EX'|]. intros V HV. destruct (C30_accepted s argv ws s' pcs a U I C E R Ia EX') as [b2 [Ib2 [ID2 [_ H]]]]. rewrite V in H.
  assert (b2 = b) by (eapply wf_unique; [apply usable_ready_wf, U | exact Ib2 | exact Ib | congruence]). subst b2. now apply H.
Qed.
Lemma positional_has : forall a, isPositional a = true -> has_values (a_cfg a) = true.
Proof. intros a P. unfold has_values, arity_of. destruct (c_type (a_cfg a)); try discriminate P; reflexivity. Qed.

(** Nothing is lost: after parseArguments returned, each word is where it belongs.  An
    additional word is among the additional arguments; the words given to a positional are
    the last values of this positional, in order; an option on the line exists, and has the
    values of the occurrence, in order: of every occurrence if it is an option that
    accumulates, else of its last one.  (Values are shown for arguments without validator;
    for the others see C30_accepted.) *)
Theorem C14_stored : forall s argv ws s' pcs, usable s -> interprets s -> command_line argv ws -> parseArguments argv s = (s', Ok tt) -> reads s ws pcs ->
  (forall w, In (PcAdditional w) pcs -> In w (getAdditionalArguments s')) /\
  (forall i vs, In (PcPositional i vs) pcs -> exists a, In a (arguments s') /\ a_id a = i /\ isPositional a = true /\ isExists a = true /\
     (c_valid (a_cfg a) = None -> exists before, to_vector a = Ok (before ++ vs))) /\
  (forall w occs used o, In (PcOption w occs used) pcs -> In o occs -> exists a, In a (arguments s') /\ a_id a = o_id o /\ isPositional a = false /\ isExists a = true /\
     (c_valid (a_cfg a) = None -> has_values (a_cfg a) = true ->
        accumulates (c_type (a_cfg a)) = true \/ (exists earlier, occs_for (o_id o) pcs = earlier ++ [o]) ->
        exists before after, to_vector a = Ok (before ++ o_vals o ++ after))).
Proof.
  intros s argv ws s' pcs U I C E R. pose proof (usable_ready_wf s U) as W. split; [|split].
  - intros w Iw. destruct (parse_ok_args s argv ws s' U C I E) as [pcs' [R' [_ [AD _]]]].
    destruct (C14_unique s argv ws U C I) as [X _]. pose proof (X _ _ R' R) as ->. rewrite AD. apply in_or_app. right.
    unfold additional_of. apply in_flat_map. exists (PcAdditional w). split; [exact Iw | now left].
  - intros i vs Ip. assert (G : In (i, vs) (given_of pcs)) by (unfold given_of; apply in_flat_map; exists (PcPositional i vs); split; [exact Ip | now left]).
    destruct (reads_given s ws pcs i vs W R G) as [b [Ib [ID [P _]]]]. subst i.
    pose proof (in_given _ _ _ (reads_given_nodup s ws pcs W R) G) as GV.
    assert (O : on_line (a_id b) pcs = true) by (rewrite on_line_eq, GV; apply orb_true_r).
    destruct (stored_arg s argv ws s' pcs b U I C E R Ib O) as [a [Ia [ID [CF [EX H]]]]].
    exists a. split; [exact Ia|]. split; [exact ID|]. assert (Pa : isPositional a = true) by (unfold isPositional in *; now rewrite CF). split; [exact Pa|]. split; [exact EX|].
    intros V. rewrite (H V (positional_has a Pa)). unfold line_values. rewrite GV. destruct (c_type (a_cfg b)); first [now exists [] | eexists; reflexivity].
  - intros w occs used o Ip Io. assert (G : In o (occs_of pcs)) by (apply occs_In; eauto).
    destruct (reads_occ s ws pcs o W R G) as [b [Ib [ID [P _]]]].
    assert (IO : In o (occs_for (a_id b) pcs)) by (unfold occs_for; apply filter_In; split; [exact G | rewrite ID; apply Nat.eqb_refl]).
    assert (O : on_line (a_id b) pcs = true) by (rewrite on_line_eq; destruct (occs_for (a_id b) pcs); [destruct IO | reflexivity]).
    destruct (stored_arg s argv ws s' pcs b U I C E R Ib O) as [a [Ia [IDa [CF [EX H]]]]].
    exists a. split; [exact Ia|]. split; [congruence|]. split; [unfold isPositional in *; now rewrite CF|]. split; [exact EX|].
    intros V HV HL. rewrite (H V HV). unfold line_values. rewrite (given_option_none s ws pcs b W R Ib P), <- CF. rewrite <- ID in HL.
    destruct (occs_for (a_id b) pcs) as [|o0 os] eqn:EO; [destruct IO|]. destruct (accumulates (c_type (a_cfg a))) eqn:AC.
    + apply in_split in IO. destruct IO as [l1 [l2 ->]]. rewrite flat_map_app. cbn [flat_map].
      eexists (_ ++ flat_map o_vals l1), (flat_map o_vals l2). rewrite <- app_assoc. reflexivity.
    + destruct HL as [HL|[earlier HL]]; [discriminate HL|]. rewrite HL, last_last. exists [], []. rewrite app_nil_r. reflexivity.
Qed.
Print Assumptions C14_stored.

(** Nothing behind "--" is read as an option, and nothing is lost there either: after a
    return every word behind the "--" is a value of a positional (without validator) or an
    additional argument. *)
Theorem C12_stored : forall s argv pre post s' v, usable s -> interprets s -> ~ In "--" pre -> command_line argv (pre ++ "--" :: post) ->
  parseArguments argv s = (s', Ok tt) -> In v post ->
  In v (getAdditionalArguments s') \/
  exists a, In a (arguments s') /\ isPositional a = true /\ isExists a = true /\ (c_valid (a_cfg a) = None -> exists vs, to_vector a = Ok vs /\ In v vs).
Proof.
  intros s argv pre post s' v U I N C E Iv. destruct (C14_accounted s argv _ s' U C I E) as [pcs [R _]].
  destruct (C12_after_end s _ pcs pre post R eq_refl N) as (p1 & p2 & -> & _ & W2 & K). destruct (C14_stored s argv _ s' _ U I C E R) as [SA [SP _]].
  rewrite <- W2 in Iv. apply in_flat_map in Iv. destruct Iv as [p [Ip Iv]]. assert (Ip' : In p (p1 ++ PcEnd :: p2)) by (apply in_or_app; right; now right).
  destruct (K p Ip) as [[i [vs ->]]|[w ->]]; cbn [piece_words] in Iv.
  - right. destruct (SP i vs Ip') as [a [Ia [_ [P [EX H]]]]]. exists a. split; [exact Ia|]. split; [exact P|]. split; [exact EX|]. intros V. destruct (H V) as [b Hb].
    exists (b ++ vs). split; [exact Hb | apply in_or_app; now right].
  - left. destruct Iv as [<-|[]]. now apply SA.
Qed.
Print Assumptions C12_stored.

(** Every value of an option that is on the line comes from the words before the first "--"
    (it is such a word, or the last part of one: -nv, -n=v, --name=v), unless it is one of
    the values the option starts with at each parse (its defaults; only if the option
    accumulates). *)
Theorem C13_stored : forall s argv ws s' a vs v, usable s -> interprets s -> command_line argv ws -> parseArguments argv s = (s', Ok tt) ->
  In a (arguments s') -> isPositional a = false -> isExists a = true -> c_valid (a_cfg a) = None -> has_values (a_cfg a) = true ->
  to_vector a = Ok vs -> In v vs ->
  In v (before_end ws) \/ (exists w p, In w (before_end ws) /\ w = p ^^ v) \/
  (accumulates (c_type (a_cfg a)) = true /\ exists b, In b (arguments (ready s)) /\ a_id b = a_id a /\ In v (start_values b)).
Proof.
  intros s argv ws s' a vs v U I C E Ia P EX V HV TV Iv. destruct (C14_accounted s argv _ s' U C I E) as [pcs [R _]]. pose proof (usable_ready_wf s U) as W.
  destruct (C30_accepted s argv ws s' pcs a U I C E R Ia EX) as [b [Ib [ID [CF H]]]]. rewrite V in H. rewrite (H HV) in TV. injection TV as <-.
  assert (Pb : isPositional b = false) by (unfold isPositional in *; now rewrite CF).
  assert (OK : forall o, In o (occs_for (a_id b) pcs) -> In v (o_vals o) -> In v (before_end ws) \/ exists w p, In w (before_end ws) /\ w = p ^^ v).
  { intros o Io Ivo. apply filter_In in Io. destruct Io as [Io _]. eapply C13_values; eassumption. }
  unfold line_values in Iv. rewrite (given_option_none s ws pcs b W R Ib Pb) in Iv.
  destruct (result_with s argv ws s' a pcs U C I E Ia R) as [b' [Ib' [_ [_ [_ [ID' [EX' _]]]]]]].
  assert (O : on_line (a_id b) pcs = true) by (rewrite ID, ID'; congruence). rewrite on_line_eq, (given_option_none s ws pcs b W R Ib Pb), orb_false_r in O.
  destruct (occs_for (a_id b) pcs) as [|o os] eqn:EO; [discriminate O|]. rewrite CF in Iv. destruct (accumulates (c_type (a_cfg a))) eqn:AC.
  - apply in_app_or in Iv. destruct Iv as [Iv|Iv].
    + right. right. split; [reflexivity|]. exists b. split; [exact Ib|]. split; [exact ID|]. destruct (o_style o); try destruct Iv. exact Iv.
    + apply in_flat_map in Iv. destruct Iv as [o' [Io' Iv]]. destruct (OK o' Io' Iv) as [X|X]; [now left | right; now left].
  - destruct (OK (last (o :: os) o) ltac:(apply last_In; discriminate) Iv) as [X|X]; [now left | right; now left].
Qed.
Print Assumptions C13_stored.

(** Values of an earlier command line are never seen again on an argument that is absent
    from the present one: its values are its declared defaults, or empty (C28_refuted shows
    that these empty ones occur). *)
Definition declared_default (s : state) (id : nat) (v : str) : Prop :=
  exists b, In b (arguments s) /\ a_id b = id /\ (c_dest (a_cfg b) = None -> In v (getDefaults b)).
Lemma fresh_oks : forall s, usable s -> fresh_with settled s -> oks (declared_default s) (ready s).
Proof.
  intros s U F. unfold oks. rewrite Forall_forall. intros b Ib V.
  pose proof (ready_values_In s b (usable_wf0 s U) Ib V) as Ibs. pose proof (settled_clean s F b Ibs) as CL.
  pose proof (cl_elems b CL V) as EC. rewrite Forall_forall in *. intros e Ie. specialize (EC e Ie).
  assert (OK : forall l, (c_dest (a_cfg b) = None -> forall d, to_vector b = Ok d -> In (lf_def l) d) -> okl (declared_default s) (a_id b) l).
  { intros l H. right. exists b. split; [exact Ibs|]. split; [reflexivity|]. intros D. destruct (getDefaults b) as [|d ds] eqn:E.
    - destruct (cl_none b CL D E) as [E1 _]. rewrite E1 in Ie. destruct Ie.
    - rewrite <- E. apply (H D). apply (cl_some b CL D); [change (getDefaults b <> []); rewrite E; discriminate | exact V]. }
  unfold elem_clean in EC. unfold oke. destruct (grouped (c_type (a_cfg b))) eqn:G.
  - destruct EC as [_ EC]. split; [discriminate|]. rewrite Forall_forall in *. intros l Il. apply OK. intros _ d TV. unfold to_vector in TV.
    destruct (c_type (a_cfg b)); try discriminate G; injection TV as <-; apply in_flat_map; exists e; (split; [exact Ie|]); unfold elem_values; rewrite <- (EC l Il); now apply in_map.
  - destruct EC as [-> EC]. split; [|constructor]. intros _. apply OK. intros _ d TV. unfold to_vector in TV. unfold has_values, arity_of in V.
    pose proof (cl_single b CL) as SC. rewrite <- EC.
    destruct (c_type (a_cfg b)); try discriminate V; try discriminate G; try (destruct SC as [SE _]; [auto|]; rewrite SE in Ie; destruct Ie; fail); injection TV as <-; now apply (in_map elem_value).
Qed.
Theorem C28_leftover : forall s s1 argv ws pcs t a vs v, usable s -> fresh_with settled s -> interprets s -> reparsed anyhow s s1 -> command_line argv ws ->
  reads s ws pcs -> parseArguments argv s1 = (t, Ok tt) -> In a (arguments t) -> on_line (a_id a) pcs = false ->
  has_values (a_cfg a) = true -> c_dest (a_cfg a) = None -> to_vector a = Ok vs -> In v vs -> v = "" \/ In v (getDefaults a).
Proof.
  intros s s1 argv ws pcs t a vs v U F I RP C R E Ia O V D TV Iv.
  pose proof (reparsed_resumed anyhow s s1 U I RP) as RS. destruct RS as [U1 I1 FR _ _].
  pose proof (reparsed_oks (declared_default s) anyhow s s1 U I RP (fresh_oks s U F)) as OKS.
  assert (R1 : reads s1 ws pcs) by (apply (C28_reading s s1 argv ws U I RP C); exact R).
  destruct (result_with s1 argv ws t a pcs U1 C I1 E Ia R1) as [b [Ib [Ea [_ [CF [ID _]]]]]]. pose proof (usable_ready_wf s1 U1) as W1. rewrite ID in O.
  rewrite (read_absent s1 ws pcs b W1 R1 Ib O) in Ea. destruct (finished_absent (clear_arg b) eq_refl) as [F1 _]. rewrite Ea, F1 in TV. rewrite CF in V, D.
  unfold oks in OKS. rewrite Forall_forall in OKS. pose proof (OKS b Ib V) as OB.
  assert (B0 : exists b0, In b0 (arguments (ready s)) /\ a_id b0 = a_id b /\ a_cfg b0 = a_cfg b).
  { apply (in_map static) in Ib. rewrite (fr_args _ _ FR) in Ib. apply in_map_iff in Ib. destruct Ib as [b0 [EB Ib0]]. exists b0. unfold static in EB. injection EB as E1 _ E3. auto. }
  destruct B0 as [b0 [Ib0 [ID0 CF0]]].
  assert (V0 : has_values (a_cfg b0) = true) by (rewrite CF0; exact V). assert (D0 : c_dest (a_cfg b0) = None) by (rewrite CF0; exact D).
  pose proof (ready_values_In s b0 (usable_wf0 s U) Ib0 V0) as Ib0s.
  assert (GD : getDefaults a = getDefaults b0) by (rewrite CF, CF0; reflexivity). rewrite GD.
  assert (OKL : forall l, okl (declared_default s) (a_id b) l -> lf_def l = "" \/ In (lf_def l) (getDefaults b0)).
  { intros l [H|[b2 [Ib2 [ID2 H]]]]; [now left|]. right. assert (b2 = b0) by (eapply wf_unique; [apply usable_wf0, U | exact Ib2 | exact Ib0s | congruence]). subst b2. now apply H. }
  unfold to_vector in TV. cbn [a_cfg a_dyn clear_arg arg_dyn d_elems d_arg] in TV. pose proof (settled_clean s F b0 Ib0s) as CL. pose proof V as V'. unfold has_values, arity_of in V'.
  rewrite Forall_forall in OB. unfold oke in OB.
  assert (ONE : c_type (a_cfg b) = SIMPLE_OPTION \/ c_type (a_cfg b) = POSITIONAL_ARGUMENT -> c_default (a_cfg b) = "" \/ In (c_default (a_cfg b)) (getDefaults b0)).
  { intros TY. rewrite <- CF0 in TY |- *. destruct (cl_single b0 CL TY) as [SE _]. pose proof (cl_arg b0 CL V0 SE) as AC. destruct (getDefaults b0) as [|d ds] eqn:E0.
    - left. apply (cl_none b0 CL D0 E0).
    - right. destruct (cl_some b0 CL D0 ltac:(change (getDefaults b0 <> []); rewrite E0; discriminate) V0) as [TV0 _]. change (c_defaults (a_cfg b0)) with (getDefaults b0) in TV0. rewrite E0 in TV0.
      rewrite <- AC. unfold to_vector in TV0. destruct TY as [TY|TY]; rewrite TY in TV0; injection TV0 as <- <-; now left. }
  destruct (c_type (a_cfg b)) eqn:TY; try discriminate V'; injection TV as <-.
  all: try (destruct Iv as [<-|[]]; apply ONE; auto; fail).
  all: try (apply in_map_iff in Iv; destruct Iv as [e [<- Ie]]; apply in_map_iff in Ie; destruct Ie as [e0 [<- Ie0]]; apply (OKL (el_leaf e0)), OB; [exact Ie0 | reflexivity]).
  all: apply in_flat_map in Iv; destruct Iv as [e [Ie Iv]]; apply in_map_iff in Ie; destruct Ie as [e0 [<- Ie0]]; unfold elem_values in Iv; apply in_map_iff in Iv; destruct Iv as [l [<- Il]];
    cbn [clear_elem el_subs] in Il; apply in_map_iff in Il; destruct Il as [l0 [<- Il0]]; apply (OKL l0); destruct (OB e0 Ie0) as [_ OL]; rewrite Forall_forall in OL; now apply OL.
Qed.
Print Assumptions C28_leftover.

(** ** Examples *)
Lemma stale_fresh : fresh_with settled stale.
Proof. apply fresh_history; vm_compute; reflexivity. Qed.
(** -n a b in the first call, nothing in the second: two empty values, not "a" and "b" *)
Example C28_leftover_example : exists t pcs, parseArguments ["p"; "w"] stale1 = (t, Ok tt) /\ reads stale ["w"] pcs /\ on_line (a_id (pick "-n" t)) pcs = false /\
  to_vector (pick "-n" stale1) = Ok ["a"; "b"] /\ to_vector (pick "-n" t) = Ok [""; ""].
Proof.
  eexists. eexists. split; [vm_compute; reflexivity|]. split; [|split; [|split; vm_compute; reflexivity]].
  - reading.
  - vm_compute. reflexivity.
Qed.
Example C14_stored_example : exists s', parseArguments ["prog"; "f"; "-i"; "1"; "2"; "--"; "-v"; "x"] shop = (s', Ok tt) /\
  getAdditionalArguments s' = ["x"] /\ to_vector (pick "DST" s') = Ok ["-v"] /\ to_vector (pick "-i" s') = Ok ["1"; "2"].
Proof. eexists. split; [vm_compute; reflexivity|]. repeat split; vm_compute; reflexivity. Qed.
