(** Proofs_Central.v -- parseArguments in terms of [ready], [reads] and [rejects]. *)
From Coq Require Import Permutation Sorted.
From Verif Require Import Base Model_Utils Model_Number Model_Types Model_Argument Model_Usage Model_Args Model_Api
  Spec_Order Spec_Names Spec_Reading Spec_Parse Spec_Finish Spec_History Spec_Api Spec_Result
  Proofs_Base Proofs_Order Proofs_Frame Proofs_Inv Proofs_ReadFacts Proofs_Reading Proofs_Parse Proofs_Decl Proofs_Finish
  Proofs_Meth Proofs_History Proofs_Config.

(* ------------------------------------------------------------------ *)
(** * the automatic help option *)
Definition auto_op (s : state) : op := OpAdd (free_help s) [MAction HELP; MHelp "show this help message and exit"].
Lemma auto_step : forall s, wf0 s -> s_help s = None -> free_help s <> [] -> step (auto_op s) s = (with_auto_help s, Ok tt).
Proof.
  intros s W H F. pose proof (help_setup_eq s W) as E. rewrite H in E. destruct (free_help s) as [|f fs] eqn:EF; [contradiction|].
  unfold help_setup in E. rewrite (bind_ok get _ s s s eq_refl) in E. rewrite H in E.
  assert (EQ : (if mem_key "-h" (s_map s) then [] else ["-h"]) ++ (if mem_key "--help" (s_map s) then [] else ["--help"]) = f :: fs) by exact EF.
  rewrite EQ in E.
  assert (B : mem_key "-h" (s_map s) && mem_key "--help" (s_map s) = false).
  { destruct (mem_key "-h" (s_map s)), (mem_key "--help" (s_map s)); auto; discriminate. }
  rewrite B in E. unfold auto_op, step. rewrite EF. unfold bind in E |- *.
  destruct (addArgument (f :: fs) s) as [s1 r1]. destruct r1; try discriminate.
  cbn [run_meths run_meth]. unfold bind. destruct (action a HELP s1) as [s2 r2]. destruct r2; try discriminate.
  destruct (help a _ s2) as [s3 r3]. destruct r3; try discriminate. unfold ret in *. now injection E as ->.
Qed.
Lemma ready_cases : forall s, wf0 s ->
  (ready s = s /\ (s_help s <> None \/ free_help s = [])) \/
  (ready s = with_auto_help s /\ s_help s = None /\ free_help s <> []).
Proof.
  intros s W. unfold ready. destruct (s_help s) as [p|] eqn:H; [left; split; [reflexivity | left; discriminate]|].
  destruct (free_help s) as [|f fs] eqn:F; [left; auto|]. right. rewrite <- F. change (OpAdd _ _) with (auto_op s).
  rewrite auto_step; auto; try congruence. repeat split; auto; congruence.
Qed.
Lemma fresh_cleared : forall s, fresh_id (cleared s) = fresh_id s.
Proof. intros s. unfold fresh_id, cleared. cbn [s_args s_help s_version with_args]. now rewrite map_map. Qed.
Lemma prepared_ready : forall s, wf0 s -> prepared s = cleared (ready s).
Proof.
  intros s W. unfold prepared. destruct (ready_cases s W) as [[-> H]|[-> [H F]]].
  - destruct (s_help s); [reflexivity|]. destruct H as [H| ->]; [contradiction|reflexivity].
  - rewrite H. destruct (free_help s) as [|f fs] eqn:EF; [contradiction|].
    unfold with_auto_help. rewrite fresh_cleared. change (free_help (cleared s)) with (free_help s). rewrite EF.
    unfold registered. rewrite fresh_cleared. cbn [s_args s_map with_map with_args with_help].
    unfold cleared, with_help, with_args, with_map. cbn [s_bin s_args s_map s_help s_version s_verstr s_modes s_additional s_usage s_freed s_dlog].
    f_equal.
    rewrite <- (sort_map_in arg_lt clear_arg).
    + now rewrite map_app.
    + intros x y _ _. reflexivity.
Qed.

(* ------------------------------------------------------------------ *)
(** * usable states *)
Lemma careful_usable : forall s, reach_with careful s -> usable s.
Proof.
  intros s R. split; [eapply reach_with_reach; exact R|]. split.
  - eapply reach_sensible; [ | | | | exact R]; simpl; auto; try (intros; split; [try exact I; simpl | ]; simpl; auto; fail).
    + intros n a t [_ H]. exact H.
  - apply pointing_ok. eapply reach_pointing; [ | | | | exact R]; simpl; auto.
    intros d a t [H _]. exact H.
Qed.
Lemma usable_wf : forall s, usable s -> wf s.
Proof. intros s [R _]. now apply reach_wf. Qed.
Lemma usable_wf0 : forall s, usable s -> wf0 s.
Proof. intros s U. apply (usable_wf s U). Qed.
Lemma ready_reach : forall s, reach s -> reach (ready s).
Proof.
  intros s R. destruct (reach_wf s R) as [W _]. destruct (ready_cases s W) as [[-> _]|[-> [H F]]]; [exact R|].
  eapply reach_step; [exact R | apply (auto_step s W H F) | exact I].
Qed.
Lemma ready_help : forall s, wf0 s -> interprets s -> s_help (ready s) <> None.
Proof.
  intros s W [H|H]; destruct (ready_cases s W) as [[-> [A|A]]|[-> [A F]]]; auto; try discriminate; try contradiction. 
Qed.
Lemma pointers_frame : forall s s', frame s s' -> pointers_ok s -> pointers_ok s'.
Proof.
  intros s s' F P. apply pointing_ok. apply ok_pointing in P. destruct P as [P1 P2]. split.
  - rewrite (fr_help _ _ F). eapply points_static; [apply (fr_args _ _ F) | exact P1].
  - rewrite (fr_version _ _ F). eapply points_static; [apply (fr_args _ _ F) | exact P2].
Qed.
Lemma pointers_auto : forall s, wf0 s -> s_help s = None -> pointers_ok s -> pointers_ok (with_auto_help s).
Proof.
  intros s W H P. apply pointing_ok. apply ok_pointing in P. destruct P as [_ P2]. split.
  - simpl. exists (Arg (fresh_id s) 0 (help_cfg (free_help s)) new_dyn). split; [|reflexivity].
    apply sort_In. apply in_app_iff. right. now left.
  - unfold with_auto_help. cbn [s_version s_args with_help registered with_args with_map]. 
    eapply points_incl; [|exact P2]. intros a Ia. apply sort_In. apply in_app_iff. now left.
Qed.
Lemma sensible_auto : forall s, sensible s -> sensible (with_auto_help s).
Proof.
  intros s H a Ia. unfold with_auto_help in Ia. cbn [s_args with_help registered with_args with_map] in Ia.
  apply (proj1 (sort_In _ _ _)) in Ia. apply in_app_iff in Ia. destruct Ia as [Ia|[<-|[]]]; [now apply H|]. simpl.
  split; [reflexivity | discriminate].
Qed.
Lemma usable_ready : forall s, usable s -> usable (ready s).
Proof.
  intros s [R [S P]]. split; [now apply ready_reach|]. destruct (reach_wf s R) as [W _].
  destruct (ready_cases s W) as [[-> _]|[-> [H F]]]; [now split|]. split; [now apply sensible_auto | now apply pointers_auto].
Qed.
Lemma ready_ready : forall s, wf0 s -> ready (ready s) = ready s.
Proof.
  intros s W. destruct (ready_cases s W) as [[-> [H|H]]|[E [H F]]].
  - unfold ready. destruct (s_help s); [reflexivity|contradiction].
  - unfold ready. rewrite H. now destruct (s_help s).
  - rewrite E. reflexivity.
Qed.

(* ------------------------------------------------------------------ *)
(** * the call as a whole *)
Definition read_arg (pcs : list piece) (a : argument) : argument :=
  Arg (a_id a) (a_gen a) (a_cfg a) (pieces_dyn (a_id a) (a_cfg a) pcs (a_dyn (clear_arg a))).
(** the object when the words have been read *)
Definition scanned (argv : list str) (pcs : list piece) (s : state) : state :=
  with_additional (with_args (named argv (ready s)) (map (read_arg pcs) (s_args (ready s))))
    (s_additional (ready s) ++ additional_of pcs).
Lemma after_reading_scanned : forall s argv pcs, after_reading (cleared (ready s)) argv pcs = scanned argv pcs s.
Proof.
  intros s argv pcs. unfold after_reading, scanned, named. rewrite apply_pieces_eq.
  change (s_bin (cleared (ready s))) with (s_bin (ready s)).
  destruct (s_bin (ready s)); unfold read_args, cleared, with_additional, with_args, with_bin;
  cbn [s_bin s_args s_map s_help s_version s_verstr s_modes s_additional s_usage s_freed s_dlog]; rewrite map_map; reflexivity.
Qed.
Lemma setup_prepared : forall s, wf0 s -> conf_of (prepared s) = setup s.
Proof. intros s W. rewrite prepared_ready by exact W. apply conf_frame. apply frame_clear_args. Qed.

Lemma parse_total : forall s argv ws, usable s -> command_line argv ws -> interprets s ->
  (exists pcs, reads s ws pcs /\ parseArguments argv s = after_scan (scanned argv pcs s)) \/
  (exists e s', rejects s ws e /\ frame (ready s) s' /\ parseArguments argv s = (s', Throw e)).
Proof.
  intros s argv ws U C I. pose proof (usable_wf s U) as W. destruct U as [R [S P]].
  pose proof (parse_cases s argv ws W (reach_opt_nargs s R) S C I) as H. cbv zeta in H.
  rewrite setup_prepared in H by apply W. rewrite prepared_ready in H by apply W.
  destruct H as [[pcs [H E]]|[e [s' [H [F E]]]]].
  - left. exists pcs. split; [exact H|]. now rewrite after_reading_scanned in E.
  - right. exists e, s'. split; [exact H|]. split; [|exact E].
    eapply frame_trans; [apply frame_clear_args | exact F].
Qed.
Lemma parse_reads : forall s argv ws pcs, usable s -> command_line argv ws -> interprets s -> reads s ws pcs ->
  parseArguments argv s = after_scan (scanned argv pcs s).
Proof.
  intros s argv ws pcs U C I H. destruct (parse_total s argv ws U C I) as [[p [Hp E]]|[e [s' [He _]]]].
  - now rewrite (Reading_det _ _ _ _ H _ Hp).
  - exfalso. exact (Reading_not_fails _ _ _ _ H _ He).
Qed.
Lemma parse_rejects : forall s argv ws e, usable s -> command_line argv ws -> interprets s -> rejects s ws e ->
  exists s', parseArguments argv s = (s', Throw e) /\ frame (ready s) s'.
Proof.
  intros s argv ws e U C I H. destruct (parse_total s argv ws U C I) as [[p [Hp E]]|[e' [s' [He [F E]]]]].
  - exfalso. exact (Reading_not_fails _ _ _ _ Hp _ H).
  - exists s'. rewrite (Fails_det _ _ _ _ H _ He). now split.
Qed.
Lemma read_or_reject : forall s argv ws, usable s -> command_line argv ws -> interprets s ->
  (exists pcs, reads s ws pcs) \/ (exists e, rejects s ws e).
Proof.
  intros s argv ws U C I. destruct (parse_total s argv ws U C I) as [[p [Hp E]]|[e' [s' [He [F E]]]]]; [left|right]; eauto.
Qed.
Lemma frame_scanned : forall s argv pcs, frame (ready s) (scanned argv pcs s).
Proof.
  intros s argv pcs. unfold scanned, named. split; try (now destruct (s_bin (ready s))).
  cbn [s_args with_additional with_args]. rewrite map_map. reflexivity.
Qed.
Lemma usable_scanned : forall s argv pcs, usable s -> wf (scanned argv pcs s) /\ pointers_ok (scanned argv pcs s).
Proof.
  intros s argv pcs U. apply usable_ready in U. pose proof (usable_wf _ U) as W. destruct U as [_ [_ P]].
  split; [eapply frame_wf; [exact W | apply frame_scanned] | eapply pointers_frame; [apply frame_scanned | exact P]].
Qed.
(** the outcome when the words can be read *)
Lemma parse_finish : forall s argv ws pcs, usable s -> command_line argv ws -> interprets s -> reads s ws pcs ->
  Finish (scanned argv pcs s) (fst (parseArguments argv s)) (snd (parseArguments argv s)).
Proof.
  intros s argv ws pcs U C I H. rewrite (parse_reads s argv ws pcs U C I H).
  destruct (usable_scanned s argv pcs U) as [[W _] P]. now apply after_scan_cases.
Qed.
Definition not_met (s : state) : Prop := met (s_help s) s = false /\ met (s_version s) s = false.
Lemma parse_ok : forall s argv ws s', usable s -> command_line argv ws -> interprets s -> parseArguments argv s = (s', Ok tt) ->
  exists pcs, reads s ws pcs /\
    let t := scanned argv pcs s in
    s' = with_dlog (with_args t (map finished (s_args t))) (s_dlog t ++ all_events (s_args t)) /\
    not_met t /\ missing t = [] /\ Forall (fun b => trouble b = None) (s_args t).
Proof.
  intros s argv ws s' U C I E. destruct (parse_total s argv ws U C I) as [[p [Hp F]]|[e' [t [He [F G]]]]]; [|congruence].
  exists p. split; [exact Hp|]. cbv zeta. pose proof (parse_finish s argv ws p U C I Hp) as H. rewrite E in H. simpl in H.
  inversion H; subst; try (match goal with K : (if ?b then _ else _) = Ok tt |- _ => destruct b; discriminate end).
  repeat split; auto.
Qed.
