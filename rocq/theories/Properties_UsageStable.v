(** Properties_UsageStable.v -- C82: what getUsage() returns and what the help option prints
    does not depend on the command lines that were parsed. *)
From Verif Require Import Base Model_Utils Model_Number Model_Types Model_Argument Model_Usage Model_Args Model_Api
  Spec_Order Spec_Names Spec_Reading Spec_Parse Spec_Decl Spec_Finish Spec_History Spec_Api Spec_Result
  Proofs_Base Proofs_Frame Proofs_Inv Proofs_Parse Proofs_Finish Proofs_Central Proofs_Check Proofs_Safe Demo Properties_Parse Properties_Settings Properties_More.

(** the parser has its help option and the name of the program *)
Definition complete (s : state) : Prop := (s_help s <> None \/ free_help s = []) /\ s_bin s <> "".
Lemma complete_ready : forall s argv, wf0 s -> complete s -> named argv (ready s) = s.
Proof.
  intros s argv W [H B]. assert (E : ready s = s).
  { destruct (ready_cases s W) as [[-> _]|[_ [N F]]]; [reflexivity|]. destruct H; [now elim H | contradiction]. }
  rewrite E. unfold named. destruct (s_bin s); [now elim B | reflexivity].
Qed.
(** the usage after a parse, whether it returned or threw *)
Theorem C82_usage : forall s argv s' r, reach s -> interprets s -> parseArguments argv s = (s', r) -> completed r ->
  getUsage s' = getUsage (named argv (ready s)).
Proof.
  intros s argv s' r R I E C. pose proof (reach_wf s R) as [W _]. pose proof (parse_frame s argv s' r W E C) as FR.
  apply usage_frame.
  - eapply frame_trans; [|exact FR]. unfold named. split; now destruct (s_bin (ready s)).
  - pose proof (C58_name (OpParse argv) s s' r R E C I) as N. cbn iota in N. rewrite N.
    assert (B : s_bin (ready s) = s_bin s) by (destruct (ready_cases s W) as [[-> _]|[-> _]]; reflexivity).
    unfold named. rewrite B. destruct (s_bin s) eqn:Q; [reflexivity | now rewrite B].
Qed.
Theorem C82_unchanged : forall s argv s' r, reach s -> parseArguments argv s = (s', r) -> completed r -> complete s ->
  getUsage s' = getUsage s /\ complete s'.
Proof.
  intros s argv s' r R E C K. pose proof (reach_wf s R) as [W _]. pose proof (parse_frame s argv s' r W E C) as FR.
  pose proof (complete_ready s argv W K) as NR.
  assert (RS : ready s = s). { destruct K as [H _]. destruct (ready_cases s W) as [[-> _]|[_ [N F]]]; [reflexivity|]. destruct H; [now elim H | contradiction]. }
  rewrite RS in FR. assert (FH : free_help s' = free_help s) by (unfold free_help; rewrite ?(fr_map _ _ FR); reflexivity).
  assert (B : s_bin s' = s_bin s).
  { destruct (s_help s) eqn:HS.
    - assert (I : interprets s) by (left; rewrite HS; discriminate). pose proof (C58_name (OpParse argv) s s' r R E C I) as N. cbn iota in N. rewrite N.
      destruct K as [_ K]. destruct (s_bin s); [now elim K | reflexivity].
    - destruct K as [[K|K] _]; [now elim K|].
      assert (NI : ~ interprets s) by (intros [X|X]; [now apply X | contradiction]).
      destruct (proj1 (not_interprets s) NI) as [_ [X1 X2]]. destruct (C09_skipped s argv R HS X1 X2) as [s2 [E2 [Q _]]].
      assert (s2 = s') by congruence. subst s2. rewrite Q. reflexivity. }
  split; [now apply usage_frame|]. destruct K as [K1 K2]. split; [|now rewrite B]. rewrite (fr_help _ _ FR), FH. exact K1.
Qed.
(** Hence: once a command line has been parsed, successfully or not, further parses never
    change the usage, and the help option prints exactly it. *)
Lemma first_complete : forall s argv s' r, reach s -> interprets s -> parseArguments argv s = (s', r) -> completed r -> (s_bin s <> "" \/ hd "" argv <> "") -> complete s'.
Proof.
  intros s argv s' r R I E C NE. pose proof (reach_wf s R) as [W _]. pose proof (parse_frame s argv s' r W E C) as FR. split.
  - left. rewrite (fr_help _ _ FR). destruct (ready_cases s W) as [[-> H]|[-> H]]; [|discriminate]. destruct I as [I|I]; [exact I|]. destruct H; [assumption | contradiction].
  - pose proof (C58_name (OpParse argv) s s' r R E C I) as N. cbn iota in N. rewrite N. destruct (s_bin s); [destruct NE as [NE|NE]; [now elim NE | exact NE] | discriminate].
Qed.
Lemma parses_unchanged : forall argvs s s', reach s -> complete s -> run (map OpParse argvs) s = Some s' -> reach s' /\ complete s' /\ getUsage s' = getUsage s.
Proof.
  induction argvs as [|w l IH]; intros s s' R K E; cbn [map run] in E; [injection E as <-; auto|].
  destruct (step (OpParse w) s) as [s1 r1] eqn:S1.
  assert (C : completed r1 /\ run (map OpParse l) s1 = Some s') by (destruct r1; try discriminate E; split; first [exact Logic.I | exact E]).
  destruct C as [C E']. destruct (C82_unchanged s w s1 r1 R S1 C K) as [U K1].
  destruct (IH s1 s' (reach_step _ _ _ _ R S1 C) K1 E') as [R2 [K2 U2]]. split; [exact R2|]. split; [exact K2 | congruence].
Qed.
Theorem C82_repeated : forall argv argvs s s1 s2, reach s -> interprets s -> (s_bin s <> "" \/ hd "" argv <> "") ->
  run [OpParse argv] s = Some s1 -> run (map OpParse argvs) s1 = Some s2 -> getUsage s2 = getUsage s1.
Proof.
  intros argv argvs s s1 s2 R I NE E1 E2. cbn [run] in E1. destruct (step (OpParse argv) s) as [t r] eqn:S1.
  assert (C : completed r /\ t = s1) by (destruct r; try discriminate E1; split; first [exact Logic.I | congruence]).
  destruct C as [C ->]. cbn [step] in S1. pose proof (first_complete s argv s1 r R I S1 C NE) as K.
  exact (proj2 (proj2 (parses_unchanged argvs s1 s2 (reach_step s (OpParse argv) s1 r R S1 C) K E2))).
Qed.
(** the help option prints the usage that getUsage() returned before, also after other parses *)
Theorem C82_printed : forall argvs s s1 argv ws pcs h, reach s -> complete s -> run (map OpParse argvs) s = Some s1 -> usable s1 ->
  command_line argv ws -> interprets s1 -> reads s1 ws pcs -> is_help (ready s1) h -> on_line (a_id h) pcs = true ->
  exists t s', getUsage s = Ok t /\ parseArguments argv s1 = (s', if m_helpex (s_modes s1) then Throw (Exn KHelp "" t) else Exit (t ^^ nl)).
Proof.
  intros argvs s s1 argv ws pcs h R K E U C I RD HP ON. destruct (parses_unchanged argvs s s1 R K E) as [R1 [K1 U1]].
  destruct (C18_help s1 argv ws pcs h U C I RD HP ON) as [t [s' [T P]]]. exists t, s'.
  rewrite (complete_ready s1 argv (usable_wf0 s1 U) K1), U1 in T. split; [exact T|]. destruct (m_helpex (s_modes s1)); exact (proj1 P).
Qed.
Example C82_example : exists (s s1 : state) (t : str) (pcs : list piece) (h : argument) (s' : state), run [OpParse ["prog"; "src"; "--name=x"]] shop = Some s /\ reach s /\ complete s /\ run (map OpParse [["other"; "--unknown"]; ["third"; "a"; "-a"; "1"; "-v"]]) s = Some s1 /\ getUsage s1 = Ok t /\ getUsage s = Ok t /\ Nat.ltb 300 (String.length t) = true /\ reads s1 ["-v"; "--help"] pcs /\ is_help (ready s1) h /\ on_line (a_id h) pcs = true /\ parseArguments ["x"; "-v"; "--help"] s1 = (s', Exit (t ^^ nl)).
Proof.
  do 4 eexists. exists (pick "--help" (ready (history (shop_ops ++ map OpParse [["prog"; "src"; "--name=x"]; ["other"; "--unknown"]; ["third"; "a"; "-a"; "1"; "-v"]])))). eexists.
  split; [vm_compute; reflexivity|]. split; [apply (run_reach (shop_ops ++ [OpParse ["prog"; "src"; "--name=x"]]) init); [apply reach_init | vm_compute; reflexivity]|].
  split; [split; [left; vm_compute; discriminate | vm_compute; discriminate]|].
  split; [vm_compute; reflexivity|]. split; [vm_compute; reflexivity|]. split; [vm_compute; reflexivity|].
  split; [vm_compute; reflexivity|]. split; [reading|]. split; [split; [vm_compute; tauto | vm_compute; reflexivity]|]. split; vm_compute; reflexivity.
Qed.
Print Assumptions C82_usage.
Print Assumptions C82_unchanged.
Print Assumptions C82_repeated.
Print Assumptions C82_printed.
