(** Properties_Defaults.v -- C27: absent arguments; C28: repeated parses. *)
From Coq Require Import Permutation Sorted.
From Verif Require Import Base Model_Utils Model_Number Model_Types Model_Argument Model_Usage Model_Args Model_Api
  Spec_Order Spec_Names Spec_Reading Spec_Parse Spec_Decl Spec_Finish Spec_History Spec_Api Spec_Result
  Proofs_Base Proofs_Order Proofs_Frame Proofs_Inv Proofs_ReadFacts Proofs_Reading Proofs_Parse Proofs_Decl Proofs_Finish
  Proofs_Meth Proofs_History Proofs_Config Proofs_Check Proofs_Names Proofs_Central Proofs_Dyn Properties_Words Demo Properties_Parse Proofs_Kind
  Proofs_Values Properties_Values Properties_Positional Proofs_Fresh.

(** argument.h:384 getDefaults *)
Notation getDefaults a := (c_defaults (a_cfg a)).

(** the values an argument should have before anything was given: the declared defaults;
    without any, one empty value for arguments with exactly one value, else none *)
Definition declared_values (a : argument) : list str :=
  match getDefaults a with
  | [] => match c_type (a_cfg a) with SIMPLE_OPTION | POSITIONAL_ARGUMENT => [""] | _ => [] end
  | ds => ds
  end.

Lemma ready_values_In : forall s b, wf0 s -> In b (arguments (ready s)) -> has_values (a_cfg b) = true -> In b (arguments s).
Proof.
  intros s b W Ib V. destruct (ready_cases s W) as [[E _]|[E _]]; rewrite E in Ib; [exact Ib|].
  unfold with_auto_help in Ib. cbn [s_args with_help] in Ib. unfold registered in Ib. apply (proj1 (resorted_In _ _)) in Ib. cbn in Ib.
  apply in_app_or in Ib. destruct Ib as [Ib|[<-|[]]]; [exact Ib | discriminate V].
Qed.
Lemma read_absent : forall s ws pcs b, wf0 (ready s) -> reads s ws pcs -> In b (arguments (ready s)) -> on_line (a_id b) pcs = false ->
  read_arg pcs b = clear_arg b.
Proof.
  intros s ws pcs b W R Ib O. rewrite on_line_eq in O. apply orb_false_iff in O as [O1 O2].
  destruct (isPositional b) eqn:P.
  - rewrite (read_positional_arg s ws pcs b W R Ib P). destruct (given (a_id b) pcs); [discriminate|]. reflexivity.
  - rewrite (read_option_arg s ws pcs b W R Ib P). destruct (occs_for (a_id b) pcs); [|discriminate]. reflexivity.
Qed.
Lemma num_leaf_arg : forall ls, map lf_arg (map num_leaf ls) = map lf_arg ls.
Proof. intros ls. rewrite map_map. reflexivity. Qed.
Lemma finished_string : forall a, isExists a = false -> getString (finished a) = getString a.
Proof.
  intros a E. unfold finished, checked. rewrite E.
  assert (H : getString (arg_dyn a (num_dyn (c_type (a_cfg a)) (a_dyn a))) = getString a).
  { unfold getString, num_dyn. cbn [a_cfg a_dyn arg_dyn]. destruct (c_type (a_cfg a)); try reflexivity;
      (destruct (d_elems (a_dyn a)) as [|e es] eqn:D; cbn [d_elems d_arg]; [rewrite ?D; reflexivity|]);
      cbn [map]; f_equal; rewrite map_map; (f_equal; [|apply map_ext; intros e']);
      try (unfold elem_text, num_elem; destruct (el_subs e) as [|l ls] eqn:S; cbn [el_subs el_leaf map]; [rewrite ?S; reflexivity|]; rewrite ?S; unfold elem_values; cbn [el_subs map]; rewrite ?S; cbn [map]; rewrite num_leaf_arg; reflexivity);
      (unfold elem_text, num_elem; destruct (el_subs e') as [|l ls] eqn:S; cbn [el_subs el_leaf map]; [rewrite ?S; reflexivity|]; rewrite ?S; unfold elem_values; cbn [el_subs map]; rewrite ?S; cbn [map]; rewrite num_leaf_arg; reflexivity). }
  destruct (c_valid (a_cfg a)); exact H.
Qed.

(* ------------------------------------------------------------------ *)
(** * C27 *)
(** An argument that is not on the command line does not exist, has count 0, and has the
    values it had before the parse. *)
Theorem C27_absent : forall s argv ws s' pcs a, usable s -> fresh_with settled s -> interprets s -> command_line argv ws ->
  parseArguments argv s = (s', Ok tt) -> reads s ws pcs -> In a (arguments s') -> on_line (a_id a) pcs = false ->
  isExists a = false /\ count a = 0 /\
  (has_values (a_cfg a) = true -> exists b, In b (arguments s) /\ a_id b = a_id a /\ a_cfg b = a_cfg a /\
     to_vector a = to_vector b /\ to_vector_vector a = to_vector_vector b /\ getString a = getString b).
Proof.
  intros s argv ws s' pcs a U F I C E R Ia O. destruct (result_with s argv ws s' a pcs U C I E Ia R) as [b [Ib [Ea [T [CF [ID [EX CT]]]]]]].
  pose proof (usable_ready_wf s U) as W. rewrite ID in O. pose proof (read_absent s ws pcs b W R Ib O) as RA.
  split; [now rewrite EX|]. split.
  - rewrite CT. rewrite on_line_eq in O. apply orb_false_iff in O as [O _]. destruct (occs_for (a_id b) pcs); [reflexivity | discriminate].
  - rewrite CF. intros V. pose proof (ready_values_In s b (usable_wf0 s U) Ib V) as Ibs. exists b.
    split; [exact Ibs|]. split; [now symmetry|]. split; [reflexivity|].
    destruct (clear_clean b (settled_clean s F b Ibs) V) as [C1 [C2 C3]].
    assert (X : isExists (clear_arg b) = false) by reflexivity.
    destruct (finished_absent (clear_arg b) X) as [F1 [F2 _]]. pose proof (finished_string (clear_arg b) X) as F3.
    rewrite Ea, RA, F1, F2, F3. auto.
Qed.
Print Assumptions C27_absent.

(** Before the parse -- hence, by C27_absent, after it if it is absent -- an argument
    without destination has exactly its declared default values. *)
Lemma declared_before : forall s b, fresh_with settled s -> In b (arguments s) -> has_values (a_cfg b) = true -> c_dest (a_cfg b) = None ->
  to_vector b = Ok (declared_values b) /\
  (grouped (c_type (a_cfg b)) = true -> to_vector_vector b = Ok (chunks (N.to_nat (getNargs b)) (getDefaults b))).
Proof.
  intros s b F Ib V D. pose proof (settled_clean s F b Ib) as CL. pose proof (cl_nargs b CL V) as NZ. unfold declared_values. destruct (getDefaults b) as [|d ds] eqn:E.
  - destruct (cl_none b CL D E) as [E1 [E2 E3]]. unfold to_vector, to_vector_vector. rewrite E1, E3. unfold has_values, arity_of in V.
    destruct (c_type (a_cfg b)); try discriminate V; split; try reflexivity; try (intros; discriminate).
    all: intros _; unfold chunks; rewrite Nat.div_0_l by (intros Z; apply NZ; lia); reflexivity.
  - rewrite <- E. assert (N : getDefaults b <> []) by congruence. destruct (cl_some b CL D N V) as [H1 H2]. split; [|exact H2].
    rewrite H1, E. reflexivity.
Qed.
Theorem C27_values_partial : forall s argv ws s' pcs a, usable s -> fresh_with settled s -> interprets s -> command_line argv ws ->
  parseArguments argv s = (s', Ok tt) -> reads s ws pcs -> In a (arguments s') -> on_line (a_id a) pcs = false ->
  has_values (a_cfg a) = true -> c_dest (a_cfg a) = None ->
  to_vector a = Ok (declared_values a) /\
  (grouped (c_type (a_cfg a)) = true -> to_vector_vector a = Ok (chunks (N.to_nat (getNargs a)) (getDefaults a))).
Proof.
  intros s argv ws s' pcs a U F I C E R Ia O V D. destruct (C27_absent s argv ws s' pcs a U F I C E R Ia O) as [_ [_ H]].
  destruct (H V) as [b [Ib [_ [CF [-> [-> _]]]]]]. rewrite <- CF in V, D |- *.
  replace (declared_values a) with (declared_values b) by (unfold declared_values; now rewrite CF). now apply (declared_before s).
Qed.
Print Assumptions C27_values_partial.

(** every call of a concrete history accepted *)
Definition settledb (m : meth) (a : argument) (s : state) : bool :=
  (match run_meth (a_id a) m s with (_, Ok _) => true | _ => false end) &&
  match m with
  | MDefaults [] => false
  | MAction _ | MNargs _ => match c_dest (a_cfg a) with None => true | _ => false end
  | _ => true
  end.
Lemma settledb_ok : forall m a s, settledb m a s = true -> p_meth settled m a s.
Proof.
  intros m a s H. unfold settledb in H. apply andb_prop in H as [H1 H2]. split.
  - destruct (run_meth (a_id a) m s) as [s1 [[]| | | |]]; try discriminate. now exists s1.
  - destruct m; try exact I.
    + destruct (c_dest (a_cfg a)); [discriminate | reflexivity].
    + destruct (c_dest (a_cfg a)); [discriminate | reflexivity].
    + destruct v; [discriminate | intros Z; discriminate Z].
Qed.
Lemma fresh_ops : forall ops s s', fresh_with settled s -> ops_okb settledb ops s = true ->
  forallb (fun o => match o with OpParse _ => false | _ => true end) ops = true -> run ops s = Some s' -> fresh_with settled s'.
Proof.
  induction ops as [|o ops IH]; intros s s' R O NP E; cbn [ops_okb run forallb] in *; [now injection E as <-|].
  apply andb_prop in O as [O1 O2]. apply andb_prop in NP as [N1 N2].
  apply (op_okb_ok settled settledb (fun _ _ => I) settledb_ok) in O1. destruct (step o s) as [s1 x] eqn:Es.
  assert (NO : forall argv, o <> OpParse argv) by (intros argv Z; rewrite Z in N1; discriminate N1).
  destruct x; try discriminate; (eapply IH; [|exact O2|exact N2|exact E]; eapply fw_step; eauto; exact I).
Qed.
Lemma fresh_history : forall ops, ops_okb settledb ops init = true ->
  forallb (fun o => match o with OpParse _ => false | _ => true end) ops = true -> fresh_with settled (history ops).
Proof.
  intros ops O NP. unfold history. destruct (run ops init) as [s|] eqn:E; [|apply fw_init].
  eapply fresh_ops; [apply fw_init | exact O | exact NP | exact E].
Qed.
Lemma shop_fresh : fresh_with settled shop.
Proof. apply fresh_history; vm_compute; reflexivity. Qed.
(** -a has the defaults d1 d2, DST the default out, -i none; of these only SRC is given *)
Example C27_example : exists s' pcs, parseArguments ["prog"; "x"] shop = (s', Ok tt) /\ reads shop ["x"] pcs /\
  on_line (a_id (pick "-a" s')) pcs = false /\ on_line (a_id (pick "DST" s')) pcs = false /\ on_line (a_id (pick "-i" s')) pcs = false /\
  to_vector (pick "-a" s') = Ok ["d1"; "d2"] /\ to_vector (pick "DST" s') = Ok ["out"] /\ to_vector (pick "-i" s') = Ok [] /\
  fresh_with settled shop.
Proof.
  eexists. eexists. split; [vm_compute; reflexivity|]. split; [reading|]. repeat (split; [vm_compute; reflexivity|]). exact shop_fresh.
Qed.
(** Not true without the restriction to accepted, non-empty declarations: defaults({}) does
    not take back earlier defaults. *)
Definition undo : state := history [OpAdd ["-n"] [MDefaults ["x"]; MDefaults []]].
Theorem C27_refuted :
  ~ (forall s argv ws s' pcs a, usable s -> fresh_with any_use s -> interprets s -> command_line argv ws ->
       parseArguments argv s = (s', Ok tt) -> reads s ws pcs -> In a (arguments s') -> on_line (a_id a) pcs = false ->
       has_values (a_cfg a) = true -> c_dest (a_cfg a) = None -> to_vector a = Ok (declared_values a)).
Proof.
  intros H. assert (L : command_line ["prog"] []) by line.
  assert (U : usable undo) by (apply careful_usable, careful_history; vm_compute; reflexivity).
  assert (F : fresh_with any_use undo).
  { eapply fw_step with (s := init) (o := OpAdd ["-n"] [MDefaults ["x"]; MDefaults []]) (r := Ok tt); [apply fw_init | | intros argv Z; discriminate Z | vm_compute; reflexivity | exact I].
    cbn. split; [exact I|]. intros s' id _. repeat split; intros; exact I. }
  assert (R : exists pcs, reads undo [] pcs /\ on_line (a_id (pick "-n" (fst (parseArguments ["prog"] undo)))) pcs = false).
  { eexists. split; [reading | vm_compute; reflexivity]. }
  destruct R as [pcs [R O]].
  assert (E : parseArguments ["prog"] undo = (fst (parseArguments ["prog"] undo), Ok tt)) by (vm_compute; reflexivity).
  assert (Ip : interprets undo) by (right; vm_compute; discriminate).
  assert (Ia : In (pick "-n" (fst (parseArguments ["prog"] undo))) (arguments (fst (parseArguments ["prog"] undo)))) by (apply pick_In; vm_compute; reflexivity).
  specialize (H _ _ _ _ pcs _ U F Ip L E R Ia O).
  assert (X : to_vector (pick "-n" (fst (parseArguments ["prog"] undo))) = Ok ["x"]) by (vm_compute; reflexivity).
  assert (Y : declared_values (pick "-n" (fst (parseArguments ["prog"] undo))) = [""]) by (vm_compute; reflexivity).
  rewrite X, Y in H. assert (Z : Ok ["x"] = Ok [""]) by (apply H; vm_compute; reflexivity). discriminate Z.
Qed.
Print Assumptions C27_refuted.
