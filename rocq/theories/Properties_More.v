(** Properties_More.v -- exact forms of C09 and C27: the command line that is not looked at,
    and what an absent argument holds in any usable state. *)
From Coq Require Import Permutation Sorted.
From Verif Require Import Base Model_Utils Model_Number Model_Types Model_Argument Model_Usage Model_Args Model_Api
  Spec_Order Spec_Names Spec_Reading Spec_Parse Spec_Decl Spec_Finish Spec_History Spec_Api Spec_Result
  Proofs_Base Proofs_Order Proofs_Frame Proofs_Inv Proofs_ReadFacts Proofs_Reading Proofs_Parse Proofs_Decl Proofs_Finish
  Proofs_Meth Proofs_History Proofs_Config Proofs_Check Proofs_Names Proofs_Central Proofs_Dyn Properties_Words Demo Properties_Parse
  Proofs_Values Properties_Values Properties_Positional Proofs_Fresh Properties_Defaults Properties_Exact Properties_Views.

(* ------------------------------------------------------------------ *)
(** * C09 *)
(** the condition of C09_refuted, spelled out: no help option, and neither -h nor --help free *)
Lemma not_interprets : forall s, ~ interprets s <-> s_help s = None /\ argumentExists s "-h" = true /\ argumentExists s "--help" = true.
Proof.
  intros s. unfold interprets, free_help, argumentExists. destruct (s_help s); [split; [intros H; exfalso; apply H; left; discriminate | intros [X _]; discriminate X]|].
  destruct (mem_key "-h" (s_map s)), (mem_key "--help" (s_map s)); cbn; split;
    try (intros _; repeat split; reflexivity); try (intros [_ [X Y]]; discriminate); try (intros H; exfalso; apply H; right; discriminate).
  intros _ [H|H]; now apply H.
Qed.

(** In exactly that case parseArguments looks at nothing: whatever the command line, it
    returns normally with every argument absent, the values reset to the kept defaults, the
    additional arguments as they were, and nothing else changed. *)
Theorem C09_skipped : forall s argv, reach s -> s_help s = None -> argumentExists s "-h" = true -> argumentExists s "--help" = true ->
  exists s', parseArguments argv s = (s', Ok tt) /\ s' = with_args s (arguments s') /\
    Forall2 (fun b a => a_id a = a_id b /\ a_cfg a = a_cfg b /\ isExists a = false /\ count a = 0 /\ d_arg (a_dyn a) = getDefault b)
            (arguments s) (arguments s').
Proof.
  intros s argv R H1 H2 H3. exists (cleared s). split.
  - unfold parseArguments. apply (proj2 (parse_with_eq (parse_fuel argv s) argv s (proj1 (reach_wf s R)))). apply not_interprets. now split.
  - split; [reflexivity|]. unfold cleared. cbn [s_args with_args]. clear. induction (s_args s) as [|b l IH]; constructor; [|exact IH]. repeat split.
Qed.
Print Assumptions C09_skipped.

(* ------------------------------------------------------------------ *)
(** * C27 *)
(** In any usable state, whatever was declared, refused or parsed before: an absent argument
    does not exist, has count 0, and holds the default it was last given -- for the kinds
    that keep a list, the default of every element of the list. *)
Definition one_valued (a : argument) : bool := match c_type (a_cfg a) with POSITIONAL_ARGUMENT | SIMPLE_OPTION => true | _ => false end.
Theorem C27_exact : forall s argv ws s' pcs a, usable s -> interprets s -> command_line argv ws ->
  parseArguments argv s = (s', Ok tt) -> reads s ws pcs -> In a (arguments s') -> on_line (a_id a) pcs = false ->
  isExists a = false /\ count a = 0 /\
  (has_values (a_cfg a) = true -> exists b, In b (arguments s) /\ a_id b = a_id a /\ a_cfg b = a_cfg a /\
     to_vector a = Ok (if one_valued b then [getDefault b] else kept b) /\
     (grouped (c_type (a_cfg b)) = true -> to_vector_vector a = Ok (map (fun e => map kept_word (el_subs e)) (d_elems (a_dyn b))))).
Proof.
  intros s argv ws s' pcs a U I C E R Ia O. destruct (result_with s argv ws s' a pcs U C I E Ia R) as [b [Ib [Ea [T [CF [ID [EX CT]]]]]]].
  pose proof (usable_ready_wf s U) as W. rewrite ID in O. pose proof (read_absent s ws pcs b W R Ib O) as RA.
  split; [now rewrite EX|]. split.
  - rewrite CT. rewrite on_line_eq in O. apply orb_false_iff in O as [O _]. destruct (occs_for (a_id b) pcs); [reflexivity | discriminate].
  - rewrite CF. intros V. pose proof (ready_values_In s b (usable_wf0 s U) Ib V) as Ibs. exists b.
    split; [exact Ibs|]. split; [now symmetry|]. split; [reflexivity|].
    assert (X : isExists (clear_arg b) = false) by reflexivity.
    destruct (finished_absent (clear_arg b) X) as [F1 [F2 _]]. rewrite Ea, RA, F1, F2.
    unfold to_vector, to_vector_vector, one_valued, kept, getDefault, has_values, arity_of in *. cbn [clear_arg a_cfg arg_dyn a_dyn d_arg d_elems].
    rewrite clear_value, clear_values.
    assert (CV : map elem_values (map clear_elem (d_elems (a_dyn b))) = map (fun e => map kept_word (el_subs e)) (d_elems (a_dyn b))).
    { rewrite map_map. apply map_ext. intros e. unfold elem_values, clear_elem. cbn [el_subs]. rewrite map_map. reflexivity. }
    destruct (c_type (a_cfg b)); try discriminate V; split; try reflexivity; try (intros Q; discriminate Q); intros _; now rewrite CV.
Qed.
Print Assumptions C27_exact.

(** -h and --help taken, no help option: "--unknown" and a missing required argument pass *)
Definition helpless : state := history [OpAdd ["-h"] []; OpAdd ["--help"] []; OpAdd ["FILE"] [MRequired true; MDefaults ["f"]]].
Example C09_skipped_example : s_help helpless = None /\ argumentExists helpless "-h" = true /\ argumentExists helpless "--help" = true /\
  snd (parseArguments ["prog"; "--unknown"] helpless) = Ok tt.
Proof. vm_compute. auto. Qed.
(** defaults({}) does not take back earlier defaults: they are what the absent option holds *)
Definition taken_back : state := history [OpAdd ["-e"] [MAction EXTEND; MNargs 2; MDefaults ["a"; "b"; "c"; "d"]; MDefaults []]].
Example C27_exact_example : usable taken_back /\ interprets taken_back /\ map kept (arguments taken_back) = [["a"; "b"; "c"; "d"]] /\
  (let s' := fst (parseArguments ["prog"] taken_back) in exists a, getArgument s' "-e" = Ok a /\ to_vector a = Ok ["a"; "b"; "c"; "d"]).
Proof.
  split; [apply careful_usable, careful_history; vm_compute; reflexivity|]. split; [right; vm_compute; discriminate|].
  split; [vm_compute; reflexivity|]. eexists. split; vm_compute; reflexivity.
Qed.
