(** Properties_Alive.v -- C80: after calls that ran out of memory every further call still has
    defined behaviour. *)
From Coq Require Import Permutation Sorted.
From Verif Require Import Base Model_Utils Model_Number Model_Types Model_Argument Model_Usage Model_Args Model_Api Model_Memory
  Spec_Order Spec_Names Spec_Parse Spec_History Spec_Api
  Proofs_Base Proofs_Order Proofs_Frame Proofs_Inv Proofs_Table Proofs_Safe Proofs_Memory Proofs_Memory2 Proofs_Alive Properties_Safe Properties_Memory.

(** the states reachable by calls that all respect a policy, and that complete or run out of
    memory (the policy concerns what is called on what, and is stated on the state of the call) *)
Inductive reach_mem_with (P : policy) : state -> Prop :=
| rmw_init : reach_mem_with P init
| rmw_step : forall s o s' r, reach_mem_with P s -> op_ok P o s -> step o s = (s', r) -> completed r -> reach_mem_with P s'
| rmw_out : forall s o s', reach_mem_with P s -> op_ok P o s -> out_of_memory o s s' -> reach_mem_with P s'.

Lemma reach_mem_with_reach : forall P s, reach_mem_with P s -> reach_mem s.
Proof. induction 1; [constructor | eapply rm_step; eassumption | eapply rm_out; eassumption]. Qed.
Lemma reach_mem_good : forall s, reach_mem_with no_dest_on_help s -> table s /\ good s.
Proof.
  induction 1 as [|s o s' r R [T G] P E C|s o s' R [T G] P H].
  - split; [apply table_init | apply good_init].
  - split; [eapply table_step; eassumption | eapply good_step; eassumption].
  - split; [eapply table_out; eassumption | eapply good_out; eassumption].
Qed.

(** the calls, in a state with a sound table *)
Lemma call_fine : forall o s, table s -> fair o -> (forall argv, o = OpParse argv -> pointers_ok s) -> snd (step o s) <> UB.
Proof.
  intros o s T Fo Po.
  destruct o as [ns ms|n ms|ns| |argv| | | | | | | | | |]; cbn [step fair] in *; try discriminate.
  - destruct (addArgument_table ns s T) as [[e E]|[c [_ [Sn E]]]].
    + rewrite (bind_throw _ _ _ _ _ E). discriminate.
    + rewrite (bind_ok _ _ _ _ _ E). pose proof (table_registered s c T Sn) as T1. apply (fine_run_meths (fresh_id s) ms (registered s c)). split.
      * unfold registered. cbn [s_args with_args with_map]. eapply Permutation_in; [apply Permutation_map, sort_perm|].
        rewrite map_app. apply in_or_app. right. now left.
      * apply table_has_name, T1.
  - unfold bind at 1. unfold updateArgument, bind at 1, find_name. destruct (assoc n (s_map s)) as [id|] eqn:E; [|discriminate].
    destruct (t_entry s T n id (assoc_In _ _ _ E)) as [a [Ia [Ea _]]].
    unfold bind at 1. rewrite deref_eq, <- Ea, (In_find_id _ a (t_ids s T) Ia).
    change (snd (run_meths (a_id a) ms s) <> UB). apply fine_run_meths. split; [now apply in_map | apply table_has_name, T].
  - apply removeArguments_fine; assumption.
  - apply parse_safe_table; [exact T | exact (Po argv eq_refl) | right; exact Fo].
Qed.

(** no call has undefined behaviour *)
Theorem C80_calls : forall s o, reach_mem_with no_dest_on_help s -> fair o -> snd (step o s) <> UB.
Proof. intros s o R F. destruct (reach_mem_good s R) as [T G]. apply call_fine; [exact T | exact F | intros _ _; exact (good_pointers s G)]. Qed.
(** nor does a call that itself runs out of memory, up to that point *)
Theorem C80_interrupted : forall s o k k', reach_mem_with no_dest_on_help s -> fair o -> (forall argv, o <> OpParse argv) ->
  snd (step_mem o k s) <> Done k' UB.
Proof.
  intros s o k k' R F N E. destruct (reach_mem_good s R) as [T _].
  destruct (step_mem o k s) as [s1 r] eqn:D. cbn [snd] in E. subst r. pose proof (refines_done _ _ _ _ _ _ _ (refines_step o s T) D) as K.
  apply (C80_calls s o R F). rewrite K. reflexivity.
Qed.
(** the only exception is parseArguments, and only when the help or version option was lost *)
Theorem C80_any : forall s o, reach_mem s -> fair o -> (forall argv, o = OpParse argv -> pointers_ok s) -> snd (step o s) <> UB.
Proof. intros s o R F P. apply call_fine; [exact (reach_mem_table s R) | exact F | exact P]. Qed.
(** reading never has *)
Theorem C80_reading : forall s n, reach_mem s -> getArgument s n <> UB /\ (argumentExists s n = true -> exists a, getArgument s n = Ok a).
Proof.
  intros s n R. pose proof (reach_mem_table s R) as T. unfold argumentExists, mem_key. destruct (assoc n (s_map s)) as [id|] eqn:E.
  - destruct (table_lookup s n id T E) as [a [G _]]. rewrite G. split; [discriminate | intros _; exists a; reflexivity].
  - split; [unfold getArgument; rewrite E; discriminate | discriminate].
Qed.

(** dest() on the help option is the exception: the next parseArguments reads a deleted object,
    and a dest() that runs out of memory before it replaces the argument does not do that *)
Definition helped : state := history [OpAdd ["-h"] [MAction HELP]].
Theorem C80_proviso :
  reach_mem (fst (step (OpUpdate "-h" [MDest (Dest 0 DScalar false TyValue)]) helped)) /\
  snd (step (OpParse ["prog"; "-h"]) (fst (step (OpUpdate "-h" [MDest (Dest 0 DScalar false TyValue)]) helped))) = UB /\
  out_of_memory (OpUpdate "-h" [MDest (Dest 0 DScalar false TyValue)]) helped (after (OpUpdate "-h" [MDest (Dest 0 DScalar false TyValue)]) 1 helped) /\
  snd (step (OpParse ["prog"; "-h"]) (after (OpUpdate "-h" [MDest (Dest 0 DScalar false TyValue)]) 1 helped)) <> UB.
Proof.
  split.
  { eapply rm_step; [eapply (rm_step init (OpAdd ["-h"] [MAction HELP]) helped (Ok tt)); [constructor | vm_compute; reflexivity | exact I]
      | apply surjective_pairing | vm_compute; exact I]. }
  split; [vm_compute; reflexivity|]. split; [out|]. vm_compute. discriminate.
Qed.

(** non-trivial: an object with a half-made argument, a torn flag list and an interrupted help
    option, all of which is then used *)
Example C80_example : exists s1 s2 s3,
  out_of_memory (OpAdd ["FILE"] []) verbose s1 /\
  out_of_memory (OpUpdate "-v" [MFlag "-x"]) s1 s2 /\
  out_of_memory (OpParse ["prog"; "a"]) s2 s3 /\
  reach_mem_with no_dest_on_help s3 /\
  length (arguments s3) = 3 /\ argumentExists s3 "FILE" = false /\ argumentExists s3 "-x" = false /\ argumentExists s3 "-h" = true /\
  snd (step (OpParse ["prog"; "a"]) s3) = Ok tt.
Proof.
  exists (after (OpAdd ["FILE"] []) 3 verbose).
  exists (after (OpUpdate "-v" [MFlag "-x"]) 3 (after (OpAdd ["FILE"] []) 3 verbose)).
  exists (fst (help_setup_mem 5 (after (OpUpdate "-v" [MFlag "-x"]) 3 (after (OpAdd ["FILE"] []) 3 verbose)))).
  assert (O1 : out_of_memory (OpAdd ["FILE"] []) verbose (after (OpAdd ["FILE"] []) 3 verbose)) by out.
  assert (O2 : out_of_memory (OpUpdate "-v" [MFlag "-x"]) (after (OpAdd ["FILE"] []) 3 verbose) (after (OpUpdate "-v" [MFlag "-x"]) 3 (after (OpAdd ["FILE"] []) 3 verbose))) by out.
  assert (O3 : out_of_memory (OpParse ["prog"; "a"]) (after (OpUpdate "-v" [MFlag "-x"]) 3 (after (OpAdd ["FILE"] []) 3 verbose))
     (fst (help_setup_mem 5 (after (OpUpdate "-v" [MFlag "-x"]) 3 (after (OpAdd ["FILE"] []) 3 verbose))))).
  { eapply (out_parse ["prog"; "a"] 5); [apply frame_refl | apply surjective_pairing | apply frame_refl]. }
  split; [exact O1|]. split; [exact O2|]. split; [exact O3|]. split.
  { eapply rmw_out; [| |exact O3]; [|exact Logic.I]. eapply rmw_out; [| |exact O2].
    - eapply rmw_out; [| |exact O1].
      + eapply (rmw_step _ init (OpAdd ["-v"] []) verbose (Ok tt)); [constructor | split; [exact Logic.I | intros; exact Logic.I] | vm_compute; reflexivity | exact Logic.I].
      + split; [exact Logic.I | intros; exact Logic.I].
    - intros s' id _. cbn [chain_ok]. split; [intros; exact Logic.I | intros; exact Logic.I]. }
  repeat (split; [vm_compute; reflexivity|]). vm_compute. reflexivity.
Qed.

Print Assumptions C80_calls.
Print Assumptions C80_interrupted.
Print Assumptions C80_any.
Print Assumptions C80_reading.
Print Assumptions C80_proviso.
