(** Spec_Api.v -- the observers of the API, and concrete histories for examples. *)
From Verif Require Import Base Model_Types Model_Argument Model_Args Model_Api Spec_History.

(** argument.h:356-394, args.h:219-221: getters.  The arguments of an Args object
    are reached through getArgument; their listing order [s_args] shows in getUsage *)
Notation getNameOrFlags a := (c_names (a_cfg a)).
Notation isExists a := (d_exist (a_dyn a)).
Notation count a := (d_count (a_dyn a)).
Notation isRequired a := (c_required (a_cfg a)).
Notation getNargs a := (c_nargs (a_cfg a)).
Notation getAction a := (c_action (a_cfg a)).
Notation isPositional a := (is_positional (c_type (a_cfg a))).
Notation arguments s := (s_args s).
Notation getAdditionalArguments s := (s_additional s).

(** the exception of a failed lookup (args.h:199, 260) *)
Definition not_found (n : str) : exn := Exn KAccess n "argument not found".

(** the state after a concrete history; it is reachable *)
Definition history (ops : list op) : state := match run ops init with Some s => s | None => init end.
Lemma history_reach : forall ops, reach (history ops).
Proof.
  intros ops. unfold history. destruct (run ops init) as [s|] eqn:E; [|apply reach_init].
  eapply run_reach; [apply reach_init | exact E].
Qed.

(** everything of an Args object that a program can see: all but the two logs *)
Definition visible (s : state) : state := with_dlog (with_freed s []) [].

(** a sequence of calls: their outcomes; and the object after it.  Execution stops at a
    call that does not complete (exit, undefined behaviour). *)
Fixpoint calls (ops : list op) (s : state) : state * list (res unit) :=
  match ops with
  | [] => (s, [])
  | o :: r => let (s1, x) := step o s in
              match x with
              | Ok _ | Throw _ => let (s2, l) := calls r s1 in (s2, x :: l)
              | _ => (s1, [x])
              end
  end.
