(** Model_CopyMeth.v -- the declaration methods of Argument called on a COPY of an argument
    (Argument a = args.addArgument("-n"); a.required(true);), where *this is not the object
    the parser lists. *)
From Verif Require Import Base Model_Utils Model_Number Model_Types Model_Argument Model_Usage Model_Args Model_Api Model_Copy.

(** A copy: its number (the k-th copy the program makes, never reused: it stands for the
    copy's address) and its members.  [a_id] of [cp_arg] is the member this_, the node of
    the ORIGINAL (argument.cpp:136), [a_gen] is of no use. *)
Record copy := CopyOf { cp_number : nat; cp_arg : argument }.

(** the pointer `this` inside the methods of a copy.  Nodes of the list have positive
    numbers ([fresh_id]), so it differs from every pointer to a listed argument. *)
Definition cp_this (c : copy) : nat * nat := (0, cp_number c).

(** typeConstructor_ and defaultsConstructor_ (argument.cpp:423-568) with *this = the copy:
    the same code as for a listed argument, run with the copy in the unused node 0 (which
    gives it the address [cp_this]) and taken out again. *)
Definition on_copy (run : nat -> M unit) (c : copy) (s : state) : state * copy * res unit :=
  let x := cp_arg c in
  let (s1, r) := run 0 (with_args s (Arg 0 (cp_number c) (a_cfg x) (a_dyn x) :: s_args s)) in
  match s_args s1 with
  | y :: l => (with_args s1 l, CopyOf (cp_number c) (Arg (a_id x) (a_gen x) (a_cfg y) (a_dyn y)), r)
  | [] => (s1, c, UB)
  end.
Definition copy_cfg (c : copy) (f : acfg -> acfg) : copy :=
  CopyOf (cp_number c) (arg_cfg (cp_arg c) (f (a_cfg (cp_arg c)))).

(** the methods (argument.cpp:237-271, argument.h:482-604) on a copy: args_ is the parser,
    this_ the original's node, everything else the copy's own member *)
Definition copy_meth (m : meth) (c : copy) (s : state) : state * copy * res unit :=
  let g := a_cfg (cp_arg c) in
  match m with
  | MFlag f =>
      (* argument.cpp:237-250 *)
      if is_positional (c_type g) then (s, c, Throw (Exn KArgument f "can't add flag in positionnal argument"))
      else match validFormatFlag f with
           | Some msg => (s, c, Throw (Exn KArgument f msg))
           | None =>
               if mem_key f (s_map s) then (s, c, Throw (Exn KArgument f "invalid flag already exist"))
               else
                 let (s1, r) := sort_args (with_map s (s_map s ++ [(f, a_id (cp_arg c))])) in
                 (s1, copy_cfg c (fun g => cfg_names g (sort_flags (c_names g ++ [f]))), r)
           end
  | MAction act => on_copy (fun id => action id act) c s            (* argument.cpp:252-265 *)
  | MRequired b =>                                                  (* argument.cpp:267-271 *)
      let (s1, r) := sort_args s in (s1, copy_cfg c (fun g => cfg_required g b), r)
  | MHelp h => (s, copy_cfg c (fun g => cfg_help g h), Ok tt)        (* argument.h:482-485 *)
  | MMetavar x => (s, copy_cfg c (fun g => cfg_metavar g x), Ok tt)  (* argument.h:501-504 *)
  | MNargs n => on_copy (fun id => nargs id n) c s                  (* argument.h:514-519 *)
  | MDefaults v => on_copy (fun id => defaults id v) c s            (* argument.h:529-533 *)
  | MValid p b =>                                                   (* argument.h:542-549 *)
      (with_freed s (s_freed s ++ owned g), copy_cfg c (fun g => cfg_valid g p b), Ok tt)
  | MDest _ => (s, c, UB)  (* argument.h:559-604, 688-699: `delete` of the copy, which was not made by new *)
  end.

(** programs: calls on the parser, copies made, destroyed, and used for declarations.
    SIMPLIFICATION (towards UB): if helpOption_ or versionOption_ points to a copy, parsing
    counts as undefined even while the copy is alive. *)
Record cprogram := CProgram { cp_args : state; cp_copies : list copy; cp_next : nat }.
Inductive cop :=
| CCall (o : op)
| CCopy (nameOrFlag : str)        (* Argument c = args[nameOrFlag]; *)
| CDrop (k : nat)                 (* copy number k goes out of scope *)
| CMeth (k : nat) (m : meth).     (* c.m(...) on copy number k *)

Definition find_copy (k : nat) (l : list copy) : option copy := find (fun c => Nat.eqb (cp_number c) k) l.

Definition cstep (o : cop) (p : cprogram) : cprogram * res unit :=
  match o with
  | CCall o => let (s, r) := step o (cp_args p) in (CProgram s (cp_copies p) (cp_next p), r)
  | CCopy n =>
      match getArgument (cp_args p) n with
      | Ok a => (CProgram (cp_args p) (cp_copies p ++ [CopyOf (cp_next p) (copied a)]) (S (cp_next p)), Ok tt)
      | Throw e => (p, Throw e)
      | _ => (p, UB)
      end
  | CDrop k =>
      match find_copy k (cp_copies p) with
      | Some c => (CProgram (with_freed (cp_args p) (s_freed (cp_args p) ++ owned (a_cfg (cp_arg c))))
                            (filter (fun x => negb (Nat.eqb (cp_number x) k)) (cp_copies p)) (cp_next p), Ok tt)
      | None => (p, Ok tt)
      end
  | CMeth k m =>
      match find_copy k (cp_copies p) with
      | Some c => let '(s, c', r) := copy_meth m c (cp_args p) in
                  (CProgram s (map (fun x => if Nat.eqb (cp_number x) k then c' else x) (cp_copies p)) (cp_next p), r)
      | None => (p, Ok tt)
      end
  end.

Fixpoint ccalls (ops : list cop) (p : cprogram) : cprogram * list (res unit) :=
  match ops with
  | [] => (p, [])
  | o :: r => let (p1, x) := cstep o p in
              match x with
              | Ok _ | Throw _ => let (p2, l) := ccalls r p1 in (p2, x :: l)
              | _ => (p1, [x])
              end
  end.
Definition cinit : cprogram := CProgram init [] 0.

(** the validators deleted when everything is destroyed *)
Definition cdestroyed (p : cprogram) : list nat := destroyed (cp_args p) ++ all_owned (map cp_arg (cp_copies p)).
