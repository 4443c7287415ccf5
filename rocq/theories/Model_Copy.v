(** Model_Copy.v -- copies of Argument objects made by the program
    (Argument a = args["-n"];), their destruction, and programs that do so. *)
From Verif Require Import Base Model_Utils Model_Number Model_Types Model_Argument Model_Usage Model_Args Model_Api.

(** argument.cpp:122-138 Argument::Argument(const Argument&): every member but defaults_
    is copied, among them the pointer valid_ and validDeletable_; a copy of an
    ArgumentType object (argument.h:688-871) is a plain Argument, which has no
    destination.  SIMPLIFICATION: only the const members of a copy are used (its other
    methods write through args_ and this_ to the parser, or into the copy). *)
Definition copied (a : argument) : argument :=
  Arg (a_id a) (a_gen a) (cfg_dest (cfg_defaults (a_cfg a) []) None) (a_dyn a).

(** a program: one Args object, and the copies it holds *)
Record program := Program { p_args : state; p_copies : list argument }.
Inductive pop :=
| PCall (o : op)               (* a call on the Args object *)
| PCopy (nameOrFlag : str)     (* Argument c = args[nameOrFlag]; (args.h:196-212 getArgument and operator[]) *)
| PDrop (k : nat).             (* the k-th copy goes out of scope *)

Fixpoint drop_nth {A} (k : nat) (l : list A) : list A :=
  match k, l with
  | _, [] => []
  | 0, _ :: r => r
  | S k, x :: r => x :: drop_nth k r
  end.

Definition pstep (o : pop) (p : program) : program * res unit :=
  match o with
  | PCall o => let (s, r) := step o (p_args p) in (Program s (p_copies p), r)
  | PCopy n =>
      match getArgument (p_args p) n with
      | Ok a => (Program (p_args p) (p_copies p ++ [copied a]), Ok tt)
      | Throw e => (p, Throw e)
      | _ => (p, UB)
      end
  | PDrop k =>
      (* argument.cpp:140-144 ~Argument *)
      match nth_error (p_copies p) k with
      | Some a => (Program (with_freed (p_args p) (s_freed (p_args p) ++ owned (a_cfg a))) (drop_nth k (p_copies p)), Ok tt)
      | None => (p, Ok tt)
      end
  end.

(** a run of a program: the outcomes of its steps; it stops where a call does not complete *)
Fixpoint pcalls (ops : list pop) (p : program) : program * list (res unit) :=
  match ops with
  | [] => (p, [])
  | o :: r => let (p1, x) := pstep o p in
              match x with
              | Ok _ | Throw _ => let (p2, l) := pcalls r p1 in (p2, x :: l)
              | _ => (p1, [x])
              end
  end.

(** the validators deleted when everything is destroyed: the Args object (args.cpp:56-61)
    and the copies *)
Definition pdestroyed (p : program) : list nat := destroyed (p_args p) ++ all_owned (p_copies p).
