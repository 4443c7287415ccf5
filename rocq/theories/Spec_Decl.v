(** Spec_Decl.v -- the meaning of action() and nargs(), as tables. *)
From Verif Require Import Base Model_Types.

(** How a positional argument / an option declared with [action] and [nargs] behaves:
    its kind, and the nargs and action it then has ('+' = 43 means "one or more").
    None: refused. *)
Definition positional_kind (act : eAction) (n : N) : option (atype * N * eAction) :=
  match act with
  | NONE =>
      if N.eqb n 0 then None
      else if N.eqb n 1 then Some (POSITIONAL_ARGUMENT, 1%N, NONE)
      else if N.eqb n 43 then Some (INFINITE_POSITIONAL_ARGUMENT, 1%N, INFINITE)
      else Some (NUMBER_POSITIONAL_ARGUMENT, n, NONE)
  | INFINITE =>
      if N.eqb n 0 then None
      else if N.eqb n 1 then Some (INFINITE_POSITIONAL_ARGUMENT, 1%N, INFINITE)
      else Some (INFINITE_NUMBER_POSITIONAL_ARGUMENT, n, INFINITE)
  | _ => None
  end.
Definition option_kind (act : eAction) (n : N) : atype * N * eAction :=
  if N.eqb n 0 then (BOOLEAN_OPTION, 0%N, act)
  else match act with
  | STORE_TRUE => (BOOLEAN_OPTION, 0%N, STORE_TRUE)
  | STORE_FALSE => (REVERSE_BOOLEAN_OPTION, 0%N, STORE_FALSE)
  | HELP => (HELP_OPTION, 0%N, HELP)
  | VERSION => (VERSION_OPTION, 0%N, VERSION)
  | INFINITE => (INFINITE_OPTION, 1%N, INFINITE)
  | NONE =>
      if N.eqb n 1 then (SIMPLE_OPTION, 1%N, NONE)
      else if N.eqb n 43 then (INFINITE_OPTION, 1%N, INFINITE)
      else (NUMBER_OPTION, n, NONE)
  | APPEND => if N.eqb n 1 then (MULTI_OPTION, 1%N, APPEND) else (MULTI_NUMBER_OPTION, n, APPEND)
  | EXTEND => if N.eqb n 1 then (MULTI_INFINITE_OPTION, 1%N, EXTEND) else (MULTI_NUMBER_INFINITE_OPTION, n, EXTEND)
  end.

(** which number of default values an argument accepts *)
Definition fits (c : acfg) (count : nat) : Prop :=
  match c_type c with
  | POSITIONAL_ARGUMENT | SIMPLE_OPTION | NUMBER_POSITIONAL_ARGUMENT | NUMBER_OPTION =>
      N.of_nat count = c_nargs c
  | INFINITE_NUMBER_POSITIONAL_ARGUMENT | MULTI_NUMBER_OPTION | MULTI_NUMBER_INFINITE_OPTION =>
      exists k : nat, count = k * N.to_nat (c_nargs c)
  | _ => True
  end.
