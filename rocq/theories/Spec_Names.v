(** Spec_Names.v -- names and flags, and what it means that the name table is
    consistent.  Nothing here refers to the functions of the model. *)
From Verif Require Import Base Model_Types.

(** a string without NUL bytes, i.e. one that is a C string *)
Fixpoint cstr (s : str) : bool :=
  match s with
  | EmptyString => true
  | String c r => negb (Ascii.eqb c nul) && cstr r
  end.

(** name of a positional argument: not empty, does not start with '-' *)
Definition plain_name (n : str) : Prop := exists c r, n = String c r /\ c <> "-"%char.

(** -c : exactly one character, other than '-' *)
Definition short_form (f : str) : Prop := exists c, f = String "-" (String c "") /\ c <> "-"%char.
(** --name with a non-empty name *)
Definition long_form (f : str) : Prop := exists c r, f = String "-" (String "-" (String c r)).
Definition well_formed_flag (f : str) : Prop := short_form f \/ long_form f.
