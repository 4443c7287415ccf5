(** Spec_Parse.v -- vocabulary for the statements about parseArguments. *)
From Verif Require Import Base Model_Number Model_Types Model_Argument Spec_Names Spec_Reading.

(** A command line as main() gets it: a program name that is not "--", and words;
    argc is an int. *)
Definition command_line (argv : list str) (ws : list str) : Prop :=
  (exists a0, argv = a0 :: ws /\ a0 <> "--") /\
  Forall (fun w => cstr w = true) argv /\ (N.of_nat (length argv) < 2 ^ 31)%N.

(** No absurd nargs: far below 2^64, and not the 0 that a refused nargs(0) leaves in
    a variable-length positional argument (see C10, C52). *)
Definition sensible (s : state) : Prop :=
  forall a, In a (s_args s) ->
    (c_nargs (a_cfg a) < 2 ^ 63)%N /\
    (c_type (a_cfg a) = INFINITE_NUMBER_POSITIONAL_ARGUMENT -> c_nargs (a_cfg a) <> 0%N).

(** helpOption_ / versionOption_ point to live arguments (broken only by dest() on a
    help or version argument, see C11) *)
Definition live_ptr (p : option (nat * nat)) (s : state) : Prop :=
  match p with None => True | Some q => exists a, find_ptr q (s_args s) = Some a end.
Definition pointers_ok (s : state) : Prop := live_ptr (s_help s) s /\ live_ptr (s_version s) s.

(** of -h and --help, those that are free *)
Definition free_help (s : state) : list str :=
  (if mem_key "-h" (s_map s) then [] else ["-h"]) ++ (if mem_key "--help" (s_map s) then [] else ["--help"]).

(** parseArguments does read the command line: a help option exists or can be made
    (otherwise it returns at once, see C09) *)
Definition interprets (s : state) : Prop := s_help s <> None \/ free_help s <> [].

(** was the option behind helpOption_ / versionOption_ met? *)
Definition met (p : option (nat * nat)) (s : state) : bool :=
  match p with
  | None => false
  | Some q => match find_ptr q (s_args s) with Some a => d_exist (a_dyn a) | None => false end
  end.

(** the required arguments that are absent *)
Definition missing (s : state) : list argument :=
  filter (fun a => c_required (a_cfg a) && negb (d_exist (a_dyn a))) (s_args s).
