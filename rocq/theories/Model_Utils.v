(** Model_Utils.v -- include/blet/args/utils.h *)
From Verif Require Import Base.

Definition dash : ascii := "-"%char.
Definition equal_sign : ascii := "="%char.

(** utils.h:43-50 isShortOption *)
Definition isShortOption (a : str) : bool :=
  Ascii.eqb (cget a 0) dash && negb (Ascii.eqb (cget a 1) dash) && negb (Ascii.eqb (cget a 1) nul).

(** utils.h:59-66 isLongOption *)
Definition isLongOption (a : str) : bool :=
  Ascii.eqb (cget a 0) dash && Ascii.eqb (cget a 1) dash && negb (Ascii.eqb (cget a 2) nul).

(** utils.h:75-82 isEndOption *)
Definition isEndOption (a : str) : bool :=
  Ascii.eqb (cget a 0) dash && Ascii.eqb (cget a 1) dash && Ascii.eqb (cget a 2) nul.

(** utils.h:91-98 endOptionIndex; argv is the list of the argc words.
    Note that the scan starts at index 0, i.e. includes argv[0]. *)
Fixpoint endOptionIndex (argv : list str) : nat :=
  match argv with
  | [] => 0
  | w :: r => if isEndOption w then 0 else S (endOptionIndex r)
  end.

(** utils.h:109-122 takeArg.  Result (hasArg, option name, argument); the
    argument is left "" (its initial value in all callers) when there is no '='. *)
Fixpoint split_eq (s : str) : option (str * str) :=
  match s with
  | EmptyString => None
  | String c r =>
      if Ascii.eqb c equal_sign then Some ("", r)
      else match split_eq r with
           | Some (a, b) => Some (String c a, b)
           | None => None
           end
  end.

Definition takeArg (a : str) : bool * str * str :=
  match split_eq a with
  | Some (n, v) => (true, n, v)
  | None => (false, a, "")
  end.
