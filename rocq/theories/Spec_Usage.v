(** Spec_Usage.v -- what the usage text shows, independently of how it is laid out. *)
From Verif Require Import Base Model_Types Model_Args Spec_Reading Spec_Finish Spec_Api.

(** a word ends at a space or at the end of a line *)
Definition blank (c : ascii) : bool := Ascii.eqb c " " || Ascii.eqb c (ascii_of_nat 10).
(** the pieces of a text between the separating characters *)
Fixpoint split_at (p : ascii -> bool) (s : str) : list str :=
  match s with
  | EmptyString => [""]
  | String c r => if p c then "" :: split_at p r
                  else match split_at p r with h :: t => String c h :: t | [] => [str1 c] end
  end.
Definition words (s : str) : list str := filter (fun w => negb (String.eqb w "")) (split_at blank s).
Definition lines_of (s : str) : list str := split_at (Ascii.eqb (ascii_of_nat 10)) s.
Fixpoint has_char (c : ascii) (s : str) : Prop :=
  match s with EmptyString => False | String x r => x = c \/ has_char c r end.

(** the n-th character of [s] is a space *)
Definition space_at (s : str) (n : nat) : Prop := String.get n s = Some " "%char.

Definition long_flag (f : str) : bool := match f with String "-" (String "-" _) => true | _ => false end.
Definition short_flag (f : str) : bool := match f with String "-" (String "-" _) => false | String "-" _ => true | _ => false end.
Fixpoint without (n : nat) (s : str) : str := match n, s with S k, String _ r => without k r | _, _ => s end.
Definition to_upper (c : ascii) : ascii :=
  if (97 <=? N_of_ascii c)%N && (N_of_ascii c <=? 122)%N then ascii_of_N (N_of_ascii c - 32) else c.
Fixpoint uppercase (s : str) : str := match s with EmptyString => "" | String c r => String (to_upper c) (uppercase r) end.

(** the name of the value of an option if none was declared: the first long flag, else the
    first short flag, without dashes and in capitals *)
Definition value_name (names : list str) : str :=
  uppercase match find long_flag names with
            | Some f => without 2 f
            | None => match find short_flag names with Some f => without 1 f | None => "" end
            end.
(** the values of an option as they are shown *)
Definition shown_values (a : argument) : str :=
  if String.eqb (c_metavar (a_cfg a)) "" then
    let n := value_name (getNameOrFlags a) in
    if action_eqb (getAction a) INFINITE || (getNargs a =? 43)%N then n ^^ "..."
    else if (getNargs a <=? 1)%N then n else join " " (repeat n (N.to_nat (getNargs a)))
  else c_metavar (a_cfg a).
Definition with_values (a : argument) (s : str) : str := if has_values (a_cfg a) then s ^^ " " ^^ shown_values a else s.
(** brackets exactly if it is not required *)
Definition bracketed (a : argument) (s : str) : str := if isRequired a then s else "[" ^^ s ^^ "]".
Definition main_name (a : argument) : str := hd "" (getNameOrFlags a).

(** the synopsis of an option and of a positional *)
Definition option_synopsis (a : argument) : str := bracketed a (with_values a (main_name a)).
Definition positional_synopsis (a : argument) : str :=
  bracketed a
    match arity_of (a_cfg a) with
    | AFixed n => join " " (repeat (main_name a) n)
    | ARun => main_name a ^^ " {" ^^ main_name a ^^ "}..."
    | AGroups n => "{" ^^ join " " (repeat (main_name a) n) ^^ "}..."
    | _ => main_name a
    end.
Definition options (s : state) : list argument := filter (fun a => negb (isPositional a)) (arguments s).
Definition positionals (s : state) : list argument := filter (fun a => isPositional a) (arguments s).
(** the items of the synopsis, in order *)
Definition synopsis_items (s : state) : list str :=
  map option_synopsis (options s) ++
  (match options s, positionals s with _ :: _, _ :: _ => ["--"] | _, _ => [] end) ++
  map positional_synopsis (positionals s).
(** what the table of arguments says about an argument *)
Definition remark (a : argument) : str :=
  if isRequired a then " (required)"
  else if String.eqb (c_default (a_cfg a)) "" then "" else " (default: " ^^ c_default (a_cfg a) ^^ ")".
Definition option_entry (a : argument) : list str :=
  words (with_values a (join ", " (getNameOrFlags a))) ++ words (c_help (a_cfg a) ^^ remark a).
Definition positional_entry (a : argument) : list str :=
  words (main_name a) ++ words (c_help (a_cfg a) ^^ remark a).
(** the part of a path after its last '/' *)
Definition is_basename (path b : str) : Prop :=
  ~ has_char "/" b /\ (path = b \/ exists dir, path = dir ^^ "/" ^^ b).
