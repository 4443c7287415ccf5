(** Spec_Result.v -- vocabulary for the statements about the results of parseArguments. *)
From Verif Require Import Base Model_Number Model_Types Model_Argument Model_Usage Model_Args Model_Api
  Spec_Reading Spec_Parse Spec_Finish Spec_Api.

(** The parser with the automatic help option, when parseArguments makes one: it is what
    the calls  addArgument(free ones of -h, --help).action(HELP).help("...")  give (C08). *)
Definition ready (s : state) : state :=
  match s_help s, free_help s with
  | None, _ :: _ =>
      fst (step (OpAdd (free_help s) [MAction HELP; MHelp "show this help message and exit"]) s)
  | _, _ => s
  end.

(** A parser set up through the API, without absurd nargs and without dest() on a help or
    version argument (the histories under the policy [careful] lead to such states). *)
Definition usable (s : state) : Prop := reach s /\ sensible s /\ pointers_ok s.

(** the declared arguments as the reading of command lines needs them *)
Definition setup (s : state) : conf := conf_of (ready s).
(** the words (after argv[0]) can be read, as these pieces *)
Definition reads (s : state) (ws : list str) (pcs : list piece) : Prop :=
  Reading (setup s) (positionals (setup s)) ws pcs.
(** the words cannot be read; the exception *)
Definition rejects (s : state) (ws : list str) (e : exn) : Prop :=
  Fails (setup s) (positionals (setup s)) ws e.
(** [reaches s ws pcs left rest]: the reading of the words [ws] gets, after the pieces
    [pcs], to the remaining words [rest], without having met "--"; the positionals [left]
    are not filled yet *)
Definition reaches (s : state) (ws : list str) (pcs : list piece) (left : list (nat * acfg)) (rest : list str) : Prop :=
  Reached (setup s) (positionals (setup s)) ws pcs left rest.

(** the object with argv[0] as its binary name, unless it has one *)
Definition named (argv : list str) (s : state) : state :=
  match s_bin s with "" => with_bin s (hd "" argv) | _ => s end.

(** the values of an argument after a successful parse, given the values [vs] from the
    command line: these, or what the validator made of them, position by position *)
Definition holds (a : argument) (vs : list str) : Prop :=
  match c_valid (a_cfg a) with
  | None => to_vector a = Ok vs
  | Some v => exists out, v_fn v vs = VOk true out /\ to_vector a = Ok (over vs out)
  end.
(** the same for grouped values *)
Definition holds_groups (a : argument) (gs : list (list str)) : Prop :=
  match c_valid (a_cfg a) with
  | None => to_vector_vector a = Ok gs
  | Some v => exists out hs, v_fn v (concat gs) = VOk true out /\ to_vector_vector a = Ok hs /\
                map (@length str) hs = map (@length str) gs /\ concat hs = over (concat gs) out
  end.

(** two calls with the same outcome, and the same object afterwards if they return *)
Definition same_outcome (p q : state * res unit) : Prop :=
  snd p = snd q /\ (snd p = Ok tt -> fst p = fst q).

(** the argument that acts as help / version option *)
Definition is_help (s : state) (a : argument) : Prop := In a (arguments s) /\ s_help s = Some (ptr_of a).
Definition is_version (s : state) (a : argument) : Prop := In a (arguments s) /\ s_version s = Some (ptr_of a).
