(** Model_Peek.v -- parseArguments with validators that remember and look around.

    In Model_Args.v a validator is a function of the values it is given.  A validator is a
    user's object, though: its isValid() may remember earlier calls, and it may read the
    parser that is calling it (args["--other"], to compare two options).  So may a function
    given to dest().  Here is parseArguments once more with such user code: what a validator
    answers is given by a function of everything that happened in the call so far, each
    happening together with the parser as user code could read it at that time.  The last
    happening is the present call.  (Simplified: user code does not change the parser.) *)
From Verif Require Import Base Model_Utils Model_Number Model_Types Model_Argument Model_Usage Model_Args Model_Calls.

(** a call of user code or a write to a user's variable, and the parser at that time *)
Definition moment : Type := (happening * state)%type.
(** what isValid() answers *)
Definition mind : Type := list moment -> vres.

Section Peek.
Variable answers : mind.

(** computations that know what has happened before *)
Definition P (A : Type) : Type := list moment -> state -> (state * res A) * list moment.
Definition calmly {A} (m : M A) : P A := fun h s => (m s, h).
Definition pbind {A B} (m : P A) (f : A -> P B) : P B := fun h s =>
  match m h s with
  | (s1, Ok a, h1) => f a h1 s1
  | (s1, Throw e, h1) => ((s1, Throw e), h1)
  | (s1, Exit o, h1) => ((s1, Exit o), h1)
  | (s1, UB, h1) => ((s1, UB), h1)
  | (s1, OutOfFuel, h1) => ((s1, OutOfFuel), h1)
  end.

(** args.cpp:149-204 validation of one present argument: valid_->isValid(arguments) is asked *)
Definition validate_peek (a : argument) (v : validator) : P unit := fun h s =>
  let h1 := h ++ [(Called (v_id v) (match to_vector a with Ok l => l | _ => [] end), s)] in
  (validate a (Validator (v_id v) (fun _ => answers h1)) s, h1).

(** args.cpp:214 toDest_() *)
Definition toDest_peek (id : nat) : P unit := fun h s =>
  let p := toDest id s in
  (p, h ++ map (fun e => (Delivered e, s)) (skipn (length (s_dlog s)) (s_dlog (fst p)))).

(** args.cpp:147-215 one iteration of the last loop *)
Definition finish_one_peek (id : nat) : P unit :=
  pbind (calmly (deref id)) (fun a =>
  pbind (match c_valid (a_cfg a) with
         | Some v => if d_exist (a_dyn a) then validate_peek a v else calmly (ret tt)
         | None => calmly (ret tt)
         end) (fun _ =>
  pbind (calmly (toNumber id)) (fun _ =>
  toDest_peek id))).

(** args.cpp:146-215 the last loop *)
Fixpoint finish_peek (ids : list nat) : P unit :=
  match ids with
  | [] => calmly (ret tt)
  | id :: r => pbind (finish_one_peek id) (fun _ => finish_peek r)
  end.

(** args.cpp:111-215 what follows the scan *)
Definition after_scan_peek : P unit :=
  pbind (calmly check_help) (fun _ => pbind (calmly check_version) (fun _ => pbind (calmly check_required) (fun _ =>
  pbind (calmly get) (fun s => finish_peek (map a_id (s_args s)))))).

(** args.cpp:63-216 parseArguments *)
Definition parse_with_peek (fuel : nat) (argv : list str) : P unit :=
  pbind (calmly (modify (fun s => with_args s (map clear_arg (s_args s))))) (fun _ =>
  pbind (calmly help_setup) (fun early =>
  if (early : bool) then calmly (ret tt)
  else pbind (calmly (scan fuel argv)) (fun _ => after_scan_peek))).

(** the object and the way the call ended; and the moments of the call *)
Definition parseArguments_peek (argv : list str) (s : state) : (state * res unit) * list moment :=
  parse_with_peek (parse_fuel argv s) argv [] s.
End Peek.
