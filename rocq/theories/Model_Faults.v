(** Model_Faults.v -- parseArguments when the user's code throws.

    isValid() of a user's validator and the functions given to dest() are user code, called
    by the last loop of parseArguments (args.cpp:147-208).  An exception they throw, other
    than the ParseArgumentValidException that args.cpp:206 catches, leaves parseArguments
    there and then: there is no other handler.  Here is parseArguments once more, with user
    code that may throw.  Which call throws is given by a function of everything that has
    happened in the call so far, the current call of user code last: user code may count,
    look at what it was given, and so on.  (Simplified: the writes dest_ = ... that the
    library makes itself do not throw, and user code does not call the same parser.) *)
From Verif Require Import Base Model_Utils Model_Number Model_Types Model_Argument Model_Usage Model_Args Model_Calls.

(** the exception of the user, as the caller of parseArguments sees it *)
Inductive ending (A : Type) :=
| Normal (r : res A)      (* as in the model without such exceptions *)
| Foreign (x : str).      (* the user's exception, with some text *)
Arguments Normal {A}. Arguments Foreign {A}.

(** when the user's code throws *)
Definition thrower : Type := list happening -> option str.
(** isValid(...), or a function given to dest() *)
Definition user_code (h : happening) : bool :=
  match h with
  | Called _ _ | Delivered (EvCall _ _ _) | Delivered (EvCallV _ _ _) | Delivered (EvCallVV _ _ _) => true
  | _ => false
  end.

Section Faults.
Variable throws : thrower.

(** computations that know what has happened before *)
Definition G (A : Type) : Type := list happening -> state -> (state * ending A) * list happening.
Definition lift {A} (m : M A) : G A := fun h s => let (s1, r) := m s in ((s1, Normal r), h).
Definition gbind {A B} (m : G A) (f : A -> G B) : G B := fun h s =>
  match m h s with
  | (s1, Normal (Ok a), h1) => f a h1 s1
  | (s1, Normal (Throw e), h1) => ((s1, Normal (Throw e)), h1)
  | (s1, Normal (Exit o), h1) => ((s1, Normal (Exit o)), h1)
  | (s1, Normal UB, h1) => ((s1, Normal UB), h1)
  | (s1, Normal OutOfFuel, h1) => ((s1, Normal OutOfFuel), h1)
  | (s1, Foreign x, h1) => ((s1, Foreign x), h1)
  end.
(** user code is run: it is on record, and may throw *)
Definition user (x : happening) : G unit := fun h s =>
  match throws (h ++ [x]) with
  | Some e => ((s, Foreign e), h ++ [x])
  | None => ((s, Normal (Ok tt)), h ++ [x])
  end.

(** args.cpp:207 toDest_(), argument.h:701-716, 736-787, 808-867: if dest() was given
    a function, that is called (once), and may throw *)
Definition toDest_faulty (id : nat) : G unit := fun h s =>
  let p := toDest id s in
  let l := map Delivered (skipn (length (s_dlog s)) (s_dlog (fst p))) in
  if existsb user_code l
  then match throws (h ++ l) with
       | Some e => ((fst p, Foreign e), h ++ l)
       | None => ((fst p, Normal (snd p)), h ++ l)
       end
  else ((fst p, Normal (snd p)), h ++ l).

(** args.cpp:147-208 one iteration of the last loop *)
Definition finish_one_faulty (id : nat) : G unit :=
  gbind (lift (deref id)) (fun a =>
  gbind (match c_valid (a_cfg a) with
         | Some v =>
             if d_exist (a_dyn a) then
               (* args.cpp:151-169 *)
               gbind (user (Called (v_id v) (match to_vector a with Ok l => l | _ => [] end))) (fun _ =>
               lift (validate a v))
             else lift (ret tt)
         | None => lift (ret tt)
         end) (fun _ =>
  gbind (lift (toNumber id)) (fun _ =>
  toDest_faulty id))).
(** args.cpp:147 *)
Fixpoint finish_faulty (ids : list nat) : G unit :=
  match ids with
  | [] => lift (ret tt)
  | id :: r => gbind (finish_one_faulty id) (fun _ => finish_faulty r)
  end.
(** args.cpp:111-209 what follows the scan *)
Definition after_scan_faulty : G unit :=
  gbind (lift check_help) (fun _ => gbind (lift check_version) (fun _ => gbind (lift check_required) (fun _ =>
  gbind (lift get) (fun s => finish_faulty (map a_id (s_args s)))))).
(** args.cpp:63-210 parseArguments *)
Definition parse_with_faulty (fuel : nat) (argv : list str) : G unit :=
  gbind (lift (modify (fun s => with_args s (map clear_arg (s_args s))))) (fun _ =>
  gbind (lift help_setup) (fun early =>
  if (early : bool) then lift (ret tt)
  else gbind (lift (scan fuel argv)) (fun _ => after_scan_faulty))).
(** the object and the way the call ended; and what happened *)
Definition parseArguments_faulty (argv : list str) (s : state) : (state * ending unit) * list happening :=
  parse_with_faulty (parse_fuel argv s) argv [] s.
End Faults.
