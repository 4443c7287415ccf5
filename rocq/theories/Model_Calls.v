(** Model_Calls.v -- the calls of user code made by parseArguments.

    The model of parseArguments (Model_Args.v) has the writes to destinations in the
    state, but the calls of validators leave no trace in it: here is parseArguments once
    more, with a record of both, in the order in which they happen.  Only the functions
    that can call user code are repeated; C71_same shows that apart from the record
    nothing is different. *)
From Verif Require Import Base Model_Utils Model_Number Model_Types Model_Argument Model_Usage Model_Args.

(** A call of user code, or a write to a user's variable, made by parseArguments. *)
Inductive happening :=
| Called (v : nat) (arguments : list str)   (* valid_->isValid(arguments), args.cpp:169 *)
| Delivered (e : devent).                   (* dest_->toDest(...), args.cpp:207 *)

(** computations with a record of what happened *)
Definition T (A : Type) : Type := state -> (state * res A) * list happening.
Definition quietly {A} (m : M A) : T A := fun s => (m s, []).
Definition record (l : list happening) : T unit := fun s => ((s, Ok tt), l).
Definition tbind {A B} (m : T A) (f : A -> T B) : T B := fun s =>
  match m s with
  | (s1, Ok a, l) => let (p, l') := f a s1 in (p, l ++ l')
  | (s1, Throw e, l) => ((s1, Throw e), l)
  | (s1, Exit o, l) => ((s1, Exit o), l)
  | (s1, UB, l) => ((s1, UB), l)
  | (s1, OutOfFuel, l) => ((s1, OutOfFuel), l)
  end.
Notation "'tdo' x <- m ;; k" := (tbind m (fun x => k)) (at level 80, x pattern, m at level 79, k at level 80, right associativity).
Notation "m ;;;; k" := (tbind m (fun _ => k)) (at level 80, right associativity).

(** args.cpp:207 with a record of the writes: toDest appends them to the log of the state *)
Definition toDest_traced (id : nat) : T unit := fun s =>
  let p := toDest id s in (p, map Delivered (skipn (length (s_dlog s)) (s_dlog (fst p)))).

(** args.cpp:147-208 one iteration of the last loop *)
Definition finish_one_traced (id : nat) : T unit :=
  tdo a <- quietly (deref id) ;;
  (match c_valid (a_cfg a) with
   | Some v =>
       if d_exist (a_dyn a) then
         (* args.cpp:151-169 *)
         record [Called (v_id v) (match to_vector a with Ok l => l | _ => [] end)] ;;;;
         quietly (validate a v)
       else quietly (ret tt)
   | None => quietly (ret tt)
   end) ;;;;
  quietly (toNumber id) ;;;;
  toDest_traced id.

(** args.cpp:147 *)
Fixpoint finish_traced (ids : list nat) : T unit :=
  match ids with
  | [] => quietly (ret tt)
  | id :: r => finish_one_traced id ;;;; finish_traced r
  end.

(** args.cpp:111-209 what follows the scan *)
Definition after_scan_traced : T unit :=
  quietly check_help ;;;;
  quietly check_version ;;;;
  quietly check_required ;;;;
  tdo s <- quietly get ;;
  finish_traced (map a_id (s_args s)).

(** args.cpp:63-210 parseArguments *)
Definition parse_with_traced (fuel : nat) (argv : list str) : T unit :=
  quietly (modify (fun s => with_args s (map clear_arg (s_args s)))) ;;;;
  tdo early <- quietly help_setup ;;
  if (early : bool) then quietly (ret tt)
  else
    quietly (scan fuel argv) ;;;;
    after_scan_traced.
Definition parseArguments_traced (argv : list str) : T unit := fun s =>
  parse_with_traced (parse_fuel argv s) argv s.
