(** Base.v -- strings, results, exceptions.

    Strings: a C string / std::string is a Coq [string] (sequence of bytes).
    SIMPLIFICATION: NUL bytes are not considered as content; [cget] below
    returns NUL past the end, as reading a C string (or std::string::operator[]
    at size()) does. *)
From Coq Require Export String Ascii Bool Arith NArith ZArith Lia List.
Export ListNotations.
Open Scope string_scope.
Open Scope list_scope.

Notation str := string.
Infix "^^" := String.append (right associativity, at level 60).

(** the byte '\0' *)
Definition nul : ascii := Ascii.zero.

(** [s[n]] for a C string [s]: NUL at (and past) the end.
    Reading strictly past the terminator would be UB; the only such reads in the
    code (utils.h:44,60,76, argument.cpp:278-287, args.cpp:224) are guarded by
    short-circuit tests on the previous characters being non-NUL. *)
Definition cget (s : str) (n : nat) : ascii :=
  match String.get n s with Some c => c | None => nul end.

(** one-character string, [std::string(options, i, 1)] *)
Definition str1 (c : ascii) : str := String c EmptyString.

(** newline *)
Definition nl : str := String (ascii_of_nat 10) EmptyString.
(** the double quote character *)
Definition dquote : str := String (ascii_of_nat 34) EmptyString.

(** size_t arithmetic: modulo 2^64 *)
Definition w64 : N := (2 ^ 64)%N.

(** [static_cast<size_t>(i) + nargs] for an [int] i >= 0 and a [size_t] nargs,
    as in args.cpp:448, 499, 519, 603, 628. *)
Definition szadd (i : nat) (n : N) : N := ((N.of_nat i + n) mod w64)%N.

(** exception classes of include/blet/args/exception.h:39-99 *)
Inductive xkind :=
| KBase | KHelp | KVersion | KArgument | KAccess | KParse | KRequired | KValid
| KForeign (* an exception that is not from this library, thrown by user code *).

(** an exception object: class, argument(), what() (exception.cpp:32-90) *)
Record exn := Exn { x_kind : xkind; x_arg : str; x_msg : str }.

(** Outcome of a C++ function. *)
Inductive res (A : Type) : Type :=
| Ok (a : A)
| Throw (e : exn)
| Exit (out : str)      (* exit(0) after printing [out] on std::cout *)
| UB                    (* undefined behaviour *)
| OutOfFuel.            (* a loop did not finish within the fuel *)
Arguments Ok {A} _. Arguments Throw {A} _. Arguments Exit {A} _.
Arguments UB {A}. Arguments OutOfFuel {A}.

Definition res_map {A B} (f : A -> B) (r : res A) : res B :=
  match r with Ok a => Ok (f a) | Throw e => Throw e | Exit o => Exit o
             | UB => UB | OutOfFuel => OutOfFuel end.

(** association lists keyed by strings (std::map<std::string, _>; the iteration
    order of the map is never observable in the code) *)
Fixpoint assoc {A} (k : str) (m : list (str * A)) : option A :=
  match m with
  | [] => None
  | (k', v) :: r => if String.eqb k k' then Some v else assoc k r
  end.

Definition mem_key {A} (k : str) (m : list (str * A)) : bool :=
  match assoc k m with Some _ => true | None => false end.

(** map::erase of a key *)
Definition del_key {A} (k : str) (m : list (str * A)) : list (str * A) :=
  filter (fun kv => negb (String.eqb k (fst kv))) m.

(** [std::find(v.begin(), v.end(), s) != v.end()] *)
Definition mem_str (s : str) (l : list str) : bool := existsb (String.eqb s) l.

(** erase the first element equal to [s] *)
Fixpoint remove_first (s : str) (l : list str) : list str :=
  match l with
  | [] => []
  | x :: r => if String.eqb s x then r else x :: remove_first s r
  end.

(** join with ", " (argument.cpp:158-174, 522-527, 533-538) *)
Fixpoint join (sep : str) (l : list str) : str :=
  match l with
  | [] => ""
  | [x] => x
  | x :: r => x ^^ sep ^^ join sep r
  end.

(** stable insertion sort.  [lt x y] = comparator; an element is inserted before
    the first element that is strictly greater, so equivalent elements keep their
    order when elements are inserted from the right. *)
Fixpoint insert_by {A} (lt : A -> A -> bool) (x : A) (l : list A) : list A :=
  match l with
  | [] => [x]
  | y :: r => if lt y x then y :: insert_by lt x r else x :: y :: r
  end.

Definition sort_by {A} (lt : A -> A -> bool) (l : list A) : list A :=
  fold_right (insert_by lt) [] l.
