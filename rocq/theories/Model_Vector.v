(** Model_Vector.v -- include/blet/args/vector.h class Vector and include/blet/args.h
    Args::vector(...): the lists of names and values which the program hands to
    addArgument(), removeArguments() and defaults(). *)
From Verif Require Import Base.

(** list[i] = v *)
Fixpoint upd_nth {A} (i : nat) (v : A) (l : list A) : list A :=
  match l, i with
  | [], _ => []
  | _ :: r, O => v :: r
  | x :: r, S k => x :: upd_nth k v r
  end.
(** args.h:65-67, 74-514 the 21 overloads Args::vector(s1, ..., sn):
    [Vector ret(n); ret[0] = s1; ...; ret[n-1] = sn; return ret;] *)
Fixpoint assign_from (i : nat) (ss : list str) (ret : list str) : list str :=
  match ss with
  | [] => ret
  | s :: r => assign_from (S i) r (upd_nth i s ret)
  end.
Definition args_vector (ss : list str) : list str := assign_from 0 ss (repeat "" (length ss)).
(** vector.h:41-42 Vector(int size).  SIMPLIFICATION: size >= 0 (a negative one is converted
    to a huge size and std::vector throws std::length_error). *)
Definition vector_int (size : nat) : list str := repeat "" size.
(** vector.h:44-70 Vector(array of S strings), by push_back one after the other (vector.h:92-95
    the initializer list) *)
Definition vector_array (v : list str) : list str := fold_left (fun l s => l ++ [s]) v [].
(** vector.h:72-90 Vector("..."), Vector(const char*&), Vector(const std::string&) *)
Definition vector_text (v : str) : list str := [] ++ [v].

(** the Vector objects of the program: variables by number *)
Definition store := nat -> list str.
Definition set_var (x : nat) (v : list str) (m : store) : store := fun y => if Nat.eqb y x then v else m y.
(** an expression of type Vector or Vector&: a variable, a temporary, e + "..." *)
Inductive vexpr := VVar (x : nat) | VTemp (v : list str) | VPlus (e : vexpr) (s : str).
(** what the expression refers to: a variable, or a temporary with its present content *)
Inductive vref := RVar (x : nat) | RTemp (v : list str).
(** vector.h:97-111 operator+: [push_back(v); return *this;] *)
Fixpoint eval (e : vexpr) (m : store) : vref * store :=
  match e with
  | VVar x => (RVar x, m)
  | VTemp v => (RTemp v, m)
  | VPlus e1 s =>
      match eval e1 m with
      | (RVar x, m1) => (RVar x, set_var x (m1 x ++ [s]) m1)
      | (RTemp v, m1) => (RTemp (v ++ [s]), m1)
      end
  end.
(** the list that a function with a parameter const Vector& sees *)
Definition content (e : vexpr) (m : store) : list str :=
  match eval e m with (RVar x, m1) => m1 x | (RTemp v, _) => v end.
