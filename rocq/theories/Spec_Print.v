(** Spec_Print.v -- the decimal numbers with six significant digits, and how they are
    written; independent of Model_Print.v. *)
From Verif Require Import Base Model_Number Spec_Number Spec_Double.
Local Open Scope Z_scope.

(** a decimal number with at most six significant digits *)
Definition decimal6 (x : Q) : Prop := exists m e, Z.abs m < 10 ^ 6 /\ (x == inject_Z m * 10 ^ e)%Q.
(** ... the sixth of which is even *)
Definition even6 (x : Q) : Prop := exists m e, 10 ^ 5 <= Z.abs (2 * m) < 10 ^ 6 /\ (x == inject_Z (2 * m) * 10 ^ e)%Q.
(** [y] is the six-digit decimal next to [x]; of two equally near the one whose last digit is even *)
Definition nearest6 (x y : Q) : Prop :=
  decimal6 y /\
  (forall z, decimal6 z -> Qabs (x - y) <= Qabs (x - z))%Q /\
  (forall z, decimal6 z -> Qabs (x - z) == Qabs (x - y) -> z == y \/ even6 y)%Q.

(** behind the point: the digits [b], the last one not 0; no point without digits *)
Definition point_digits (b fr : str) : Prop :=
  (b = "" /\ fr = "") \/ (exists b' c, b = b' ^^ String c "" /\ c <> "0"%char /\ fr = "." ^^ b).
(** [y] without sign, written without superfluous zeros: with an exponent (of at least two
    digits) exactly if it is below 10^-4 or from 10^6 on *)
Inductive written (y : Q) : str -> Prop :=
| W_plain : forall a b fr, digits a -> digits b -> a <> "" -> (a = "0" \/ not_first (Ascii.eqb "0") a) -> point_digits b fr ->
    ((y == 0)%Q \/ (10 ^ (-4) <= y /\ y < 10 ^ 6)%Q) ->
    (y == inject_Z (digits_value 0 (a ^^ b)) * 10 ^ (- Z.of_nat (String.length b)))%Q ->
    written y (a ^^ fr)
| W_exp : forall c b fr es ed, is_digit c = true -> c <> "0"%char -> digits b -> digits ed -> point_digits b fr ->
    (2 <= String.length ed)%nat -> (String.length ed = 2%nat \/ not_first (Ascii.eqb "0") ed) ->
    (es = "-" /\ (0 < y /\ y < 10 ^ (-4))%Q \/ es = "+" /\ (10 ^ 6 <= y)%Q) ->
    (y == inject_Z (digits_value 0 (String c b)) * 10 ^ (signed es (digits_value 0 ed) - Z.of_nat (String.length b)))%Q ->
    written y (String c fr ^^ "e" ^^ es ^^ ed).
(** the same with the sign in front; [neg] is kept apart from the value because of -0 *)
Definition written_signed (neg : bool) (y : Q) (t : str) : Prop :=
  exists u, t = (if neg then "-" else "") ^^ u /\ written y u.
