(** Spec_Double.v -- which rational numbers are floating point numbers, what "rounded to
    nearest" means, and which number a text begins with for strtod; independent of
    Model_Double.v. *)
From Coq Require Export QArith Qabs Qpower.
From Verif Require Import Base Model_Number Spec_Number.
Local Open Scope Z_scope.

(** 2^e and 10^e for any integer e are (2 ^ e)%Q and (10 ^ e)%Q *)
(** a binary floating point number with [prec] digits, the last one worth at least 2^emin *)
Definition binary (prec emin : Z) (x : Q) : Prop :=
  exists m e, Z.abs m < 2 ^ prec /\ emin <= e /\ (x == inject_Z m * 2 ^ e)%Q.
(** ... whose last digit is even *)
Definition even_binary (prec emin : Z) (x : Q) : Prop :=
  exists m e, emin <= e /\ (x == inject_Z (2 * m) * 2 ^ e)%Q /\ Z.abs (2 * m) <= 2 ^ prec /\ (e = emin \/ 2 ^ (prec - 1) <= Z.abs (2 * m)).
(** [y] is the number next to [x]; of two equally near the one with the even last digit *)
Definition nearest (prec emin : Z) (x y : Q) : Prop :=
  binary prec emin y /\
  (forall z, binary prec emin z -> Qabs (x - y) <= Qabs (x - z))%Q /\
  (forall z, binary prec emin z -> Qabs (x - z) == Qabs (x - y) -> z == y \/ even_binary prec emin y)%Q.
(** binary64: 53 digits, exponent from -1074 *)
Definition nearest_double (x y : Q) : Prop := nearest 53 (-1074) x y.
Definition nearest_float (x y : Q) : Prop := nearest 24 (-149) x y.

(** [z] is the integer part of [x] (rounded towards 0) *)
Definition integer_part (x : Q) (z : Z) : Prop :=
  ((0 <= x /\ inject_Z z <= x /\ x < inject_Z z + 1) \/ (x <= 0 /\ x <= inject_Z z /\ inject_Z z - 1 < x))%Q.

(** the value of a string of hexadecimal digits: 0-9 (48-57), A-F (65-70), a-f (97-102) *)
Definition hexdigit (c : ascii) : Z :=
  let n := Z.of_nat (nat_of_ascii c) in
  if n <=? 57 then n - 48 else if n <=? 70 then n - 55 else n - 87.
Fixpoint hex_value (acc : Z) (s : str) : Z :=
  match s with EmptyString => acc | String c r => hex_value (acc * 16 + hexdigit c) r end.

(** [e] is the value of the exponent with which [s] begins, introduced by a character
    satisfying [x]; 0 if there is none (or none with a digit) *)
Definition exponent_at (x : ascii -> bool) (s : str) (e : Z) : Prop :=
  (exists c sg ds rest, s = String c (sg ^^ ds ^^ rest) /\ x c = true /\ sign sg /\ digits ds /\ ds <> "" /\
     not_first is_digit rest /\ e = signed sg (digits_value 0 ds)) \/
  ((forall c sg ds rest, s = String c (sg ^^ ds ^^ rest) -> x c = true -> sign sg -> digits ds -> ds = "") /\ e = 0).
(** [s] begins with a mantissa: digits [a], digits [b] behind the point; then comes [r] *)
Definition mantissa_at (d : ascii -> bool) (s a b r : str) : Prop :=
  exists dot, s = a ^^ dot ^^ b ^^ r /\ all_chars d a /\ all_chars d b /\ (a <> "" \/ b <> "") /\
    (dot = "." \/ (dot = "" /\ b = "" /\ not_first (Ascii.eqb ".") r)) /\ not_first d r.
Definition hex_at (s : str) : Prop := exists x t a b r, s = x ^^ t /\ same_ci "0x" x /\ mantissa_at is_hex t a b r.
(** [s] begins with a number without sign, of value [x] (the longest such beginning) *)
Inductive begins_value : str -> Q -> Prop :=
| BV_dec : forall s a b r e, mantissa_at is_digit s a b r -> ~ hex_at s -> exponent_at is_e r e ->
    begins_value s (inject_Z (digits_value 0 (a ^^ b)) * 10 ^ (e - Z.of_nat (String.length b)))
| BV_hex : forall x s a b r e, same_ci "0x" x -> mantissa_at is_hex s a b r -> exponent_at is_p r e ->
    begins_value (x ^^ s) (inject_Z (hex_value 0 (a ^^ b)) * 2 ^ (e - 4 * Z.of_nat (String.length b))).
(** the text [v] begins (after blanks) with the number +-x *)
Definition number_at (v : str) (neg : bool) (x : Q) : Prop :=
  exists sp sg s, v = sp ^^ sg ^^ s /\ blanks sp /\ sign sg /\ neg = String.eqb sg "-" /\ begins_value s x.
Definition with_sign (neg : bool) (x : Q) : Q := if neg then (- x)%Q else x.
