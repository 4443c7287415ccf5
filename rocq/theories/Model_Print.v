(** Model_Print.v -- valid.cpp:88-92: the bounds of ValidMinMax in the message,
    [oss << min_], [oss << max_] on a fresh std::ostringstream.
    The stream insertion of a double is a model of the C++ runtime (not of /repo): default
    flags and precision 6, that is printf's %g, correctly rounded (round-to-nearest), "C" locale,
    as libstdc++ on glibc.
    SIMPLIFICATION: a NaN is printed without its sign. *)
From Verif Require Import Base Model_Number Model_Types Model_Valid Model_Double.
Local Open Scope Z_scope.

(** the largest l with 10^l <= n, for 0 < n (the fuel suffices: Proofs_Print.ilog10_spec) *)
Fixpoint ilog10_aux (fuel : nat) (n : Z) : Z :=
  match fuel with
  | O => 0
  | S f => if n <? 10 then 0 else 1 + ilog10_aux f (n / 10)
  end.
Definition ilog10 (n : Z) : Z := ilog10_aux (Z.to_nat (Z.log2 n)) n.
(** the largest l with 10^l <= p / q *)
Definition flog10 (p q : Z) : Z :=
  let l := ilog10 p - ilog10 q in
  if p * 10 ^ Z.max 0 (- l) <? q * 10 ^ Z.max 0 l then l - 1 else l.
(** p / q to six significant digits, a tie to the even digit: (n, x) for n * 10^(x - 5), 10^5 <= n < 10^6 *)
Definition six_digits (p q : Z) : Z * Z :=
  let x := flog10 p q in
  let n := half_even (p * 10 ^ Z.max 0 (5 - x)) (q * 10 ^ Z.max 0 (x - 5)) in
  if n =? 10 ^ 6 then (10 ^ 5, x + 1) else (n, x).

(** the last k digits of n *)
Definition digit_char (n : Z) : ascii := ascii_of_nat (48 + Z.to_nat n).
Fixpoint digits_fix (k : nat) (n : Z) : str :=
  match k with
  | O => EmptyString
  | S k' => String (digit_char (n / 10 ^ Z.of_nat k' mod 10)) (digits_fix k' n)
  end.
(** the point and the k digits of f behind it, without the zeros at the end *)
Fixpoint point_text (k : nat) (f : Z) : str :=
  match k with
  | O => EmptyString
  | S k' => if f mod 10 =? 0 then point_text k' (f / 10) else String "." (digits_fix k f)
  end.
(** %g of n * 10^(x - 5), 10^5 <= n < 10^6 *)
Definition show_plain (n x : Z) : str :=
  let k := Z.to_nat (5 - x) in
  digits_fix (Z.to_nat (Z.max 1 (x + 1))) (n / 10 ^ Z.of_nat k) ^^ point_text k (n mod 10 ^ Z.of_nat k).
Definition show_exp (n x : Z) : str :=
  digits_fix 1 (n / 10 ^ 5) ^^ point_text 5 (n mod 10 ^ 5) ^^ "e" ^^ (if x <? 0 then "-" else "+") ^^
  digits_fix (Z.to_nat (Z.max 2 (ilog10 (Z.abs x) + 1))) (Z.abs x).
Definition show_digits (n x : Z) : str :=
  if (-4 <=? x) && (x <? 6) then show_plain n x else show_exp n x.
Definition show_double (d : dbl) : str :=
  match d with
  | DNan => "nan"
  | DInf neg => (if neg then "-" else "") ^^ "inf"
  | DFin neg m e =>
      (if neg then "-" else "") ^^
      (if m =? 0 then "0" else let (p, q) := fraction 2 m e in let (n, x) := six_digits p q in show_digits n x)
  end.

(** valid.cpp:67-96 ValidMinMax, complete *)
Definition validMinMax_double : dbl -> dbl -> list str -> vres := validMinMax dbl_ltb istream_dbl show_double.
