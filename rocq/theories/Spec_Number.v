(** Spec_Number.v -- what a number is, written as a grammar (independently of the
    scanners of Model_Number.v).

      blanks   ::= white space characters
      sign     ::= "" | "+" | "-"
      mantissa ::= digits | digits "." digits          with at least one digit
      number   ::= blanks sign mantissa [ (e|E) sign digits ]
                 | blanks sign (0x|0X) hexmantissa [ (p|P) sign digits ]
                 | blanks sign (inf | infinity | nan | nan(letters, digits, _))   any case *)
From Verif Require Import Base Model_Number.

(** every character satisfies [p] *)
Fixpoint all_chars (p : ascii -> bool) (s : str) : Prop :=
  match s with EmptyString => True | String c r => p c = true /\ all_chars p r end.
(** the first character, if any, does not satisfy [p] *)
Definition not_first (p : ascii -> bool) (s : str) : Prop :=
  match s with EmptyString => True | String c _ => p c = false end.

Definition blanks := all_chars is_space.
Definition digits := all_chars is_digit.
Definition hexdigits := all_chars is_hex.
Definition sign (s : str) : Prop := s = "" \/ s = "+" \/ s = "-".
(** the value of a string of digits *)
Fixpoint digits_value (acc : Z) (s : str) : Z :=
  match s with EmptyString => acc | String c r => digits_value (acc * 10 + digit_val c) r end.
Definition signed (sg : str) (v : Z) : Z := if String.eqb sg "-" then (- v)%Z else v.

(** mantissa over the digits [d]: digits, or digits "." digits, not without a digit *)
Definition mantissa (d : ascii -> bool) (m : str) : Prop :=
  exists a b, all_chars d a /\ all_chars d b /\ (a <> "" \/ b <> "") /\ ((m = a /\ b = "") \/ m = a ^^ "." ^^ b).
(** optional exponent introduced by a character satisfying [x] *)
Definition exponent (x : ascii -> bool) (e : str) : Prop :=
  e = "" \/ exists c sg ds, x c = true /\ sign sg /\ digits ds /\ ds <> "" /\ e = String c (sg ^^ ds).
(** equal up to the case of the letters *)
Fixpoint same_ci (p s : str) : Prop :=
  match p, s with
  | EmptyString, EmptyString => True
  | String a p', String b s' => a = lower b /\ same_ci p' s'
  | _, _ => False
  end.
Definition is_p (c : ascii) : bool := Ascii.eqb (lower c) "p".

Inductive number_body : str -> Prop :=
| NB_dec : forall m e, mantissa is_digit m -> exponent is_e e -> number_body (m ^^ e)
| NB_hex : forall x m e, same_ci "0x" x -> mantissa is_hex m -> exponent is_p e -> number_body (x ^^ m ^^ e)
| NB_inf : forall w, same_ci "inf" w -> number_body w
| NB_infinity : forall w, same_ci "infinity" w -> number_body w
| NB_nan : forall w, same_ci "nan" w -> number_body w
| NB_nan_seq : forall w q, same_ci "nan" w -> all_chars is_nchar q -> number_body (w ^^ "(" ^^ q ^^ ")").

(** the whole text is a number in the syntax of strtod *)
Definition number_text (s : str) : Prop :=
  exists sp sg b, blanks sp /\ sign sg /\ number_body b /\ s = sp ^^ sg ^^ b.

(** [s] begins with the decimal number [d] (the longest such beginning), as read by a
    C++ input stream: an exponent mark must be followed by an exponent. *)
Definition begins_with_number (s : str) (d : dec) : Prop :=
  exists sp sg a dot b ex rest,
    s = sp ^^ sg ^^ a ^^ dot ^^ b ^^ ex ^^ rest /\ blanks sp /\ sign sg /\ digits a /\ digits b /\ (a <> "" \/ b <> "") /\
    ((dot = "." /\ True) \/ (dot = "" /\ b = "" /\ not_first (Ascii.eqb ".") (ex ^^ rest))) /\
    not_first is_digit (ex ^^ rest) /\
    ((ex = "" /\ not_first is_e rest /\ d = (signed sg (digits_value 0 (a ^^ b)), - Z.of_nat (String.length b))%Z) \/
     (exists c esg ds, is_e c = true /\ sign esg /\ digits ds /\ ds <> "" /\ ex = String c (esg ^^ ds) /\ not_first is_digit rest /\
        d = (signed sg (digits_value 0 (a ^^ b)), signed esg (digits_value 0 ds) - Z.of_nat (String.length b))%Z)).
(** not too large for a double *)
Definition representable (d : dec) : Prop :=
  let (m, e) := d in
  if (e <=? 0)%Z then (Z.abs m < dbl_bound * 10 ^ (- e))%Z else (Z.abs m * 10 ^ e < dbl_bound)%Z.
(** order of exact decimals: comparison of m * 10^e *)
Definition dec_le (x y : dec) : Prop :=
  (fst x * 10 ^ (snd x - Z.min (snd x) (snd y)) <= fst y * 10 ^ (snd y - Z.min (snd x) (snd y)))%Z.
