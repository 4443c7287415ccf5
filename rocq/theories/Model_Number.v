(** Model_Number.v -- the parts of the C/C++ runtime that read numbers.

    This is a model of glibc/libstdc++ (not of /repo): [std::istream >> double]
    as used by argument.cpp:370-371,375-376,381-382 and valid.cpp:81-84, and the
    end pointer of [strtod] as used by valid.cpp:51-52.
    SIMPLIFICATIONS: "C" locale; values are exact decimals (m * 10^e), the rounding
    to binary64 is in Model_Double.v. *)
From Verif Require Import Base.

(** exact decimal m * 10^e *)
Definition dec := (Z * Z)%type.

Definition is_digit (c : ascii) : bool :=
  let n := nat_of_ascii c in Nat.leb 48 n && Nat.leb n 57.
Definition digit_val (c : ascii) : Z := (Z.of_nat (nat_of_ascii c) - 48)%Z.

(** isspace in the "C" locale: space, \t \n \v \f \r *)
Definition is_space (c : ascii) : bool :=
  let n := nat_of_ascii c in Nat.eqb n 32 || (Nat.leb 9 n && Nat.leb n 13).

Fixpoint skip_space (s : str) : str :=
  match s with
  | String c r => if is_space c then skip_space r else s
  | EmptyString => EmptyString
  end.

(** optional sign: (negative?, rest) *)
Definition take_sign (s : str) : bool * str :=
  match s with
  | String "-" r => (true, r)
  | String "+" r => (false, r)
  | _ => (false, s)
  end.

(** run of digits: (value so far, number of digits, rest) *)
Fixpoint take_digits (acc : Z) (n : nat) (s : str) : Z * nat * str :=
  match s with
  | String c r => if is_digit c then take_digits (acc * 10 + digit_val c) (S n) r else (acc, n, s)
  | EmptyString => (acc, n, EmptyString)
  end.

(** mantissa digits[.digits]: (value, number of digits, number of fraction digits, rest) *)
Definition take_mantissa (s : str) : Z * nat * nat * str :=
  let '(v1, n1, r1) := take_digits 0 0 s in
  match r1 with
  | String "." r2 =>
      let '(v2, n2, r3) := take_digits v1 0 r2 in (v2, (n1 + n2)%nat, n2, r3)
  | _ => (v1, n1, 0%nat, r1)
  end.

Definition is_e (c : ascii) : bool := Ascii.eqb c "e" || Ascii.eqb c "E".

(** |m| * 10^e >= 2^1024 - 2^970, i.e. the value rounds to infinity *)
Definition dbl_bound : Z := (2 ^ 1024 - 2 ^ 970)%Z.
Definition dec_overflow (d : dec) : bool :=
  let (m, e) := d in
  if (e <=? 0)%Z then (dbl_bound * 10 ^ (- e) <=? Z.abs m)%Z
  else (dbl_bound <=? Z.abs m * 10 ^ e)%Z.

(** [std::istringstream(s) >> double]: None = failbit.
    libstdc++ num_get::_M_extract_float: skips blanks, collects
    sign? digits* (. digits* )? ((e|E) sign? digits* )?  where the exponent part is
    entered only after a mantissa digit; then fails unless strtod consumes all that
    was collected (so "1e" fails), or if the value overflows. *)
Definition istream_double (s : str) : option dec :=
  let '(neg, s1) := take_sign (skip_space s) in
  let '(v, nd, nf, s2) := take_mantissa s1 in
  let sg := fun z : Z => if (neg : bool) then (- z)%Z else z in
  match nd with
  | O => None
  | S _ =>
      let finish := fun d : dec => if dec_overflow d then None else Some d in
      match s2 with
      | String c s3 =>
          if is_e c then
            let '(eneg, s4) := take_sign s3 in
            let '(ev, en, _) := take_digits 0 0 s4 in
            match en with
            | O => None
            | S _ => finish (sg v, ((if (eneg : bool) then - ev else ev) - Z.of_nat nf)%Z)
            end
          else finish (sg v, (- Z.of_nat nf)%Z)
      | EmptyString => finish (sg v, (- Z.of_nat nf)%Z)
      end
  end.

(** comparison of exact decimals *)
Definition dec_ltb (a b : dec) : bool :=
  let (m1, e1) := a in let (m2, e2) := b in
  let e := Z.min e1 e2 in
  (m1 * 10 ^ (e1 - e) <? m2 * 10 ^ (e2 - e))%Z.

(* ---------------- end pointer of strtod ---------------- *)

Definition lower (c : ascii) : ascii :=
  let n := nat_of_ascii c in
  if Nat.leb 65 n && Nat.leb n 90 then ascii_of_nat (n + 32) else c.

(** case-insensitive prefix test: rest after the (lower case) prefix [p] *)
Fixpoint strip_ci (p s : str) : option str :=
  match p, s with
  | EmptyString, _ => Some s
  | String a p', String b s' => if Ascii.eqb a (lower b) then strip_ci p' s' else None
  | String _ _, EmptyString => None
  end.

Definition is_hex (c : ascii) : bool :=
  is_digit c || (let n := nat_of_ascii (lower c) in Nat.leb 97 n && Nat.leb n 102).
Fixpoint skip_hex (n : nat) (s : str) : nat * str :=
  match s with
  | String c r => if is_hex c then skip_hex (S n) r else (n, s)
  | EmptyString => (n, EmptyString)
  end.

(** optional exponent introduced by [isx]; only taken if it has a digit *)
Definition skip_exp (isx : ascii -> bool) (s : str) : str :=
  match s with
  | String c r =>
      if isx c then
        let '(_, r1) := take_sign r in
        let '(_, n, r2) := take_digits 0 0 r1 in
        match n with O => s | S _ => r2 end
      else s
  | EmptyString => s
  end.

(** n-char-sequence of nan(...): letters, digits, underscore *)
Definition is_nchar (c : ascii) : bool :=
  is_digit c || Ascii.eqb c "_" || (let n := nat_of_ascii (lower c) in Nat.leb 97 n && Nat.leb n 122).
Fixpoint skip_nchar (s : str) : str :=
  match s with
  | String c r => if is_nchar c then skip_nchar r else s
  | EmptyString => s
  end.

(** the decimal form: None if no digit *)
Definition strtod_dec (s : str) : option str :=
  let '(_, nd, _, r) := take_mantissa s in
  match nd with O => None | S _ => Some (skip_exp is_e r) end.

(** the hexadecimal form after "0x": None if no hex digit *)
Definition strtod_hex (s : str) : option str :=
  let '(n1, r1) := skip_hex 0 s in
  let '(n2, r2) := match r1 with
                   | String "." r => skip_hex 0 r
                   | _ => (0%nat, r1)
                   end in
  match (n1 + n2)%nat with
  | O => None
  | S _ => Some (skip_exp (fun c => Ascii.eqb (lower c) "p") r2)
  end.

(** what follows the subject sequence of [strtod], or None if there is none *)
Definition strtod_subject (s : str) : option str :=
  let '(_, s1) := take_sign (skip_space s) in
  match strip_ci "infinity" s1 with
  | Some r => Some r
  | None =>
  match strip_ci "inf" s1 with
  | Some r => Some r
  | None =>
  match strip_ci "nan" s1 with
  | Some r =>
      match r with
      | String "(" r1 => match skip_nchar r1 with
                         | String ")" r2 => Some r2
                         | _ => Some r
                         end
      | _ => Some r
      end
  | None =>
  match strip_ci "0x" s1 with
  | Some r => match strtod_hex r with
              | Some q => Some q
              | None => strtod_dec s1
              end
  | None => strtod_dec s1
  end end end end.

(** the string at the end pointer of strtod(s, &end): [s] itself if no conversion *)
Definition strtod_rest (s : str) : str :=
  match strtod_subject s with Some r => r | None => s end.
