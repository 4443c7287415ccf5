(** Model_Double.v -- argument.h:50-110 boolTo and argument.h:157-217 strTo for the
    arithmetic destination types: [ret = ::strtod(str.c_str(), NULL)] and [ret = b].
    The value of strtod is a model of the C runtime (not of /repo): correctly rounded
    binary64, "C" locale, round-to-nearest mode, as in glibc.
    SIMPLIFICATIONS: char is signed, 8 bits; short, int, long, long long have 16, 32, 64,
    64 bits (LP64); long double holds every double; the conversion of a double beyond the
    range of float gives an infinity (IEC 60559, as gcc and clang do). *)
From Verif Require Import Base Model_Number Model_Types Model_Argument.
Local Open Scope Z_scope.

(** a binary64 value: +-m * 2^e, infinity, not-a-number *)
Inductive dbl := DFin (neg : bool) (m e : Z) | DInf (neg : bool) | DNan.

(** the largest l with 2^l <= p / q *)
Definition flog2 (p q : Z) : Z :=
  let l := Z.log2 p - Z.log2 q in
  if p * 2 ^ Z.max 0 (- l) <? q * 2 ^ Z.max 0 l then l - 1 else l.
(** n / d to the nearest integer, a tie to the even one *)
Definition half_even (n d : Z) : Z :=
  let k := n / d in let r := n mod d in
  if 2 * r <? d then k else if d <? 2 * r then k + 1 else if Z.even k then k else k + 1.
(** p / q rounded to prec binary digits, the last one not below 2^emin: (m, e) for m * 2^e *)
Definition round_to (prec emin p q : Z) : Z * Z :=
  let e := Z.max emin (flog2 p q - (prec - 1)) in
  (half_even (p * 2 ^ Z.max 0 (- e)) (q * 2 ^ Z.max 0 e), e).
(** m * 2^e < 2^emax *)
Definition below (emax m e : Z) : bool :=
  m * 2 ^ Z.max 0 e <? 2 ^ emax * 2 ^ Z.max 0 (- e).
Definition rounded (prec emin emax : Z) (neg : bool) (p q : Z) : dbl :=
  let (m, e) := round_to prec emin p q in
  if below emax m e then DFin neg m e else DInf neg.
Definition to_double : bool -> Z -> Z -> dbl := rounded 53 (-1074) 1024.

(** m * b^e as a fraction *)
Definition fraction (b m e : Z) : Z * Z := if e <=? 0 then (m, b ^ (- e)) else (m * b ^ e, 1).

(** the value of an optional exponent introduced by [isx] *)
Definition exp_value (isx : ascii -> bool) (s : str) : Z :=
  match s with
  | String c r =>
      if isx c then
        let '(neg, r1) := take_sign r in
        let '(v, n, _) := take_digits 0 0 r1 in
        match n with O => 0 | S _ => if neg then - v else v end
      else 0
  | EmptyString => 0
  end.
(** the decimal form; no digit: no conversion, the result is 0 *)
Definition strtod_dec_value (neg : bool) (s : str) : dbl :=
  let '(v, nd, nf, r) := take_mantissa s in
  match nd with
  | O => DFin false 0 0
  | S _ => let (p, q) := fraction 10 v (exp_value is_e r - Z.of_nat nf) in to_double neg p q
  end.
(** value of a hexadecimal digit *)
Definition hex_val (c : ascii) : Z := if is_digit c then digit_val c else Z.of_nat (nat_of_ascii (lower c)) - 87.
Fixpoint take_hex (acc : Z) (n : nat) (s : str) : Z * nat * str :=
  match s with
  | String c r => if is_hex c then take_hex (acc * 16 + hex_val c) (S n) r else (acc, n, s)
  | EmptyString => (acc, n, EmptyString)
  end.
(** the hexadecimal form after 0x: None if no digit *)
Definition strtod_hex_value (neg : bool) (s : str) : option dbl :=
  let '(v1, n1, r1) := take_hex 0 0 s in
  let '(v, n2, r2) := match r1 with String "." r => take_hex v1 0 r | _ => (v1, 0%nat, r1) end in
  match (n1 + n2)%nat with
  | O => None
  | S _ => let (p, q) := fraction 2 v (exp_value (fun c => Ascii.eqb (lower c) "p") r2 - 4 * Z.of_nat n2) in Some (to_double neg p q)
  end.
(** strtod(s, NULL) *)
Definition strtod (s : str) : dbl :=
  let '(neg, s1) := take_sign (skip_space s) in
  match strip_ci "inf" s1 with
  | Some _ => DInf neg
  | None =>
  match strip_ci "nan" s1 with
  | Some _ => DNan
  | None =>
  match strip_ci "0x" s1 with
  | Some r => match strtod_hex_value neg r with Some d => d | None => strtod_dec_value neg s1 end
  | None => strtod_dec_value neg s1
  end end end.

(** the arithmetic destination types *)
Inductive num_type := NtBool | NtInt (lo hi : Z) | NtFloat | NtDouble.
Definition nt_char := NtInt (-128) 127.
Definition nt_uchar := NtInt 0 255.
Definition nt_short := NtInt (-32768) 32767.
Definition nt_ushort := NtInt 0 65535.
Definition nt_int := NtInt (-2147483648) 2147483647.
Definition nt_uint := NtInt 0 4294967295.
Definition nt_long := NtInt (-9223372036854775808) 9223372036854775807.
Definition nt_ulong := NtInt 0 18446744073709551615.

(** what the destination holds afterwards; [NvUndefined]: the integer part does not fit,
    the conversion is undefined behaviour ([conv.fpint]) *)
Inductive num_value := NvBool (b : bool) | NvInt (z : Z) | NvDouble (d : dbl) | NvUndefined.

(** the integer part of +-m * 2^e *)
Definition truncate (neg : bool) (m e : Z) : Z :=
  let a := m * 2 ^ Z.max 0 e / 2 ^ Z.max 0 (- e) in if neg then - a else a.
(** the implicit conversion of a double on assignment *)
Definition convert (t : num_type) (d : dbl) : num_value :=
  match t with
  | NtBool => NvBool (match d with DFin _ m _ => negb (m =? 0) | _ => true end)
  | NtInt lo hi =>
      match d with
      | DFin neg m e => let z := truncate neg m e in if (lo <=? z) && (z <=? hi) then NvInt z else NvUndefined
      | _ => NvUndefined
      end
  | NtFloat => NvDouble (match d with DFin neg m e => let (p, q) := fraction 2 m e in rounded 24 (-149) 128 neg p q | _ => d end)
  | NtDouble => NvDouble d
  end.
(** argument.h:157-217 strTo(const std::string&, T&) *)
Definition strTo_num (t : num_type) (s : str) : num_value := convert t (strtod s).
(** argument.h:50-110 boolTo(const bool&, T&) *)
Definition boolTo_num (t : num_type) (b : bool) : num_value :=
  match t with
  | NtBool => NvBool b
  | NtInt _ _ => NvInt (if b then 1 else 0)
  | _ => NvDouble (DFin false (if b then 1 else 0) 0)
  end.

(** What the program finds in its own variables: a variable of arithmetic type (or a vector,
    a vector of vectors of it) after the effects of the library on the destinations.
    argument.h:695-718 (scalars), 755-787 (vectors), 832-866 (vectors of vectors): [strTo(argument, dest_)],
    [dest_.push_back(...)]. *)
Definition of_cell (t : num_type) (c : cellval) : num_value :=
  match c with CvBool b => boolTo_num t b | CvStr v => strTo_num t v | CvDangling => NvUndefined end.
Fixpoint scalar_after (t : num_type) (cell : nat) (old : num_value) (log : list devent) : num_value :=
  match log with
  | [] => old
  | EvAssign c v :: r => scalar_after t cell (if Nat.eqb c cell then of_cell t v else old) r
  | _ :: r => scalar_after t cell old r
  end.
Fixpoint vector_after (t : num_type) (cell : nat) (old : list num_value) (log : list devent) : list num_value :=
  match log with
  | [] => old
  | EvPush c v :: r => vector_after t cell (if Nat.eqb c cell then old ++ [of_cell t v] else old) r
  | _ :: r => vector_after t cell old r
  end.
Fixpoint vectors_after (t : num_type) (cell : nat) (old : list (list num_value)) (log : list devent) : list (list num_value) :=
  match log with
  | [] => old
  | EvPushVec c vs :: r => vectors_after t cell (if Nat.eqb c cell then old ++ [map (of_cell t) vs] else old) r
  | _ :: r => vectors_after t cell old r
  end.

(** [std::istream >> double] (argument.cpp:370-371, valid.cpp:81-84) with its rounding: the
    double next to the decimal that was read.  SIMPLIFICATION: "-0" gives +0 (they compare
    equal). *)
Definition number_double (d : dec) : dbl :=
  let (m, e) := d in let (p, q) := fraction 10 (Z.abs m) e in to_double (m <? 0) p q.
Definition istream_dbl (s : str) : option dbl := option_map number_double (istream_double s).
(** the operator < on double (IEC 60559): false if a NaN is involved *)
Definition signed_value (neg : bool) (m : Z) : Z := if neg then - m else m.
Definition dbl_ltb (x y : dbl) : bool :=
  match x, y with
  | DNan, _ | _, DNan => false
  | DInf true, DInf true => false
  | DInf true, _ => true
  | _, DInf true => false
  | DInf false, _ => false
  | _, DInf false => true
  | DFin n1 m1 e1, DFin n2 m2 e2 =>
      let e := Z.min e1 e2 in signed_value n1 m1 * 2 ^ (e1 - e) <? signed_value n2 m2 * 2 ^ (e2 - e)
  end.

(** argument.h:441-444 Argument::operator T() for an arithmetic T other than bool, for which
    argument.h:399-406 operator bool() is chosen: [return getNumber();], the double converted
    to T.  SIMPLIFICATION: as in istream_dbl, "-0" gives +0. *)
Definition to_arith (t : num_type) (a : argument) : res num_value :=
  match t with
  | NtBool => Ok (NvBool (to_bool a))
  | _ => match getNumber a with
         | Ok d => Ok (convert t (number_double d))
         | Throw e => Throw e
         | Exit s => Exit s
         | UB => UB
         | OutOfFuel => OutOfFuel
         end
  end.
