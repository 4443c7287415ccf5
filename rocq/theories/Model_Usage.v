(** Model_Usage.v -- src/usage.cpp and Argument::metavarDefault_ *)
From Verif Require Import Base Model_Utils Model_Types Model_Argument.

Definition space : ascii := " "%char.
Definition newline : ascii := ascii_of_nat 10.

(** std::string(n, ' ') *)
Fixpoint spaces (n : nat) : str :=
  match n with O => "" | S k => String space (spaces k) end.

(** line.substr(0, n) *)
Fixpoint stake (n : nat) (s : str) : str :=
  match n, s with
  | S k, String c r => String c (stake k r)
  | _, _ => ""
  end.
(** line.substr(n) *)
Fixpoint sdrop (n : nat) (s : str) : str :=
  match n, s with
  | S k, String _ r => sdrop k r
  | _, _ => s
  end.

(** s.rfind(c, w): greatest position <= w holding [c] *)
Fixpoint rfind (c : ascii) (s : str) (w : nat) : option nat :=
  match s with
  | EmptyString => None
  | String x r =>
      match w with
      | O => if Ascii.eqb x c then Some 0 else None
      | S w' => match rfind c r w' with
                | Some p => Some (S p)
                | None => if Ascii.eqb x c then Some 0 else None
                end
      end
  end.

(** usage.cpp:64-66: position of the first non-space at or after [p] *)
Fixpoint skip_sp (s : str) : str :=
  match s with
  | String x r => if Ascii.eqb x space then skip_sp r else s
  | EmptyString => ""
  end.

(** usage.cpp:59 std::getline over an istringstream: the lines of [s]; an empty
    string has none and a final newline does not start a new one *)
Fixpoint getlines_aux (cur : str) (s : str) : list str :=
  match s with
  | EmptyString => match cur with EmptyString => [] | _ => [cur] end
  | String c r => if Ascii.eqb c newline then cur :: getlines_aux "" r
                  else getlines_aux (cur ^^ str1 c) r
  end.
Definition getlines (s : str) : list str := getlines_aux "" s.

(** usage.cpp:60-73 wrapping of one line; [fuel] bounds the number of iterations
    (every iteration removes at least the space at which the line is cut:
    Proofs_Usage.wrap_line_fuel shows the fuel does not matter). *)
Fixpoint wrap_line (fuel widthMax : nat) (line : str) : list str :=
  match fuel with
  | O => [line]
  | S f =>
      if Nat.leb widthMax (String.length line) then
        match rfind space line widthMax with
        | Some p => stake p line :: wrap_line f widthMax (skip_sp (sdrop p line))
        | None => [line]
        end
      else [line]
  end.

(** usage.cpp:55-76 s_multilineWrap *)
Definition multilineWrap (s : str) (widthMax : nat) : list str :=
  flat_map (fun l => wrap_line (S (String.length l)) widthMax l) (getlines s).

(* ------------------------------------------------------------------ *)

(** toupper in the "C" locale *)
Definition toupper (c : ascii) : ascii :=
  let n := nat_of_ascii c in
  if Nat.leb 97 n && Nat.leb n 122 then ascii_of_nat (n - 32) else c.
Fixpoint upper (s : str) : str :=
  match s with String c r => String (toupper c) (upper r) | EmptyString => "" end.

(** argument.cpp:388-399: first long flag without "--", else first short flag
    without "-"; None = the pointer stays NULL *)
Fixpoint meta_flag (cur : option str) (l : list str) : option str :=
  match l with
  | [] => cur
  | n :: r =>
      if Ascii.eqb (cget n 0) dash && Ascii.eqb (cget n 1) dash then Some (sdrop 2 n)
      else match cur with
           | None => if Ascii.eqb (cget n 0) dash && negb (Ascii.eqb (cget n 1) dash)
                     then meta_flag (Some (sdrop 1 n)) r else meta_flag None r
           | Some _ => meta_flag cur r
           end
  end.

(** argument.cpp:387-421 metavarDefault_ (guarded by [usage_defined]) *)
Definition metavarDefault (c : acfg) : str :=
  let u := upper (match meta_flag None (c_names c) with Some f => f | None => "" end) in
  if action_eqb (c_action c) INFINITE || (c_nargs c =? plus)%N then u ^^ "..."
  else if (1 <? c_nargs c)%N then join " " (repeat u (N.to_nat (c_nargs c)))
  else u.

(** the option types shown with a metavar (usage.cpp:113-130, 273-292) *)
Definition shows_metavar (t : atype) : bool :=
  match t with
  | SIMPLE_OPTION | NUMBER_OPTION | INFINITE_OPTION | MULTI_OPTION | MULTI_INFINITE_OPTION
  | MULTI_NUMBER_OPTION | MULTI_NUMBER_INFINITE_OPTION => true
  | _ => false
  end.
Definition metavar_part (c : acfg) : str :=
  if shows_metavar (c_type c) then
    " " ^^ (match c_metavar c with EmptyString => metavarDefault c | m => m end)
  else "".

Definition brackets (c : acfg) (s : str) : str :=
  if c_required c then s else "[" ^^ s ^^ "]".

(** usage.cpp:108-134 one option of the synopsis *)
Definition option_item (c : acfg) : str := brackets c (first_name c ^^ metavar_part c).

(** usage.cpp:159-190 one positional of the synopsis *)
Definition positional_item (c : acfg) : str :=
  let n := first_name c in
  brackets c
    match c_type c with
    | POSITIONAL_ARGUMENT => n
    | NUMBER_POSITIONAL_ARGUMENT => join " " (repeat n (N.to_nat (c_nargs c)))
    | INFINITE_POSITIONAL_ARGUMENT => n ^^ " {" ^^ n ^^ "}..."
    | INFINITE_NUMBER_POSITIONAL_ARGUMENT =>
        "{" ^^ join " " (repeat n (N.to_nat (c_nargs c))) ^^ "}..."
    | _ => ""
    end.

(** usage.cpp:135-143, 191-199: append the items to the synopsis; accumulator is
    (text, index, hasMultiLine) *)
Definition emit_item (binaryPad indexMax : nat) (acc : str * nat * bool) (item : str) : str * nat * bool :=
  let '(out, index, multi) := acc in
  if Nat.leb indexMax (index + String.length item) then
    (out ^^ nl ^^ spaces (binaryPad + 1) ^^ item, binaryPad + String.length item + 1, true)
  else
    (out ^^ " " ^^ item, index + String.length item + 1, multi).

(** usage.cpp:86-94 basename *)
Definition basename (b : str) : str :=
  match rfind "/"%char b (String.length b) with
  | Some p => sdrop (S p) b
  | None => b
  end.

Definition is_pos_arg (a : argument) : bool := is_positional (c_type (a_cfg a)).
Definition options_of (l : list argument) : list acfg :=
  map a_cfg (filter (fun a => negb (is_pos_arg a)) l).
Definition positionals_of (l : list argument) : list acfg :=
  map a_cfg (filter is_pos_arg l).
Definition nonempty {A} (l : list A) : bool := match l with [] => false | _ => true end.

(** usage.cpp:100 indexMax *)
Definition index_max (u : usage_cfg) : nat := u_pad u + u_args u + u_sep u + u_help u.

(** usage.cpp:95-200 the synopsis *)
Definition synopsis (s : state) : str :=
  let u := s_usage s in
  let line := "usage: " ^^ basename (s_bin s) in
  let pad := String.length line in
  let imax := index_max u in
  let opts := options_of (s_args s) in
  let poss := positionals_of (s_args s) in
  let '(out1, i1, m1) := fold_left (emit_item pad imax) (map option_item opts) (line, pad, false) in
  let '(out2, i2) :=
    if nonempty opts && nonempty poss then
      if m1 || Nat.leb imax (i1 + 3) then
        (out1 ^^ nl ^^ spaces (pad + 1) ^^ "--" ^^ nl ^^ spaces pad, pad)
      else (out1 ^^ " --", i1 + 3)
    else (out1, i1) in
  let '(out3, _, _) := fold_left (emit_item pad imax) (map positional_item poss) (out2, i2, m1) in
  out3.

(** usage.cpp:202-209, 328-335 description and epilog *)
Definition paragraph (text : str) (width : nat) : str :=
  match text with
  | EmptyString => ""
  | _ => nl ^^ fold_left (fun o l => o ^^ nl ^^ l) (multilineWrap text width) ""
  end.

(** oss.width(w); oss.flags(left); oss << s *)
Definition pad_right (w : nat) (s : str) : str := s ^^ spaces (w - String.length s).

(** usage.cpp:235-244, 306-315 *)
Definition help_text (c : acfg) : str :=
  c_help c ^^
  (if c_required c then " (required)"
   else match c_default c with
        | EmptyString => ""
        | d => " (default: " ^^ d ^^ ")"
        end).

(** usage.cpp:223-252, 294-323 one row of the description of the arguments *)
Definition row (u : usage_cfg) (label : str) (c : acfg) : str :=
  let col := u_pad u + u_args u + u_sep u in
  spaces (u_pad u) ^^
  (if Nat.leb (String.length label + u_sep u) (u_args u + u_sep u)
   then pad_right (u_args u + u_sep u) label
   else label ^^ nl ^^ spaces col) ^^
  join (nl ^^ spaces col) (multilineWrap (help_text c) (u_help u)).

Definition positional_label (c : acfg) : str := first_name c.
(** usage.cpp:266-293 *)
Definition option_label (c : acfg) : str := join ", " (c_names c) ^^ metavar_part c.

(** usage.cpp:212-254, 255-325 *)
Definition section (title : str) (rows : list str) : str :=
  match rows with
  | [] => ""
  | _ => nl ^^ nl ^^ title ^^ nl ^^ join nl rows
  end.

(** no front() of an empty vector and no std::string(NULL) in usage.cpp / metavarDefault_
    (SIMPLIFICATION, towards UB: required of every option, shown with metavar or not) *)
Definition usage_defined (a : argument) : bool :=
  has_name a &&
  (is_pos_arg a || match meta_flag None (c_names (a_cfg a)) with Some _ => true | None => false end).

Definition usage_text (s : state) : str :=
  let u := s_usage s in
  synopsis s ^^
  paragraph (u_description u) (index_max u) ^^
  section "positional arguments:" (map (fun c => row u (positional_label c) c) (positionals_of (s_args s))) ^^
  section "optional arguments:" (map (fun c => row u (option_label c) c) (options_of (s_args s))) ^^
  paragraph (u_epilog u) (index_max u).

(** usage.cpp:78-337 getUsage *)
Definition getUsage (s : state) : res str :=
  match u_usage (s_usage s) with
  | EmptyString => if forallb usage_defined (s_args s) then Ok (usage_text s) else UB
  | t => Ok t
  end.
