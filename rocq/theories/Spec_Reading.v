(** Spec_Reading.v -- what a command line means, for a given set of declared
    arguments: a declarative description, independent of the code (no indices, no
    mutable state).  The words after argv[0] are cut from left to right into
    [piece]s. *)
From Verif Require Import Base Model_Types.

(* ------------------------------------------------------------------ *)
(** * words *)
Inductive wkind := WShort | WLong | WEnd | WPlain.

(** -x... , --x... , -- , anything else ("-" alone and "" included) *)
Definition word_kind (w : str) : wkind :=
  match w with
  | String a r =>
      if Ascii.eqb a "-" then
        match r with
        | EmptyString => WPlain
        | String b r' =>
            if Ascii.eqb b "-" then (match r' with EmptyString => WEnd | String _ _ => WLong end)
            else WShort
        end
      else WPlain
  | EmptyString => WPlain
  end.

(** name and value of a word name=value (cut at the first '=') *)
Fixpoint cut_eq (w : str) : str * option str :=
  match w with
  | EmptyString => ("", None)
  | String c r =>
      if Ascii.eqb c "=" then ("", Some r)
      else let (n, v) := cut_eq r in (String c n, v)
  end.

(** the words before the first "--" *)
Fixpoint before_end (ws : list str) : list str :=
  match ws with
  | [] => []
  | w :: r => match word_kind w with WEnd => [] | _ => w :: before_end r end
  end.

(* ------------------------------------------------------------------ *)
(** * the declared arguments *)
Record conf := Conf {
  k_map : list (str * nat);       (* name -> argument *)
  k_args : list (nat * acfg);     (* the arguments in listing order *)
  k_alt : bool;                   (* alternative mode *)
  k_strict : bool                 (* strict mode *)
}.
(** the argument designated by a name *)
Definition k_find (K : conf) (n : str) : option (nat * acfg) :=
  match assoc n (k_map K) with
  | None => None
  | Some id => find (fun p => Nat.eqb (fst p) id) (k_args K)
  end.
Definition k_has (K : conf) (n : str) : bool :=
  match k_find K n with Some _ => true | None => false end.
Definition conf_of (s : state) : conf :=
  Conf (s_map s) (map (fun a => (a_id a, a_cfg a)) (s_args s))
    (m_alternative (s_modes s)) (m_strict (s_modes s)).
(** the positional arguments in listing order *)
Definition positionals (K : conf) : list (nat * acfg) :=
  filter (fun p => is_positional (c_type (snd p))) (k_args K).

(** how many words an argument takes *)
Inductive arity := ANone | AOne | AFixed (n : nat) | ARun | AGroups (n : nat).
Definition arity_of (c : acfg) : arity :=
  let n := N.to_nat (c_nargs c) in
  match c_type c with
  | HELP_OPTION | VERSION_OPTION | BOOLEAN_OPTION | REVERSE_BOOLEAN_OPTION => ANone
  | SIMPLE_OPTION | MULTI_OPTION | POSITIONAL_ARGUMENT => AOne
  | NUMBER_OPTION | MULTI_NUMBER_OPTION | NUMBER_POSITIONAL_ARGUMENT => AFixed n
  | INFINITE_OPTION | MULTI_INFINITE_OPTION | INFINITE_POSITIONAL_ARGUMENT => ARun
  | MULTI_NUMBER_INFINITE_OPTION | INFINITE_NUMBER_POSITIONAL_ARGUMENT => AGroups n
  end.

(** the maximal run of words none of which is a [stop] word *)
Fixpoint run_of (stop : str -> bool) (ws : list str) : list str :=
  match ws with
  | [] => []
  | w :: r => if stop w then [] else w :: run_of stop r
  end.
(** as many whole groups of [n] words as possible, until a group would begin with
    a [stop] word; None if the words end inside a group.  [inside] = words missing
    in the current group. *)
Fixpoint groups_from (stop : str -> bool) (n inside : nat) (ws : list str) : option (list str) :=
  match ws, inside with
  | [], O => Some []
  | [], S _ => None
  | w :: r, O => if stop w then Some [] else option_map (cons w) (groups_from stop n (n - 1) r)
  | w :: r, S k => option_map (cons w) (groups_from stop n k r)
  end.
(** the words taken from the available words; None = not enough words *)
Definition take_words (stop : str -> bool) (a : arity) (avail : list str) : option (list str) :=
  match a with
  | ANone => Some []
  | AOne => match avail with w :: _ => Some [w] | [] => None end
  | AFixed n => if Nat.ltb (length avail) n then None else Some (firstn n avail)
  | ARun => Some (run_of stop avail)
  | AGroups n => groups_from stop n 0 avail
  end.

(* ------------------------------------------------------------------ *)
(** * option words *)

(** how a value was attached: following words; name=value; -cvalue *)
Inductive style := Separate | AfterEq | Glued.
(** an occurrence of an option with its values *)
Record occ := Occ { o_id : nat; o_style : style; o_vals : list str }.

Definition one_char (c : ascii) : str := String "-" (String c "").
Definition parse_error (arg msg : str) : exn := Exn KParse arg msg.
Definition is_flag_type (t : atype) : bool :=
  match t with BOOLEAN_OPTION | REVERSE_BOOLEAN_OPTION => true | _ => false end.
(** may the rest of the word be the value? *)
Definition glues (c : acfg) : bool :=
  match c_type c with
  | SIMPLE_OPTION | NUMBER_OPTION | INFINITE_OPTION | MULTI_OPTION
  | MULTI_INFINITE_OPTION | MULTI_NUMBER_OPTION => true
  | _ => false
  end.

(** what an option word designates: boolean flags bundled in front, then one
    option (with the name used in messages), and possibly an attached value *)
Inductive meaning :=
| MeansError (e : exn)
| MeansOption (bools : list nat) (id : nat) (c : acfg) (name : str) (st : style) (value : option str).

Definition style_of (value : option str) : style :=
  match value with Some _ => AfterEq | None => Separate end.

(** the characters of a short option word, one after the other *)
Fixpoint bundle (K : conf) (value : option str) (bools : list nat) (cs : str) : meaning :=
  match cs with
  | EmptyString => MeansError (parse_error "-" "invalid option")
  | String c r =>
      match k_find K (one_char c) with
      | None => MeansError (parse_error (str1 c) "invalid option")
      | Some (id, cf) =>
          match r with
          | EmptyString => MeansOption bools id cf (str1 c) (style_of value) value
          | String _ _ =>
              match value with
              | None =>
                  if glues cf then MeansOption bools id cf (str1 c) Glued (Some r)
                  else if is_flag_type (c_type cf) then bundle K value (bools ++ [id]) r
                  else MeansError (parse_error (str1 c) "only last option can be use a parameter")
              | Some _ =>
                  if is_flag_type (c_type cf) then bundle K value (bools ++ [id]) r
                  else MeansError (parse_error (str1 c) "only last option can be use a parameter")
              end
          end
      end
  end.

(** the word without its first character / first two characters *)
Definition after1 (s : str) : str := match s with String _ r => r | EmptyString => "" end.
Definition after2 (s : str) : str := after1 (after1 s).

Definition word_meaning (K : conf) (w : str) : meaning :=
  let (name, value) := cut_eq w in
  match word_kind w with
  | WLong =>
      match k_find K name with
      | Some (id, c) => MeansOption [] id c (after2 name) (style_of value) value
      | None => MeansError (parse_error (after2 name) "invalid option")
      end
  | _ =>
      match (if k_alt K then k_find K (String "-" name) else None) with
      | Some (id, c) => MeansOption [] id c (after1 name) (style_of value) value
      | None => bundle K value [] (after1 name)
      end
  end.

(** does a word end a run of values? *)
Fixpoint stops_bundle (K : conf) (hasValue : bool) (cs : str) : bool :=
  match cs with
  | EmptyString => false
  | String c r =>
      match k_find K (one_char c) with
      | None => false
      | Some (_, cf) =>
          match r with
          | EmptyString => true
          | String _ _ =>
              (negb hasValue && glues cf) || is_flag_type (c_type cf) || stops_bundle K hasValue r
          end
      end
  end.
Definition stops (K : conf) (w : str) : bool :=
  let (name, value) := cut_eq w in
  match word_kind w with
  | WShort => (k_alt K && k_has K (String "-" name)) ||
              stops_bundle K (match value with Some _ => true | None => false end) (after1 name)
  | WLong => k_has K name
  | _ => false
  end.

(** the values of an option: the attached one, or words among the available ones *)
Definition option_values (K : conf) (c : acfg) (name : str) (value : option str) (avail : list str)
    : exn + list str :=
  match value with
  | Some v =>
      match arity_of c with
      | AOne | ARun => inr [v]
      | AFixed _ | AGroups _ => inl (parse_error name "option cannot use with only 1 argument")
      | ANone => inl (parse_error name "option cannot use with argument")
      end
  | None =>
      match take_words (stops K) (arity_of c) avail with
      | Some vs => inr vs
      | None => inl (parse_error name "bad number of argument")
      end
  end.

Definition flag_occ (id : nat) : occ := Occ id Separate [].
(** an option word: the occurrences it stands for, and the following words it uses *)
Definition read_option (K : conf) (w : str) (avail : list str) : exn + (list occ * list str) :=
  match word_meaning K w with
  | MeansError e => inl e
  | MeansOption bools id c name st value =>
      match option_values K c name value avail with
      | inl e => inl e
      | inr vs => inr (map flag_occ bools ++ [Occ id st vs],
                       match value with Some _ => [] | None => vs end)
      end
  end.

(* ------------------------------------------------------------------ *)
(** * the whole command line *)
Inductive piece :=
| PcOption (w : str) (occs : list occ) (used : list str)
| PcPositional (id : nat) (vs : list str)
| PcAdditional (w : str)
| PcEnd.
(** the words of the command line that a piece covers *)
Definition piece_words (p : piece) : list str :=
  match p with
  | PcOption w _ used => w :: used
  | PcPositional _ vs => vs
  | PcAdditional w => [w]
  | PcEnd => ["--"]
  end.

Definition no_stop (_ : str) : bool := false.
Definition first_of (c : acfg) : str := hd "" (c_names c).

(** after "--": everything is positional or additional *)
Inductive ReadingEnd (K : conf) : list (nat * acfg) -> list str -> list piece -> Prop :=
| Re_nil : forall ps, ReadingEnd K ps [] []
| Re_positional : forall id c ps w ws vs pcs,
    take_words no_stop (arity_of c) (w :: ws) = Some vs ->
    ReadingEnd K ps (skipn (length vs) (w :: ws)) pcs ->
    ReadingEnd K ((id, c) :: ps) (w :: ws) (PcPositional id vs :: pcs)
| Re_additional : forall w ws pcs,
    k_strict K = false -> ReadingEnd K [] ws pcs ->
    ReadingEnd K [] (w :: ws) (PcAdditional w :: pcs).

(** [Reading K ps ws pcs]: with the positionals [ps] still to be filled, the words
    [ws] mean the pieces [pcs]; before "--", options and positionals take only words
    that precede the "--" *)
Inductive Reading (K : conf) : list (nat * acfg) -> list str -> list piece -> Prop :=
| Rd_nil : forall ps, Reading K ps [] []
| Rd_option : forall ps w ws occs used pcs,
    word_kind w = WShort \/ word_kind w = WLong ->
    read_option K w (before_end ws) = inr (occs, used) ->
    Reading K ps (skipn (length used) ws) pcs ->
    Reading K ps (w :: ws) (PcOption w occs used :: pcs)
| Rd_end : forall ps w ws pcs,
    word_kind w = WEnd -> ReadingEnd K ps ws pcs ->
    Reading K ps (w :: ws) (PcEnd :: pcs)
| Rd_positional : forall id c ps w ws vs pcs,
    word_kind w = WPlain ->
    take_words (stops K) (arity_of c) (before_end (w :: ws)) = Some vs ->
    Reading K ps (skipn (length vs) (w :: ws)) pcs ->
    Reading K ((id, c) :: ps) (w :: ws) (PcPositional id vs :: pcs)
| Rd_additional : forall w ws pcs,
    word_kind w = WPlain -> k_strict K = false ->
    Reading K [] ws pcs ->
    Reading K [] (w :: ws) (PcAdditional w :: pcs).

(** the same for command lines that are rejected *)
Inductive FailsEnd (K : conf) : list (nat * acfg) -> list str -> exn -> Prop :=
| Fe_positional : forall id c ps w ws,
    take_words no_stop (arity_of c) (w :: ws) = None ->
    FailsEnd K ((id, c) :: ps) (w :: ws) (parse_error (first_of c) "bad number of argument")
| Fe_additional : forall w ws,
    k_strict K = true ->
    FailsEnd K [] (w :: ws) (parse_error w "invalid additional argument")
| Fe_positional_next : forall id c ps w ws vs e,
    take_words no_stop (arity_of c) (w :: ws) = Some vs ->
    FailsEnd K ps (skipn (length vs) (w :: ws)) e ->
    FailsEnd K ((id, c) :: ps) (w :: ws) e
| Fe_additional_next : forall w ws e,
    k_strict K = false -> FailsEnd K [] ws e -> FailsEnd K [] (w :: ws) e.

Inductive Fails (K : conf) : list (nat * acfg) -> list str -> exn -> Prop :=
| Fl_option : forall ps w ws e,
    word_kind w = WShort \/ word_kind w = WLong ->
    read_option K w (before_end ws) = inl e ->
    Fails K ps (w :: ws) e
| Fl_positional : forall id c ps w ws,
    word_kind w = WPlain ->
    take_words (stops K) (arity_of c) (before_end (w :: ws)) = None ->
    Fails K ((id, c) :: ps) (w :: ws) (parse_error (first_of c) "bad number of argument")
| Fl_additional : forall w ws,
    word_kind w = WPlain -> k_strict K = true ->
    Fails K [] (w :: ws) (parse_error w "invalid additional argument")
| Fl_option_next : forall ps w ws occs used e,
    word_kind w = WShort \/ word_kind w = WLong ->
    read_option K w (before_end ws) = inr (occs, used) ->
    Fails K ps (skipn (length used) ws) e ->
    Fails K ps (w :: ws) e
| Fl_end : forall ps w ws e,
    word_kind w = WEnd -> FailsEnd K ps ws e -> Fails K ps (w :: ws) e
| Fl_positional_next : forall id c ps w ws vs e,
    word_kind w = WPlain ->
    take_words (stops K) (arity_of c) (before_end (w :: ws)) = Some vs ->
    Fails K ps (skipn (length vs) (w :: ws)) e ->
    Fails K ((id, c) :: ps) (w :: ws) e
| Fl_additional_next : forall w ws e,
    word_kind w = WPlain -> k_strict K = false ->
    Fails K [] ws e ->
    Fails K [] (w :: ws) e.

(* ------------------------------------------------------------------ *)
(** * the effect of the pieces *)

(** [l] cut into groups of [n] *)
Definition chunks {A} (n : nat) (l : list A) : list (list A) :=
  map (fun i => firstn n (skipn (i * n) l)) (seq 0 (length l / n)).

Definition elem_word (w : str) : elem := Elem (Leaf w "" None) [].
Definition elem_group (ws : list str) : elem := Elem (Leaf "" "" None) (map (fun w => Leaf w "" None) ws).
Definition seen (d : adyn) : adyn := ADyn true (S (d_count d)) (d_arg d) (d_num d) (d_elems d).
Definition set_arg (d : adyn) (v : str) : adyn := ADyn (d_exist d) (d_count d) v (d_num d) (d_elems d).
Definition set_elems (d : adyn) (es : list elem) : adyn := ADyn (d_exist d) (d_count d) (d_arg d) (d_num d) es.

(** an option occurrence, on the values of its argument *)
Definition occ_dyn (c : acfg) (o : occ) (d0 : adyn) : adyn :=
  let d := match o_style o with Glued => seen d0 | _ => d0 end in
  let kept := if d_exist d then d_elems d else [] in
  let n := N.to_nat (c_nargs c) in
  seen
    match c_type c with
    | SIMPLE_OPTION => set_arg d (hd "" (o_vals o))
    | NUMBER_OPTION | INFINITE_OPTION => set_elems d (map elem_word (o_vals o))
    | MULTI_OPTION | MULTI_INFINITE_OPTION => set_elems d (kept ++ map elem_word (o_vals o))
    | MULTI_NUMBER_OPTION | MULTI_NUMBER_INFINITE_OPTION =>
        set_elems d (kept ++ map elem_group (chunks n (o_vals o)))
    | _ => d
    end.
(** words given to a positional argument *)
Definition pos_dyn (c : acfg) (vs : list str) (d : adyn) : adyn :=
  let n := N.to_nat (c_nargs c) in
  let d' :=
    match c_type c with
    | POSITIONAL_ARGUMENT => set_arg d (hd "" vs)
    | NUMBER_POSITIONAL_ARGUMENT | INFINITE_POSITIONAL_ARGUMENT => set_elems d (d_elems d ++ map elem_word vs)
    | INFINITE_NUMBER_POSITIONAL_ARGUMENT => set_elems d (d_elems d ++ map elem_group (chunks n vs))
    | _ => d
    end in
  ADyn true (d_count d') (d_arg d') (d_num d') (d_elems d').

(** what the pieces do to one argument *)
Definition piece_dyn (id : nat) (c : acfg) (d : adyn) (p : piece) : adyn :=
  match p with
  | PcOption _ occs _ => fold_left (fun d o => if Nat.eqb (o_id o) id then occ_dyn c o d else d) occs d
  | PcPositional i vs => if Nat.eqb i id then pos_dyn c vs d else d
  | _ => d
  end.
Definition pieces_dyn (id : nat) (c : acfg) (pcs : list piece) (d : adyn) : adyn :=
  fold_left (piece_dyn id c) pcs d.
(** the additional arguments among the pieces *)
Definition additional_of (pcs : list piece) : list str :=
  flat_map (fun p => match p with PcAdditional w => [w] | _ => [] end) pcs.
(** the option occurrences among the pieces, in order *)
Definition occs_of (pcs : list piece) : list occ :=
  flat_map (fun p => match p with PcOption _ os _ => os | _ => [] end) pcs.

(** the arguments after the pieces *)
Definition read_args (pcs : list piece) (l : list argument) : list argument :=
  map (fun a => Arg (a_id a) (a_gen a) (a_cfg a) (pieces_dyn (a_id a) (a_cfg a) pcs (a_dyn a))) l.

(* ------------------------------------------------------------------ *)
(** * what the pieces say about one argument *)

(** the occurrences of the option [id], in order *)
Definition occs_for (id : nat) (pcs : list piece) : list occ :=
  filter (fun o => Nat.eqb (o_id o) id) (occs_of pcs).
(** the groups of words given to positional arguments, in order *)
Definition given_of (pcs : list piece) : list (nat * list str) :=
  flat_map (fun p => match p with PcPositional i vs => [(i, vs)] | _ => [] end) pcs.
(** is the argument [id] on the command line? *)
Definition on_line (id : nat) (pcs : list piece) : bool :=
  existsb (fun o => Nat.eqb (o_id o) id) (occs_of pcs) || existsb (fun g => Nat.eqb (fst g) id) (given_of pcs).

(** [Reached K ps ws pcs ps' ws']: from the words [ws] on (with the positionals [ps] still
    to be filled) the reading gets, after the pieces [pcs], to the words [ws'], with [ps']
    still to be filled, not having met "--" *)
Inductive Reached (K : conf) : list (nat * acfg) -> list str -> list piece -> list (nat * acfg) -> list str -> Prop :=
| Rc_here : forall ps ws, Reached K ps ws [] ps ws
| Rc_option : forall ps w ws occs used pcs ps' ws',
    word_kind w = WShort \/ word_kind w = WLong ->
    read_option K w (before_end ws) = inr (occs, used) ->
    Reached K ps (skipn (length used) ws) pcs ps' ws' ->
    Reached K ps (w :: ws) (PcOption w occs used :: pcs) ps' ws'
| Rc_positional : forall id c ps w ws vs pcs ps' ws',
    word_kind w = WPlain ->
    take_words (stops K) (arity_of c) (before_end (w :: ws)) = Some vs ->
    Reached K ps (skipn (length vs) (w :: ws)) pcs ps' ws' ->
    Reached K ((id, c) :: ps) (w :: ws) (PcPositional id vs :: pcs) ps' ws'
| Rc_additional : forall w ws pcs ps' ws',
    word_kind w = WPlain -> k_strict K = false ->
    Reached K [] ws pcs ps' ws' ->
    Reached K [] (w :: ws) (PcAdditional w :: pcs) ps' ws'.
