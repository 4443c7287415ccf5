(** Model_Argument.v -- src/argument.cpp and include/blet/args/argument.h *)
From Verif Require Import Base Model_Utils Model_Number Model_Types.

(* ------------------------------------------------------------------ *)
(** * Comparators and sorting *)

(** argument.cpp:42-55 compareFlag; [operator<] of std::string compares bytes as
    unsigned char, as [String.ltb] does. *)
Definition compareFlag (first second : str) : bool :=
  if isShortOption first && isShortOption second then String.ltb first second
  else if isShortOption first && negb (isShortOption second) then true
  else if negb (isShortOption first) && isShortOption second then false
  else String.ltb first second.

(** argument.cpp:273-275 sortNameOrFlags_ (std::sort; the comparator is a total
    order on strings, so the result is determined) *)
Definition sort_flags (l : list str) : list str := sort_by compareFlag l.

(** nameOrFlags_.front() inside the comparator; [sort_args] below checks that the
    vector is not empty *)
Definition first_name (c : acfg) : str := hd "" (c_names c).

(** argument.cpp:292-359 compareOption_ *)
Definition compareOption (first second : acfg) : bool :=
  let fp := is_positional (c_type first) in
  let sp := is_positional (c_type second) in
  let fr := c_required first in
  let sr := c_required second in
  let fs := isShortOption (first_name first) in
  let ss := isShortOption (first_name second) in
  if fp && fr && sp && sr then false
  else if fp && fr && sp then true
  else if fp && sp && sr then false
  else if fp && sp then false
  else if fp then false
  else if sp then true
  else if fs && ss then
    if fr && negb sr then true
    else if negb fr && sr then false
    else String.ltb (first_name first) (first_name second)
  else if fs && negb ss then
    if negb fr && sr then false else true
  else if negb fs && ss then
    if fr && negb sr then true
    else if negb fr && sr then false
    else false
  else
    if fr && negb sr then true
    else if negb fr && sr then false
    else String.ltb (first_name first) (first_name second).

Definition arg_lt (a b : argument) : bool := compareOption (a_cfg a) (a_cfg b).

(** arguments_.sort(&Argument::compareOption_) (std::list::sort is stable and does
    not move the Argument* out of their nodes).  UB if the comparator would take
    front() of an empty vector.  SIMPLIFICATION (towards UB): any argument without
    names counts, even if it happens not to be compared. *)
Definition has_name (a : argument) : bool :=
  match c_names (a_cfg a) with [] => false | _ :: _ => true end.
Definition sort_args : M unit := fun s =>
  if forallb has_name (s_args s)
  then (with_args s (sort_by arg_lt (s_args s)), Ok tt)
  else (s, UB).

(* ------------------------------------------------------------------ *)
(** * Construction *)

(** argument.cpp:106-121 Argument::Argument(Args&) *)
Definition new_cfg : acfg :=
  ACfg [] SIMPLE_OPTION false 1 "" "" None true NONE [] "" None.
Definition new_dyn : adyn := ADyn false 0 "" None [].

(** argument.cpp:75-86 ArgumentElement(arg, default) / ArgumentElement(arg) *)
Definition mk_leaf (w d : str) : leaf := Leaf w d None.
Definition word_elem (w : str) : elem := Elem (mk_leaf w "") [].
Definition default_elem (w : str) : elem := Elem (mk_leaf w w) [].
(** ArgumentElement newNumberArgument; push_back(argv[j])... (args.cpp:502-506, 522-527, 631-636) *)
Definition group_elem (ws : list str) : elem :=
  Elem (mk_leaf "" "") (map (fun w => mk_leaf w "") ws).

(** argument.cpp:277-290 validFormatFlag_ : None = accepted, Some message *)
Definition validFormatFlag (flag : str) : option str :=
  if negb (Ascii.eqb (cget flag 0) dash) then
    Some "invalid flag not start by '-' character"
  else if Ascii.eqb (cget flag 0) dash && Ascii.eqb (cget flag 1) nul then
    Some "invalid flag not be only '-' character"
  else if Ascii.eqb (cget flag 0) dash && Ascii.eqb (cget flag 1) dash && Ascii.eqb (cget flag 2) nul then
    Some "invalid flag not be only '--' characters"
  else if Ascii.eqb (cget flag 0) dash && negb (Ascii.eqb (cget flag 1) dash) && negb (Ascii.eqb (cget flag 2) nul) then
    Some "invalid short flag has not only one character"
  else None.

(* ------------------------------------------------------------------ *)
(** * typeConstructor_ and defaultsConstructor_ *)

(** '+' *)
Definition plus : N := 43.

(** argument.cpp:423-502 typeConstructor_, on the Argument at node [id] *)
Definition typeConstructor (id : nat) : M unit :=
  do a <- deref id ;;
  let c := a_cfg a in
  let n := c_nargs c in
  let act := c_action c in
  let become (c' : acfg) : M unit := set_cfg id (fun _ => c') in
  if is_positional (c_type c) then
    if (n =? 1)%N && action_eqb act NONE then
      become (cfg_type c POSITIONAL_ARGUMENT)
    else if ((n =? plus)%N && action_eqb act NONE) || ((n =? 1)%N && action_eqb act INFINITE) then
      become (cfg_type (cfg_action (cfg_nargs c 1) INFINITE) INFINITE_POSITIONAL_ARGUMENT)
    else if (1 <? n)%N && action_eqb act NONE then
      become (cfg_type c NUMBER_POSITIONAL_ARGUMENT)
    else if (1 <? n)%N && action_eqb act INFINITE then
      become (cfg_type c INFINITE_NUMBER_POSITIONAL_ARGUMENT)
    else
      do f <- front (c_names c) ;;
      throw KArgument f "positional argument cannot use with this action or this nargs"
  else if (n =? 0)%N || action_eqb act STORE_TRUE then
    become (cfg_type (cfg_nargs c 0) BOOLEAN_OPTION)
  else if action_eqb act STORE_FALSE then
    become (cfg_type (cfg_nargs c 0) REVERSE_BOOLEAN_OPTION)
  else if action_eqb act HELP then
    do s <- get ;;
    (match s_help s with
     | None => modify (fun s => with_help s (Some (ptr_of a)))
     | Some _ => ret tt
     end) ;;;
    do s <- get ;;
    if optr_eqb (s_help s) (ptr_of a) then
      become (cfg_type (cfg_nargs c 0) HELP_OPTION)
    else
      do f <- front (c_names c) ;;
      throw KArgument f "help action already defined"
  else if action_eqb act VERSION then
    do s <- get ;;
    (match s_version s with
     | None => modify (fun s => with_version s (Some (ptr_of a)))
     | Some _ => ret tt
     end) ;;;
    do s <- get ;;
    if optr_eqb (s_version s) (ptr_of a) then
      become (cfg_type (cfg_nargs c 0) VERSION_OPTION)
    else
      do f <- front (c_names c) ;;
      throw KArgument f "version action already defined"
  else if (n =? 1)%N && action_eqb act NONE then
    become (cfg_type c SIMPLE_OPTION)
  else if ((n =? plus)%N && action_eqb act NONE) || action_eqb act INFINITE then
    become (cfg_type (cfg_action (cfg_nargs c 1) INFINITE) INFINITE_OPTION)
  else if (1 <? n)%N && action_eqb act NONE then
    become (cfg_type c NUMBER_OPTION)
  else if (n =? 1)%N && action_eqb act APPEND then
    become (cfg_type c MULTI_OPTION)
  else if (1 <? n)%N && action_eqb act APPEND then
    become (cfg_type c MULTI_NUMBER_OPTION)
  else if (n =? 1)%N && action_eqb act EXTEND then
    become (cfg_type c MULTI_INFINITE_OPTION)
  else if (1 <? n)%N && action_eqb act EXTEND then
    become (cfg_type c MULTI_NUMBER_INFINITE_OPTION)
  else ret tt.

(** consecutive groups of [n] elements of [l]: the [i]-th one starts at [i * n]
    (argument.cpp:548-565), for i < [k] *)
Definition groups_of {A} (n k : nat) (l : list A) : list (list A) :=
  map (fun i => firstn n (skipn (i * n) l)) (seq 0 k).

(** one element made by argument.cpp:553-565 *)
Definition default_group (g : list str) : elem :=
  Elem (mk_leaf "" (join ", " g)) (map (fun w => mk_leaf w w) g).

Definition msg_defaults : str := "invalid number of argument with number of default argument".

(** argument.cpp:504-568 defaultsConstructor_, on the Argument at node [id] *)
Definition defaultsConstructor (id : nat) : M unit :=
  do a <- deref id ;;
  let c := a_cfg a in
  let ds := c_defaults c in
  let size := N.of_nat (length ds) in
  let fail : M unit :=
    do f <- front (c_names c) ;;
    throw KArgument f msg_defaults in
  if (0 <? c_nargs c)%N && (0 <? size)%N then
    set_dyn id (fun d => dyn_elems d []) ;;;
    match c_type c with
    | POSITIONAL_ARGUMENT | SIMPLE_OPTION =>
        if negb (size =? c_nargs c)%N then fail
        else
          set_dyn id (fun d => dyn_arg d (hd "" ds)) ;;;
          set_cfg id (fun c => cfg_default c (hd "" ds))
    | NUMBER_POSITIONAL_ARGUMENT | NUMBER_OPTION =>
        if negb (size =? c_nargs c)%N then fail
        else
          set_cfg id (fun c => cfg_default c (join ", " ds)) ;;;
          set_dyn id (fun d => dyn_elems d (map default_elem ds))
    | INFINITE_POSITIONAL_ARGUMENT | MULTI_OPTION | INFINITE_OPTION | MULTI_INFINITE_OPTION =>
        set_cfg id (fun c => cfg_default c (join ", " ds)) ;;;
        set_dyn id (fun d => dyn_elems d (map default_elem ds))
    | INFINITE_NUMBER_POSITIONAL_ARGUMENT | MULTI_NUMBER_OPTION | MULTI_NUMBER_INFINITE_OPTION =>
        if negb (size mod c_nargs c =? 0)%N then fail
        else
          let gs := groups_of (N.to_nat (c_nargs c)) (N.to_nat (size / c_nargs c)) ds in
          set_cfg id (fun c => cfg_default c
            (c_default c ^^ join ", " (map (fun g => "(" ^^ join ", " g ^^ ")") gs))) ;;;
          set_dyn id (fun d => dyn_elems d (map default_group gs))
    | _ => ret tt
    end
  else ret tt.

(* ------------------------------------------------------------------ *)
(** * The declaration methods of Argument, on the Argument at node [id] *)

(** argument.cpp:237-250 flag *)
Definition flag (id : nat) (f : str) : M unit :=
  do a <- deref id ;;
  if is_positional (c_type (a_cfg a)) then
    throw KArgument f "can't add flag in positionnal argument"
  else
    match validFormatFlag f with
    | Some msg => throw KArgument f msg
    | None =>
        do s <- get ;;
        if mem_key f (s_map s) then throw KArgument f "invalid flag already exist"
        else
          set_cfg id (fun c => cfg_names c (sort_flags (c_names c ++ [f]))) ;;;
          modify (fun s => with_map s (s_map s ++ [(f, id)])) ;;;
          sort_args
    end.

(** argument.cpp:252-265 action *)
Definition action (id : nat) (act : eAction) : M unit :=
  do a <- deref id ;;
  (if action_eqb (c_action (a_cfg a)) HELP then modify (fun s => with_help s None) else ret tt) ;;;
  (if action_eqb (c_action (a_cfg a)) VERSION then modify (fun s => with_version s None) else ret tt) ;;;
  set_cfg id (fun c => cfg_action c act) ;;;
  typeConstructor id ;;;
  defaultsConstructor id.

(** argument.cpp:267-271 required *)
Definition required (id : nat) (b : bool) : M unit :=
  deref id ;;;
  set_cfg id (fun c => cfg_required c b) ;;;
  sort_args.

(** argument.h:482-485 help *)
Definition help (id : nat) (h : str) : M unit :=
  deref id ;;; set_cfg id (fun c => cfg_help c h).

(** argument.h:501-504 metavar *)
Definition metavar (id : nat) (m : str) : M unit :=
  deref id ;;; set_cfg id (fun c => cfg_metavar c m).

(** argument.h:514-519 nargs (the parameter is converted to size_t) *)
Definition nargs (id : nat) (n : N) : M unit :=
  deref id ;;;
  set_cfg id (fun c => cfg_nargs c (n mod w64)%N) ;;;
  typeConstructor id ;;;
  defaultsConstructor id.

(** argument.h:529-533 defaults *)
Definition defaults (id : nat) (v : list str) : M unit :=
  deref id ;;;
  set_cfg id (fun c => cfg_defaults c v) ;;;
  defaultsConstructor id.

(** `delete valid_` when deletable (argument.h:543-545, argument.cpp:140-144):
    the validators deleted *)
Definition owned (c : acfg) : list nat :=
  match c_valid c with
  | Some v => if c_valid_del c then [v_id v] else []
  | None => []
  end.
Definition delete_valid (c : acfg) : M unit :=
  modify (fun s => with_freed s (s_freed s ++ owned c)).

(** argument.h:542-549 valid *)
Definition valid (id : nat) (p : option validator) (isDeletable : bool) : M unit :=
  do a <- deref id ;;
  delete_valid (a_cfg a) ;;;
  set_cfg id (fun c => cfg_valid c p isDeletable).

(** argument.h:559-604 dest (three overloads), 688-699, 722-735, 793-806 the
    constructors, argument.cpp:123-138 the copy constructor.  A new object is put
    in the node; it is a copy except that defaults_ is empty (and the deletability
    flag is saved around the copy, so that deleting the old object does not delete
    the validator).  Pointers to the old object (helpOption_, versionOption_) are
    left as they are. *)
Definition dest_to (id : nat) (d : dest) : M unit :=
  deref id ;;;
  modify (fun s => with_args s (upd_id id (fun a =>
    Arg (a_id a) (S (a_gen a)) (cfg_dest (cfg_defaults (a_cfg a) []) (Some d)) (a_dyn a)) (s_args s))).

(* ------------------------------------------------------------------ *)
(** * Views *)

Definition elem_value (e : elem) : str := lf_arg (el_leaf e).
Definition elem_values (e : elem) : list str := map lf_arg (el_subs e).

(** argument.cpp:157-178 one element in getString *)
Definition elem_text (e : elem) : str :=
  match el_subs e with
  | [] => elem_value e
  | _ :: _ => "(" ^^ join ", " (elem_values e) ^^ ")"
  end.

(** argument.cpp:146-181 Argument::getString *)
Definition getString (a : argument) : str :=
  match c_type (a_cfg a) with
  | BOOLEAN_OPTION => if d_exist (a_dyn a) then "true" else "false"
  | REVERSE_BOOLEAN_OPTION => if d_exist (a_dyn a) then "false" else "true"
  | _ => match d_elems (a_dyn a) with
         | [] => d_arg (a_dyn a)
         | es => join ", " (map elem_text es)
         end
  end.

(** argument.h:399-406 operator bool *)
Definition to_bool (a : argument) : bool :=
  match c_type (a_cfg a) with
  | REVERSE_BOOLEAN_OPTION => negb (d_exist (a_dyn a))
  | _ => d_exist (a_dyn a)
  end.

(** argument.cpp:183-214 operator std::vector<std::string> *)
Definition to_vector (a : argument) : res (list str) :=
  match c_type (a_cfg a) with
  | POSITIONAL_ARGUMENT | SIMPLE_OPTION => Ok [d_arg (a_dyn a)]
  | NUMBER_POSITIONAL_ARGUMENT | INFINITE_POSITIONAL_ARGUMENT | NUMBER_OPTION | MULTI_OPTION
  | INFINITE_OPTION | MULTI_INFINITE_OPTION => Ok (map elem_value (d_elems (a_dyn a)))
  | MULTI_NUMBER_OPTION | MULTI_NUMBER_INFINITE_OPTION | INFINITE_NUMBER_POSITIONAL_ARGUMENT =>
      Ok (flat_map elem_values (d_elems (a_dyn a)))
  | _ => Throw (Exn KBase "" "convertion to vector of string not authorized")
  end.

(** argument.cpp:216-235 operator std::vector<std::vector<std::string> > *)
Definition to_vector_vector (a : argument) : res (list (list str)) :=
  match c_type (a_cfg a) with
  | MULTI_NUMBER_OPTION | MULTI_NUMBER_INFINITE_OPTION | INFINITE_NUMBER_POSITIONAL_ARGUMENT =>
      Ok (map elem_values (d_elems (a_dyn a)))
  | _ => Throw (Exn KBase "" "convertion to vector of vector of string not authorized")
  end.

(** argument.cpp:89-98 ArgumentElement::operator std::vector<std::string>, for an
    element of an Argument (its own elements have no elements) *)
Definition elem_to_vector (e : elem) : res (list str) :=
  match el_subs e with
  | _ :: _ => Ok (elem_values e)
  | [] => Throw (Exn KBase "" "convertion to vector of string not authorized")
  end.

(** argument.h:275-292 isNumber, getNumber *)
Definition num_get (n : option dec) : res dec :=
  match n with Some d => Ok d | None => Throw (Exn KBase "" "is not a number") end.
Definition isNumber (a : argument) : bool :=
  match d_num (a_dyn a) with Some _ => true | None => false end.
Definition getNumber (a : argument) : res dec := num_get (d_num (a_dyn a)).

(* ------------------------------------------------------------------ *)
(** * Functions used by parseArguments *)

(** argument.cpp:570-588 clear_ *)
Definition clear_leaf (l : leaf) : leaf := Leaf (lf_def l) (lf_def l) None.
Definition clear_elem (e : elem) : elem := Elem (clear_leaf (el_leaf e)) (map clear_leaf (el_subs e)).
Definition clear_arg (a : argument) : argument :=
  arg_dyn a (ADyn false 0 (c_default (a_cfg a)) None (map clear_elem (d_elems (a_dyn a)))).

(** argument.cpp:361-385 toNumber_ *)
Definition num_leaf (l : leaf) : leaf := Leaf (lf_arg l) (lf_def l) (istream_double (lf_arg l)).
Definition num_elem (e : elem) : elem :=
  match el_subs e with
  | [] => Elem (num_leaf (el_leaf e)) []
  | ls => Elem (el_leaf e) (map num_leaf ls)
  end.
Definition num_dyn (t : atype) (d : adyn) : adyn :=
  match t with
  | BOOLEAN_OPTION | REVERSE_BOOLEAN_OPTION => d
  | _ => match d_elems d with
         | [] => ADyn (d_exist d) (d_count d) (d_arg d) (istream_double (d_arg d)) []
         | es => ADyn (d_exist d) (d_count d) (d_arg d) (d_num d) (map num_elem es)
         end
  end.

(** strTo / boolTo into one destination element (argument.h:45-237).  [temp]: the
    source string is a temporary (getString() of an element). *)
Definition str_to (ty : dest_type) (temp : bool) (s : str) : res cellval :=
  match ty with
  | TyValue => Ok (CvStr s)
  | TyCharPtr => Ok (if temp then CvDangling else CvStr s)
  | TyUnsupported => Throw (Exn KParse "" "destination method not found for this type")
  end.
Definition bool_to (ty : dest_type) (b : bool) : res cellval :=
  match ty with
  | TyValue | TyCharPtr => Ok (CvBool b)
  | TyUnsupported => Throw (Exn KParse "" "destination method not found for this type")
  end.

(** the value of an Argument without elements (argument.h:706-715, 773-785, 850-862) *)
Definition single_to (ty : dest_type) (a : argument) : res cellval :=
  match c_type (a_cfg a) with
  | BOOLEAN_OPTION => bool_to ty (d_exist (a_dyn a))
  | REVERSE_BOOLEAN_OPTION => bool_to ty (negb (d_exist (a_dyn a)))
  | _ => str_to ty false (d_arg (a_dyn a))
  end.

(** the strings of one element (argument.h:739-749, 813-822 and similar) *)
Definition elem_strings (e : elem) : list str :=
  match el_subs e with [] => [elem_value e] | _ :: _ => elem_values e end.

(** effects so far, and the exception if one stopped the loop *)
Definition dres := (list devent * option exn)%type.
Definition ev_of (r : res cellval) (f : cellval -> devent) : dres :=
  match r with
  | Ok v => ([f v], None)
  | Throw e => ([], Some e)
  | _ => ([], None)
  end.
(** run a list of effects until the first exception *)
Fixpoint ev_seq (l : list dres) : dres :=
  match l with
  | [] => ([], None)
  | (es, Some e) :: _ => (es, Some e)
  | (es, None) :: r => let (es', o) := ev_seq r in (es ++ es', o)
  end.
(** all conversions, or the first exception *)
Fixpoint res_all (l : list (res cellval)) : list cellval * option exn :=
  match l with
  | [] => ([], None)
  | Ok v :: r => let (vs, o) := res_all r in (v :: vs, o)
  | Throw e :: _ => ([], Some e)
  | _ :: r => res_all r
  end.

(** argument.h:701-716, 736-787, 808-867 toDest_ *)
Definition dest_events (a : argument) (d : dest) : dres :=
  let dy := a_dyn a in
  let cell := d_cell d in
  let ty := d_ty d in
  match d_kind d with
  | DScalar =>
      if d_custom d then ([EvCall cell (d_exist dy) (d_arg dy)], None)
      else ev_of (single_to ty a) (EvAssign cell)
  | DVector =>
      if d_custom d then
        ([EvCallV cell (d_exist dy)
            match d_elems dy with [] => [d_arg dy] | es => flat_map elem_strings es end], None)
      else
        match d_elems dy with
        | [] => ev_of (single_to ty a) (EvPush cell)
        | es => ev_seq (map (fun w => ev_of (str_to ty true w) (EvPush cell)) (flat_map elem_strings es))
        end
  | DVectorVector =>
      if d_custom d then
        ([EvCallVV cell (d_exist dy)
            match d_elems dy with [] => [[d_arg dy]] | es => map elem_strings es end], None)
      else
        match d_elems dy with
        | [] => ev_of (single_to ty a) (fun v => EvPushVec cell [v])
        | es => ev_seq (map (fun e =>
                  match res_all (map (str_to ty true) (elem_strings e)) with
                  | (vs, None) => ([EvPushVec cell vs], None)
                  | (_, Some x) => ([], Some x)
                  end) es)
        end
  end.

Definition toDest (id : nat) : M unit :=
  do a <- deref id ;;
  match c_dest (a_cfg a) with
  | None => ret tt
  | Some d =>
      let (evs, o) := dest_events a d in
      modify (fun s => with_dlog s (s_dlog s ++ evs)) ;;;
      match o with
      | None => ret tt
      | Some e => fun s => (s, Throw e)
      end
  end.

Definition toNumber (id : nat) : M unit :=
  do a <- deref id ;;
  set_dyn id (num_dyn (c_type (a_cfg a))).
