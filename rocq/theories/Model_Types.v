(** Model_Types.v -- the data of the library: arguments, the Args object, and the
    state-and-exception monad in which its functions are transcribed. *)
From Verif Require Import Base Model_Number.

(** include/blet/args/action.h:33-43 *)
Inductive eAction := NONE | HELP | VERSION | STORE_TRUE | STORE_FALSE | APPEND | EXTEND | INFINITE.

Definition action_eqb (a b : eAction) : bool :=
  match a, b with
  | NONE, NONE | HELP, HELP | VERSION, VERSION | STORE_TRUE, STORE_TRUE
  | STORE_FALSE, STORE_FALSE | APPEND, APPEND | EXTEND, EXTEND | INFINITE, INFINITE => true
  | _, _ => false
  end.

(** argument.h:618-635 enum Type (its value NONE is never used by the code) *)
Inductive atype :=
| HELP_OPTION | VERSION_OPTION | BOOLEAN_OPTION | REVERSE_BOOLEAN_OPTION
| SIMPLE_OPTION | NUMBER_OPTION | INFINITE_OPTION | MULTI_OPTION
| MULTI_INFINITE_OPTION | MULTI_NUMBER_OPTION | MULTI_NUMBER_INFINITE_OPTION
| POSITIONAL_ARGUMENT | NUMBER_POSITIONAL_ARGUMENT
| INFINITE_POSITIONAL_ARGUMENT | INFINITE_NUMBER_POSITIONAL_ARGUMENT.

(** argument.h:637-647 isPositionnalArgument_ *)
Definition is_positional (t : atype) : bool :=
  match t with
  | POSITIONAL_ARGUMENT | NUMBER_POSITIONAL_ARGUMENT
  | INFINITE_POSITIONAL_ARGUMENT | INFINITE_NUMBER_POSITIONAL_ARGUMENT => true
  | _ => false
  end.

(** What IValid::isValid (valid.h:40-54) did: returned a boolean and left the
    vector (an in/out parameter) with some content, threw a
    ParseArgumentValidException, or threw something else.
    SIMPLIFICATION: a validator is a function of the values (no hidden state);
    what matters of a foreign exception is only that it is not caught. *)
Inductive vres :=
| VOk (b : bool) (args : list str)
| VThrow (msg : str)
| VOther.

(** an IValid object: identity and behaviour *)
Record validator := Validator { v_id : nat; v_fn : list str -> vres }.

(** Destinations (argument.h:559-604, 688-871): which of the three dest()
    overloads, whether a custom callback is given, and how the element type is
    treated by strTo/boolTo (argument.h:45-237): supported by value, a
    [const char*] (which keeps a pointer into the string it is given), or not
    supported (generic template, throws). *)
Inductive dest_kind := DScalar | DVector | DVectorVector.
Inductive dest_type := TyValue | TyCharPtr | TyUnsupported.
Record dest := Dest { d_cell : nat; d_kind : dest_kind; d_custom : bool; d_ty : dest_type }.

(** the value handed to a destination element: by boolTo, by strTo, or by strTo
    into a [const char*] from a temporary std::string (dangling as soon as the
    statement ends). *)
Inductive cellval := CvBool (b : bool) | CvStr (s : str) | CvDangling.

(** effects on destinations, in order *)
Inductive devent :=
| EvAssign (cell : nat) (v : cellval)                                   (* dest_ = v *)
| EvPush (cell : nat) (v : cellval)                                     (* dest_.push_back(v) *)
| EvPushVec (cell : nat) (vs : list cellval)                            (* dest_.push_back(vector) *)
| EvCall (cell : nat) (isExists : bool) (argument : str)                (* toDest(dest_, isExists, argument) *)
| EvCallV (cell : nat) (isExists : bool) (arguments : list str)
| EvCallVV (cell : nat) (isExists : bool) (arguments : list (list str)).

(** ArgumentElement (argument.h:241-320) without nested elements: argument_,
    default_, (isNumber_, number_) as an option. *)
Record leaf := Leaf { lf_arg : str; lf_def : str; lf_num : option dec }.

(** An element of an Argument: an ArgumentElement and its own elements.
    SIMPLIFICATION: nesting depth at most 2 -- the library never builds more; a
    user pushing elements by hand through the public std::vector base is not
    modelled. *)
Record elem := Elem { el_leaf : leaf; el_subs : list leaf }.

(** The declaration part of an Argument (fields of argument.h:669-685 that are
    not reset by clear_(), plus ArgumentElement::default_). *)
Record acfg := ACfg {
  c_names : list str;            (* nameOrFlags_ *)
  c_type : atype;                (* type_ *)
  c_required : bool;             (* isRequired_ *)
  c_nargs : N;                   (* nargs_ *)
  c_help : str;                  (* help_ *)
  c_metavar : str;               (* metavar_ *)
  c_valid : option validator;    (* valid_ *)
  c_valid_del : bool;            (* validDeletable_ *)
  c_action : eAction;            (* action_ *)
  c_defaults : list str;         (* defaults_ *)
  c_default : str;               (* default_ *)
  c_dest : option dest           (* dynamic type ArgumentType / ...VectorType / ...VectorVectorType *)
}.

(** The part that clear_() and parsing change. *)
Record adyn := ADyn {
  d_exist : bool;                (* isExist_ *)
  d_count : nat;                 (* count_ *)
  d_arg : str;                   (* argument_ *)
  d_num : option dec;            (* isNumber_, number_ *)
  d_elems : list elem            (* the std::vector<ArgumentElement> base *)
}.

(** An Argument object.  [a_id] identifies the list node holding the Argument*
    (its address is [this_], an Argument**, stable under list::sort); [a_gen]
    distinguishes the successive objects that dest() puts in that node. *)
Record argument := Arg { a_id : nat; a_gen : nat; a_cfg : acfg; a_dyn : adyn }.

(** args.h:335-349 and usage.h:126-134 *)
Record modes := Modes { m_alternative : bool; m_strict : bool; m_helpex : bool; m_verex : bool }.
(** SIMPLIFICATION: widths are unbounded naturals (size_t). *)
Record usage_cfg := UsageCfg {
  u_description : str; u_epilog : str; u_usage : str;
  u_pad : nat; u_args : nat; u_sep : nat; u_help : nat
}.

(** The Args object (args.h:335-349).  [s_map] is argumentFromName_
    (name -> node), [s_help]/[s_version] are the pointers helpOption_ /
    versionOption_ as (node, object) identities.  [s_freed] and [s_dlog] are
    ghost: the validators deleted so far and the writes to destinations so far. *)
Record state := State {
  s_bin : str;
  s_args : list argument;
  s_map : list (str * nat);
  s_help : option (nat * nat);
  s_version : option (nat * nat);
  s_verstr : str;
  s_modes : modes;
  s_additional : list str;
  s_usage : usage_cfg;
  s_freed : list nat;
  s_dlog : list devent
}.

(** args.cpp:44-55 Args::Args and usage.cpp:44-52 Usage::Usage *)
Definition init_modes : modes := Modes false false false false.
Definition init_usage : usage_cfg := UsageCfg "" "" "" 2 20 2 56.
Definition init : state :=
  State "" [] [] None None "" init_modes [] init_usage [] [].

(* ------------------------------------------------------------------ *)
(** record updates *)
Definition with_bin (s : state) v := State v (s_args s) (s_map s) (s_help s) (s_version s) (s_verstr s) (s_modes s) (s_additional s) (s_usage s) (s_freed s) (s_dlog s).
Definition with_args (s : state) v := State (s_bin s) v (s_map s) (s_help s) (s_version s) (s_verstr s) (s_modes s) (s_additional s) (s_usage s) (s_freed s) (s_dlog s).
Definition with_map (s : state) v := State (s_bin s) (s_args s) v (s_help s) (s_version s) (s_verstr s) (s_modes s) (s_additional s) (s_usage s) (s_freed s) (s_dlog s).
Definition with_help (s : state) v := State (s_bin s) (s_args s) (s_map s) v (s_version s) (s_verstr s) (s_modes s) (s_additional s) (s_usage s) (s_freed s) (s_dlog s).
Definition with_version (s : state) v := State (s_bin s) (s_args s) (s_map s) (s_help s) v (s_verstr s) (s_modes s) (s_additional s) (s_usage s) (s_freed s) (s_dlog s).
Definition with_verstr (s : state) v := State (s_bin s) (s_args s) (s_map s) (s_help s) (s_version s) v (s_modes s) (s_additional s) (s_usage s) (s_freed s) (s_dlog s).
Definition with_modes (s : state) v := State (s_bin s) (s_args s) (s_map s) (s_help s) (s_version s) (s_verstr s) v (s_additional s) (s_usage s) (s_freed s) (s_dlog s).
Definition with_additional (s : state) v := State (s_bin s) (s_args s) (s_map s) (s_help s) (s_version s) (s_verstr s) (s_modes s) v (s_usage s) (s_freed s) (s_dlog s).
Definition with_usage (s : state) v := State (s_bin s) (s_args s) (s_map s) (s_help s) (s_version s) (s_verstr s) (s_modes s) (s_additional s) v (s_freed s) (s_dlog s).
Definition with_freed (s : state) v := State (s_bin s) (s_args s) (s_map s) (s_help s) (s_version s) (s_verstr s) (s_modes s) (s_additional s) (s_usage s) v (s_dlog s).
Definition with_dlog (s : state) v := State (s_bin s) (s_args s) (s_map s) (s_help s) (s_version s) (s_verstr s) (s_modes s) (s_additional s) (s_usage s) (s_freed s) v.

Definition cfg_names (c : acfg) v := ACfg v (c_type c) (c_required c) (c_nargs c) (c_help c) (c_metavar c) (c_valid c) (c_valid_del c) (c_action c) (c_defaults c) (c_default c) (c_dest c).
Definition cfg_type (c : acfg) v := ACfg (c_names c) v (c_required c) (c_nargs c) (c_help c) (c_metavar c) (c_valid c) (c_valid_del c) (c_action c) (c_defaults c) (c_default c) (c_dest c).
Definition cfg_required (c : acfg) v := ACfg (c_names c) (c_type c) v (c_nargs c) (c_help c) (c_metavar c) (c_valid c) (c_valid_del c) (c_action c) (c_defaults c) (c_default c) (c_dest c).
Definition cfg_nargs (c : acfg) v := ACfg (c_names c) (c_type c) (c_required c) v (c_help c) (c_metavar c) (c_valid c) (c_valid_del c) (c_action c) (c_defaults c) (c_default c) (c_dest c).
Definition cfg_help (c : acfg) v := ACfg (c_names c) (c_type c) (c_required c) (c_nargs c) v (c_metavar c) (c_valid c) (c_valid_del c) (c_action c) (c_defaults c) (c_default c) (c_dest c).
Definition cfg_metavar (c : acfg) v := ACfg (c_names c) (c_type c) (c_required c) (c_nargs c) (c_help c) v (c_valid c) (c_valid_del c) (c_action c) (c_defaults c) (c_default c) (c_dest c).
Definition cfg_valid (c : acfg) v w := ACfg (c_names c) (c_type c) (c_required c) (c_nargs c) (c_help c) (c_metavar c) v w (c_action c) (c_defaults c) (c_default c) (c_dest c).
Definition cfg_action (c : acfg) v := ACfg (c_names c) (c_type c) (c_required c) (c_nargs c) (c_help c) (c_metavar c) (c_valid c) (c_valid_del c) v (c_defaults c) (c_default c) (c_dest c).
Definition cfg_defaults (c : acfg) v := ACfg (c_names c) (c_type c) (c_required c) (c_nargs c) (c_help c) (c_metavar c) (c_valid c) (c_valid_del c) (c_action c) v (c_default c) (c_dest c).
Definition cfg_default (c : acfg) v := ACfg (c_names c) (c_type c) (c_required c) (c_nargs c) (c_help c) (c_metavar c) (c_valid c) (c_valid_del c) (c_action c) (c_defaults c) v (c_dest c).
Definition cfg_dest (c : acfg) v := ACfg (c_names c) (c_type c) (c_required c) (c_nargs c) (c_help c) (c_metavar c) (c_valid c) (c_valid_del c) (c_action c) (c_defaults c) (c_default c) v.

Definition arg_cfg (a : argument) c := Arg (a_id a) (a_gen a) c (a_dyn a).
Definition arg_dyn (a : argument) d := Arg (a_id a) (a_gen a) (a_cfg a) d.

Definition dyn_exist (d : adyn) v := ADyn v (d_count d) (d_arg d) (d_num d) (d_elems d).
Definition dyn_arg (d : adyn) v := ADyn (d_exist d) (d_count d) v (d_num d) (d_elems d).
Definition dyn_elems (d : adyn) v := ADyn (d_exist d) (d_count d) (d_arg d) (d_num d) v.
(** isExist_ = true; ++count_  (args.cpp:370-371, 379-380, 536-537) *)
Definition dyn_seen (d : adyn) := ADyn true (S (d_count d)) (d_arg d) (d_num d) (d_elems d).

(* ------------------------------------------------------------------ *)
(** the monad: C++ statements as functions from the state before to the state
    after (also the state at the point of a throw) and an outcome *)
Definition M (A : Type) : Type := state -> state * res A.
Definition ret {A} (a : A) : M A := fun s => (s, Ok a).
Definition throw {A} (k : xkind) (arg msg : str) : M A := fun s => (s, Throw (Exn k arg msg)).
Definition ub {A} : M A := fun s => (s, UB).
Definition bind {A B} (m : M A) (f : A -> M B) : M B := fun s =>
  let (s1, r) := m s in
  match r with
  | Ok a => f a s1
  | Throw e => (s1, Throw e)
  | Exit o => (s1, Exit o)
  | UB => (s1, UB)
  | OutOfFuel => (s1, OutOfFuel)
  end.
Notation "'do' x <- m ;; k" := (bind m (fun x => k)) (at level 80, x pattern, m at level 79, k at level 80, right associativity).
Notation "m ;;; k" := (bind m (fun _ => k)) (at level 80, right associativity).
Definition get : M state := fun s => (s, Ok s).
Definition modify (f : state -> state) : M unit := fun s => (f s, Ok tt).

(** the listed Argument at a node *)
Definition find_id (id : nat) (l : list argument) : option argument :=
  find (fun a => Nat.eqb (a_id a) id) l.
(** update the Argument at a node *)
Definition upd_id (id : nat) (f : argument -> argument) (l : list argument) : list argument :=
  map (fun a => if Nat.eqb (a_id a) id then f a else a) l.

(** `**node`: dereference of an Argument**; UB if the node was erased *)
Definition deref (id : nat) : M argument := fun s =>
  match find_id id (s_args s) with Some a => (s, Ok a) | None => (s, UB) end.
(** assignment to fields of the Argument at a node *)
Definition set_cfg (id : nat) (f : acfg -> acfg) : M unit :=
  modify (fun s => with_args s (upd_id id (fun a => arg_cfg a (f (a_cfg a))) (s_args s))).
Definition set_dyn (id : nat) (f : adyn -> adyn) : M unit :=
  modify (fun s => with_args s (upd_id id (fun a => arg_dyn a (f (a_dyn a))) (s_args s))).

(** argumentFromName_.find(name) *)
Definition find_name (n : str) : M (option nat) := fun s => (s, Ok (assoc n (s_map s))).

(** nameOrFlags_.front(): UB on an empty vector *)
Definition front (l : list str) : M str :=
  match l with x :: _ => ret x | [] => ub end.

(** [*p] for an Argument* such as helpOption_ *)
Definition find_ptr (p : nat * nat) (l : list argument) : option argument :=
  find (fun a => Nat.eqb (a_id a) (fst p) && Nat.eqb (a_gen a) (snd p)) l.

Definition ptr_of (a : argument) : nat * nat := (a_id a, a_gen a).
Definition ptr_eqb (p q : nat * nat) : bool := Nat.eqb (fst p) (fst q) && Nat.eqb (snd p) (snd q).
Definition optr_eqb (p : option (nat * nat)) (q : nat * nat) : bool :=
  match p with Some x => ptr_eqb x q | None => false end.
