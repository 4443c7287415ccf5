(** Model_Memory.v -- the calls when memory runs out: std::bad_alloc at any allocation.

    Each function below is the function of the same name of Model_Argument.v /
    Model_Args.v once more, statement by statement, with the places at which the C++
    program allocates made explicit.  The program has an allowance: the number of
    allocations that still succeed; the next one throws std::bad_alloc, which nothing in
    /repo catches, so that the call ends in the state reached so far.
    SIMPLIFICATIONS: (1) several allocations between which the Args object does not change
    count as one; (2) a place is counted even if no allocation is needed there at run time
    (a short std::string); (1) and (2) only shift the allowance, which the theorems
    quantify over; (3) moving a std::string does not allocate (C++11 and later), so that
    std::sort and vector::erase do not; (4) an Argument that was made and is not yet
    listed is leaked when the call ends: leaked memory is not modelled, except validators;
    (5) std::list::sort allocates nothing. *)
From Verif Require Import Base Model_Utils Model_Number Model_Types Model_Argument Model_Usage Model_Args Model_Api Proofs_Frame.

(** outcome of a call: it ended as in the model without failures, with the allowance that
    is left, or with std::bad_alloc *)
Inductive mres (A : Type) := Done (left : nat) (r : res A) | NoMemory.
Arguments Done {A}. Arguments NoMemory {A}.
Definition AM (A : Type) : Type := nat -> state -> state * mres A.

(** an allocation *)
Definition alloc : AM unit := fun k s =>
  match k with O => (s, NoMemory) | S k' => (s, Done k' (Ok tt)) end.
(** statements that allocate only the exception they throw (exception.cpp:34-94: the
    exceptions hold a std::string) *)
Definition plain {A} (m : M A) : AM A := fun k s =>
  let (s', r) := m s in
  match r with
  | Throw _ => match k with O => (s', NoMemory) | S k' => (s', Done k' r) end
  | _ => (s', Done k r)
  end.
Definition bindA {A B} (m : AM A) (f : A -> AM B) : AM B := fun k s =>
  match m k s with
  | (s1, NoMemory) => (s1, NoMemory)
  | (s1, Done k1 (Ok a)) => f a k1 s1
  | (s1, Done k1 (Throw e)) => (s1, Done k1 (Throw e))
  | (s1, Done k1 (Exit o)) => (s1, Done k1 (Exit o))
  | (s1, Done k1 UB) => (s1, Done k1 UB)
  | (s1, Done k1 OutOfFuel) => (s1, Done k1 OutOfFuel)
  end.
Notation "'mem' x <- m ;; k" := (bindA m (fun x => k)) (at level 80, x pattern, m at level 79, k at level 80, right associativity).
Notation "m >>; k" := (bindA m (fun _ => k)) (at level 80, right associativity).

(* ------------------------------------------------------------------ *)
(** * Argument *)

(** default_ += text *)
Definition grow_default (id : nat) (t : str) : AM unit :=
  alloc >>; plain (set_cfg id (fun c => cfg_default c (c_default c ^^ t))).
(** push_back(element): the vector is as before if it fails *)
Definition push_elem (id : nat) (e : elem) : AM unit :=
  alloc >>; plain (push_elems id [e]).

(** argument.cpp:525-531, 537-543: for each default, default_ += ", " (not the first
    time), default_ += it, push_back(it) *)
Fixpoint defaults_loop (id : nat) (first : bool) (ds : list str) : AM unit :=
  match ds with
  | [] => plain (ret tt)
  | d :: r =>
      (if first then plain (ret tt) else grow_default id ", ") >>;
      grow_default id d >>;
      push_elem id (default_elem d) >>;
      defaults_loop id false r
  end.
(** argument.cpp:554-563: the defaults of one group *)
Fixpoint group_defaults_loop (id : nat) (first : bool) (g : list str) : AM unit :=
  match g with
  | [] => plain (ret tt)
  | d :: r =>
      (if first then plain (ret tt) else grow_default id ", ") >>;
      grow_default id d >>;
      alloc >>;                       (* newNumberArgument, a local *)
      group_defaults_loop id false r
  end.
(** argument.cpp:548-566 *)
Fixpoint groups_loop (id : nat) (first : bool) (gs : list (list str)) : AM unit :=
  match gs with
  | [] => plain (ret tt)
  | g :: r =>
      (if first then plain (ret tt) else grow_default id ", ") >>;
      grow_default id "(" >>;
      group_defaults_loop id true g >>;
      grow_default id ")" >>;
      push_elem id (default_group g) >>;
      groups_loop id false r
  end.

(** argument.cpp:504-568 defaultsConstructor_ *)
Definition defaultsConstructor_mem (id : nat) : AM unit :=
  mem a <- plain (deref id) ;;
  let c := a_cfg a in
  let ds := c_defaults c in
  let size := N.of_nat (length ds) in
  let fail : AM unit :=
    plain (do f <- front (c_names c) ;; throw KArgument f msg_defaults) in
  if (0 <? c_nargs c)%N && (0 <? size)%N then
    plain (set_dyn id (fun d => dyn_elems d [])) >>;
    match c_type c with
    | POSITIONAL_ARGUMENT | SIMPLE_OPTION =>
        if negb (size =? c_nargs c)%N then fail
        else
          alloc >>; plain (set_dyn id (fun d => dyn_arg d (hd "" ds))) >>;
          alloc >>; plain (set_cfg id (fun c => cfg_default c (hd "" ds)))
    | NUMBER_POSITIONAL_ARGUMENT | NUMBER_OPTION =>
        if negb (size =? c_nargs c)%N then fail
        else
          plain (set_cfg id (fun c => cfg_default c "")) >>;
          defaults_loop id true ds
    | INFINITE_POSITIONAL_ARGUMENT | MULTI_OPTION | INFINITE_OPTION | MULTI_INFINITE_OPTION =>
        plain (set_cfg id (fun c => cfg_default c "")) >>;
        defaults_loop id true ds
    | INFINITE_NUMBER_POSITIONAL_ARGUMENT | MULTI_NUMBER_OPTION | MULTI_NUMBER_INFINITE_OPTION =>
        if negb (size mod c_nargs c =? 0)%N then fail
        else
          groups_loop id true (groups_of (N.to_nat (c_nargs c)) (N.to_nat (size / c_nargs c)) ds)
    | _ => plain (ret tt)
    end
  else plain (ret tt).

(** argument.cpp:237-250 flag: argumentExists and push_back take a std::string, then the
    node of the map *)
Definition flag_mem (id : nat) (f : str) : AM unit :=
  mem a <- plain (deref id) ;;
  if is_positional (c_type (a_cfg a)) then
    plain (throw KArgument f "can't add flag in positionnal argument")
  else
    match validFormatFlag f with
    | Some msg => plain (throw KArgument f msg)
    | None =>
        alloc >>;
        mem s <- plain get ;;
        if mem_key f (s_map s) then plain (throw KArgument f "invalid flag already exist")
        else
          alloc >>;
          plain (set_cfg id (fun c => cfg_names c (sort_flags (c_names c ++ [f])))) >>;
          alloc >>;
          plain (modify (fun s => with_map s (s_map s ++ [(f, id)]))) >>;
          plain sort_args
    end.

(** argument.cpp:252-265 action; typeConstructor_ (423-502) allocates only what it throws *)
Definition action_mem (id : nat) (act : eAction) : AM unit :=
  mem a <- plain (deref id) ;;
  plain (if action_eqb (c_action (a_cfg a)) HELP then modify (fun s => with_help s None) else ret tt) >>;
  plain (if action_eqb (c_action (a_cfg a)) VERSION then modify (fun s => with_version s None) else ret tt) >>;
  plain (set_cfg id (fun c => cfg_action c act)) >>;
  plain (typeConstructor id) >>;
  defaultsConstructor_mem id.

(** argument.h:514-519 nargs *)
Definition nargs_mem (id : nat) (n : N) : AM unit :=
  plain (deref id) >>;
  plain (set_cfg id (fun c => cfg_nargs c (n mod w64)%N)) >>;
  plain (typeConstructor id) >>;
  defaultsConstructor_mem id.

(** argument.h:530 defaults_ = defaults__, the assignment of a std::vector<std::string>:
    the strings at the common positions are assigned one by one, then those that are
    missing are appended (all or none) or those in excess are removed.  (An implementation
    that makes the whole copy first is the case in which the first allocation fails.) *)
Fixpoint assign_loop (id : nat) (done rest old : list str) : AM unit :=
  match rest, old with
  | [], _ => plain (set_cfg id (fun c => cfg_defaults c done))
  | _ :: _, [] => alloc >>; plain (set_cfg id (fun c => cfg_defaults c (done ++ rest)))
  | x :: rest', _ :: old' =>
      alloc >>;
      plain (set_cfg id (fun c => cfg_defaults c (done ++ x :: old'))) >>;
      assign_loop id (done ++ [x]) rest' old'
  end.
(** argument.h:529-533 defaults (the Vector is made before) *)
Definition defaults_mem (id : nat) (v : list str) : AM unit :=
  alloc >>;
  mem a <- plain (deref id) ;;
  assign_loop id [] v (c_defaults (a_cfg a)) >>;
  defaultsConstructor_mem id.

(** argument.h:559-604 dest: the deletability of the validator is switched off, then the
    new object is made, then it is restored, in the new object *)
Definition dest_to_mem (id : nat) (d : dest) : AM unit :=
  mem a <- plain (deref id) ;;
  plain (set_cfg id (fun c => cfg_valid c (c_valid c) false)) >>;
  alloc >>;
  plain (set_cfg id (fun c => cfg_valid c (c_valid c) (c_valid_del (a_cfg a)))) >>;
  plain (dest_to id d).

(** the chained methods; required (argument.cpp:267-271) and valid (argument.h:542-549)
    do not allocate, help and metavar (argument.h:482-504) assign a std::string, which is
    as before if that fails *)
Definition run_meth_mem (id : nat) (m : meth) : AM unit :=
  match m with
  | MFlag f => flag_mem id f
  | MAction a => action_mem id a
  | MRequired b => plain (required id b)
  | MHelp h => alloc >>; plain (help id h)
  | MMetavar x => alloc >>; plain (metavar id x)
  | MNargs n => nargs_mem id n
  | MDefaults v => defaults_mem id v
  | MValid p b => plain (valid id p b)
  | MDest d => dest_to_mem id d
  end.
Fixpoint run_meths_mem (id : nat) (l : list meth) : AM unit :=
  match l with
  | [] => plain (ret tt)
  | m :: r => run_meth_mem id m >>; run_meths_mem id r
  end.

(* ------------------------------------------------------------------ *)
(** * Args *)

(** args.cpp:259-261 *)
Fixpoint insert_names (id : nat) (names : list str) : AM unit :=
  match names with
  | [] => plain (ret tt)
  | n :: r =>
      alloc >>;
      plain (modify (fun s => with_map s (map_insert n id (s_map s)))) >>;
      insert_names id r
  end.
(** args.cpp:228-231, 251-253 (new Argument and its names), 256-263 *)
Definition register_mem (c : acfg) : AM nat :=
  alloc >>;
  mem s <- plain get ;;
  let id := fresh_id s in
  alloc >>;
  plain (modify (fun s => with_args s (s_args s ++ [Arg id 0 c new_dyn]))) >>;
  insert_names id (c_names c) >>;
  plain sort_args >>;
  plain (ret id).

(** args.cpp:218-263 addArgument (the Vector of names is made before) *)
Definition addArgument_mem (nameOrFlags : list str) : AM nat :=
  alloc >>;
  match nameOrFlags with
  | [] => plain (throw KArgument "" "invalid empty flag")
  | n :: rest =>
      if (match rest with [] => true | _ => false end) && negb (Ascii.eqb (cget n 0) dash) then
        match n with
        | EmptyString => plain (throw KArgument "" "bad name argument")
        | String _ _ =>
            mem s <- plain get ;;
            if mem_key n (s_map s) then plain (throw KArgument n "bad name argument already exist")
            else register_mem (cfg_type (cfg_nargs (cfg_names new_cfg [n]) 1) POSITIONAL_ARGUMENT)
        end
      else
        mem s <- plain get ;;
        match add_flags n (s_map s) nameOrFlags [] with
        | inl e => plain (fun s => (s, Throw e))
        | inr flags => register_mem (cfg_names new_cfg (sort_flags flags))
        end
  end.

(** args.cpp:68-84 the help option of parseArguments *)
Definition help_setup_mem : AM bool :=
  mem s <- plain get ;;
  match s_help s with
  | Some _ => plain (ret false)
  | None =>
      alloc >>;
      let h := mem_key "-h" (s_map s) in
      let hh := mem_key "--help" (s_map s) in
      if h && hh then plain (ret true)
      else
        mem id <- addArgument_mem ((if h then [] else ["-h"]) ++ (if hh then [] else ["--help"])) ;;
        action_mem id HELP >>;
        (alloc >>; plain (help id "show this help message and exit")) >>;
        plain (ret false)
  end.

(** the calls.  The parameters (a std::string, a Vector) are made before the call; for
    removeArguments also the vector of iterators (args.cpp:269-277) is made before
    anything is removed; what follows only deletes (args.cpp:278-309).  The setters of
    texts assign a std::string; clear() and the other setters do not allocate.
    parseArguments is here as a whole; see [out_of_memory]. *)
Definition step_mem (o : op) : AM unit :=
  match o with
  | OpAdd ns ms => mem id <- addArgument_mem ns ;; run_meths_mem id ms
  | OpUpdate n ms => alloc >>; mem id <- plain (updateArgument n) ;; run_meths_mem id ms
  | OpClear | OpSetAlternative _ | OpSetStrict _ | OpSetHelpException _ | OpSetVersionException _
  | OpSetUsageWidth _ _ _ _ => plain (step o)
  | _ => alloc >>; plain (step o)
  end.

(** The states in which a call that ended with std::bad_alloc may leave the object.
    parseArguments (args.cpp:63-216): the values are reset (64-67), some of them; the help
    option is made (68-84), perhaps not to the end; then everything that parsing changes
    may have changed.  SIMPLIFICATION (towards more states): [frame] (Proofs_Frame.v) is
    all that parsing keeps -- the arguments with their declarations, the names, help and
    version option, modes and texts; everything else (values, counts, additional arguments,
    the name of the program, destinations) is arbitrary. *)
Inductive out_of_memory : op -> state -> state -> Prop :=
| out_call : forall o k s s', (forall argv, o <> OpParse argv) -> step_mem o k s = (s', NoMemory) -> out_of_memory o s s'
| out_parse : forall argv k s s0 s1 r s', frame s s0 -> help_setup_mem k s0 = (s1, r) -> frame s1 s' ->
    out_of_memory (OpParse argv) s s'.

(** the states of an Args object reachable by any history of calls that completed or ran
    out of memory *)
Inductive reach_mem : state -> Prop :=
| rm_init : reach_mem init
| rm_step : forall s o s' r, reach_mem s -> step o s = (s', r) -> completed r -> reach_mem s'
| rm_out : forall s o s', reach_mem s -> out_of_memory o s s' -> reach_mem s'.
