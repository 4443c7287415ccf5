(** Model_Args.v -- src/args.cpp and include/blet/args/args.h *)
From Verif Require Import Base Model_Utils Model_Number Model_Types Model_Argument Model_Usage.

(* ------------------------------------------------------------------ *)
(** * Registration *)

(** identity of a new list node: not used by any live or dangling pointer.
    SIMPLIFICATION: allocation never reuses the address of a deleted Argument that
    helpOption_/versionOption_ still points to. *)
Definition opt_id (p : option (nat * nat)) : nat := match p with Some (i, _) => i | None => 0 end.
Definition fresh_id (s : state) : nat :=
  S (fold_right Nat.max (Nat.max (opt_id (s_help s)) (opt_id (s_version s))) (map a_id (s_args s))).

(** std::map::insert: does nothing if the key is present *)
Definition map_insert (k : str) (v : nat) (m : list (str * nat)) : list (str * nat) :=
  if mem_key k m then m else m ++ [(k, v)].

(** args.cpp:242-250 the loop over the flags: accumulates newFlags without
    duplicates; throws on a malformed flag, or if the FIRST flag of the list is
    already registered *)
Fixpoint add_flags (first : str) (m : list (str * nat)) (flags newFlags : list str) : exn + list str :=
  match flags with
  | [] => inr newFlags
  | f :: r =>
      match validFormatFlag f with
      | Some msg => inl (Exn KArgument f msg)
      | None =>
          if mem_key first m then inl (Exn KArgument first "invalid flag already exist")
          else add_flags first m r (if mem_str f newFlags then newFlags else newFlags ++ [f])
      end
  end.

(** args.cpp:257-263 *)
Definition register (c : acfg) : M nat :=
  do s <- get ;;
  let id := fresh_id s in
  modify (fun s => with_args s (s_args s ++ [Arg id 0 c new_dyn])) ;;;
  modify (fun s => with_map s (fold_left (fun m n => map_insert n id m) (c_names c) (s_map s))) ;;;
  sort_args ;;;
  ret id.

(** args.cpp:218-263 addArgument; the result is the node of the new argument *)
Definition addArgument (nameOrFlags : list str) : M nat :=
  match nameOrFlags with
  | [] => throw KArgument "" "invalid empty flag"
  | n :: rest =>
      if (match rest with [] => true | _ => false end) && negb (Ascii.eqb (cget n 0) dash) then
        match n with
        | EmptyString => throw KArgument "" "bad name argument"
        | String _ _ =>
            do s <- get ;;
            if mem_key n (s_map s) then throw KArgument n "bad name argument already exist"
            else register (cfg_type (cfg_nargs (cfg_names new_cfg [n]) 1) POSITIONAL_ARGUMENT)
        end
      else
        do s <- get ;;
        match add_flags n (s_map s) nameOrFlags [] with
        | inl e => fun s => (s, Throw e)
        | inr flags => register (cfg_names new_cfg (sort_flags flags))
        end
  end.

(** args.h:257-263 updateArgument *)
Definition updateArgument (n : str) : M nat :=
  do o <- find_name n ;;
  match o with
  | None => throw KAccess n "argument not found"
  | Some id => deref id ;;; ret id
  end.

(** args.h:196-202, 210-212 getArgument and operator[] *)
Definition getArgument (s : state) (n : str) : res argument :=
  match assoc n (s_map s) with
  | None => Throw (Exn KAccess n "argument not found")
  | Some id => match find_id id (s_args s) with Some a => Ok a | None => UB end
  end.
(** args.h:186-188 argumentExists *)
Definition argumentExists (s : state) (n : str) : bool := mem_key n (s_map s).

(** args.cpp:278-308 the removal of one name.  An iterator into argumentFromName_
    is the name it points to; it is invalid (UB) once that name was erased. *)
Definition remove_one (n : str) : M unit :=
  do o <- find_name n ;;
  match o with
  | None => ub
  | Some id =>
      do a <- deref id ;;
      if negb (mem_str n (c_names (a_cfg a))) then ub
      else
        set_cfg id (fun c => cfg_names c (remove_first n (c_names c))) ;;;
        modify (fun s => with_map s (del_key n (s_map s))) ;;;
        do s <- get ;;
        if existsb (fun kv => Nat.eqb (snd kv) id) (s_map s) then
          set_cfg id (fun c => cfg_names c (sort_flags (c_names c)))
        else
          (if optr_eqb (s_help s) (ptr_of a) then modify (fun s => with_help s None)
           else if optr_eqb (s_version s) (ptr_of a) then modify (fun s => with_version s None)
           else ret tt) ;;;
          delete_valid (a_cfg a) ;;;
          modify (fun s => with_args s (filter (fun b => negb (Nat.eqb (a_id b) id)) (s_args s)))
  end.

Fixpoint remove_loop (l : list str) : M unit :=
  match l with
  | [] => ret tt
  | n :: r => remove_one n ;;; remove_loop r
  end.

(** args.cpp:265-310 removeArguments *)
Definition removeArguments (nameOrFlags : list str) : M unit :=
  match nameOrFlags with
  | [] => throw KArgument "" "invalid empty flag"
  | _ =>
      do s <- get ;;
      match find (fun n => negb (mem_key n (s_map s))) nameOrFlags with
      | Some n => throw KArgument n "argument not found"
      | None => remove_loop nameOrFlags ;;; sort_args
      end
  end.

(** args.cpp:312-336 clear (and the deletes of args.cpp:56-61 ~Args).  The ghost
    logs survive. *)
Definition all_owned (l : list argument) : list nat := flat_map (fun a => owned (a_cfg a)) l.
Definition clear : M unit :=
  modify (fun s => with_dlog (with_freed init (s_freed s ++ all_owned (s_args s))) (s_dlog s)).
(** args.cpp:56-61 ~Args: the validators deleted in total when the object dies *)
Definition destroyed (s : state) : list nat := s_freed s ++ all_owned (s_args s).

(* ------------------------------------------------------------------ *)
(** * Parsing *)

(** words argv[i], ..., argv[i+n-1]; None = access outside argv *)
Fixpoint argv_range (argv : list str) (i n : nat) : option (list str) :=
  match n with
  | O => Some []
  | S k => match nth_error argv i, argv_range argv (S i) k with
           | Some w, Some r => Some (w :: r)
           | _, _ => None
           end
  end.
Definition argv_at (argv : list str) (i : nat) : M str :=
  match nth_error argv i with Some w => ret w | None => ub end.
Definition argv_slice (argv : list str) (i j : nat) : M (list str) :=
  match argv_range argv i (j - i) with Some l => ret l | None => ub end.

(** args.cpp:362-367, 559-564: the option types whose value may follow immediately
    in a group of short options *)
Definition takes_value (t : atype) : bool :=
  match t with
  | SIMPLE_OPTION | NUMBER_OPTION | INFINITE_OPTION | MULTI_OPTION
  | MULTI_INFINITE_OPTION | MULTI_NUMBER_OPTION => true
  | _ => false
  end.
Definition is_bool_option (t : atype) : bool :=
  match t with BOOLEAN_OPTION | REVERSE_BOOLEAN_OPTION => true | _ => false end.

Definition dash_str : str := String dash EmptyString.

(** args.cpp:552-574: the loop over the characters of a short option word; [cs] is
    what follows the initial '-' in the option part *)
Fixpoint eoi_short (hasArg : bool) (cs : str) : M bool :=
  let last (c : str) : M bool :=
    do o <- find_name (dash_str ^^ c) ;;
    ret (match o with Some _ => true | None => false end) in
  match cs with
  | EmptyString => last dash_str          (* the option part is "-": its last character is '-' *)
  | String c EmptyString => last (str1 c)
  | String c (String _ _ as r) =>
      do o <- find_name (dash_str ^^ str1 c) ;;
      match o with
      | None => ret false
      | Some id =>
          do a <- deref id ;;
          let t := c_type (a_cfg a) in
          if negb hasArg && takes_value t then ret true
          else if is_bool_option t then ret true
          else eoi_short hasArg r
      end
  end.

(** args.cpp:540-587 endOfInfiniteArgument_ *)
Definition endOfInfinite (w : str) : M bool :=
  if isShortOption w then
    let '(hasArg, option, _) := takeArg w in
    do s <- get ;;
    if m_alternative (s_modes s) && mem_key (dash_str ^^ option) (s_map s) then ret true
    else eoi_short hasArg (sdrop 1 option)
  else if isLongOption w then
    let '(_, option, _) := takeArg w in
    do o <- find_name option ;;
    ret (match o with Some _ => true | None => false end)
  else ret false.

Definition push_elems (id : nat) (es : list elem) : M unit :=
  set_dyn id (fun d => dyn_elems d (d_elems d ++ es)).
Definition clear_elems (id : nat) : M unit := set_dyn id (fun d => dyn_elems d []).
Definition clear_unless_exists (id : nat) : M unit :=
  set_dyn id (fun d => if d_exist d then d else dyn_elems d []).

(** args.cpp:459-465, 487-493, 613-619: push the words i, i+1, ... < i+n until one
    ends the run; result = how many *)
Fixpoint run_loop (id : nat) (argv : list str) (hasEnd : bool) (n i count : nat) : M nat :=
  match n with
  | O => ret count
  | S k =>
      do w <- argv_at argv i ;;
      do e <- (if hasEnd then ret false else endOfInfinite w) ;;
      if e then ret count
      else
        push_elems id [word_elem w] ;;;
        run_loop id argv hasEnd k (S i) (S count)
  end.

(** args.cpp:515-528, 624-637: groups of nargs words; [err] is the throw of
    "bad number of argument".  Result = number of words used. *)
Fixpoint group_loop (fuel : nat) (id : nat) (n : N) (argv : list str) (hasEnd : bool)
    (maxIndex i count : nat) (err : M nat) : M nat :=
  match fuel with
  | O => fun s => (s, OutOfFuel)
  | S f =>
      if Nat.ltb i maxIndex then
        do w <- argv_at argv i ;;
        do e <- (if hasEnd then ret false else endOfInfinite w) ;;
        if e then ret count
        else
          let next := szadd i n in
          if (N.of_nat maxIndex <? next)%N then err
          else
            do ws <- argv_slice argv i (N.to_nat next) ;;
            push_elems id [group_elem ws] ;;;
            group_loop f id n argv hasEnd maxIndex (N.to_nat next) (count + length ws) err
      else ret count
  end.

Definition bad_number {A} (option : str) : M A := throw KParse option "bad number of argument".

(** args.cpp:404-538 parseArgument_; the result is the index of the next word to
    read, i.e. *index + 1 as seen by the loop of parseArguments *)
Definition parseArgument (fuel maxIndex : nat) (argv : list str) (index : nat) (hasArg : bool)
    (option arg : str) (id : nat) : M nat :=
  do a <- deref id ;;
  let n := c_nargs (a_cfg a) in
  do next <-
    (if hasArg then
       match c_type (a_cfg a) with
       | SIMPLE_OPTION => set_dyn id (fun d => dyn_arg d arg) ;;; ret (S index)
       | NUMBER_OPTION | MULTI_NUMBER_OPTION | MULTI_NUMBER_INFINITE_OPTION =>
           throw KParse option "option cannot use with only 1 argument"
       | INFINITE_OPTION =>
           clear_elems id ;;; push_elems id [word_elem arg] ;;; ret (S index)
       | MULTI_OPTION | MULTI_INFINITE_OPTION =>
           clear_unless_exists id ;;; push_elems id [word_elem arg] ;;; ret (S index)
       | _ => throw KParse option "option cannot use with argument"
       end
     else
       match c_type (a_cfg a) with
       | SIMPLE_OPTION =>
           if Nat.leb maxIndex (index + 1) then bad_number option
           else
             do w <- argv_at argv (S index) ;;
             set_dyn id (fun d => dyn_arg d w) ;;; ret (S (S index))
       | NUMBER_OPTION =>
           clear_elems id ;;;
           let last := szadd index n in
           if (N.of_nat maxIndex <=? last)%N then bad_number option
           else
             do ws <- argv_slice argv (S index) (S (N.to_nat last)) ;;
             push_elems id (map word_elem ws) ;;; ret (S (N.to_nat last))
       | INFINITE_OPTION =>
           clear_elems id ;;;
           do k <- run_loop id argv false (maxIndex - S index) (S index) 0 ;;
           ret (S (index + k))
       | MULTI_OPTION =>
           clear_unless_exists id ;;;
           if Nat.leb maxIndex (index + 1) then bad_number option
           else
             do w <- argv_at argv (S index) ;;
             push_elems id [word_elem w] ;;; ret (S (S index))
       | MULTI_INFINITE_OPTION =>
           clear_unless_exists id ;;;
           do k <- run_loop id argv false (maxIndex - S index) (S index) 0 ;;
           ret (S (index + k))
       | MULTI_NUMBER_OPTION =>
           clear_unless_exists id ;;;
           let last := szadd index n in
           if (N.of_nat maxIndex <=? last)%N then bad_number option
           else
             do ws <- argv_slice argv (S index) (S (N.to_nat last)) ;;
             push_elems id [group_elem ws] ;;; ret (S (N.to_nat last))
       | MULTI_NUMBER_INFINITE_OPTION =>
           clear_unless_exists id ;;;
           do k <- group_loop fuel id n argv false maxIndex (S index) 0 (bad_number option) ;;
           ret (S (index + k))
       | _ => ret (S index)
       end) ;;
  set_dyn id dyn_seen ;;;
  ret next.

(** args.cpp:356-388: the loop over the characters of a short option word; [cs] is
    what follows the initial '-' in the option part *)
Fixpoint short_loop (fuel maxIndex : nat) (argv : list str) (index : nat) (hasArg : bool) (arg : str)
    (cs : str) : M nat :=
  let last (c : str) : M nat :=
    do o <- find_name (dash_str ^^ c) ;;
    match o with
    | None => throw KParse c "invalid option"
    | Some id => parseArgument fuel maxIndex argv index hasArg c arg id
    end in
  match cs with
  | EmptyString => last dash_str          (* the option part is "-" (word "-=..."): last character '-' *)
  | String c EmptyString => last (str1 c)
  | String c (String _ _ as r) =>
      do o <- find_name (dash_str ^^ str1 c) ;;
      match o with
      | None => throw KParse (str1 c) "invalid option"
      | Some id =>
          do a <- deref id ;;
          let t := c_type (a_cfg a) in
          if negb hasArg && takes_value t then
            set_dyn id dyn_seen ;;;
            parseArgument fuel maxIndex argv index true (str1 c) r id
          else if negb (is_bool_option t) then
            throw KParse (str1 c) "only last option can be use a parameter"
          else
            set_dyn id dyn_seen ;;;
            short_loop fuel maxIndex argv index hasArg arg r
      end
  end.

(** args.cpp:341-389 parseShortArgument_ *)
Definition parseShort (fuel maxIndex : nat) (argv : list str) (index : nat) (w : str) : M nat :=
  let '(hasArg, options, arg) := takeArg w in
  do s <- get ;;
  match (if m_alternative (s_modes s) then assoc (dash_str ^^ options) (s_map s) else None) with
  | Some id => parseArgument fuel maxIndex argv index hasArg (sdrop 1 options) arg id
  | None => short_loop fuel maxIndex argv index hasArg arg (sdrop 1 options)
  end.

(** args.cpp:391-402 parseLongArgument_ *)
Definition parseLong (fuel maxIndex : nat) (argv : list str) (index : nat) (w : str) : M nat :=
  let '(hasArg, option, arg) := takeArg w in
  do o <- find_name option ;;
  match o with
  | None => throw KParse (sdrop 2 option) "invalid option"
  | Some id => parseArgument fuel maxIndex argv index hasArg (sdrop 2 option) arg id
  end.

(** args.cpp:590-596: the first positional argument that is not filled yet *)
Definition next_positional (s : state) : option argument :=
  find (fun a => negb (d_exist (a_dyn a)) && is_positional (c_type (a_cfg a))) (s_args s).

(** args.cpp:589-651 parsePositionnalArgument_; result: index of the next word *)
Definition parsePositional (fuel argc : nat) (argv : list str) (index : nat) (hasEnd : bool) : M nat :=
  do s <- get ;;
  match next_positional s with
  | Some a =>
      let id := a_id a in
      let n := c_nargs (a_cfg a) in
      do next <-
        match c_type (a_cfg a) with
        | POSITIONAL_ARGUMENT =>
            do w <- argv_at argv index ;;
            set_dyn id (fun d => dyn_arg d w) ;;; ret (S index)
        | NUMBER_POSITIONAL_ARGUMENT =>
            let past := szadd index n in
            if (N.of_nat argc <? past)%N then
              do f <- front (c_names (a_cfg a)) ;; bad_number f
            else
              do ws <- argv_slice argv index (N.to_nat past) ;;
              push_elems id (map word_elem ws) ;;; ret (N.to_nat past)
        | INFINITE_POSITIONAL_ARGUMENT =>
            do k <- run_loop id argv hasEnd (argc - index) index 0 ;;
            ret (index + k)
        | INFINITE_NUMBER_POSITIONAL_ARGUMENT =>
            do k <- group_loop fuel id n argv hasEnd argc index 0
                      (do f <- front (c_names (a_cfg a)) ;; bad_number f) ;;
            ret (index + k)
        | _ => ret (S index)
        end ;;
      set_dyn id (fun d => dyn_exist d true) ;;;
      ret next
  | None =>
      do w <- argv_at argv index ;;
      if m_strict (s_modes s) then throw KParse w "invalid additional argument"
      else modify (fun s => with_additional s (s_additional s ++ [w])) ;;; ret (S index)
  end.

(** args.cpp:100-105 the loop after "--" *)
Fixpoint end_loop (fuel gfuel : nat) (argv : list str) (i : nat) : M unit :=
  match fuel with
  | O => fun s => (s, OutOfFuel)
  | S f =>
      if Nat.ltb i (length argv) then
        do j <- parsePositional gfuel (length argv) argv i true ;;
        end_loop f gfuel argv j
      else ret tt
  end.

(** args.cpp:92-110 the main loop.  [gfuel] is handed to the inner loops. *)
Fixpoint parse_loop (fuel gfuel : nat) (argv : list str) (endIndex i : nat) : M unit :=
  match fuel with
  | O => fun s => (s, OutOfFuel)
  | S f =>
      if Nat.ltb i (length argv) then
        do w <- argv_at argv i ;;
        if isShortOption w then
          do j <- parseShort gfuel endIndex argv i w ;; parse_loop f gfuel argv endIndex j
        else if isLongOption w then
          do j <- parseLong gfuel endIndex argv i w ;; parse_loop f gfuel argv endIndex j
        else if isEndOption w then
          end_loop f gfuel argv (S i)
        else
          do j <- parsePositional gfuel endIndex argv i false ;; parse_loop f gfuel argv endIndex j
      else ret tt
  end.

(** args.cpp:68-84: result true = the early return because both -h and --help are
    in use although no help option exists *)
Definition help_setup : M bool :=
  do s <- get ;;
  match s_help s with
  | Some _ => ret false
  | None =>
      let h := mem_key "-h" (s_map s) in
      let hh := mem_key "--help" (s_map s) in
      if h && hh then ret true
      else
        do id <- addArgument ((if h then [] else ["-h"]) ++ (if hh then [] else ["--help"])) ;;
        action id HELP ;;;
        help id "show this help message and exit" ;;;
        ret false
  end.

(** args.cpp:111-132 help and version (exit(0) prints and clears before) *)
Definition print_or_throw (ptr : option (nat * nat)) (asException : bool) (k : xkind) (text : res str) : M unit :=
  do s <- get ;;
  match ptr with
  | None => ret tt
  | Some p =>
      match find_ptr p (s_args s) with
      | None => ub
      | Some a =>
          if d_exist (a_dyn a) then
            match text with
            | Ok t => if asException then throw k "" t
                      else clear ;;; (fun s => (s, Exit (t ^^ nl)))
            | _ => ub
            end
          else ret tt
      end
  end.
Definition check_help : M unit :=
  do s <- get ;; print_or_throw (s_help s) (m_helpex (s_modes s)) KHelp (getUsage s).
Definition check_version : M unit :=
  do s <- get ;; print_or_throw (s_version s) (m_verex (s_modes s)) KVersion (Ok (s_verstr s)).

(** args.cpp:133-144 required arguments *)
Definition check_required : M unit :=
  do s <- get ;;
  match find (fun a => c_required (a_cfg a) && negb (d_exist (a_dyn a))) (s_args s) with
  | None => ret tt
  | Some a =>
      do f <- front (c_names (a_cfg a)) ;;
      match c_type (a_cfg a) with
      | POSITIONAL_ARGUMENT => throw KRequired f "argument is required"
      | _ => throw KRequired f "option is required"
      end
  end.

(** args.cpp:178-181: element i gets value i, as far as there are both *)
Definition set_leaf (l : leaf) (v : str) : leaf := Leaf v (lf_def l) (lf_num l).
Fixpoint store_elems (es : list elem) (vs : list str) : list elem :=
  match es, vs with
  | e :: es', v :: vs' => Elem (set_leaf (el_leaf e) v) (el_subs e) :: store_elems es' vs'
  | _, _ => es
  end.
(** args.cpp:185-191: the same over the elements of the elements; also returns the
    values not used yet *)
Fixpoint store_leaves (ls : list leaf) (vs : list str) : list leaf * list str :=
  match ls, vs with
  | l :: ls', v :: vs' => let (r, rest) := store_leaves ls' vs' in (set_leaf l v :: r, rest)
  | _, _ => (ls, vs)
  end.
Fixpoint store_groups (es : list elem) (vs : list str) : list elem :=
  match es with
  | [] => []
  | e :: es' => let (ls, rest) := store_leaves (el_subs e) vs in
                Elem (el_leaf e) ls :: store_groups es' rest
  end.

(** args.cpp:149-204 validation of one present argument *)
Definition validate (a : argument) (v : validator) : M unit :=
  let id := a_id a in
  let invalid (msg : str) : M unit :=
    do f <- front (c_names (a_cfg a)) ;; throw KValid f msg in
  let args := match to_vector a with Ok l => l | _ => [] end in
  match v_fn v args with
  | VOther => throw KForeign "" ""
  | VThrow msg => invalid msg
  | VOk false _ => invalid "invalid check function"
  | VOk true vs =>
      match c_type (a_cfg a) with
      | POSITIONAL_ARGUMENT | SIMPLE_OPTION =>
          match vs with
          | [] => ret tt
          | x :: _ => set_dyn id (fun d => dyn_arg d x)
          end
      | NUMBER_OPTION | MULTI_OPTION | INFINITE_OPTION | MULTI_INFINITE_OPTION
      | NUMBER_POSITIONAL_ARGUMENT | INFINITE_POSITIONAL_ARGUMENT =>
          set_dyn id (fun d => dyn_elems d (store_elems (d_elems d) vs))
      | MULTI_NUMBER_OPTION | MULTI_NUMBER_INFINITE_OPTION | INFINITE_NUMBER_POSITIONAL_ARGUMENT =>
          set_dyn id (fun d => dyn_elems d (store_groups (d_elems d) vs))
      | _ => invalid "invalid type option for use valid"
      end
  end.

(** args.cpp:147-211 one iteration of the last loop *)
Definition finish_one (id : nat) : M unit :=
  do a <- deref id ;;
  (match c_valid (a_cfg a) with
   | Some v => if d_exist (a_dyn a) then validate a v else ret tt
   | None => ret tt
   end) ;;;
  toNumber id ;;;
  toDest id.

Fixpoint finish (ids : list nat) : M unit :=
  match ids with
  | [] => ret tt
  | id :: r => finish_one id ;;; finish r
  end.

(** args.cpp:85-88 *)
Definition set_binary (argv : list str) : M unit :=
  do s <- get ;;
  match s_bin s with
  | EmptyString =>
      do w <- argv_at argv 0 ;;
      modify (fun s => with_bin s w)
  | String _ _ => ret tt
  end.

(** what follows the scan of the command line (args.cpp:111-215) *)
Definition after_scan : M unit :=
  check_help ;;;
  check_version ;;;
  check_required ;;;
  do s <- get ;;
  finish (map a_id (s_args s)).

(** the scan of the command line (args.cpp:85-110) *)
Definition scan (fuel : nat) (argv : list str) : M unit :=
  set_binary argv ;;;
  parse_loop fuel fuel argv (endOptionIndex argv) 1.

(** args.cpp:63-216 parseArguments with loops bounded by [fuel] *)
Definition parse_with (fuel : nat) (argv : list str) : M unit :=
  modify (fun s => with_args s (map clear_arg (s_args s))) ;;;
  do early <- help_setup ;;
  if (early : bool) then ret tt
  else
    scan fuel argv ;;;
    after_scan.

(** The fuel given to a parse: C10 shows that it suffices whenever the loops
    terminate at all, unless nargs is absurd. *)
Definition parse_fuel (argv : list str) (s : state) : nat :=
  length argv + length (s_args s) + 3.
Definition parseArguments (argv : list str) : M unit := fun s =>
  parse_with (parse_fuel argv s) argv s.
