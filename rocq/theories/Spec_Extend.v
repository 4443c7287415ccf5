(** Spec_Extend.v -- which names a command line refers to. *)
From Verif Require Import Base Model_Number Model_Types Model_Argument Model_Usage Model_Args Model_Api Spec_Names Spec_Reading Spec_Parse Spec_Api Spec_Result.

(** the short options among the letters of a bundle: from the first letter to the first one
    that is not declared or that takes the rest of the word as its value *)
Fixpoint letters (K : conf) (hasValue : bool) (cs : str) : list str :=
  match cs with
  | EmptyString => []
  | String c r =>
      one_char c ::
      match k_find K (one_char c) with
      | None => []
      | Some (_, cf) => if negb hasValue && glues cf then [] else letters K hasValue r
      end
  end.
(** the names that a word can be understood to refer to *)
Definition refers (K : conf) (w : str) : list str :=
  let (name, value) := cut_eq w in
  let bundle := letters K (match value with Some _ => true | None => false end) (after1 name) in
  match word_kind w with
  | WLong => [name]
  | WShort => if k_alt K then String "-" name :: (if k_has K (String "-" name) then [] else bundle) else bundle
  | _ => []
  end.
(** no word in front of "--" refers to one of the names [X] *)
Definition unmentioned (K : conf) (X ws : list str) : Prop :=
  forall w n, In w (before_end ws) -> In n (refers K w) -> ~ In n X.

(** the answer of parseArguments when the help option is on the command line *)
Definition shows_usage (argv : list str) (s : state) (r : res unit) : Prop :=
  exists u, getUsage (named argv (ready s)) = Ok u /\
    r = if m_helpex (s_modes s) then Throw (Exn KHelp "" u) else Exit (u ^^ nl).
(** equal answers, except that each parser shows its own usage text *)
Definition same_answer (argv : list str) (s s' : state) (r r' : res unit) : Prop :=
  r' = r \/ (shows_usage argv s r /\ shows_usage argv s' r').

(* ------------------------------------------------------------------ *)
(** * declarations *)
(** the names that a call mentions *)
Definition meth_names (m : meth) : list str := match m with MFlag f => [f] | _ => [] end.
Definition op_names (o : op) : list str :=
  match o with
  | OpAdd ns ms => ns ++ flat_map meth_names ms
  | OpUpdate n ms => n :: flat_map meth_names ms
  | OpRemove ns => ns
  | _ => []
  end.
(** names that make an option, not a positional argument *)
Definition option_names (ns : list str) : Prop := match ns with [n] => exists r, n = String "-" r | _ => True end.
(** methods after which an option that is not on the command line is not noticed: not
    required, no destination to be given its default, not the help or version option *)
Definition quiet_meth (m : meth) : Prop :=
  match m with MRequired true | MDest _ | MAction HELP | MAction VERSION => False | _ => True end.
(** a call that sets up the parser and mentions none of the names [X] *)
Definition sets_up_without (X : list str) (o : op) : Prop :=
  (forall argv, o <> OpParse argv) /\ forall n, In n (op_names o) -> ~ In n X.

(* ------------------------------------------------------------------ *)
(** * results *)
(** what a name designates in the two parsers: nothing, or arguments with the same
    configuration and the same values *)
Definition same_argument (n : str) (s s' : state) : Prop :=
  match getArgument s n, getArgument s' n with
  | Ok a, Ok a' => a_cfg a' = a_cfg a /\ a_dyn a' = a_dyn a
  | Throw e, Throw e' => e' = e
  | _, _ => False
  end.
(** the same results but for the names [X], and these are not on the command line *)
Definition same_results (X : list str) (s s' : state) : Prop :=
  (forall n, ~ In n X -> same_argument n s s') /\
  (forall n a, In n X -> getArgument s' n = Ok a -> isExists a = false /\ count a = 0) /\
  getAdditionalArguments s' = getAdditionalArguments s /\ s_dlog s' = s_dlog s.
