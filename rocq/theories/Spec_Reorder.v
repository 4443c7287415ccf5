(** Spec_Reorder.v -- declarations that may change places. *)
From Verif Require Import Base Model_Number Model_Types Model_Argument Model_Usage Model_Args Model_Api Spec_Names Spec_Reading Spec_Parse Spec_Api Spec_Result Spec_Extend.

(** not action(HELP), not action(VERSION) *)
Definition roleless (m : meth) : Prop := match m with MAction HELP | MAction VERSION => False | _ => True end.
(** at most one action(HELP) or action(VERSION), and no action() after it *)
Definition actionless (m : meth) : Prop := match m with MAction _ => False | _ => True end.
Fixpoint one_role (ms : list meth) : Prop :=
  match ms with
  | [] => True
  | MAction HELP :: r | MAction VERSION :: r => Forall actionless r
  | _ :: r => one_role r
  end.
(** Two declarations that do not compete: no common name; not two positional arguments
    (these are filled in the order of declaration); not both for the role of the help or
    version option (the first one gets it). *)
Definition independent (o1 o2 : op) : Prop :=
  match o1, o2 with
  | OpAdd ns1 ms1, OpAdd ns2 ms2 =>
      (forall n, In n (op_names o1) -> ~ In n (op_names o2)) /\
      (option_names ns1 \/ option_names ns2) /\
      (Forall roleless ms1 \/ Forall roleless ms2) /\ one_role ms1 /\ one_role ms2
  | _, _ => False
  end.
(** no listed argument has the name *)
Definition unused (s : state) (n : str) : Prop := forall a, In a (arguments s) -> ~ In n (getNameOrFlags a).
(** a call that sets up the parser *)
Definition sets_up (o : op) : Prop := forall argv, o <> OpParse argv.
(** the two parsers can be told apart by nothing but the addresses of their arguments:
    every name designates the same, the arguments are listed in the same order with the
    same configuration and values, the settings, the additional arguments, the deliveries
    and the usage text are the same *)
Definition interchangeable (s s' : state) : Prop :=
  (forall n, same_argument n s s') /\
  map (fun a => (a_cfg a, a_dyn a)) (arguments s') = map (fun a => (a_cfg a, a_dyn a)) (arguments s) /\
  s_bin s' = s_bin s /\ s_modes s' = s_modes s /\ s_verstr s' = s_verstr s /\ s_usage s' = s_usage s /\
  getAdditionalArguments s' = getAdditionalArguments s /\ s_dlog s' = s_dlog s /\
  getUsage s' = getUsage s.
(** and they give the same answers, if the first is fit for parsing *)
Definition answers_alike (s s' : state) : Prop :=
  usable s -> interprets s -> usable s' /\ interprets s' /\
  forall argv ws, command_line argv ws ->
    snd (parseArguments argv s') = snd (parseArguments argv s) /\
    (snd (parseArguments argv s) = Ok tt -> interchangeable (fst (parseArguments argv s)) (fst (parseArguments argv s'))).

(** sequences of calls that differ by exchanging neighbouring independent declarations
    whose names were not mentioned before *)
Inductive reordered : list op -> list op -> Prop :=
| re_same : forall l, Forall sets_up l -> reordered l l
| re_swap : forall l o1 o2 r, independent o1 o2 -> (forall n o, In n (op_names o1) \/ In n (op_names o2) -> In o l -> ~ In n (op_names o)) ->
    Forall sets_up l -> Forall sets_up r -> reordered (l ++ o1 :: o2 :: r) (l ++ o2 :: o1 :: r)
| re_trans : forall l l' l'', reordered l l' -> reordered l' l'' -> reordered l l''.
