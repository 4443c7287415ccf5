(** Spec_History.v -- histories of calls that respect a usage policy. *)
From Verif Require Import Base Model_Types Model_Argument Model_Args Model_Api.

(** A policy: which lists of names may be given to addArgument in a state, and which
    methods may be called on an argument in a state. *)
Record policy := Policy {
  p_add : list str -> state -> Prop;
  p_meth : meth -> argument -> state -> Prop
}.
Fixpoint chain_ok (P : policy) (id : nat) (ms : list meth) (s : state) : Prop :=
  match ms with
  | [] => True
  | m :: r => (forall a, In a (s_args s) -> a_id a = id -> p_meth P m a s) /\
              (forall s', run_meth id m s = (s', Ok tt) -> chain_ok P id r s')
  end.
Definition op_ok (P : policy) (o : op) (s : state) : Prop :=
  match o with
  | OpAdd ns ms => p_add P ns s /\ (forall s' id, addArgument ns s = (s', Ok id) -> chain_ok P id ms s')
  | OpUpdate n ms => forall s' id, updateArgument n s = (s', Ok id) -> chain_ok P id ms s'
  | _ => True
  end.
(** the states reachable by completed calls that all respect the policy *)
Inductive reach_with (P : policy) : state -> Prop :=
| rw_init : reach_with P init
| rw_step : forall s o s' r, reach_with P s -> op_ok P o s -> step o s = (s', r) -> completed r -> reach_with P s'.

(** the same for objects on which parseArguments was not called yet (since their
    construction or the last clear()) *)
Inductive fresh_with (P : policy) : state -> Prop :=
| fw_init : fresh_with P init
| fw_clear : forall s, reach s -> fresh_with P (fst (clear s))
| fw_step : forall s o s' r, fresh_with P s -> op_ok P o s -> (forall argv, o <> OpParse argv) ->
    step o s = (s', r) -> completed r -> fresh_with P s'.

(** everything is allowed *)
Definition any_use : policy := Policy (fun _ _ => True) (fun _ _ _ => True).

(** no name is given to addArgument that is already registered *)
Definition distinct_names : policy :=
  Policy (fun ns s => forall n, In n ns -> argumentExists s n = false) (fun _ _ _ => True).

(** dest() is not called on an argument declared with action HELP or VERSION *)
Definition no_dest_on_help : policy :=
  Policy (fun _ _ => True)
    (fun m a _ => match m with MDest _ => c_action (a_cfg a) <> HELP /\ c_action (a_cfg a) <> VERSION | _ => True end).

(** nargs() gets sane values: below 2^63, and not 0 for a positional argument *)
Definition sane_nargs : policy :=
  Policy (fun _ _ => True)
    (fun m a _ => match m with
                  | MNargs n => (n < 2 ^ 63)%N /\ (is_positional (c_type (a_cfg a)) = true -> n <> 0%N)
                  | _ => True
                  end).
(** both *)
Definition careful : policy :=
  Policy (fun _ _ => True) (fun m a s => p_meth no_dest_on_help m a s /\ p_meth sane_nargs m a s).

(** the validators attached to arguments, each with isDeletable *)
Definition attachment (a : argument) : list (validator * bool) :=
  match c_valid (a_cfg a) with Some v => [(v, c_valid_del (a_cfg a))] | None => [] end.
Definition attached (s : state) : list (validator * bool) := flat_map attachment (s_args s).
(** valid() gets an object that is not deleted yet and not attached to an argument
    (unless both times without handing it over) *)
Definition valid_once : policy :=
  Policy (fun _ _ => True)
    (fun m _ s => match m with
                  | MValid (Some v) del =>
                      ~ In (v_id v) (s_freed s) /\
                      forall w d, In (w, d) (attached s) -> v_id w = v_id v -> del = false /\ d = false
                  | _ => True
                  end).
(** Only declarations that are accepted; no empty defaults(); the action and the nargs
    of an argument are not changed once it has a destination (dest() forgets the
    declared defaults). *)
Definition settled : policy :=
  Policy (fun _ _ => True)
    (fun m a s => (exists s1, run_meth (a_id a) m s = (s1, Ok tt)) /\
                  match m with
                  | MDefaults v => v <> []
                  | MAction _ | MNargs _ => c_dest (a_cfg a) = None
                  | _ => True
                  end).
