(** Model_Api.v -- the public calls on an Args object as operations, and the states
    a program can bring it into. *)
From Verif Require Import Base Model_Utils Model_Number Model_Types Model_Argument Model_Usage Model_Args.

(** the chained methods of an Argument& (argument.h:464-604) *)
Inductive meth :=
| MFlag (f : str) | MAction (a : eAction) | MRequired (b : bool) | MHelp (h : str)
| MMetavar (m : str) | MNargs (n : N) | MDefaults (v : list str)
| MValid (p : option validator) (isDeletable : bool) | MDest (d : dest).

Definition run_meth (id : nat) (m : meth) : M unit :=
  match m with
  | MFlag f => flag id f
  | MAction a => action id a
  | MRequired b => required id b
  | MHelp h => help id h
  | MMetavar x => metavar id x
  | MNargs n => nargs id n
  | MDefaults v => defaults id v
  | MValid p b => valid id p b
  | MDest d => dest_to id d
  end.
(** a chain x.m1(...).m2(...)...: each method returns the reference for the next
    (SIMPLIFICATION: programs use the returned reference, or updateArgument; a
    reference kept across dest() or removeArguments() is the caller's own bug and
    is not modelled) *)
Fixpoint run_meths (id : nat) (l : list meth) : M unit :=
  match l with
  | [] => ret tt
  | m :: r => run_meth id m ;;; run_meths id r
  end.

(** the calls on an Args object (args.h:70-282, usage.h:56-124) *)
Inductive op :=
| OpAdd (nameOrFlags : list str) (ms : list meth)       (* addArgument(...).m1().m2()... *)
| OpUpdate (nameOrFlag : str) (ms : list meth)          (* updateArgument(n).m1().m2()... *)
| OpRemove (nameOrFlags : list str)
| OpClear
| OpParse (argv : list str)
| OpSetVersion (v : str)
| OpSetAlternative (b : bool)
| OpSetStrict (b : bool)
| OpSetHelpException (b : bool)
| OpSetVersionException (b : bool)
| OpSetBinaryName (b : str)
| OpSetUsage (u : str)
| OpSetDescription (d : str)
| OpSetEpilog (e : str)
| OpSetUsageWidth (pad args sep help : nat).

Definition step (o : op) : M unit :=
  match o with
  | OpAdd ns ms => do id <- addArgument ns ;; run_meths id ms
  | OpUpdate n ms => do id <- updateArgument n ;; run_meths id ms
  | OpRemove ns => removeArguments ns
  | OpClear => clear
  | OpParse argv => parseArguments argv
  | OpSetVersion v => modify (fun s => with_verstr s v)
  | OpSetAlternative b => modify (fun s => with_modes s
      (Modes b (m_strict (s_modes s)) (m_helpex (s_modes s)) (m_verex (s_modes s))))
  | OpSetStrict b => modify (fun s => with_modes s
      (Modes (m_alternative (s_modes s)) b (m_helpex (s_modes s)) (m_verex (s_modes s))))
  | OpSetHelpException b => modify (fun s => with_modes s
      (Modes (m_alternative (s_modes s)) (m_strict (s_modes s)) b (m_verex (s_modes s))))
  | OpSetVersionException b => modify (fun s => with_modes s
      (Modes (m_alternative (s_modes s)) (m_strict (s_modes s)) (m_helpex (s_modes s)) b))
  | OpSetBinaryName b => modify (fun s => with_bin s b)
  | OpSetUsage u => modify (fun s => with_usage s
      (let x := s_usage s in UsageCfg (u_description x) (u_epilog x) u (u_pad x) (u_args x) (u_sep x) (u_help x)))
  | OpSetDescription d => modify (fun s => with_usage s
      (let x := s_usage s in UsageCfg d (u_epilog x) (u_usage x) (u_pad x) (u_args x) (u_sep x) (u_help x)))
  | OpSetEpilog e => modify (fun s => with_usage s
      (let x := s_usage s in UsageCfg (u_description x) e (u_usage x) (u_pad x) (u_args x) (u_sep x) (u_help x)))
  | OpSetUsageWidth p a sp h => modify (fun s => with_usage s
      (let x := s_usage s in UsageCfg (u_description x) (u_epilog x) (u_usage x) p a sp h))
  end.

(** the call ended in a way after which the program can go on using the object *)
Definition completed {A} (r : res A) : Prop :=
  match r with Ok _ | Throw _ => True | _ => False end.

(** the states of an Args object reachable by any history of completed calls *)
Inductive reach : state -> Prop :=
| reach_init : reach init
| reach_step : forall s o s' r, reach s -> step o s = (s', r) -> completed r -> reach s'.

(** run a list of calls; stops at the first that does not complete; exceptions are
    caught and ignored *)
Fixpoint run (ops : list op) (s : state) : option state :=
  match ops with
  | [] => Some s
  | o :: r => match step o s with
              | (s', Ok _) | (s', Throw _) => run r s'
              | _ => None
              end
  end.

Lemma run_reach : forall ops s s', reach s -> run ops s = Some s' -> reach s'.
Proof.
  induction ops as [|o ops IH]; simpl; intros s s' H E.
  - injection E as <-; exact H.
  - destruct (step o s) as [s1 r] eqn:Es.
    destruct r; try discriminate;
      (eapply IH; [| exact E]; eapply reach_step; [exact H | exact Es | exact I]).
Qed.
