(** Spec_Errors.v -- the classes of exceptions, and what argument() is about. *)
From Verif Require Import Base Model_Number Model_Types Model_Argument Model_Usage Model_Args Model_Api Spec_Names Spec_Parse Spec_Api Spec_Result Spec_Extend Spec_Reorder.

(** exception.h:39-101 -- the base class of each class; an exception that is not from the
    library has none here *)
Definition base_of (k : xkind) : option xkind :=
  match k with
  | KHelp | KVersion | KArgument => Some KBase
  | KAccess | KParse => Some KArgument
  | KRequired | KValid => Some KParse
  | KBase | KForeign => None
  end.
(** [caught k e]: a handler for the class [k] catches [e] *)
Inductive derives : xkind -> xkind -> Prop :=
| dv_same : forall k, derives k k
| dv_base : forall k b c, base_of k = Some b -> derives b c -> derives k c.
Definition caught (k : xkind) (e : exn) : Prop := derives (x_kind e) k.

(** the text is part of one of the words *)
Definition part_of (x : str) (ws : list str) : Prop := exists w a b, In w ws /\ w = a ^^ x ^^ b.
(** the text is the name or a flag of a declared argument *)
Definition names_argument (x : str) (s : state) : Prop := exists a, In a (arguments s) /\ In x (getNameOrFlags a).
(** a validator that throws something of its own *)
Definition throws_foreign (v : validator) : Prop := exists vs, v_fn v vs = VOther.
(** a destination of a type that the library cannot convert to *)
Definition unsupported (d : dest) : Prop := d_ty d = TyUnsupported.
