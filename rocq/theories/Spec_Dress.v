(** Spec_Dress.v -- the validator and the destination of one argument. *)
From Verif Require Import Base Model_Number Model_Types Model_Argument Model_Args Model_Api Spec_Reading Spec_Parse Spec_Api.

(** the call ended with an exception that the validation of [a] gave *)
Definition refused_value (a : argument) (r : res unit) : Prop :=
  exists e, r = Throw e /\ ((x_kind e = KValid /\ x_arg e = first_of (a_cfg a)) \/ e = Exn KForeign "" "").
(** the same argument, except that the one with identity [id] has another validator, and
    perhaps other values if it is present *)
Definition revalidated (id : nat) (p : option validator) (b : bool) (x y : argument) : Prop :=
  if Nat.eqb (a_id x) id then
    a_id y = a_id x /\ a_gen y = a_gen x /\ a_cfg y = cfg_valid (a_cfg x) p b /\
    isExists y = isExists x /\ count y = count x /\ (isExists x = false -> a_dyn y = a_dyn x)
  else y = x.
(** the same argument, except that the one with identity [id] has a destination and its list
    of defaults is forgotten (its values are the same) *)
Definition bound_to (id : nat) (d : dest) (x y : argument) : Prop :=
  if Nat.eqb (a_id x) id then y = Arg (a_id x) (S (a_gen x)) (cfg_dest (cfg_defaults (a_cfg x) []) (Some d)) (a_dyn x)
  else y = x.
(** the rest of the object is the same *)
Definition same_rest (t t' : state) : Prop :=
  s_bin t' = s_bin t /\ s_map t' = s_map t /\ s_help t' = s_help t /\ s_version t' = s_version t /\ s_verstr t' = s_verstr t /\
  s_modes t' = s_modes t /\ s_additional t' = s_additional t /\ s_usage t' = s_usage t.
(** the argument [n] is on the command line, as far as it was read *)
Definition present (n : str) (t : state) : Prop := exists x, getArgument t n = Ok x /\ isExists x = true.
