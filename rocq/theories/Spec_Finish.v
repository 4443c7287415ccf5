(** Spec_Finish.v -- what happens to the values after the words were read: validation,
    and the outcome of parseArguments. *)
From Verif Require Import Base Model_Number Model_Types Model_Argument Spec_Reading Spec_Parse.

(** the values handed to a validator: none for options without values *)
Definition plain_values (a : argument) : list str :=
  match c_type (a_cfg a) with
  | POSITIONAL_ARGUMENT | SIMPLE_OPTION => [d_arg (a_dyn a)]
  | NUMBER_POSITIONAL_ARGUMENT | INFINITE_POSITIONAL_ARGUMENT | NUMBER_OPTION | MULTI_OPTION
  | INFINITE_OPTION | MULTI_INFINITE_OPTION => map (fun e => lf_arg (el_leaf e)) (d_elems (a_dyn a))
  | MULTI_NUMBER_OPTION | MULTI_NUMBER_INFINITE_OPTION | INFINITE_NUMBER_POSITIONAL_ARGUMENT =>
      flat_map (fun e => map lf_arg (el_subs e)) (d_elems (a_dyn a))
  | _ => []
  end.
(** [vs] written over [old], position by position *)
Fixpoint over (old vs : list str) : list str :=
  match old, vs with
  | _ :: o, v :: r => v :: over o r
  | _, _ => old
  end.
(** has values a validator can look at *)
Definition has_values (c : acfg) : bool := match arity_of c with ANone => false | _ => true end.

(** the exception of a refused validation: names the first flag or the name *)
Definition invalid (a : argument) (msg : str) : exn := Exn KValid (first_of (a_cfg a)) msg.

(** does validation refuse the argument? *)
Definition refusal (a : argument) : option exn :=
  match c_valid (a_cfg a) with
  | None => None
  | Some v =>
      if d_exist (a_dyn a) then
        match v_fn v (plain_values a) with
        | VOther => Some (Exn KForeign "" "")
        | VThrow msg => Some (invalid a msg)
        | VOk false _ => Some (invalid a "invalid check function")
        | VOk true _ => if has_values (a_cfg a) then None else Some (invalid a "invalid type option for use valid")
        end
      else None
  end.

(** the exception for a missing required argument *)
Definition required_error (a : argument) : exn :=
  Exn KRequired (first_of (a_cfg a))
    (match c_type (a_cfg a) with POSITIONAL_ARGUMENT => "argument is required" | _ => "option is required" end).
