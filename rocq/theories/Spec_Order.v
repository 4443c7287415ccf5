(** Spec_Order.v -- the order in which arguments and flags are listed. *)
From Verif Require Import Base Model_Types.

(** a comparison function usable with std::sort / std::list::sort *)
Record strict_weak_order {A} (lt : A -> A -> bool) : Prop := {
  swo_irrefl : forall x, lt x x = false;
  swo_asym : forall x y, lt x y = true -> lt y x = false;
  swo_trans : forall x y z, lt x y = true -> lt y z = true -> lt x z = true;
  swo_incomp : forall x y z,
    lt x y = false -> lt y x = false -> lt y z = false -> lt z y = false ->
    lt x z = false /\ lt z x = false
}.

(** a short flag: '-' followed by something other than '-' *)
Definition short_flag (f : str) : bool :=
  match f with
  | String "-" (String c _) => negb (Ascii.eqb c "-") && negb (Ascii.eqb c nul)
  | _ => false
  end.

(** flags: short ones first, each group alphabetically (by bytes) *)
Definition flag_before (f g : str) : Prop :=
  (short_flag f = true /\ short_flag g = false) \/
  (short_flag f = short_flag g /\ String.ltb f g = true).

(** the class of an argument in the listing: options (required before optional,
    then those whose first flag is short before the others), then required
    positionals, then optional positionals *)
Definition listing_class (positional required short : bool) : nat :=
  if positional then (if required then 4 else 5)
  else (if required then 0 else 2) + (if short then 0 else 1).
