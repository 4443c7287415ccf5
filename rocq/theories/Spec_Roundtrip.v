(** Spec_Roundtrip.v -- C70: command lines written for given values. *)
From Verif Require Import Base Model_Types Model_Api Spec_Reading Spec_Api Spec_Result Properties_Parse Properties_Spell.

(** [Request a w value vs]: give the values [vs] to the option [a], with the option word
    [w], either as following words (value = None) or inside the word, after '=' *)
Inductive request := Request (a : argument) (w : str) (value : option str) (vs : list str).
Definition r_arg (q : request) : argument := let (a, _, _, _) := q in a.
Definition r_vals (q : request) : list str := let (_, _, _, vs) := q in vs.
Definition r_words (q : request) : list str :=
  match q with Request _ w (Some _) _ => [w] | Request _ w None vs => w :: vs end.

(** the numbers of values the option accepts.  For variable-length values the words must
    not look like options of this parser, as they would end the values. *)
Definition suits (K : conf) (ar : arity) (vs : list str) : Prop :=
  match ar with
  | ANone => vs = []
  | AOne => length vs = 1
  | AFixed n => length vs = n
  | ARun => forall v, In v vs -> stops K v = false
  | AGroups n => exists gs, vs = concat gs /\ forall g, In g gs -> length g = n /\ stops K (hd "" g) = false
  end.
(** The words after '=' are arbitrary; a word "--" cannot be a separate value. *)
Definition good_request (s : state) (q : request) : Prop :=
  match q with
  | Request a w value vs =>
      In a (arguments (ready s)) /\ spells s a value w /\
      match value with
      | Some v => vs = [v] /\ (arity_of (a_cfg a) = AOne \/ arity_of (a_cfg a) = ARun)
      | None => ~ In "--" vs /\ suits (setup s) (arity_of (a_cfg a)) vs
      end
  end.

(** [shared ps l extra]: the words given to positionals, in their order: [l] for some
    first ones of [ps], [extra] behind all of them.  A variable-length positional takes
    all that remain. *)
Inductive shared : list argument -> list (argument * list str) -> list str -> Prop :=
| Sh_none : forall ps, shared ps [] []
| Sh_extra : forall extra, shared [] [] extra
| Sh_fixed : forall a ps vs l extra, vs <> [] ->
    (arity_of (a_cfg a) = AOne /\ length vs = 1) \/ arity_of (a_cfg a) = AFixed (length vs) ->
    shared ps l extra -> shared (a :: ps) ((a, vs) :: l) extra
| Sh_rest : forall a ps vs, vs <> [] ->
    arity_of (a_cfg a) = ARun \/ (exists n k, arity_of (a_cfg a) = AGroups n /\ length vs = k * n) ->
    shared (a :: ps) [(a, vs)] [].

(** the command line: the options, then "--", then the words for the positionals *)
Definition line_for (qs : list request) (l : list (argument * list str)) (extra : list str) : list str :=
  flat_map r_words qs ++ "--" :: flat_map snd l ++ extra.
(** does the option collect the values of all its occurrences (APPEND, EXTEND)? *)
Definition collects (a : argument) : bool :=
  match c_type (a_cfg a) with MULTI_OPTION | MULTI_INFINITE_OPTION | MULTI_NUMBER_OPTION | MULTI_NUMBER_INFINITE_OPTION => true | _ => false end.
(** the values asked for the option [a] *)
Definition asked (qs : list request) (a : argument) : list (list str) :=
  map r_vals (filter (fun q => Nat.eqb (a_id (r_arg q)) (a_id a)) qs).
Definition expected (qs : list request) (a : argument) : list str :=
  if collects a then concat (asked qs a) else last (asked qs a) [].
