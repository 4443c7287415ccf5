(** Spec_Insert.v -- C77: options inserted into a command line. *)
From Verif Require Import Base Model_Types Model_Args Model_Api Spec_Reading Spec_Parse Spec_Api Spec_Result Properties_Parse Properties_Spell Spec_Roundtrip.

(** the word that follows ends variable-length values *)
Definition ends_values (s : state) (post : list str) : Prop := match post with [] => True | w :: _ => w = "--" \/ stops (setup s) w = true end.
(** [post] may follow the request: the values of an option with a variable number of them,
    given as words of their own, must end there *)
Definition followed (s : state) (q : request) (post : list str) : Prop :=
  match q with
  | Request a _ None _ => match arity_of (a_cfg a) with ARun | AGroups _ => ends_values s post | _ => True end
  | _ => True
  end.

(** The option occurrences [qs] (each with its values, see Spec_Roundtrip) are inserted into
    the line  a0 pre post  at a place where its reading, having read [pre] as the pieces
    [p], goes on with a new word (so not among the values of an option or positional, and
    not behind "--").  If this is not the beginning of the line, the positionals must have
    no nargs(0). *)
Definition longer (a0 : str) (pre : list str) (qs : list request) (post : list str) : list str := a0 :: pre ++ flat_map r_words qs ++ post.
Record insertion (s : state) (a0 : str) (pre : list str) (qs : list request) (post : list str) (p : list piece) : Prop := {
  in_usable : usable s;
  in_interprets : interprets s;
  in_good : Forall (good_request s) qs;
  in_followed : forall q0 q, qs = q0 ++ [q] -> followed s q post;
  in_place : exists left, reaches s (pre ++ post) p left post;
  in_nargs : p = [] \/ forall b, In b (arguments (ready s)) -> isPositional b = true -> getNargs b <> 0%N;
  in_line : command_line (a0 :: pre ++ post) (pre ++ post);
  in_longer : command_line (longer a0 pre qs post) (pre ++ flat_map r_words qs ++ post)
}.
(** the same argument but for its count() *)
Definition same_but_count (a b : argument) : Prop :=
  a_id a = a_id b /\ a_gen a = a_gen b /\ a_cfg a = a_cfg b /\ d_exist (a_dyn a) = d_exist (a_dyn b) /\ d_arg (a_dyn a) = d_arg (a_dyn b) /\
  d_num (a_dyn a) = d_num (a_dyn b) /\ d_elems (a_dyn a) = d_elems (a_dyn b).
