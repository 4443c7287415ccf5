(** Spec_Peek.v -- parsers that differ in what their validators answer. *)
From Verif Require Import Base Model_Number Model_Types Model_Argument Model_Args Spec_Reading Spec_Finish Properties_Final.

(** the same validator object (or none), perhaps with other answers *)
Definition same_object (v w : option validator) : Prop := option_map v_id w = option_map v_id v.
(** the same argument but for what its validator answers *)
Definition same_arg_but_answers (a b : argument) : Prop :=
  exists w, same_object (c_valid (a_cfg a)) w /\ b = Arg (a_id a) (a_gen a) (cfg_valid (a_cfg a) w (c_valid_del (a_cfg a))) (a_dyn a).
(** the same parser but for what its validators answer *)
Record same_but_answers (s s' : state) : Prop := SameButAnswers {
  sv_args : Forall2 same_arg_but_answers (s_args s) (s_args s');
  sv_rest : with_args s' [] = with_args s []
}.

(** ** what user code can see during the call *)

(** [y] is the argument [x] as the reading of the line [pcs] leaves it: it is present iff it
    is on the line and has the values of the line, or those it started with; and it has no
    number yet, nor has any of its elements *)
Record as_read (pcs : list piece) (x y : argument) : Prop := AsRead {
  ar_decl : a_id y = a_id x /\ a_gen y = a_gen x /\ a_cfg y = a_cfg x;
  ar_exists : d_exist (a_dyn y) = on_line (a_id x) pcs;
  ar_values : plain_values y = if on_line (a_id x) pcs then line_values pcs x else start_values x;
  ar_number : isNumber y = false;
  ar_numbers : forall e, In e (d_elems (a_dyn y)) -> lf_num (el_leaf e) = None /\ forall l, In l (el_subs e) -> lf_num l = None
}.
