(** Spec_Texts.v -- programs that differ only in texts for the reader of the usage. *)
From Verif Require Import Base Model_Number Model_Types Model_Argument Model_Usage Model_Args Model_Api Spec_Parse Proofs_Finish.

(** the same argument but for help() and metavar() *)
Definition same_arg_but_texts (a b : argument) : Prop :=
  exists h m, b = Arg (a_id a) (a_gen a) (cfg_metavar (cfg_help (a_cfg a) h) m) (a_dyn a).
(** the same object but for those, the program name and the settings of the usage *)
Record same_but_texts (s s' : state) : Prop := SameButTexts {
  st_args : Forall2 same_arg_but_texts (s_args s) (s_args s');
  st_map : s_map s' = s_map s;
  st_help : s_help s' = s_help s;
  st_version : s_version s' = s_version s;
  st_verstr : s_verstr s' = s_verstr s;
  st_modes : s_modes s' = s_modes s;
  st_additional : s_additional s' = s_additional s;
  st_freed : s_freed s' = s_freed s;
  st_dlog : s_dlog s' = s_dlog s
}.
(** the same call but for the texts *)
Inductive meth_texts : meth -> meth -> Prop :=
| mt_same : forall m, meth_texts m m
| mt_help : forall h h', meth_texts (MHelp h) (MHelp h')
| mt_metavar : forall h h', meth_texts (MMetavar h) (MMetavar h').
Inductive op_texts : op -> op -> Prop :=
| ot_same : forall o, (forall argv, o <> OpParse argv) -> op_texts o o
| ot_parse : forall a0 ws, op_texts (OpParse (a0 :: ws)) (OpParse (a0 :: ws))
| ot_add : forall ns ms ms', Forall2 meth_texts ms ms' -> op_texts (OpAdd ns ms) (OpAdd ns ms')
| ot_update : forall n ms ms', Forall2 meth_texts ms ms' -> op_texts (OpUpdate n ms) (OpUpdate n ms')
| ot_bin : forall b b', op_texts (OpSetBinaryName b) (OpSetBinaryName b')
| ot_usage : forall u u', op_texts (OpSetUsage u) (OpSetUsage u')
| ot_description : forall u u', op_texts (OpSetDescription u) (OpSetDescription u')
| ot_epilog : forall u u', op_texts (OpSetEpilog u) (OpSetEpilog u')
| ot_width : forall p a s h p' a' s' h', op_texts (OpSetUsageWidth p a s h) (OpSetUsageWidth p' a' s' h').
(** the help option was met *)
Definition met_help (t : state) : Prop := met (s_help t) t = true.
(** the same outcome, except that each shows its own usage *)
Inductive outcome_texts : res unit -> res unit -> Prop :=
| rt_same : forall r, outcome_texts r r
| rt_thrown : forall t t', same_but_texts t t' -> met_help t -> outcome_texts (Throw (Exn KHelp "" (usage_of t))) (Throw (Exn KHelp "" (usage_of t')))
| rt_printed : forall t t', same_but_texts t t' -> met_help t -> outcome_texts (Exit (usage_of t ^^ nl)) (Exit (usage_of t' ^^ nl)).
