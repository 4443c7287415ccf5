(** Proofs_Redecl.v -- lemmas behind C41, C42, C43, C52: single declaration calls. *)
From Coq Require Import Permutation Sorted.
From Verif Require Import Base Model_Utils Model_Number Model_Types Model_Argument Model_Usage Model_Args Model_Api
  Spec_Order Spec_Names Spec_Reading Spec_Parse Spec_Decl Spec_Finish Spec_History Spec_Api Spec_Result
  Proofs_Base Proofs_Order Proofs_Frame Proofs_Inv Proofs_ReadFacts Proofs_Reading Proofs_Parse Proofs_Decl Proofs_Finish
  Proofs_Meth Proofs_History Proofs_Config Proofs_Names Proofs_Central.

Lemma update_get : forall s n a ms, wf0 s -> getArgument s n = Ok a -> step (OpUpdate n ms) s = run_meths (a_id a) ms s.
Proof.
  intros s n a ms W G. destruct (getArgument_inv s n a W G) as [Ia [_ As]]. unfold step.
  assert (E : updateArgument n s = (s, Ok (a_id a))).
  { unfold updateArgument, find_name. unfold bind at 1. rewrite As. unfold bind, deref. now rewrite (In_find_id _ _ (wf_ids _ W) Ia). }
  rewrite (bind_ok _ _ _ _ _ E). reflexivity.
Qed.
Lemma one_meth : forall m s a, wf0 s -> In a (s_args s) -> run_meths (a_id a) [m] s = outcome (meth_state m a s).
Proof.
  intros m s a W I. cbn [run_meths]. unfold seq. pose proof (meth_eq m s a W I) as E.
  destruct (meth_state m a s) as [s1 [e|]]; cbn [outcome] in *; unfold bind; rewrite E; reflexivity.
Qed.
Lemma more_meths : forall m ms s a s1, wf0 s -> In a (s_args s) -> meth_state m a s = (s1, None) ->
  run_meths (a_id a) (m :: ms) s = run_meths (a_id a) ms s1.
Proof.
  intros m ms s a s1 W I E. pose proof (meth_eq m s a W I) as R. rewrite E in R. cbn [outcome] in R.
  cbn [run_meths]. unfold seq, bind. now rewrite R.
Qed.
Lemma stop_meths : forall m ms s a s1 e, wf0 s -> In a (s_args s) -> meth_state m a s = (s1, Some e) ->
  run_meths (a_id a) (m :: ms) s = (s1, Throw e).
Proof.
  intros m ms s a s1 e W I E. pose proof (meth_eq m s a W I) as R. rewrite E in R. cbn [outcome] in R.
  cbn [run_meths]. unfold seq, bind. now rewrite R.
Qed.

(** an argument without declared defaults *)
Lemma no_defaults_arg : forall a, c_defaults (a_cfg a) = [] -> defaults_arg a = (a, None).
Proof. intros a E. unfold defaults_arg, no_defaults. rewrite E. now rewrite orb_true_r. Qed.
Lemma retyped_defaults : forall c k, c_defaults (retyped c k) = c_defaults c. Proof. now intros c [[t n] act]. Qed.
Definition is_role (t : atype) : bool := match t with HELP_OPTION | VERSION_OPTION => true | _ => false end.
Lemma declared_plain : forall a s k, c_defaults (a_cfg a) = [] -> kind_of (a_cfg a) = Some k -> is_role (fst (fst k)) = false ->
  declared a s = (put (arg_cfg a (retyped (a_cfg a) k)) s, None).
Proof.
  intros a s k D K R. unfold declared. rewrite K. rewrite no_defaults_arg; [|cbn [arg_cfg a_cfg]; now rewrite retyped_defaults].
  cbn [fst snd]. destruct (fst (fst k)); try discriminate R; reflexivity.
Qed.
Lemma declared_helper : forall a s k, c_defaults (a_cfg a) = [] -> kind_of (a_cfg a) = Some k -> fst (fst k) = HELP_OPTION ->
  declared a s = if claims (s_help s) (ptr_of a) then (with_help (put (arg_cfg a (retyped (a_cfg a) k)) s) (Some (ptr_of a)), None)
                 else (put a s, Some (Exn KArgument (first_name (a_cfg a)) "help action already defined")).
Proof.
  intros a s k D K R. unfold declared. rewrite K, R. rewrite no_defaults_arg; [|cbn [arg_cfg a_cfg]; now rewrite retyped_defaults]. reflexivity.
Qed.
Lemma declared_version : forall a s k, c_defaults (a_cfg a) = [] -> kind_of (a_cfg a) = Some k -> fst (fst k) = VERSION_OPTION ->
  declared a s = if claims (s_version s) (ptr_of a) then (with_version (put (arg_cfg a (retyped (a_cfg a) k)) s) (Some (ptr_of a)), None)
                 else (put a s, Some (Exn KArgument (first_name (a_cfg a)) "version action already defined")).
Proof.
  intros a s k D K R. unfold declared. rewrite K, R. rewrite no_defaults_arg; [|cbn [arg_cfg a_cfg]; now rewrite retyped_defaults]. reflexivity.
Qed.
Lemma meth_wf : forall m s a s1 e, wf s -> In a (s_args s) -> meth_state m a s = (s1, e) -> wf s1.
Proof.
  intros m s a s1 e W I E. pose proof (wf_run_meth (a_id a) m s W) as X. rewrite (meth_eq m s a (proj1 W) I), E in X.
  destruct e; exact X.
Qed.

(** action() and nargs() as changes of the declaration *)
Definition field (m : meth) (c : acfg) : acfg :=
  match m with MAction act => cfg_action c act | MNargs n => cfg_nargs c (n mod w64)%N | _ => c end.
Definition kind_meth (m : meth) : bool := match m with MAction _ | MNargs _ => true | _ => false end.
Lemma meth_kind : forall m a s, kind_meth m = true ->
  meth_state m a s = declared (arg_cfg a (field m (a_cfg a))) (match m with MAction _ => released a s | _ => s end).
Proof. intros m a s H. destruct m; try discriminate H; reflexivity. Qed.
Lemma field_defaults : forall m c, c_defaults (field m c) = c_defaults c. Proof. intros m c. destruct m; reflexivity. Qed.
Lemma retyped_field : forall m c k, retyped (field m c) k = retyped c k.
Proof. intros m c [[t n] act]. destruct m, c; reflexivity. Qed.
Lemma retyped_retyped : forall c k k', retyped (retyped c k) k' = retyped c k'.
Proof. intros c [[t n] act] [[t' n'] act']; destruct c; reflexivity. Qed.
Lemma arg_cfg_cfg : forall a c c', arg_cfg (arg_cfg a c) c' = arg_cfg a c'. Proof. reflexivity. Qed.

(** one accepted call that does not make a help / version option *)
Lemma kind_call : forall m a s k, kind_meth m = true -> c_defaults (a_cfg a) = [] ->
  c_action (a_cfg a) <> HELP -> c_action (a_cfg a) <> VERSION ->
  kind_of (field m (a_cfg a)) = Some k -> is_role (fst (fst k)) = false ->
  meth_state m a s = (put (arg_cfg a (retyped (a_cfg a) k)) s, None).
Proof.
  intros m a s k M D H V K R. rewrite (meth_kind m a s M).
  assert (Z : (match m with MAction _ => released a s | _ => s end) = s).
  { destruct m; try reflexivity. unfold released. destruct (c_action (a_cfg a)); congruence. }
  rewrite Z, (declared_plain _ s k); [ | cbn [arg_cfg a_cfg]; now rewrite field_defaults | exact K | exact R].
  cbn [arg_cfg a_cfg]. rewrite retyped_field. reflexivity.
Qed.
Lemma kind_calls : forall m1 m2 a s k1 k2, wf s -> In a (s_args s) -> kind_meth m1 = true -> kind_meth m2 = true ->
  c_defaults (a_cfg a) = [] -> c_action (a_cfg a) <> HELP -> c_action (a_cfg a) <> VERSION ->
  kind_of (field m1 (a_cfg a)) = Some k1 -> is_role (fst (fst k1)) = false -> snd k1 <> HELP -> snd k1 <> VERSION ->
  kind_of (field m2 (retyped (a_cfg a) k1)) = Some k2 -> is_role (fst (fst k2)) = false ->
  run_meths (a_id a) [m1; m2] s = (put (arg_cfg a (retyped (a_cfg a) k2)) s, Ok tt).
Proof.
  intros m1 m2 a s k1 k2 W I M1 M2 D H V K1 R1 H1 V1 K2 R2.
  pose proof (kind_call m1 a s k1 M1 D H V K1 R1) as E1. rewrite (more_meths m1 [m2] s a _ (proj1 W) I E1).
  set (a1 := arg_cfg a (retyped (a_cfg a) k1)) in *.
  assert (W1 : wf (put a1 s)) by (eapply meth_wf; [exact W | exact I | exact E1]).
  assert (I1 : In a1 (s_args (put a1 s))) by (eapply put_In_self; [exact I | reflexivity]).
  change (a_id a) with (a_id a1). rewrite (one_meth m2 (put a1 s) a1 (proj1 W1) I1).
  rewrite (kind_call m2 a1 (put a1 s) k2 M2).
  - cbn [outcome]. rewrite put_put; [|reflexivity]. unfold a1. cbn [arg_cfg a_cfg]. now rewrite retyped_retyped.
  - unfold a1. cbn [arg_cfg a_cfg]. now rewrite retyped_defaults.
  - unfold a1. cbn [arg_cfg a_cfg]. destruct k1 as [[t n] act]; exact H1.
  - unfold a1. cbn [arg_cfg a_cfg]. destruct k1 as [[t n] act]; exact V1.
  - exact K2.
  - exact R2.
Qed.
