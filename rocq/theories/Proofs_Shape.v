(** Proofs_Shape.v -- the shape of the elements of an argument (an Argument is a vector of
    elements, each of them again a vector of elements), and its text: both are kept by a
    parse. *)
From Verif Require Import Base Model_Utils Model_Number Model_Types Model_Argument Model_Usage Model_Args Model_Api
  Spec_Order Spec_Names Spec_Reading Spec_Parse Spec_Decl Spec_Finish Spec_History Spec_Api Spec_Result
  Proofs_Base Proofs_Order Proofs_Frame Proofs_Inv Proofs_ReadFacts Proofs_Reading Proofs_Parse Proofs_Decl Proofs_Finish
  Proofs_Meth Proofs_History Proofs_Config Proofs_Check Proofs_Names Proofs_Central Proofs_Dyn Properties_Parse Proofs_Swap Proofs_Kind
  Proofs_Values Proofs_Quiet Proofs_Fresh.

(** An argument with at most one value has no elements; the elements of a grouped argument
    are not empty; the elements of other arguments have no elements. *)
Definition elem_shaped (t : atype) (e : elem) : Prop := if grouped t then el_subs e <> [] else el_subs e = [].
Definition elems_shaped (t : atype) (es : list elem) : Prop := if flat t then es = [] else Forall (elem_shaped t) es.
Definition shaped (a : argument) : Prop := elems_shaped (c_type (a_cfg a)) (d_elems (a_dyn a)).

Lemma words_shaped : forall t ws, flat t = false -> grouped t = false -> elems_shaped t (map elem_word ws).
Proof. intros t ws F G. unfold elems_shaped. rewrite F. apply Forall_forall. intros e H. apply in_map_iff in H. destruct H as [w [<- _]]. unfold elem_shaped. now rewrite G. Qed.
Lemma chunks_nonempty : forall {A} n (l : list A) g, In g (chunks n l) -> g <> [].
Proof.
  intros A n l g H. unfold chunks in H. apply in_map_iff in H. destruct H as [i [<- Hi]]. apply in_seq in Hi. destruct n as [|n]; [cbn in Hi; lia|].
  assert (i * S n < length l).
  { pose proof (Nat.mul_div_le (length l) (S n) ltac:(lia)). nia. }
  intros Z. apply (f_equal (@length A)) in Z. rewrite firstn_length, skipn_length in Z. cbn [length] in Z. lia.
Qed.
Lemma groups_shaped : forall t n ws, flat t = false -> grouped t = true -> elems_shaped t (map elem_group (chunks n ws)).
Proof.
  intros t n ws F G. unfold elems_shaped. rewrite F. apply Forall_forall. intros e H. apply in_map_iff in H. destruct H as [g [<- Hg]]. unfold elem_shaped. rewrite G.
  cbn. apply chunks_nonempty in Hg. destruct g; [now elim Hg | discriminate].
Qed.
Lemma elems_app : forall t e1 e2, elems_shaped t e1 -> elems_shaped t e2 -> elems_shaped t (e1 ++ e2).
Proof. intros t e1 e2. unfold elems_shaped. destruct (flat t); [intros -> ->; reflexivity | intros; now apply Forall_app]. Qed.
Lemma elems_nil : forall t, elems_shaped t [].
Proof. intros t. unfold elems_shaped. destruct (flat t); constructor. Qed.
Lemma occ_shaped : forall c o d, elems_shaped (c_type c) (d_elems d) -> elems_shaped (c_type c) (d_elems (occ_dyn c o d)).
Proof.
  intros c o d H. assert (X : d_elems (match o_style o with Glued => seen d | _ => d end) = d_elems d) by now destruct (o_style o).
  unfold occ_dyn. cbv zeta. set (d1 := match o_style o with Glued => seen d | _ => d end) in *. rewrite <- X in H.
  destruct (c_type c) eqn:T; cbn [d_elems seen set_arg set_elems]; try exact H; try (apply words_shaped; reflexivity);
    (apply elems_app; [destruct (d_exist d1); [exact H | apply elems_nil] | first [apply words_shaped; reflexivity | apply groups_shaped; reflexivity]]).
Qed.
Lemma pos_shaped : forall c vs d, elems_shaped (c_type c) (d_elems d) -> elems_shaped (c_type c) (d_elems (pos_dyn c vs d)).
Proof.
  intros c vs d H. unfold pos_dyn. destruct (c_type c) eqn:T; cbn [d_elems seen set_arg set_elems]; try exact H;
    (apply elems_app; [exact H | first [apply words_shaped; reflexivity | apply groups_shaped; reflexivity]]).
Qed.
Lemma pieces_shaped : forall id c pcs d, elems_shaped (c_type c) (d_elems d) -> elems_shaped (c_type c) (d_elems (pieces_dyn id c pcs d)).
Proof.
  intros id c pcs. unfold pieces_dyn. induction pcs as [|p pcs IH]; intros d H; [exact H|]. cbn [fold_left]. apply IH. destruct p as [w os used|i vs|w|]; cbn [piece_dyn]; try exact H.
  - revert d H. induction os as [|o os IHo]; intros d H; [exact H|]. cbn [fold_left]. apply IHo. destruct (Nat.eqb (o_id o) id); [now apply occ_shaped | exact H].
  - destruct (Nat.eqb i id); [now apply pos_shaped | exact H].
Qed.
Lemma clear_shaped : forall a, shaped a -> shaped (clear_arg a).
Proof.
  intros a H. unfold shaped, clear_arg, elems_shaped in *. cbn [arg_dyn a_cfg a_dyn d_elems]. destruct (flat (c_type (a_cfg a))); [now rewrite H|].
  apply Forall_forall. intros e He. apply in_map_iff in He. destruct He as [x [<- Hx]]. rewrite Forall_forall in H. specialize (H x Hx). unfold elem_shaped in *. cbn [clear_elem el_subs].
  destruct (grouped (c_type (a_cfg a))); destruct (el_subs x); try congruence; try discriminate; reflexivity.
Qed.
Lemma read_shaped : forall pcs a, shaped a -> shaped (read_arg pcs a).
Proof. intros pcs a H. apply clear_shaped in H. unfold shaped, read_arg in *. cbn [arg_dyn a_cfg a_dyn] in *. now apply pieces_shaped. Qed.
Lemma shape_eq : forall t es es', map (fun e => length (el_subs e)) es' = map (fun e => length (el_subs e)) es -> elems_shaped t es -> elems_shaped t es'.
Proof.
  intros t es es' E H. unfold elems_shaped in *. destruct (flat t); [subst es; destruct es'; [reflexivity | discriminate E]|].
  revert es' E. induction H as [|e es He _ IH]; intros [|e' es'] E; try discriminate E; [constructor|]. cbn in E. injection E as E1 E2. constructor; [|now apply IH].
  unfold elem_shaped in *. destruct (grouped t), (el_subs e), (el_subs e'); try discriminate E1; try congruence; try discriminate.
Qed.
Lemma num_shape : forall t d, map (fun e => length (el_subs e)) (d_elems (num_dyn t d)) = map (fun e => length (el_subs e)) (d_elems d).
Proof.
  intros t d. assert (X : map (fun e => length (el_subs e)) (map num_elem (d_elems d)) = map (fun e => length (el_subs e)) (d_elems d)).
  { rewrite map_map. apply map_ext. intros [l ls]. unfold num_elem. cbn. destruct ls; [reflexivity|]. cbn. now rewrite map_length. }
  unfold num_dyn. destruct t; try reflexivity; destruct (d_elems d) eqn:E; cbn [d_elems]; rewrite ?E; try reflexivity; exact X.
Qed.
Lemma store_elems_shape : forall es vs, map (fun e => length (el_subs e)) (store_elems es vs) = map (fun e => length (el_subs e)) es.
Proof. induction es as [|e es IH]; intros [|v vs]; try reflexivity. cbn. now rewrite IH. Qed.
Lemma store_groups_shape : forall es vs, map (fun e => length (el_subs e)) (store_groups es vs) = map (fun e => length (el_subs e)) es.
Proof.
  induction es as [|e es IH]; intros vs; [reflexivity|]. cbn [store_groups]. destruct (store_leaves (el_subs e) vs) as [ls rest] eqn:S. cbn [map el_subs]. rewrite IH. f_equal.
  destruct (store_leaves_over (el_subs e) vs) as [_ [L _]]. now rewrite S in L.
Qed.
Lemma checked_shape : forall a, map (fun e => length (el_subs e)) (d_elems (a_dyn (checked a))) = map (fun e => length (el_subs e)) (d_elems (a_dyn a)).
Proof.
  intros a. unfold checked. destruct (c_valid (a_cfg a)) as [v|]; [|reflexivity]. destruct (d_exist (a_dyn a)); [|reflexivity].
  destruct (v_fn v (plain_values a)) as [[] vs| |]; try reflexivity. cbn [arg_dyn a_dyn]. unfold stored.
  destruct (c_type (a_cfg a)); try reflexivity; try (destruct vs; reflexivity); cbn [dyn_elems d_elems]; first [apply store_elems_shape | apply store_groups_shape].
Qed.
Lemma finished_shaped : forall a, shaped a -> shaped (finished a).
Proof.
  intros a H. unfold shaped. rewrite finished_cfg. apply (shape_eq _ (d_elems (a_dyn a))); [|exact H]. unfold finished. cbn [arg_dyn a_dyn]. rewrite num_shape. apply checked_shape.
Qed.
(** the text: of an argument with several values (or none) it stays the declared default *)
Definition one_valued (t : atype) : bool := match t with SIMPLE_OPTION | POSITIONAL_ARGUMENT => true | _ => false end.
Lemma pieces_text : forall id c pcs d, one_valued (c_type c) = false -> d_arg (pieces_dyn id c pcs d) = d_arg d.
Proof.
  intros id c pcs d H. unfold pieces_dyn. revert d. induction pcs as [|p pcs IH]; intros d; [reflexivity|]. cbn [fold_left]. rewrite IH. destruct p as [w os used|i vs|w|]; cbn [piece_dyn]; try reflexivity.
  - revert d. induction os as [|o os IHo]; intros d; [reflexivity|]. cbn [fold_left]. rewrite IHo. destruct (Nat.eqb (o_id o) id); [|reflexivity].
    unfold occ_dyn. destruct (c_type c); try discriminate H; destruct (o_style o); reflexivity.
  - destruct (Nat.eqb i id); [|reflexivity]. unfold pos_dyn. destruct (c_type c); try discriminate H; reflexivity.
Qed.
Lemma finished_text : forall a, one_valued (c_type (a_cfg a)) = false -> d_arg (a_dyn (finished a)) = d_arg (a_dyn a).
Proof.
  intros a H. unfold finished. cbn [arg_dyn a_dyn]. destruct (views_num (c_type (a_cfg (checked a))) (a_dyn (checked a))) as [-> _].
  unfold checked. destruct (c_valid (a_cfg a)) as [v|]; [|reflexivity]. destruct (d_exist (a_dyn a)); [|reflexivity].
  destruct (v_fn v (plain_values a)) as [[] vs| |]; try reflexivity. cbn [arg_dyn a_dyn]. unfold stored. destruct (c_type (a_cfg a)); try discriminate H; reflexivity.
Qed.
Lemma parsed_text : forall pcs b, one_valued (c_type (a_cfg b)) = false -> d_arg (a_dyn (finished (read_arg pcs b))) = c_default (a_cfg b).
Proof. intros pcs b H. rewrite finished_text by exact H. unfold read_arg. cbn [arg_dyn a_dyn]. now rewrite pieces_text. Qed.

(** parsers all of whose arguments have the right shape *)
Lemma ready_shaped : forall s a, wf0 s -> (forall b, In b (arguments s) -> shaped b) -> In a (arguments (ready s)) -> shaped a.
Proof.
  intros s a W H Ia. destruct (ready_cases s W) as [[E _]|[E _]]; rewrite E in Ia; [now apply H|].
  assert (Ib : In a (sort_by arg_lt (s_args s ++ [Arg (fresh_id s) 0 (help_cfg (free_help s)) new_dyn]))) by exact Ia.
  apply (proj1 (sort_In arg_lt _ _)) in Ib.
  apply in_app_or in Ib. destruct Ib as [Ib|[<-|[]]]; [now apply H | reflexivity].
Qed.
Lemma settled_shaped : forall s a, fresh_with settled s -> In a (arguments s) -> has_values (a_cfg a) = true -> shaped a.
Proof.
  intros s a F Ia HV. pose proof (settled_clean s F a Ia) as CL. unfold shaped, elems_shaped. destruct (flat (c_type (a_cfg a))) eqn:FL.
  - apply (cl_single a CL). unfold has_values, arity_of in HV. destruct (c_type (a_cfg a)); try discriminate FL; try discriminate HV; auto.
  - eapply Forall_impl; [|exact (cl_elems a CL HV)]. intros e. unfold elem_clean, elem_shaped. destruct (grouped (c_type (a_cfg a))); intros [X _]; exact X.
Qed.

Lemma parse_shaped : forall s argv ws s', usable s -> interprets s -> command_line argv ws -> parseArguments argv s = (s', Ok tt) ->
  (forall b, In b (arguments s) -> shaped b) -> forall a, In a (arguments s') -> shaped a.
Proof.
  intros s argv ws s' U I C E H a Ia. destruct (result s argv ws s' a U C I E Ia) as [pcs [b [_ [Ib [-> _]]]]].
  apply finished_shaped, read_shaped, (ready_shaped s b (usable_wf0 s U) H Ib).
Qed.
Lemma parsed_shaped : forall s argv ws s' a, usable s -> interprets s -> command_line argv ws -> parseArguments argv s = (s', Ok tt) ->
  In a (arguments s') -> (forall b, In b (arguments (ready s)) -> a_id b = a_id a -> shaped b) ->
  shaped a /\ (one_valued (c_type (a_cfg a)) = false -> d_arg (a_dyn a) = c_default (a_cfg a)).
Proof.
  intros s argv ws s' a U I C E Ia H. destruct (result s argv ws s' a U C I E Ia) as [pcs [b [_ [Ib [Ea [_ [Ec [Ei _]]]]]]]]. split.
  - rewrite Ea. apply finished_shaped, read_shaped. apply H; [exact Ib | now symmetry].
  - intros O. rewrite Ea at 1. rewrite Ec. apply parsed_text. now rewrite <- Ec.
Qed.
