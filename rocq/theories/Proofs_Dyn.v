(** Proofs_Dyn.v -- the values of one argument after a reading, and after validation. *)
From Coq Require Import Permutation Sorted.
From Verif Require Import Base Model_Utils Model_Number Model_Types Model_Argument Model_Usage Model_Args Model_Api
  Spec_Order Spec_Names Spec_Reading Spec_Parse Spec_Finish Spec_History Spec_Api Spec_Result
  Proofs_Base Proofs_Order Proofs_Frame Proofs_Inv Proofs_ReadFacts Proofs_Reading Proofs_Parse Proofs_Decl Proofs_Finish
  Proofs_Meth Proofs_History Proofs_Config Proofs_Central.

(* ------------------------------------------------------------------ *)
(** * an option: the fold of its occurrences *)
Definition occs_dyn (c : acfg) (os : list occ) (d : adyn) : adyn := fold_left (fun d o => occ_dyn c o d) os d.
Lemma fold_filter : forall {A B} (p : B -> bool) (f : A -> B -> A) l a,
  fold_left (fun a b => if p b then f a b else a) l a = fold_left f (filter p l) a.
Proof. intros A B p f. induction l as [|b l IH]; intros a; simpl; [reflexivity|]. destruct (p b); simpl; apply IH. Qed.
Lemma occs_of_cons : forall p pcs, occs_of (p :: pcs) = (match p with PcOption _ os _ => os | _ => [] end) ++ occs_of pcs.
Proof. reflexivity. Qed.
Lemma occs_of_app : forall p q, occs_of (p ++ q) = occs_of p ++ occs_of q.
Proof. intros. apply flat_map_app. Qed.
Lemma given_of_app : forall p q, given_of (p ++ q) = given_of p ++ given_of q.
Proof. intros. apply flat_map_app. Qed.
Lemma additional_of_app : forall p q, additional_of (p ++ q) = additional_of p ++ additional_of q.
Proof. intros. apply flat_map_app. Qed.
Lemma occs_for_app : forall id p q, occs_for id (p ++ q) = occs_for id p ++ occs_for id q.
Proof. intros. unfold occs_for. now rewrite occs_of_app, filter_app. Qed.
Lemma option_dyn : forall id c pcs d, (forall vs, ~ In (PcPositional id vs) pcs) ->
  pieces_dyn id c pcs d = occs_dyn c (occs_for id pcs) d.
Proof.
  intros id c. unfold pieces_dyn. induction pcs as [|p pcs IH]; intros d H; [reflexivity|]. 
  change (p :: pcs) with ([p] ++ pcs) at 2. rewrite occs_for_app. unfold occs_dyn. rewrite fold_left_app.
  cbn [fold_left]. rewrite IH by (intros vs I; apply (H vs); now right).
  unfold occs_dyn. f_equal. unfold occs_for. destruct p as [w os used|i vs|w|]; cbn [piece_dyn occs_of flat_map app filter fold_left]; try reflexivity.
  - rewrite app_nil_r. apply fold_filter.
  - destruct (Nat.eqb i id) eqn:E; [|reflexivity]. apply Nat.eqb_eq in E. subst. exfalso. apply (H vs). now left.
Qed.
Definition weight (o : occ) : nat := match o_style o with Glued => 2 | _ => 1 end.
Lemma occs_dyn_app : forall c os os' d, occs_dyn c (os ++ os') d = occs_dyn c os' (occs_dyn c os d).
Proof. intros. apply fold_left_app. Qed.
Lemma occ_exist : forall c o d, d_exist (occ_dyn c o d) = true.
Proof. reflexivity. Qed.
Lemma occ_count : forall c o d, d_count (occ_dyn c o d) = d_count d + weight o.
Proof. intros c [i st vs] d. unfold occ_dyn, weight. cbn [o_style]. destruct st, (c_type c); simpl; lia. Qed.
Lemma occs_exist : forall c os d, d_exist (occs_dyn c os d) = d_exist d || (match os with [] => false | _ => true end).
Proof.
  intros c. induction os as [|o os IH] using rev_ind; intros d; [simpl; now rewrite orb_false_r|].
  rewrite occs_dyn_app. simpl. destruct os; simpl; now rewrite orb_true_r.
Qed.
Lemma occs_count : forall c os d, d_count (occs_dyn c os d) = d_count d + list_sum (map weight os).
Proof.
  intros c. induction os as [|o os IH]; intros d; [simpl; lia|]. change (o :: os) with ([o] ++ os). rewrite occs_dyn_app, IH.
  simpl occs_dyn at 1. rewrite occ_count. simpl. lia.
Qed.
(** the last occurrence *)
Lemma occs_simple : forall c os o d, c_type c = SIMPLE_OPTION -> d_arg (occs_dyn c (os ++ [o]) d) = hd "" (o_vals o).
Proof. intros c os o d T. rewrite occs_dyn_app. simpl. unfold occ_dyn. rewrite T. now destruct (o_style o). Qed.
Lemma occs_simple_elems : forall c os d, c_type c = SIMPLE_OPTION -> d_elems (occs_dyn c os d) = d_elems d.
Proof.
  intros c os d T. revert d. induction os as [|o os IH]; intros d; [reflexivity|]. change (o :: os) with ([o] ++ os).
  rewrite occs_dyn_app, IH. simpl. unfold occ_dyn. rewrite T. now destruct (o_style o).
Qed.
Lemma occs_last : forall c os o d, c_type c = NUMBER_OPTION \/ c_type c = INFINITE_OPTION ->
  d_elems (occs_dyn c (os ++ [o]) d) = map elem_word (o_vals o).
Proof. intros c os o d T. rewrite occs_dyn_app. simpl. unfold occ_dyn. destruct T as [T|T]; rewrite T; reflexivity. Qed.
(** accumulating options *)
Definition occ_elems (c : acfg) (o : occ) : list elem :=
  match c_type c with
  | MULTI_OPTION | MULTI_INFINITE_OPTION => map elem_word (o_vals o)
  | MULTI_NUMBER_OPTION | MULTI_NUMBER_INFINITE_OPTION => map elem_group (chunks (N.to_nat (c_nargs c)) (o_vals o))
  | _ => []
  end.
Definition accumulates (t : atype) : bool :=
  match t with MULTI_OPTION | MULTI_INFINITE_OPTION | MULTI_NUMBER_OPTION | MULTI_NUMBER_INFINITE_OPTION => true | _ => false end.
Lemma occ_acc : forall c o d, accumulates (c_type c) = true ->
  d_elems (occ_dyn c o d) = (if d_exist d || (match o_style o with Glued => true | _ => false end) then d_elems d else []) ++ occ_elems c o.
Proof.
  intros c o d T. unfold occ_dyn, occ_elems. destruct (c_type c); try discriminate; destruct (o_style o); simpl; destruct (d_exist d); reflexivity.
Qed.
Lemma occs_acc_exist : forall c os d, accumulates (c_type c) = true -> d_exist d = true ->
  d_elems (occs_dyn c os d) = d_elems d ++ flat_map (occ_elems c) os.
Proof.
  intros c. induction os as [|o os IH]; intros d T E; [simpl; now rewrite app_nil_r|]. change (o :: os) with ([o] ++ os) at 1.
  rewrite occs_dyn_app, IH by auto. change (occs_dyn c [o] d) with (occ_dyn c o d). rewrite occ_acc by exact T. rewrite E. simpl. now rewrite app_assoc.
Qed.
Lemma occs_acc : forall c o os d, accumulates (c_type c) = true -> d_exist d = false ->
  d_elems (occs_dyn c (o :: os) d) = (match o_style o with Glued => d_elems d | _ => [] end) ++ flat_map (occ_elems c) (o :: os).
Proof.
  intros c o os d T E. change (o :: os) with ([o] ++ os) at 1. rewrite occs_dyn_app, occs_acc_exist by auto. change (occs_dyn c [o] d) with (occ_dyn c o d).
  rewrite occ_acc by exact T. rewrite E, <- app_assoc. f_equal. now destruct (o_style o).
Qed.
(** flags *)
Lemma occs_flag : forall c os d, arity_of c = ANone -> d_arg (occs_dyn c os d) = d_arg d /\ d_elems (occs_dyn c os d) = d_elems d /\ d_num (occs_dyn c os d) = d_num d.
Proof.
  intros c. induction os as [|o os IH]; intros d T; [auto|]. change (o :: os) with ([o] ++ os). rewrite occs_dyn_app.
  destruct (IH (occs_dyn c [o] d) T) as [A [B C]]. rewrite A, B, C. simpl. unfold occ_dyn, arity_of in *.
  destruct (c_type c); try discriminate; now destruct (o_style o).
Qed.

(* ------------------------------------------------------------------ *)
(** * a positional: the words given to it *)
Definition given (id : nat) (pcs : list piece) : option (list str) :=
  option_map snd (find (fun g => Nat.eqb (fst g) id) (given_of pcs)).
Lemma occs_none : forall id pcs, (forall o, In o (occs_of pcs) -> o_id o <> id) -> occs_for id pcs = [].
Proof.
  intros id pcs H. unfold occs_for. induction (occs_of pcs) as [|o os IH]; [reflexivity|]. simpl.
  destruct (Nat.eqb (o_id o) id) eqn:E; [apply Nat.eqb_eq in E; exfalso; apply (H o); [now left | exact E]|].
  apply IH. intros o' I. apply H. now right.
Qed.
Lemma positional_dyn : forall id c pcs d, (forall o, In o (occs_of pcs) -> o_id o <> id) -> NoDup (map fst (given_of pcs)) ->
  pieces_dyn id c pcs d = match given id pcs with Some vs => pos_dyn c vs d | None => d end.
Proof.
  intros id c. unfold pieces_dyn. induction pcs as [|p pcs IH]; intros d H ND; [reflexivity|]. cbn [fold_left].
  destruct p as [w os used|i vs|w|]; cbn [piece_dyn].
  - rewrite (fold_filter (fun o => Nat.eqb (o_id o) id) (fun d o => occ_dyn c o d)).
    replace (filter (fun o => Nat.eqb (o_id o) id) os) with (@nil occ).
    + cbn [fold_left]. apply IH; [|exact ND]. intros o I. apply H. rewrite occs_of_cons. apply in_app_iff. now right.
    + symmetry. pose proof (occs_none id [PcOption w os used]) as Q. unfold occs_for in Q. cbn in Q. rewrite app_nil_r in Q. apply Q. intros o I. apply H. rewrite occs_of_cons.
      apply in_app_iff. now left.
  - change (given_of (PcPositional i vs :: pcs)) with ((i, vs) :: given_of pcs) in *. simpl in ND. inversion ND as [|x l N1 N2]; subst.
    rewrite IH; [|intros o I; apply H; rewrite occs_of_cons; exact I|exact N2].
    unfold given. change (given_of (PcPositional i vs :: pcs)) with ((i, vs) :: given_of pcs). cbn [find fst].
    destruct (Nat.eqb i id) eqn:E; [|reflexivity]. apply Nat.eqb_eq in E. subst i. 
    destruct (find (fun g => Nat.eqb (fst g) id) (given_of pcs)) as [g|] eqn:F; [|reflexivity].
    exfalso. apply find_some in F. destruct F as [F1 F2]. apply Nat.eqb_eq in F2. subst id. apply N1. now apply in_map.
  - apply IH; [|exact ND]. intros o I. apply H. rewrite occs_of_cons. exact I.
  - apply IH; [|exact ND]. intros o I. apply H. rewrite occs_of_cons. exact I.
Qed.
Lemma pos_exist : forall c vs d, d_exist (pos_dyn c vs d) = true.
Proof. reflexivity. Qed.
Lemma pos_count : forall c vs d, d_count (pos_dyn c vs d) = d_count d.
Proof. intros c vs d. unfold pos_dyn. now destruct (c_type c). Qed.
Lemma given_in : forall id pcs vs, given id pcs = Some vs -> In (id, vs) (given_of pcs).
Proof.
  intros id pcs vs H. unfold given in H. destruct (find _ _) as [[i v]|] eqn:F; [|discriminate]. injection H as <-.
  apply find_some in F. destruct F as [F1 F2]. simpl in F2. apply Nat.eqb_eq in F2. now subst.
Qed.
Lemma in_given : forall id pcs vs, NoDup (map fst (given_of pcs)) -> In (id, vs) (given_of pcs) -> given id pcs = Some vs.
Proof.
  intros id pcs vs. unfold given. induction (given_of pcs) as [|[i v] l IH]; simpl; [contradiction|]. intros ND H.
  inversion ND as [|x y N1 N2]; subst. destruct H as [H|H].
  - injection H as -> ->. now rewrite Nat.eqb_refl.
  - destruct (Nat.eqb i id) eqn:E; [|now apply IH]. apply Nat.eqb_eq in E. subst. exfalso. apply N1. now apply (in_map fst) in H.
Qed.
Lemma given_none : forall id pcs, given id pcs = None -> forall vs, ~ In (id, vs) (given_of pcs).
Proof.
  intros id pcs H vs I. unfold given in H. destruct (find _ _) eqn:F; [discriminate|]. 
  apply (find_none _ _ F) in I. simpl in I. now rewrite Nat.eqb_refl in I.
Qed.

(* ------------------------------------------------------------------ *)
(** * the pieces of a reading and the arguments *)
Lemma reads_occ : forall s ws pcs o, wf0 (ready s) -> reads s ws pcs -> In o (occs_of pcs) ->
  exists a, In a (arguments (ready s)) /\ a_id a = o_id o /\ isPositional a = false /\
    ((forall n, arity_of (a_cfg a) = AGroups n -> 0 < n) -> arity_ok (arity_of (a_cfg a)) (o_vals o)) /\
    (o_style o = Glued -> glues (a_cfg a) = true).
Proof.
  intros s ws pcs o W H I. destruct (Reading_occ _ _ _ _ H o I) as [n [c [F [A G]]]].
  destruct (k_find_arg _ _ _ _ W F) as [_ [a [Fa [<- [In_n Ia]]]]]. exists a. apply find_id_In in Fa.
  repeat split; auto; try apply Fa. eapply option_id; [exact W | exact F | exact Ia | apply Fa].
Qed.
Lemma positionals_ids : forall s, wf0 s -> NoDup (map fst (positionals (conf_of s))) /\
  forall i c, In (i, c) (positionals (conf_of s)) -> exists a, In a (s_args s) /\ a_id a = i /\ a_cfg a = c /\ isPositional a = true.
Proof.
  intros s W. split.
  - unfold positionals, conf_of. cbn [k_args]. 
    assert (H : forall l, NoDup (map a_id l) -> NoDup (map fst (filter (fun p : nat * acfg => is_positional (c_type (snd p))) (map (fun a => (a_id a, a_cfg a)) l)))).
    { induction l as [|a l IH]; simpl; intros N; [constructor|]. inversion N as [|x y N1 N2]; subst.
      destruct (is_positional (c_type (a_cfg a))); simpl; [|now apply IH]. constructor; [|now apply IH].
      intros X. apply N1. apply in_map_iff in X. destruct X as [[i c] [E X]]. simpl in E. subst i. apply filter_In in X. destruct X as [X _].
      apply in_map_iff in X. destruct X as [b [E X]]. injection E as E _. rewrite <- E. now apply in_map. }
    apply H, (wf_ids s W).
  - intros i c H. apply filter_In in H. destruct H as [H P]. unfold conf_of in H. cbn [k_args] in H. apply in_map_iff in H. destruct H as [a [E I]].
    injection E as <- <-. now exists a.
Qed.
Lemma reads_given_nodup : forall s ws pcs, wf0 (ready s) -> reads s ws pcs -> NoDup (map fst (given_of pcs)).
Proof.
  intros s ws pcs W H. destruct (Reading_given _ _ _ _ H) as [k [E _]]. rewrite E.
  destruct (positionals_ids _ W) as [N _]. fold (setup s) in N. rewrite <- (firstn_skipn k (map fst (positionals (setup s)))) in N.
  revert N. generalize (skipn k (map fst (positionals (setup s)))). generalize (firstn k (map fst (positionals (setup s)))).
  induction l as [|x l IH]; intros l0 N; [constructor|]. simpl in N. inversion N as [|y z N1 N2]; subst. constructor; [|now apply (IH l0)].
  intros X. apply N1. apply in_app_iff. now left.
Qed.
Lemma reads_given : forall s ws pcs i vs, wf0 (ready s) -> reads s ws pcs -> In (i, vs) (given_of pcs) ->
  exists a, In a (arguments (ready s)) /\ a_id a = i /\ isPositional a = true /\ Took (setup s) (a_cfg a) vs.
Proof.
  intros s ws pcs i vs W H I. apply given_In in I. destruct (Reading_took _ _ _ _ H i vs I) as [c [J T]].
  destruct (positionals_ids _ W) as [_ Q]. destruct (Q i c J) as [a [A [B [C D]]]]. subst. now exists a.
Qed.

(** what a reading does to an option *)
Lemma read_option_arg : forall s ws pcs a, wf0 (ready s) -> reads s ws pcs -> In a (arguments (ready s)) -> isPositional a = false ->
  read_arg pcs a = arg_dyn a (occs_dyn (a_cfg a) (occs_for (a_id a) pcs) (a_dyn (clear_arg a))).
Proof.
  intros s ws pcs a W H I P. unfold read_arg, arg_dyn. f_equal. apply option_dyn.
  intros vs J. apply given_In in J. destruct (reads_given s ws pcs _ _ W H J) as [b [B1 [B2 [B3 _]]]].
  rewrite (wf_unique _ b a W B1 I B2) in B3. congruence.
Qed.
Lemma read_positional_arg : forall s ws pcs a, wf0 (ready s) -> reads s ws pcs -> In a (arguments (ready s)) -> isPositional a = true ->
  read_arg pcs a = arg_dyn a (match given (a_id a) pcs with Some vs => pos_dyn (a_cfg a) vs (a_dyn (clear_arg a)) | None => a_dyn (clear_arg a) end).
Proof.
  intros s ws pcs a W H I P. unfold read_arg, arg_dyn. f_equal. apply positional_dyn.
  - intros o J. destruct (reads_occ s ws pcs o W H J) as [b [B1 [B2 [B3 _]]]]. intros E.
    rewrite (wf_unique _ b a W B1 I) in B3; congruence.
  - now apply (reads_given_nodup s ws).
Qed.
Lemma occs_for_none : forall s ws pcs a, wf0 (ready s) -> reads s ws pcs -> In a (arguments (ready s)) -> isPositional a = true -> occs_for (a_id a) pcs = [].
Proof.
  intros s ws pcs a W H I P. apply occs_none. intros o J. destruct (reads_occ s ws pcs o W H J) as [b [B1 [B2 [B3 _]]]]. intros E.
  rewrite (wf_unique _ b a W B1 I) in B3; congruence.
Qed.
Lemma given_option_none : forall s ws pcs a, wf0 (ready s) -> reads s ws pcs -> In a (arguments (ready s)) -> isPositional a = false -> given (a_id a) pcs = None.
Proof.
  intros s ws pcs a W H I P. destruct (given (a_id a) pcs) as [vs|] eqn:G; [|reflexivity]. apply given_in in G.
  destruct (reads_given s ws pcs _ _ W H G) as [b [B1 [B2 [B3 _]]]].
  rewrite (wf_unique _ b a W B1 I B2) in B3. congruence.
Qed.
Lemma existsb_filter : forall {A} (p : A -> bool) l, existsb p l = match filter p l with [] => false | _ => true end.
Proof. intros A p. induction l as [|x l IH]; simpl; [reflexivity|]. destruct (p x); simpl; auto. Qed.
Lemma on_line_eq : forall id pcs, on_line id pcs =
  (match occs_for id pcs with [] => false | _ => true end) || (match given id pcs with Some _ => true | None => false end).
Proof.
  intros id pcs. unfold on_line, occs_for, given. rewrite existsb_filter. f_equal.
  induction (given_of pcs) as [|g l IH]; simpl; [reflexivity|]. destruct (Nat.eqb (fst g) id); simpl; auto.
Qed.
(** present iff on the command line *)
Lemma read_exist : forall s ws pcs a, wf0 (ready s) -> reads s ws pcs -> In a (arguments (ready s)) ->
  isExists (read_arg pcs a) = on_line (a_id a) pcs.
Proof.
  intros s ws pcs a W H I. rewrite on_line_eq. destruct (isPositional a) eqn:P.
  - rewrite (read_positional_arg s ws pcs a W H I P). rewrite (occs_for_none s ws pcs a W H I P). simpl. now destruct (given (a_id a) pcs).
  - rewrite (read_option_arg s ws pcs a W H I P). cbn [a_dyn arg_dyn]. rewrite occs_exist. rewrite (given_option_none s ws pcs a W H I P).
    simpl. now rewrite orb_false_r.
Qed.
Lemma read_count : forall s ws pcs a, wf0 (ready s) -> reads s ws pcs -> In a (arguments (ready s)) ->
  count (read_arg pcs a) = list_sum (map weight (occs_for (a_id a) pcs)).
Proof.
  intros s ws pcs a W H I. destruct (isPositional a) eqn:P.
  - rewrite (read_positional_arg s ws pcs a W H I P). rewrite (occs_for_none s ws pcs a W H I P). simpl. 
    destruct (given (a_id a) pcs); [now rewrite pos_count|reflexivity].
  - rewrite (read_option_arg s ws pcs a W H I P). cbn [a_dyn arg_dyn]. now rewrite occs_count.
Qed.

(* ------------------------------------------------------------------ *)
(** * validation and the views *)
Lemma views_num : forall t d, d_arg (num_dyn t d) = d_arg d /\ map elem_value (d_elems (num_dyn t d)) = map elem_value (d_elems d) /\
  map elem_values (d_elems (num_dyn t d)) = map elem_values (d_elems d) /\ d_exist (num_dyn t d) = d_exist d /\ d_count (num_dyn t d) = d_count d.
Proof.
  assert (L : forall l, map lf_arg (map num_leaf l) = map lf_arg l) by (intros; now rewrite map_map).
  assert (E1 : forall e, elem_value (num_elem e) = elem_value e) by (intros [l [|x xs]]; reflexivity).
  assert (E2 : forall e, elem_values (num_elem e) = elem_values e).
  { intros [l [|x xs]]; unfold elem_values, num_elem; cbn [el_subs]; [reflexivity|]. apply L. }
  intros t [ex co ar nu es]. unfold num_dyn. cbn [d_elems].
  destruct t; cbn [d_arg d_elems]; auto; destruct es as [|e es]; cbn [d_arg d_elems d_exist d_count]; auto;
  repeat split; rewrite map_map; apply map_ext; auto.
Qed.
Lemma to_vector_eq : forall a, to_vector a = if has_values (a_cfg a) then Ok (plain_values a) else Throw (Exn KBase "" "convertion to vector of string not authorized").
Proof. intros a. unfold to_vector, has_values, arity_of, plain_values. now destruct (c_type (a_cfg a)). Qed.
Lemma flat_map_map : forall {A B} (f : A -> list B) l, flat_map f l = concat (map f l).
Proof. intros. now rewrite flat_map_concat_map. Qed.
Definition grouped (t : atype) : bool :=
  match t with MULTI_NUMBER_OPTION | MULTI_NUMBER_INFINITE_OPTION | INFINITE_NUMBER_POSITIONAL_ARGUMENT => true | _ => false end.
Definition groups_in (a : argument) : list (list str) := map elem_values (d_elems (a_dyn a)).
Lemma plain_groups : forall a, grouped (c_type (a_cfg a)) = true -> plain_values a = concat (groups_in a).
Proof. intros a G. unfold plain_values, groups_in. destruct (c_type (a_cfg a)); try discriminate; apply flat_map_map. Qed.
Lemma views_same : forall a b, a_cfg a = a_cfg b -> d_arg (a_dyn a) = d_arg (a_dyn b) -> map elem_value (d_elems (a_dyn a)) = map elem_value (d_elems (a_dyn b)) ->
  map elem_values (d_elems (a_dyn a)) = map elem_values (d_elems (a_dyn b)) ->
  plain_values a = plain_values b /\ to_vector a = to_vector b /\ to_vector_vector a = to_vector_vector b.
Proof.
  intros a b C A E G. unfold plain_values, to_vector, to_vector_vector. rewrite C, A, !flat_map_map. unfold elem_value in E. fold elem_values. 
  change (fun e : elem => lf_arg (el_leaf e)) with elem_value in *.
  change (fun e : elem => map lf_arg (el_subs e)) with elem_values. rewrite E, G. auto.
Qed.
Lemma over_nil : forall l, over l [] = l.
Proof. now destruct l. Qed.
Lemma over_length : forall l v, length (over l v) = length l.
Proof. induction l as [|x l IH]; intros [|y v]; simpl; auto. Qed.
Lemma store_elems_over : forall es vs, map elem_value (store_elems es vs) = over (map elem_value es) vs.
Proof. induction es as [|e es IH]; intros [|v vs]; simpl; auto. f_equal. apply IH. Qed.
Lemma store_leaves_over : forall ls vs, map lf_arg (fst (store_leaves ls vs)) = over (map lf_arg ls) vs /\
  length (fst (store_leaves ls vs)) = length ls /\ snd (store_leaves ls vs) = skipn (length ls) vs.
Proof.
  induction ls as [|l ls IH]; intros [|v vs]; simpl; auto. specialize (IH vs). destruct (store_leaves ls vs). simpl in *. 
  destruct IH as [A [B C]]. rewrite A, B. auto.
Qed.
Lemma over_app : forall a b v, over (a ++ b) v = over a v ++ over b (skipn (length a) v).
Proof. induction a as [|x a IH]; intros b [|y v]; simpl; auto; [now rewrite over_nil|]. f_equal. apply IH. Qed.
Lemma store_groups_over : forall es vs, concat (map elem_values (store_groups es vs)) = over (concat (map elem_values es)) vs /\
  map (@length str) (map elem_values (store_groups es vs)) = map (@length str) (map elem_values es).
Proof.
  induction es as [|e es IH]; intros vs; [auto|]. simpl.
  destruct (store_leaves_over (el_subs e) vs) as [A [B C]]. destruct (store_leaves (el_subs e) vs) as [ls rest]. simpl in A, B, C. simpl.
  destruct (IH rest) as [D F]. unfold elem_values at 1 3. cbn [el_subs]. rewrite A, D, C, over_app. unfold elem_values at 1. rewrite map_length. split; [reflexivity|].
  f_equal; [|rewrite <- C; exact F]. unfold elem_values. cbn [el_subs]. now rewrite !map_length.
Qed.
Lemma holds_finished : forall a, trouble a = None -> isExists a = true -> has_values (a_cfg a) = true -> holds (finished a) (plain_values a).
Proof.
  intros a T E V. unfold holds. rewrite finished_cfg. unfold trouble in T. destruct (refusal a) eqn:R; [discriminate|]. unfold refusal in R.
  rewrite to_vector_eq, finished_cfg, V. unfold finished, checked. destruct (c_valid (a_cfg a)) as [v|] eqn:CV.
  - rewrite E in R. destruct (v_fn v (plain_values a)) as [[] out| |] eqn:F; try discriminate. exists out. split; [reflexivity|]. rewrite E.
    f_equal. cbn [a_dyn arg_dyn a_cfg]. destruct (views_num (c_type (a_cfg a)) (stored (c_type (a_cfg a)) (a_dyn a) out)) as [N1 [N2 [N3 _]]].
    destruct (views_same (arg_dyn a (num_dyn (c_type (a_cfg a)) (stored (c_type (a_cfg a)) (a_dyn a) out))) (arg_dyn a (stored (c_type (a_cfg a)) (a_dyn a) out))) as [Q _]; auto.
    unfold arg_dyn in *. cbn [a_cfg a_dyn a_id a_gen] in *. rewrite Q. clear Q N1 N2 N3.
    unfold plain_values, stored, has_values, arity_of in *. cbn [a_cfg a_dyn]. destruct (c_type (a_cfg a)); try discriminate; cbn [d_elems dyn_elems].
    all: try (change (fun e : elem => lf_arg (el_leaf e)) with elem_value; apply store_elems_over).
    all: try (destruct out; reflexivity).
    all: rewrite !flat_map_map; apply (store_groups_over (d_elems (a_dyn a)) out).
  - f_equal. destruct (views_num (c_type (a_cfg a)) (a_dyn a)) as [N1 [N2 [N3 _]]].
    apply (views_same (arg_dyn a (num_dyn (c_type (a_cfg a)) (a_dyn a))) a); auto.
Qed.
Lemma holds_groups_finished : forall a, trouble a = None -> isExists a = true -> grouped (c_type (a_cfg a)) = true -> holds_groups (finished a) (groups_in a).
Proof.
  intros a T E V. unfold holds_groups. rewrite finished_cfg. unfold trouble in T. destruct (refusal a) eqn:R; [discriminate|]. unfold refusal in R.
  unfold finished, checked. destruct (c_valid (a_cfg a)) as [v|] eqn:CV.
  - rewrite E in R. rewrite (plain_groups a V) in R |- *. destruct (v_fn v (concat (groups_in a))) as [[] out| |] eqn:F; try discriminate. rewrite E.
    exists out, (map elem_values (store_groups (d_elems (a_dyn a)) out)). split; [reflexivity|]. 
    destruct (store_groups_over (d_elems (a_dyn a)) out) as [A B]. split; [|split; [exact B | exact A]].
    destruct (views_num (c_type (a_cfg a)) (stored (c_type (a_cfg a)) (a_dyn a) out)) as [N1 [N2 [N3 _]]].
    unfold to_vector_vector. cbn [a_dyn a_cfg arg_dyn]. rewrite N3. unfold stored. destruct (c_type (a_cfg a)); try discriminate; reflexivity.
  - destruct (views_num (c_type (a_cfg a)) (a_dyn a)) as [N1 [N2 [N3 _]]]. unfold to_vector_vector, groups_in. cbn [a_dyn a_cfg arg_dyn]. rewrite N3.
    destruct (c_type (a_cfg a)); try discriminate; reflexivity.
Qed.
Lemma finished_exist : forall a, isExists (finished a) = isExists a /\ count (finished a) = count a.
Proof.
  intros a. unfold finished. cbn [a_dyn arg_dyn]. destruct (views_num (c_type (a_cfg (checked a))) (a_dyn (checked a))) as [_ [_ [_ [-> ->]]]].
  unfold checked. destruct (c_valid (a_cfg a)) as [v|]; [|auto]. destruct (d_exist (a_dyn a)) eqn:E; [|auto].
  destruct (v_fn v (plain_values a)) as [[] out| |]; auto. cbn [a_dyn arg_dyn]. unfold stored. destruct (c_type (a_cfg a)); try (simpl; auto; fail); destruct out; simpl; auto.
Qed.
Lemma finished_absent : forall a, isExists a = false -> to_vector (finished a) = to_vector a /\ to_vector_vector (finished a) = to_vector_vector a /\
  d_arg (a_dyn (finished a)) = d_arg (a_dyn a).
Proof.
  intros a E. unfold finished, checked. rewrite E. destruct (views_num (c_type (a_cfg a)) (a_dyn a)) as [N1 [N2 [N3 _]]].
  assert (Q : to_vector (arg_dyn a (num_dyn (c_type (a_cfg a)) (a_dyn a))) = to_vector a /\
    to_vector_vector (arg_dyn a (num_dyn (c_type (a_cfg a)) (a_dyn a))) = to_vector_vector a /\ d_arg (a_dyn (arg_dyn a (num_dyn (c_type (a_cfg a)) (a_dyn a)))) = d_arg (a_dyn a)).
  { destruct (views_same (arg_dyn a (num_dyn (c_type (a_cfg a)) (a_dyn a))) a) as [_ [A B]]; auto. }
  destruct (c_valid (a_cfg a)); exact Q.
Qed.
