(** Proofs_Fresh.v -- arguments of a parser on which parseArguments was not called yet. *)
From Coq Require Import Permutation Sorted.
From Verif Require Import Base Model_Utils Model_Number Model_Types Model_Argument Model_Usage Model_Args Model_Api
  Spec_Order Spec_Names Spec_Reading Spec_Parse Spec_Decl Spec_Finish Spec_History Spec_Api Spec_Result
  Proofs_Base Proofs_Order Proofs_Frame Proofs_Inv Proofs_Reading Proofs_Parse Proofs_Decl Proofs_Finish Proofs_Meth Proofs_History Proofs_Config
  Proofs_Central Proofs_Dyn Proofs_Values.

(** a method changes only the argument it is called on *)
Lemma put_others : forall b s x, In x (s_args (put b s)) -> a_id x <> a_id b -> In x (s_args s).
Proof. intros b s x I N. apply put_In in I. destruct I as [->|[I _]]; [congruence | exact I]. Qed.
Lemma resorted_In : forall s x, In x (s_args (resorted s)) <-> In x (s_args s).
Proof.
  intros s x. unfold resorted. cbn [s_args with_args]. split; intros I;
    (eapply Permutation_in; [|exact I]); [symmetry; apply sort_perm | apply sort_perm].
Qed.
Lemma declared_others : forall b s x, In x (s_args (fst (declared b s))) -> a_id x <> a_id b -> In x (s_args s).
Proof.
  intros b s x I N. destruct (declared_cases b s) as [[k [_ [EA _]]]|[_ [E _]]].
  - rewrite EA in I. apply put_others in I; [exact I|]. now rewrite defaults_arg_id.
  - rewrite E in I. now apply put_others in I.
Qed.
Lemma meth_others : forall m a s x, In x (s_args (fst (meth_state m a s))) -> a_id x <> a_id a -> In x (s_args s).
Proof.
  intros m a s x I N. destruct m; unfold meth_state in I; cbv zeta in I; cbn [fst] in I.
  - destruct (is_positional _); [exact I|]. destruct (validFormatFlag f); [exact I|]. destruct (mem_key f (s_map s)); [exact I|].
    cbn [fst s_args with_map] in I. apply (proj1 (resorted_In _ _)) in I. now apply put_others in I.
  - apply declared_others in I; [|exact N]. unfold released in I. destruct (c_action (a_cfg a)); exact I.
  - apply (proj1 (resorted_In _ _)) in I. now apply put_others in I.
  - now apply put_others in I.
  - now apply put_others in I.
  - apply declared_others in I; [|exact N]. exact I.
  - apply put_others in I; [exact I|]. rewrite defaults_arg_id. exact N.
  - now apply put_others in I.
  - now apply put_others in I.
Qed.

Section Each.
  Variable P : policy.
  Variable Q : argument -> Prop.
  Hypothesis Q_positional : forall id n, Q (Arg id 0 (positional_cfg n) new_dyn).
  Hypothesis Q_option : forall id flags, Q (Arg id 0 (option_cfg flags) new_dyn).
  Hypothesis Q_meth : forall m s a b, wf s -> In a (s_args s) -> Q a -> p_meth P m a s ->
    In b (s_args (fst (meth_state m a s))) -> a_id b = a_id a -> Q b.
  Hypothesis Q_names : forall a ns, Q a -> Q (arg_cfg a (cfg_names (a_cfg a) ns)).

  Theorem fresh_each : forall s, fresh_with P s -> forall a, In a (s_args s) -> Q a.
  Proof.
    intros s R. refine (proj2 (fresh_invariant P (fun s => forall a, In a (s_args s) -> Q a) _ _ _ _ _ _ _ _ s R)); clear s R.
    - intros f d a [].
    - intros s n _ H _ _ _ a Ia. unfold registered in Ia. apply (proj1 (resorted_In _ _)) in Ia. cbn in Ia. apply in_app_or in Ia. destruct Ia as [Ia|[<-|[]]]; auto.
    - intros s v flags _ H _ _ _ _ _ _ a Ia. unfold registered in Ia. apply (proj1 (resorted_In _ _)) in Ia. cbn in Ia. apply in_app_or in Ia. destruct Ia as [Ia|[<-|[]]]; auto.
    - intros m s a W H Ia PM _ b Ib. destruct (Nat.eq_dec (a_id b) (a_id a)) as [E|E].
      + eapply Q_meth; eauto.
      + apply H. eapply meth_others; eauto.
    - intros s n a W H Ia _ _. unfold removed. destruct (existsb _ _).
      + intros b Ib. simpl in Ib. apply upd_id_In in Ib. destruct Ib as [x [Ix ->]]. destruct (Nat.eqb (a_id x) (a_id a)); auto.
      + intros b Ib. assert (In b (filter (fun b => negb (Nat.eqb (a_id b) (a_id a))) (s_args s))) as X.
        { destruct (optr_eqb (s_help s) (ptr_of a)); [exact Ib|]. destruct (optr_eqb (s_version s) (ptr_of a)); exact Ib. }
        apply filter_In in X. apply H, X.
    - intros s _ H a Ia. apply H. apply (proj1 (resorted_In _ _)). exact Ia.
    - intros s s' H E _ _ _ _ a Ia. apply H. now rewrite <- E.
    - intros s _ _ a [].
  Qed.
End Each.

(* ------------------------------------------------------------------ *)
(** * clean arguments: what a parse resets an absent argument to is what it holds *)
Definition leaf_clean (l : leaf) : Prop := lf_arg l = lf_def l.
Definition elem_clean (t : atype) (e : elem) : Prop :=
  if grouped t then el_subs e <> [] /\ Forall leaf_clean (el_subs e) else el_subs e = [] /\ leaf_clean (el_leaf e).
Record clean (a : argument) : Prop := {
  cl_exist : isExists a = false;
  cl_count : count a = 0;
  cl_nargs : has_values (a_cfg a) = true -> getNargs a <> 0%N;
  cl_none : c_dest (a_cfg a) = None -> c_defaults (a_cfg a) = [] ->
            d_elems (a_dyn a) = [] /\ c_default (a_cfg a) = "" /\ d_arg (a_dyn a) = "";
  cl_some : c_dest (a_cfg a) = None -> c_defaults (a_cfg a) <> [] -> has_values (a_cfg a) = true ->
            to_vector a = Ok (c_defaults (a_cfg a)) /\
            (grouped (c_type (a_cfg a)) = true -> to_vector_vector a = Ok (chunks (N.to_nat (getNargs a)) (c_defaults (a_cfg a))));
  cl_arg : has_values (a_cfg a) = true -> d_elems (a_dyn a) = [] -> d_arg (a_dyn a) = c_default (a_cfg a);
  cl_elems : has_values (a_cfg a) = true -> Forall (elem_clean (c_type (a_cfg a))) (d_elems (a_dyn a));
  cl_single : c_type (a_cfg a) = SIMPLE_OPTION \/ c_type (a_cfg a) = POSITIONAL_ARGUMENT -> d_elems (a_dyn a) = [] /\ getNargs a = 1%N
}.

Lemma chunks_flat : forall (n : nat) (l : list str), 0 < n -> (N.of_nat (length l) mod N.of_nat n = 0)%N -> concat (chunks n l) = l /\ Forall (fun g => length g = n) (chunks n l).
Proof.
  intros n l H M. apply N.mod_divide in M; [|lia]. destruct M as [k M].
  apply (chunks_mult n (N.to_nat k)); [exact H|]. apply Nat2N.inj. rewrite M, Nat2N.inj_mul, N2Nat.id. reflexivity.
Qed.
Lemma default_values : forall ds, map elem_value (map default_elem ds) = ds.
Proof. intros ds. rewrite map_map. simpl. apply map_id. Qed.
Lemma default_group_values : forall gs, map elem_values (map default_group gs) = gs.
Proof.
  intros gs. rewrite map_map. rewrite <- (map_id gs) at 2. apply map_ext. intros g. unfold elem_values, default_group. cbn [el_subs].
  rewrite map_map. cbn [lf_arg mk_leaf]. apply map_id.
Qed.
(** accepted defaults *)
Lemma defaulted_clean : forall a, isExists a = false -> count a = 0 -> no_defaults (a_cfg a) = false ->
  size_fits (a_cfg a) (length (c_defaults (a_cfg a))) = true ->
  (c_type (a_cfg a) = SIMPLE_OPTION \/ c_type (a_cfg a) = POSITIONAL_ARGUMENT -> getNargs a = 1%N) -> clean (defaulted a).
Proof.
  intros a X C ND SF S1. unfold no_defaults in ND. apply orb_false_iff in ND as [N0 D0]. apply N.eqb_neq in N0.
  assert (DN : c_defaults (a_cfg a) <> []) by (destruct (c_defaults (a_cfg a)); [discriminate | intros Z; discriminate Z]).
  unfold size_fits in SF.
  assert (G : grouped (c_type (a_cfg a)) = true -> concat (default_groups (a_cfg a)) = c_defaults (a_cfg a) /\
    Forall (fun g => length g = N.to_nat (c_nargs (a_cfg a))) (default_groups (a_cfg a))).
  { intros G. apply chunks_flat; [lia|]. rewrite N2Nat.id. unfold grouped in G. destruct (c_type (a_cfg a)); try discriminate; now apply N.eqb_eq. }
  assert (GN : grouped (c_type (a_cfg a)) = true -> default_groups (a_cfg a) <> []).
  { intros Gt. destruct (G Gt) as [G1 _]. intros Z. rewrite Z in G1. simpl in G1. congruence. }
  assert (GS : grouped (c_type (a_cfg a)) = true -> Forall (fun e => el_subs e <> [] /\ Forall leaf_clean (el_subs e)) (map default_group (default_groups (a_cfg a)))).
  { intros Gt. destruct (G Gt) as [_ G2]. apply Forall_forall. intros e Ie. apply in_map_iff in Ie. destruct Ie as [g [<- Ig]].
    rewrite Forall_forall in G2. specialize (G2 g Ig). cbn [default_group el_subs]. split.
    - destruct g; [simpl in G2; lia | intros Z; discriminate Z].
    - apply Forall_forall. intros l Il. apply in_map_iff in Il. destruct Il as [w [<- _]]. reflexivity. }
  assert (PL : forall ds, Forall (fun e => el_subs e = [] /\ leaf_clean (el_leaf e)) (map default_elem ds)).
  { intros ds. apply Forall_forall. intros e Ie. apply in_map_iff in Ie. destruct Ie as [w [<- _]]. split; reflexivity. }
  assert (ONE : N.of_nat (length (c_defaults (a_cfg a))) = 1%N -> c_defaults (a_cfg a) = [hd "" (c_defaults (a_cfg a))]).
  { destruct (c_defaults (a_cfg a)) as [|x [|y l]]; simpl; intros; try reflexivity; try lia; contradiction. }
  unfold defaulted. destruct (c_type (a_cfg a)) eqn:T; cbn [grouped] in *;
    constructor; unfold has_values, arity_of, to_vector, to_vector_vector, elem_clean;
    cbn [a_cfg a_dyn a_id a_gen arg_dyn c_type c_nargs c_default c_defaults c_dest cfg_default dyn_elems dyn_arg d_exist d_count d_arg d_elems]; rewrite ?T;
    cbn [grouped]; try exact X; try exact C; try (intros; discriminate); try (intros [|]; discriminate); try (intros; contradiction); try (intros; exact N0); try reflexivity; try (intros; reflexivity).
  all: try (intros; split; [| intros; discriminate]).
  all: try (intros; rewrite default_values; reflexivity).
  all: try (intros; apply PL).
  all: try (intros; apply GS; reflexivity).
  all: try (intros _ Z; exfalso; apply map_eq_nil in Z; (apply DN; exact Z) || (apply (GN eq_refl); exact Z)).
  all: try (intros; split; [rewrite flat_map_map, default_group_values; f_equal; apply (G eq_refl) | intros; rewrite default_group_values; reflexivity]).
  all: try (intros; constructor; fail).
  all: try (intros; split; [reflexivity | auto]).
  all: assert (c_nargs (a_cfg a) = 1%N) as N1 by auto; rewrite N1 in SF; apply N.eqb_eq in SF; rewrite <- (ONE SF); reflexivity.
Qed.
Lemma kind_nargs : forall c k, kind_of c = Some k -> has_values (retyped c k) = true -> c_nargs (retyped c k) <> 0%N.
Proof.
  intros c [[t n] act] K. unfold has_values, arity_of, retyped. cbn [c_type c_nargs cfg_type cfg_action cfg_nargs].
  unfold kind_of, positional_kind, option_kind in K.
  destruct (is_positional (c_type c)); destruct (c_action c); destruct (N.eqb_spec (c_nargs c) 0); try discriminate;
    repeat (match type of K with context [N.eqb ?x ?y] => destruct (N.eqb_spec x y) end); injection K as <- <- <-; intros H Z; try discriminate H; try discriminate Z; congruence.
Qed.
Lemma kind_one : forall c k, kind_of c = Some k -> fst (fst k) = SIMPLE_OPTION \/ fst (fst k) = POSITIONAL_ARGUMENT -> snd (fst k) = 1%N.
Proof.
  intros c [[t n] act] K. cbn [fst snd].
  unfold kind_of, positional_kind, option_kind in K.
  destruct (is_positional (c_type c)); destruct (c_action c); destruct (N.eqb_spec (c_nargs c) 0); try discriminate;
    repeat (match type of K with context [N.eqb ?x ?y] => destruct (N.eqb_spec x y) end); injection K as <- <- <-; intros [H|H]; try discriminate H; reflexivity.
Qed.
Lemma retyped_fields : forall c k, c_dest (retyped c k) = c_dest c /\ c_defaults (retyped c k) = c_defaults c /\ c_default (retyped c k) = c_default c /\
  c_type (retyped c k) = fst (fst k) /\ c_nargs (retyped c k) = snd (fst k).
Proof. intros c [[t n] act]. repeat split. Qed.
(** defaults applied to an argument that has its kind *)
Lemma defaults_clean : forall a, snd (defaults_arg a) = None -> isExists a = false -> count a = 0 ->
  (has_values (a_cfg a) = true -> getNargs a <> 0%N) ->
  (c_type (a_cfg a) = SIMPLE_OPTION \/ c_type (a_cfg a) = POSITIONAL_ARGUMENT -> getNargs a = 1%N) ->
  (c_defaults (a_cfg a) = [] -> d_elems (a_dyn a) = [] /\ c_default (a_cfg a) = "" /\ d_arg (a_dyn a) = "") ->
  clean (fst (defaults_arg a)).
Proof.
  intros a E X C HN H1 HD. unfold defaults_arg in *. destruct (no_defaults (a_cfg a)) eqn:ND.
  - cbn [fst]. unfold no_defaults in ND. apply orb_true_iff in ND.
    assert (V : has_values (a_cfg a) = true -> c_defaults (a_cfg a) = []).
    { intros V. destruct ND as [ND|ND]; [apply N.eqb_eq in ND; exfalso; exact (HN V ND) | destruct (c_defaults (a_cfg a)); [reflexivity | discriminate]]. }
    assert (V1 : c_type (a_cfg a) = SIMPLE_OPTION \/ c_type (a_cfg a) = POSITIONAL_ARGUMENT -> has_values (a_cfg a) = true).
    { unfold has_values, arity_of. intros [->| ->]; reflexivity. }
    constructor; auto.
    + intros _ DN V'. exfalso. auto.
    + intros V' _. destruct (HD (V V')) as [_ [-> ->]]. reflexivity.
    + intros V'. destruct (HD (V V')) as [-> _]. constructor.
    + intros S. split; [|auto]. destruct (HD (V (V1 S))) as [-> _]. reflexivity.
  - destruct (size_fits _ _) eqn:SF; [|discriminate E]. cbn [fst]. now apply defaulted_clean.
Qed.
Lemma meth_ok : forall m s a s1, wf0 s -> In a (s_args s) -> run_meth (a_id a) m s = (s1, Ok tt) -> snd (meth_state m a s) = None.
Proof. intros m s a s1 W I E. rewrite (meth_eq m s a W I) in E. destruct (meth_state m a s) as [s2 [e|]]; [discriminate E | reflexivity]. Qed.
Lemma put_at : forall a b s, In b (s_args (put a s)) -> a_id b = a_id a -> b = a.
Proof. intros a b s I E. apply put_In in I. destruct I as [I|[_ N]]; [exact I | contradiction]. Qed.
(** only the declaration of an argument matters here *)
Lemma clean_cfg : forall a c, clean a -> c_type c = c_type (a_cfg a) -> c_nargs c = c_nargs (a_cfg a) -> c_defaults c = c_defaults (a_cfg a) ->
  c_default c = c_default (a_cfg a) -> c_dest c = c_dest (a_cfg a) -> clean (arg_cfg a c).
Proof.
  intros a c [H1 H2 H3 H4 H5 H6 H7 H8] T N D1 D2 D3.
  constructor; unfold has_values, arity_of, to_vector, to_vector_vector in *; cbn [a_cfg a_dyn arg_cfg]; rewrite ?T, ?N, ?D1, ?D2, ?D3; assumption.
Qed.
Lemma declared_clean : forall s a b x, clean a -> c_dest (a_cfg a) = None -> a_id b = a_id a -> a_dyn b = a_dyn a ->
  c_dest (a_cfg b) = c_dest (a_cfg a) -> c_defaults (a_cfg b) = c_defaults (a_cfg a) -> c_default (a_cfg b) = c_default (a_cfg a) ->
  snd (declared b s) = None -> In x (s_args (fst (declared b s))) -> a_id x = a_id a -> clean x.
Proof.
  intros s a b x CA DN EI ED D1 D2 D3 OK Ix Ex. destruct (declared_cases b s) as [[k [K [EA _]]]|[_ [_ [e Ee]]]]; [|congruence].
  rewrite EA in Ix. apply put_at in Ix; [|rewrite defaults_arg_id; cbn; congruence]. subst x.
  destruct (retyped_fields (a_cfg b) k) as [R1 [R2 [R3 [R4 R5]]]].
  apply defaults_clean; cbn [a_dyn a_cfg arg_cfg].
  - revert OK. unfold declared. rewrite K. destruct (defaults_arg _) as [d o]. cbn [fst snd].
    destruct (fst (fst k)); try (intros H; exact H); destruct (claims _ _); cbn; intros H; try discriminate; exact H.
  - rewrite ED. apply CA.
  - rewrite ED. apply CA.
  - intros V. eapply kind_nargs; eassumption.
  - rewrite R4, R5. intros S. eapply kind_one; eassumption.
  - rewrite R2, R3, D2, D3, ED. now apply (cl_none a CA).
Qed.
Theorem settled_clean : forall s, fresh_with settled s -> forall a, In a (s_args s) -> clean a.
Proof.
  apply (fresh_each settled clean).
  - intros id n. constructor; try reflexivity; try (intros; discriminate); try (intros; contradiction); try (intros; constructor; reflexivity); try (intros; constructor); try reflexivity.
    intros; constructor; reflexivity.
  - intros id n. constructor; try reflexivity; try (intros; discriminate); try (intros; contradiction); try (intros; constructor; reflexivity); try (intros; constructor); try reflexivity.
    intros; constructor; reflexivity.
  - intros m s a b W Ia CA [[s1 OK] PM] Ib Eb. apply (meth_ok m s a s1 (proj1 W) Ia) in OK. destruct m; unfold meth_state in Ib, OK; cbv zeta in Ib, OK; cbn [fst snd] in Ib, OK, PM.
    + destruct (is_positional _); [discriminate|]. destruct (validFormatFlag f); [discriminate|]. destruct (mem_key f (s_map s)); [discriminate|].
      cbn [fst s_args with_map] in Ib. apply (proj1 (resorted_In _ _)) in Ib. apply put_at in Ib; [|exact Eb]. subst b. apply clean_cfg; auto.
    + refine (declared_clean _ a _ b CA PM _ _ _ _ _ OK Ib Eb); reflexivity.
    + apply (proj1 (resorted_In _ _)) in Ib. apply put_at in Ib; [|exact Eb]. subst b. apply clean_cfg; auto.
    + apply put_at in Ib; [|exact Eb]. subst b. apply clean_cfg; auto.
    + apply put_at in Ib; [|exact Eb]. subst b. apply clean_cfg; auto.
    + refine (declared_clean _ a _ b CA PM _ _ _ _ _ OK Ib Eb); reflexivity.
    + apply put_at in Ib; [|rewrite defaults_arg_id; exact Eb]. subst b.
      destruct CA as [H1 H2 H3 H4 H5 H6 H7 H8]. apply defaults_clean; cbn [a_dyn a_cfg arg_cfg c_defaults cfg_defaults c_type c_nargs]; auto.
      * intros S. now apply H8.
      * intros Z. contradiction.
    + cbn [s_args with_freed] in Ib. apply put_at in Ib; [|exact Eb]. subst b. apply clean_cfg; auto.
    + apply put_at in Ib; [|exact Eb]. subst b. destruct CA as [H1 H2 H3 H4 H5 H6 H7 H8].
      constructor; unfold has_values, arity_of, to_vector, to_vector_vector in *; cbn [a_cfg a_dyn c_type c_nargs c_default c_defaults c_dest cfg_dest cfg_defaults] in *; auto; intros; discriminate.
  - intros a ns CA. apply clean_cfg; auto.
Qed.

(** what a parse resets a clean argument to *)
Lemma clear_clean : forall a, clean a -> has_values (a_cfg a) = true ->
  to_vector (clear_arg a) = to_vector a /\ to_vector_vector (clear_arg a) = to_vector_vector a /\ getString (clear_arg a) = getString a.
Proof.
  intros a CA V. pose proof (cl_elems a CA V) as EC. pose proof (cl_arg a CA V) as AC. pose proof (cl_single a CA) as SC.
  assert (L : forall ls, Forall leaf_clean ls -> map lf_arg (map clear_leaf ls) = map lf_arg ls).
  { intros ls F. rewrite map_map. apply map_ext_in. intros l Il. rewrite Forall_forall in F. symmetry. exact (F l Il). }
  assert (PV : grouped (c_type (a_cfg a)) = false -> map elem_value (map clear_elem (d_elems (a_dyn a))) = map elem_value (d_elems (a_dyn a))).
  { intros G. rewrite map_map. apply map_ext_in. intros e Ie. rewrite Forall_forall in EC. specialize (EC e Ie). unfold elem_clean in EC. rewrite G in EC.
    symmetry. apply EC. }
  assert (GV : map elem_values (map clear_elem (d_elems (a_dyn a))) = map elem_values (d_elems (a_dyn a))).
  { rewrite map_map. apply map_ext_in. intros e Ie. rewrite Forall_forall in EC. specialize (EC e Ie). unfold elem_clean in EC.
    unfold elem_values, clear_elem. cbn [el_subs]. destruct (grouped _); [apply L, EC | destruct EC as [-> _]; reflexivity]. }
  assert (TV : map elem_text (map clear_elem (d_elems (a_dyn a))) = map elem_text (d_elems (a_dyn a))).
  { rewrite map_map. apply map_ext_in. intros e Ie. rewrite Forall_forall in EC. specialize (EC e Ie). unfold elem_clean in EC.
    unfold elem_text, clear_elem, elem_value, elem_values. cbn [el_subs el_leaf].
    destruct (grouped _); [|destruct EC as [-> LC]; cbn; symmetry; exact LC].
    destruct EC as [N F]. rewrite (L _ F). destruct (el_subs e); [contradiction | reflexivity]. }
  unfold to_vector, to_vector_vector, getString, clear_arg. cbn [a_cfg a_dyn arg_dyn d_arg d_elems].
  unfold has_values, arity_of in V.
  destruct (c_type (a_cfg a)) eqn:T; try discriminate V; cbn [grouped] in PV; rewrite ?GV, ?TV, ?PV, ?flat_map_map, ?GV by reflexivity;
    (split; [|split]); try reflexivity.
  all: try (destruct SC as [SE _]; [now (left + right)|]; rewrite AC by exact SE; reflexivity).
  all: destruct (d_elems (a_dyn a)) as [|e es] eqn:DE; cbn [map]; [now rewrite AC | f_equal; exact TV].
Qed.
