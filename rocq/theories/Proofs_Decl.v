(** Proofs_Decl.v -- closed forms of the declaration methods. *)
From Coq Require Import Permutation Sorted.
From Verif Require Import Base Model_Utils Model_Number Model_Types Model_Argument Model_Usage Model_Args Model_Api
  Spec_Order Spec_Names Spec_Reading Spec_Parse Spec_Decl Proofs_Base Proofs_Order Proofs_Frame Proofs_Inv Proofs_Reading Proofs_Parse.

Definition upd_cfg (id : nat) (f : acfg -> acfg) (s : state) : state :=
  with_args s (upd_id id (fun a => arg_cfg a (f (a_cfg a))) (s_args s)).
Lemma set_cfg_eq : forall id f s, set_cfg id f s = (upd_cfg id f s, Ok tt).
Proof. reflexivity. Qed.

Definition retyped (c : acfg) (k : atype * N * eAction) : acfg :=
  let '(t, n, act) := k in cfg_type (cfg_action (cfg_nargs c n) act) t.
Definition kind_of (c : acfg) : option (atype * N * eAction) :=
  if is_positional (c_type c) then positional_kind (c_action c) (c_nargs c)
  else Some (option_kind (c_action c) (c_nargs c)).

(** the pointer helpOption_ after an argument with identity [self] asks for it *)
Definition claims (p : option (nat * nat)) (self : nat * nat) : bool :=
  match p with None => true | Some q => ptr_eqb q self end.

Definition typed_state (id : nat) (a : argument) (s : state) : state * option exn :=
  let c := a_cfg a in
  match kind_of c with
  | None => (s, Some (Exn KArgument (first_name c) "positional argument cannot use with this action or this nargs"))
  | Some k =>
      let s1 := upd_cfg id (fun _ => retyped c k) s in
      match fst (fst k) with
      | HELP_OPTION =>
          if claims (s_help s) (ptr_of a) then (with_help s1 (Some (ptr_of a)), None)
          else (s, Some (Exn KArgument (first_name c) "help action already defined"))
      | VERSION_OPTION =>
          if claims (s_version s) (ptr_of a) then (with_version s1 (Some (ptr_of a)), None)
          else (s, Some (Exn KArgument (first_name c) "version action already defined"))
      | _ => (s1, None)
      end
  end.
Definition outcome (r : state * option exn) : state * res unit :=
  match r with (s, None) => (s, Ok tt) | (s, Some e) => (s, Throw e) end.

Lemma ptr_eqb_eq : forall p q, ptr_eqb p q = true -> p = q.
Proof.
  intros [a b] [c d] H. unfold ptr_eqb in H. simpl in H. apply andb_true_iff in H. destruct H as [H1 H2].
  apply Nat.eqb_eq in H1, H2. congruence.
Qed.
Lemma ptr_eqb_refl : forall p, ptr_eqb p p = true.
Proof. intros [a b]. unfold ptr_eqb. simpl. now rewrite !Nat.eqb_refl. Qed.
Lemma with_help_id : forall s, with_help s (s_help s) = s. Proof. intros []; reflexivity. Qed.
Lemma with_version_id : forall s, with_version s (s_version s) = s. Proof. intros []; reflexivity. Qed.

Lemma cfg_nargs_id : forall c, cfg_nargs c (c_nargs c) = c. Proof. intros []; reflexivity. Qed.
Lemma cfg_action_id : forall c, cfg_action c (c_action c) = c. Proof. intros []; reflexivity. Qed.
Lemma typeConstructor_eq : forall id s a, find_id id (s_args s) = Some a -> has_name a = true ->
  typeConstructor id s = outcome (typed_state id a s).
Proof.
  intros id s a F HN. unfold typeConstructor, typed_state, kind_of.
  assert (D : deref id s = (s, Ok a)) by (rewrite deref_eq, F; reflexivity).
  rewrite (bind_ok _ _ _ _ _ D).
  set (c := a_cfg a) in *.
  assert (FR : forall m, (do f <- front (c_names c);; throw KArgument f m) s = (s, Throw (Exn KArgument (first_name c) m)) :> state * res unit).
  { intros m. unfold has_name in HN. fold c in HN. unfold first_name. destruct (c_names c); [discriminate | reflexivity]. }
  assert (X : forall c' c'', c' = c'' -> set_cfg id (fun _ : acfg => c') s = (upd_cfg id (fun _ => c'') s, Ok tt)).
  { intros c' c'' ->. reflexivity. }
  assert (CE : forall t, cfg_type c t = retyped c (t, c_nargs c, c_action c)).
  { intros t. unfold retyped. now rewrite cfg_nargs_id, cfg_action_id. }
  assert (CE0 : forall t, cfg_type (cfg_nargs c 0) t = retyped c (t, 0%N, c_action c)).
  { intros t. unfold retyped. destruct c; reflexivity. }
  cbv zeta. unfold plus.
  destruct (is_positional (c_type c)) eqn:P.
  - unfold positional_kind.
    destruct (c_action c) eqn:A; cbn [action_eqb]; rewrite ?andb_false_r, ?andb_true_r; cbn [orb]; try (rewrite FR; reflexivity).
    + destruct (N.eqb_spec (c_nargs c) 1) as [E1|E1]; cbn [andb].
      { rewrite E1. simpl. apply X. rewrite <- E1. exact (CE _). }
      destruct (N.eqb_spec (c_nargs c) 43) as [E2|E2]; cbn [orb andb].
      { rewrite E2. simpl. apply X. reflexivity. }
      destruct (N.eqb_spec (c_nargs c) 0) as [E3|E3].
      { rewrite E3. simpl. apply FR. }
      destruct (N.ltb_spec 1 (c_nargs c)) as [L|L]; [|lia]. simpl. apply X. exact (CE _).
    + destruct (N.eqb_spec (c_nargs c) 1) as [E1|E1]; cbn [orb].
      { rewrite E1. simpl. apply X. reflexivity. }
      destruct (N.eqb_spec (c_nargs c) 0) as [E3|E3].
      { rewrite E3. simpl. apply FR. }
      destruct (N.ltb_spec 1 (c_nargs c)) as [L|L]; [|lia]. simpl. apply X. exact (CE _).
  - unfold option_kind.
    destruct (N.eqb_spec (c_nargs c) 0) as [E0|E0]; cbn [orb].
    { simpl. apply X. apply CE0. }
    destruct (c_action c) eqn:A; cbn [action_eqb]; cbn [orb andb]; rewrite ?andb_false_r, ?andb_true_r; cbn [orb andb fst].
    + destruct (N.eqb_spec (c_nargs c) 1) as [E1|E1]; cbn [fst].
      { simpl. apply X. rewrite <- E1. exact (CE _). }
      destruct (N.eqb_spec (c_nargs c) 43) as [E2|E2]; cbn [orb fst].
      { apply X. reflexivity. }
      destruct (N.ltb_spec 1 (c_nargs c)) as [L|L]; [|lia]. apply X. exact (CE _).
    + (* HELP *) unfold bind at 1, get. destruct (s_help s) as [q|] eqn:SH; cbn [claims].
      * cbv beta iota. unfold bind, ret; cbv beta iota. rewrite SH. unfold optr_eqb.
        destruct (ptr_eqb q (ptr_of a)) eqn:Q; [|apply FR].
        apply ptr_eqb_eq in Q. subst q. cbn [outcome]. rewrite (X _ _ (CE0 HELP_OPTION)). f_equal.
        rewrite <- SH. symmetry. apply (with_help_id (upd_cfg id _ s)).
      * unfold bind, modify. cbn [with_help s_help optr_eqb]. rewrite ptr_eqb_refl. cbn [outcome].
        rewrite CE0. reflexivity.
    + unfold bind at 1, get. destruct (s_version s) as [q|] eqn:SH; cbn [claims].
      * cbv beta iota. unfold bind, ret; cbv beta iota. rewrite SH. unfold optr_eqb.
        destruct (ptr_eqb q (ptr_of a)) eqn:Q; [|apply FR].
        apply ptr_eqb_eq in Q. subst q. cbn [outcome]. rewrite (X _ _ (CE0 VERSION_OPTION)). f_equal.
        rewrite <- SH. symmetry. apply (with_version_id (upd_cfg id _ s)).
      * unfold bind, modify. cbn [with_version s_version optr_eqb]. rewrite ptr_eqb_refl. cbn [outcome].
        rewrite CE0. reflexivity.
    + apply X. exact (CE0 _).
    + apply X. exact (CE0 _).
    + destruct (N.eqb_spec (c_nargs c) 1) as [E1|E1]; cbn [fst].
      { apply X. rewrite <- E1. exact (CE _). }
      destruct (N.ltb_spec 1 (c_nargs c)) as [L|L]; [|lia]. apply X. exact (CE _).
    + destruct (N.eqb_spec (c_nargs c) 1) as [E1|E1]; cbn [fst].
      { apply X. rewrite <- E1. exact (CE _). }
      destruct (N.ltb_spec 1 (c_nargs c)) as [L|L]; [|lia]. apply X. exact (CE _).
    + apply X. reflexivity.
Qed.

(* ------------------------------------------------------------------ *)
(** * replacing one argument *)
Definition put (a : argument) (s : state) : state := with_args s (upd_id (a_id a) (fun _ => a) (s_args s)).
Lemma put_upd : forall s id f a, NoDup (map a_id (s_args s)) -> find_id id (s_args s) = Some a -> a_id (f a) = id ->
  with_args s (upd_id id f (s_args s)) = put (f a) s.
Proof.
  intros s id f a ND F E. unfold put. rewrite E. f_equal. apply upd_id_ext. intros b Ib Eb.
  destruct (find_id_In _ _ _ F) as [Ia Ea].
  pose proof (In_find_id _ _ ND Ib) as Fb. rewrite Eb, F in Fb. congruence.
Qed.
Lemma put_ids : forall a s, map a_id (s_args (put a s)) = map a_id (s_args s).
Proof.
  intros. unfold put; simpl. unfold upd_id. rewrite map_map. apply map_ext. intros b.
  destruct (Nat.eqb_spec (a_id b) (a_id a)); simpl; congruence.
Qed.
Lemma put_find : forall a s x, find_id (a_id a) (s_args s) = Some x -> find_id (a_id a) (s_args (put a s)) = Some a.
Proof.
  intros a s x. unfold put; simpl. generalize (s_args s). induction l as [|b l IH]; simpl; [discriminate|].
  unfold find_id; simpl. destruct (Nat.eqb (a_id b) (a_id a)) eqn:E; simpl.
  - rewrite Nat.eqb_refl. intros _; reflexivity.
  - rewrite E. exact IH.
Qed.
Lemma put_put : forall a b s, a_id a = a_id b -> put b (put a s) = put b s.
Proof.
  intros a b s E. unfold put; simpl. unfold with_args; simpl. f_equal. unfold upd_id. rewrite map_map. apply map_ext.
  intros x. rewrite E. destruct (Nat.eqb (a_id x) (a_id b)) eqn:X; [rewrite E, Nat.eqb_refl; reflexivity | now rewrite X].
Qed.
Lemma put_same : forall s a, NoDup (map a_id (s_args s)) -> In a (s_args s) -> put a s = s.
Proof.
  intros s a ND I. unfold put. rewrite upd_id_id; [apply with_args_id|]. intros b Ib Eb.
  pose proof (In_find_id _ _ ND Ib) as F1. pose proof (In_find_id _ _ ND I) as F2. rewrite Eb in F1. congruence.
Qed.
Lemma put_In : forall a s b, In b (s_args (put a s)) -> b = a \/ (In b (s_args s) /\ a_id b <> a_id a).
Proof.
  intros a s b I. unfold put in I; simpl in I. unfold upd_id in I. apply in_map_iff in I. destruct I as [x [E I]].
  destruct (Nat.eqb_spec (a_id x) (a_id a)); [left; congruence | right; subst; auto].
Qed.
Lemma put_In_self : forall a s b, In b (s_args s) -> a_id b = a_id a -> In a (s_args (put a s)).
Proof.
  intros a s b I E. unfold put; simpl. unfold upd_id. apply in_map_iff. exists b. rewrite E, Nat.eqb_refl. auto.
Qed.
Lemma put_In_other : forall a s b, In b (s_args s) -> a_id b <> a_id a -> In b (s_args (put a s)).
Proof.
  intros a s b I E. unfold put; simpl. unfold upd_id. apply in_map_iff. exists b. apply Nat.eqb_neq in E. rewrite E. auto.
Qed.

(** * defaultsConstructor_ *)
Definition size_fits (c : acfg) (n : nat) : bool :=
  match c_type c with
  | POSITIONAL_ARGUMENT | SIMPLE_OPTION | NUMBER_POSITIONAL_ARGUMENT | NUMBER_OPTION => N.eqb (N.of_nat n) (c_nargs c)
  | INFINITE_NUMBER_POSITIONAL_ARGUMENT | MULTI_NUMBER_OPTION | MULTI_NUMBER_INFINITE_OPTION =>
      N.eqb (N.of_nat n mod c_nargs c) 0
  | _ => true
  end.
Definition default_groups (c : acfg) : list (list str) := chunks (N.to_nat (c_nargs c)) (c_defaults c).
Definition defaulted (a : argument) : argument :=
  let c := a_cfg a in
  let d := dyn_elems (a_dyn a) [] in
  let ds := c_defaults c in
  match c_type c with
  | POSITIONAL_ARGUMENT | SIMPLE_OPTION =>
      Arg (a_id a) (a_gen a) (cfg_default c (hd "" ds)) (dyn_arg d (hd "" ds))
  | NUMBER_POSITIONAL_ARGUMENT | NUMBER_OPTION
  | INFINITE_POSITIONAL_ARGUMENT | MULTI_OPTION | INFINITE_OPTION | MULTI_INFINITE_OPTION =>
      Arg (a_id a) (a_gen a) (cfg_default c (join ", " ds)) (dyn_elems d (map default_elem ds))
  | INFINITE_NUMBER_POSITIONAL_ARGUMENT | MULTI_NUMBER_OPTION | MULTI_NUMBER_INFINITE_OPTION =>
      Arg (a_id a) (a_gen a)
        (cfg_default c (c_default c ^^ join ", " (map (fun g => "(" ^^ join ", " g ^^ ")") (default_groups c))))
        (dyn_elems d (map default_group (default_groups c)))
  | _ => arg_dyn a d
  end.
Definition no_defaults (c : acfg) : bool := N.eqb (c_nargs c) 0 || match c_defaults c with [] => true | _ => false end.
Definition defaults_arg (a : argument) : argument * option exn :=
  if no_defaults (a_cfg a) then (a, None)
  else if size_fits (a_cfg a) (length (c_defaults (a_cfg a))) then (defaulted a, None)
  else (arg_dyn a (dyn_elems (a_dyn a) []), Some (Exn KArgument (first_name (a_cfg a)) msg_defaults)).

Lemma defaultsConstructor_eq : forall id s a, NoDup (map a_id (s_args s)) -> find_id id (s_args s) = Some a -> has_name a = true ->
  defaultsConstructor id s = outcome (put (fst (defaults_arg a)) s, snd (defaults_arg a)).
Proof.
  intros id s a ND F HN. unfold defaultsConstructor.
  assert (D : deref id s = (s, Ok a)) by (rewrite deref_eq, F; reflexivity).
  rewrite (bind_ok _ _ _ _ _ D). destruct (find_id_In _ _ _ F) as [Ia Ea]. subst id.
  set (c := a_cfg a) in *. set (id := a_id a) in *.
  assert (FR : forall m s', (do f <- front (c_names c);; throw KArgument f m) s' = (s', Throw (Exn KArgument (first_name c) m)) :> state * res unit).
  { intros m s'. unfold has_name in HN. fold c in HN. unfold first_name. destruct (c_names c); [discriminate | reflexivity]. }
  unfold defaults_arg, no_defaults. fold c.
  assert (GD : ((0 <? c_nargs c)%N && (0 <? N.of_nat (length (c_defaults c)))%N) =
     negb ((N.eqb (c_nargs c) 0) || match c_defaults c with [] => true | _ => false end)).
  { destruct (c_defaults c); simpl length; destruct (N.eqb_spec (c_nargs c) 0) as [E|E]; simpl.
    - rewrite E. reflexivity.
    - rewrite andb_false_r. reflexivity.
    - rewrite E. reflexivity.
    - destruct (N.ltb_spec 0 (c_nargs c)); [|lia]. reflexivity. }
  cbv zeta. rewrite GD. destruct ((N.eqb (c_nargs c) 0) || match c_defaults c with [] => true | _ => false end) eqn:ND0; cbn [negb].
  { simpl. rewrite put_same by assumption. reflexivity. }
  assert (NZ : c_nargs c <> 0%N).
  { intros Z. rewrite Z in ND0. discriminate. }
  assert (SD : forall f g, upd_id id (fun a0 => arg_dyn a0 (g (a_dyn a0))) (s_args (with_args s (upd_id id (fun a0 => arg_dyn a0 (f (a_dyn a0))) (s_args s)))) =
              upd_id id (fun a0 => arg_dyn a0 (g (f (a_dyn a0)))) (s_args s)).
  { intros; simpl. rewrite upd_id_comp by reflexivity. reflexivity. }
  set (s0 := with_args s (upd_id id (fun a0 => arg_dyn a0 (dyn_elems (a_dyn a0) [])) (s_args s))).
  assert (S0 : set_dyn id (fun d => dyn_elems d []) s = (s0, Ok tt)) by reflexivity.
  rewrite (bind_ok _ _ _ _ _ S0).
  assert (P0 : s0 = put (arg_dyn a (dyn_elems (a_dyn a) [])) s).
  { unfold s0. apply (put_upd s id (fun a0 => arg_dyn a0 (dyn_elems (a_dyn a0) [])) a ND F). reflexivity. }
  assert (SC : forall f g, (set_cfg id f ;;; set_dyn id g) s0 = (put (Arg (a_id a) (a_gen a) (f c) (g (dyn_elems (a_dyn a) []))) s, Ok tt)).
  { intros f g. unfold bind, set_cfg, set_dyn, modify. cbn [s_args with_args]. f_equal.
    unfold s0; cbn [s_args with_args]. rewrite !upd_id_comp by reflexivity.
    exact (put_upd s id (fun a0 => Arg (a_id a0) (a_gen a0) (f (a_cfg a0)) (g (dyn_elems (a_dyn a0) []))) a ND F eq_refl). }
  assert (CS : forall f g, (set_dyn id g ;;; set_cfg id f) s0 = (put (Arg (a_id a) (a_gen a) (f c) (g (dyn_elems (a_dyn a) []))) s, Ok tt)).
  { intros f g. unfold bind, set_cfg, set_dyn, modify. cbn [s_args with_args]. f_equal.
    unfold s0; cbn [s_args with_args]. rewrite !upd_id_comp by reflexivity.
    exact (put_upd s id (fun a0 => Arg (a_id a0) (a_gen a0) (f (a_cfg a0)) (g (dyn_elems (a_dyn a0) []))) a ND F eq_refl). }
  assert (GR : N.eqb (N.of_nat (length (c_defaults c)) mod c_nargs c) 0 = true ->
     groups_of (N.to_nat (c_nargs c)) (N.to_nat (N.of_nat (length (c_defaults c)) / c_nargs c)) (c_defaults c) = default_groups c).
  { intros _. unfold groups_of, default_groups, chunks. f_equal. f_equal. rewrite N2Nat.inj_div, Nat2N.id. reflexivity. }
  unfold size_fits, defaulted. fold c.
  destruct (c_type c) eqn:T;
    try (simpl; rewrite P0; reflexivity);
    try (rewrite SC; reflexivity);
    try (destruct (N.eqb (N.of_nat (length (c_defaults c))) (c_nargs c)); cbn [negb fst snd];
         [ first [rewrite CS | rewrite SC]; reflexivity | rewrite FR, P0; reflexivity ]);
    try (destruct (N.eqb (N.of_nat (length (c_defaults c)) mod c_nargs c) 0) eqn:Q; cbn [negb fst snd];
         [ rewrite SC, (GR eq_refl); reflexivity | rewrite FR, P0; reflexivity ]).
Qed.
