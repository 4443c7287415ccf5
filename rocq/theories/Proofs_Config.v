(** Proofs_Config.v -- invariants of the configuration: kinds, nargs, and the pointers
    to the help and version arguments. *)
From Coq Require Import Permutation Sorted.
From Verif Require Import Base Model_Utils Model_Number Model_Types Model_Argument Model_Usage Model_Args Model_Api
  Spec_Order Spec_Names Spec_Reading Spec_Parse Spec_Decl Spec_History Proofs_Base Proofs_Order Proofs_Frame Proofs_Inv Proofs_Reading Proofs_Parse Proofs_Decl Proofs_Meth Proofs_History.

(* ------------------------------------------------------------------ *)
(** * invariants of the (kind, nargs, action) of each argument *)
Definition kact (c : acfg) : atype * N * eAction := (c_type c, c_nargs c, c_action c).

Lemma defaults_arg_kact : forall a, kact (a_cfg (fst (defaults_arg a))) = kact (a_cfg a).
Proof.
  intros a. unfold defaults_arg. destruct (no_defaults (a_cfg a)); [reflexivity|].
  destruct (size_fits _ _); [|reflexivity]. simpl. unfold defaulted. destruct (c_type (a_cfg a)) eqn:T; unfold kact; simpl; try rewrite T; reflexivity.
Qed.
Lemma defaults_arg_names : forall a, c_names (a_cfg (fst (defaults_arg a))) = c_names (a_cfg a).
Proof.
  intros a. unfold defaults_arg. destruct (no_defaults (a_cfg a)); [reflexivity|].
  destruct (size_fits _ _); [|reflexivity]. simpl. unfold defaulted. destruct (c_type (a_cfg a)) eqn:T; reflexivity.
Qed.
Lemma defaults_arg_gen : forall a, a_gen (fst (defaults_arg a)) = a_gen a.
Proof.
  intros a. unfold defaults_arg. destruct (no_defaults (a_cfg a)); [reflexivity|].
  destruct (size_fits _ _); [|reflexivity]. simpl. unfold defaulted. destruct (c_type (a_cfg a)) eqn:T; reflexivity.
Qed.
Lemma retyped_kact : forall c k, kact (retyped c k) = k.
Proof. intros c [[t n] act]. reflexivity. Qed.

(** the argument that [declared] leaves in place of [a], in both outcomes *)
Lemma declared_cases : forall a s,
  (exists k, kind_of (a_cfg a) = Some k /\ 
     s_args (fst (declared a s)) = s_args (put (fst (defaults_arg (arg_cfg a (retyped (a_cfg a) k)))) s) /\
     s_map (fst (declared a s)) = s_map s /\ s_freed (fst (declared a s)) = s_freed s /\
     s_help (fst (declared a s)) = (match fst (fst k) with HELP_OPTION => Some (ptr_of a) | _ => s_help s end) /\
     s_version (fst (declared a s)) = (match fst (fst k) with VERSION_OPTION => Some (ptr_of a) | _ => s_version s end)) \/
  ((kind_of (a_cfg a) = None \/ exists k, kind_of (a_cfg a) = Some k /\ (fst (fst k) = HELP_OPTION \/ fst (fst k) = VERSION_OPTION)) /\
     fst (declared a s) = put a s /\ exists e, snd (declared a s) = Some e).
Proof.
  intros a s. unfold declared. destruct (kind_of (a_cfg a)) as [k|] eqn:K; [|right; split; [now left|]; split; [reflexivity | eexists; reflexivity]].
  cbv zeta. destruct (fst (fst k)) eqn:T;
    try (left; exists k; split; [reflexivity|]; rewrite T; repeat split; reflexivity).
  - destruct (claims (s_help s) (ptr_of a)).
    + left. exists k. rewrite T. repeat split; reflexivity.
    + right. split; [right; exists k; auto|]. split; [reflexivity | eexists; reflexivity].
  - destruct (claims (s_version s) (ptr_of a)).
    + left. exists k. rewrite T. repeat split; reflexivity.
    + right. split; [right; exists k; auto|]. split; [reflexivity | eexists; reflexivity].
Qed.

Definition declares (m : meth) : bool := match m with MAction _ | MNargs _ => true | _ => false end.
Section KindInvariant.
  Variable P : policy.
  Variable Pk : atype * N * eAction -> Prop.
  Hypothesis allow_action : forall a s, p_meth P (MAction HELP) a s.
  Hypothesis allow_help : forall h a s, p_meth P (MHelp h) a s.
  Hypothesis allow_add : forall s, p_add P (free_help s) s.
  Hypothesis K_positional : Pk (POSITIONAL_ARGUMENT, 1%N, NONE).
  Hypothesis K_option : Pk (SIMPLE_OPTION, 1%N, NONE).
  Let changed (m : meth) (c : acfg) : acfg :=
    match m with MAction x => cfg_action c x | MNargs n => cfg_nargs c (n mod w64)%N | _ => c end.
  Hypothesis K_kind : forall m a s k, declares m = true -> p_meth P m a s -> Pk (kact (a_cfg a)) -> kind_of (changed m (a_cfg a)) = Some k -> Pk k.
  Hypothesis K_refused : forall m a s, declares m = true -> p_meth P m a s -> Pk (kact (a_cfg a)) ->
     kind_of (changed m (a_cfg a)) = None \/ (exists k, kind_of (changed m (a_cfg a)) = Some k /\ (fst (fst k) = HELP_OPTION \/ fst (fst k) = VERSION_OPTION)) ->
     Pk (kact (changed m (a_cfg a))).

  Definition all_kinds (s : state) : Prop := forall a, In a (s_args s) -> Pk (kact (a_cfg a)).

  Lemma all_kinds_put : forall s a, all_kinds s -> Pk (kact (a_cfg a)) -> all_kinds (put a s).
  Proof. intros s a H Ha b Ib. apply put_In in Ib. destruct Ib as [->|[Ib _]]; auto. Qed.
  Lemma all_kinds_args : forall s s', all_kinds s -> s_args s' = s_args s -> all_kinds s'.
  Proof. intros s s' H E a Ia. rewrite E in Ia. auto. Qed.
  Lemma all_kinds_sorted : forall s, all_kinds s -> all_kinds (with_args s (sort_by arg_lt (s_args s))).
  Proof. intros s H a Ia. simpl in Ia. apply Permutation_in with (l' := s_args s) in Ia; [auto | symmetry; apply sort_perm]. Qed.
  Lemma all_kinds_frame : forall s s', frame s s' -> all_kinds s -> all_kinds s'.
  Proof.
    intros s s' F H a Ia. pose proof (fr_args _ _ F) as E.
    assert (In (static a) (map static (s_args s))) as X by (rewrite <- E; now apply in_map).
    apply in_map_iff in X. destruct X as [b [Eb Ib]]. unfold static in Eb. injection Eb as _ _ Ec. rewrite <- Ec. auto.
  Qed.
  Lemma all_kinds_registered : forall s c, all_kinds s -> Pk (kact c) -> all_kinds (registered s c).
  Proof.
    intros s c H Hc. unfold registered. apply all_kinds_sorted. intros a Ia. simpl in Ia. apply in_app_or in Ia.
    destruct Ia as [Ia|[<-|[]]]; [auto | exact Hc].
  Qed.
  Lemma all_kinds_declared : forall s a b m, all_kinds s -> In a (s_args s) -> declares m = true -> p_meth P m a s ->
    b = arg_cfg a (changed m (a_cfg a)) -> forall t, s_args t = s_args s -> all_kinds (fst (declared b t)).
  Proof.
    intros s a b m H Ia DM PM -> t Et.
    assert (Ht : all_kinds t) by (eapply all_kinds_args; eauto).
    destruct (declared_cases (arg_cfg a (changed m (a_cfg a))) t) as [[k [K [EA _]]]|[K [E _]]].
    - eapply all_kinds_args; [|exact EA]. apply all_kinds_put; [exact Ht|]. rewrite defaults_arg_kact. simpl a_cfg. rewrite retyped_kact.
      eapply K_kind; eauto.
    - rewrite E. apply all_kinds_put; [exact Ht|]. simpl a_cfg. eapply K_refused; eauto.
  Qed.
  Theorem kind_invariant : forall s, reach_with P s -> all_kinds s.
  Proof.
    intros s R. refine (proj2 (reach_invariant P all_kinds (fun a s _ _ _ _ => allow_action a s) allow_help allow_add _ _ _ _ _ _ _ _ _ s R)); clear s R.
    - intros f d a [].
    - intros s s' _ F H. eapply all_kinds_frame; eauto.
    - intros s n _ H _ _ _. apply all_kinds_registered; [exact H | exact K_positional].
    - intros s v flags _ H _ _ _ _ _ _. apply all_kinds_registered; [exact H | exact K_option].
    - intros m s a W H Ia PM _. pose proof (H a Ia) as Ka. destruct m; unfold meth_state; cbv zeta; simpl fst.
      + destruct (is_positional _); [exact H|]. destruct (validFormatFlag f); [exact H|]. destruct (mem_key f (s_map s)); [exact H|].
        eapply all_kinds_args; [|reflexivity]. apply all_kinds_sorted. apply all_kinds_put; [exact H | exact Ka].
      + eapply (all_kinds_declared s a _ (MAction a0)); eauto. unfold released. destruct (c_action (a_cfg a)); reflexivity.
      + apply all_kinds_sorted. apply all_kinds_put; [exact H | exact Ka].
      + apply all_kinds_put; [exact H | exact Ka].
      + apply all_kinds_put; [exact H | exact Ka].
      + eapply (all_kinds_declared s a _ (MNargs n)); eauto.
      + apply all_kinds_put; [exact H|]. rewrite defaults_arg_kact. exact Ka.
      + eapply all_kinds_args; [|reflexivity]. apply all_kinds_put; [exact H | exact Ka].
      + apply all_kinds_put; [exact H | exact Ka].
    - intros s n a W H Ia _ _. unfold removed. destruct (existsb _ _).
      + intros b Ib. simpl in Ib. apply upd_id_In in Ib. destruct Ib as [x [Ix ->]]. destruct (Nat.eqb (a_id x) (a_id a)); [exact (H x Ix) | auto].
      + intros b Ib. assert (In b (filter (fun b => negb (Nat.eqb (a_id b) (a_id a))) (s_args s))) as X.
        { destruct (optr_eqb (s_help s) (ptr_of a)); [exact Ib|]. destruct (optr_eqb (s_version s) (ptr_of a)); exact Ib. }
        apply filter_In in X. apply H, X.
    - intros s _. apply all_kinds_sorted.
    - intros s s' H E _ _ _ _. eapply all_kinds_args; eauto.
    - intros s _ _ a [].
  Qed.
End KindInvariant.

Lemma kind_pos : forall c k, kind_of c = Some k -> is_positional (fst (fst k)) = is_positional (c_type c).
Proof.
  intros c k. unfold kind_of. destruct (is_positional (c_type c)).
  - unfold positional_kind. destruct (c_action c); try discriminate; repeat (match goal with |- context [if ?b then _ else _] => destruct b end); intros E; try discriminate; injection E as <-; reflexivity.
  - intros E. injection E as <-. unfold option_kind. destruct (c_action c); repeat (match goal with |- context [if ?b then _ else _] => destruct b end); reflexivity.
Qed.

(** options: nargs 0 means no values *)
Theorem reach_opt_nargs : forall s, reach s -> opt_nargs s.
Proof.
  intros s R. apply reach_any in R.
  assert (H : all_kinds (fun k => is_positional (fst (fst k)) = false -> snd (fst k) = 0%N ->
      match fst (fst k) with HELP_OPTION | VERSION_OPTION | BOOLEAN_OPTION | REVERSE_BOOLEAN_OPTION => True | _ => False end) s).
  { revert s R. apply kind_invariant; try (intros; exact I); try (simpl; discriminate).
    - intros m a s k _ _ _ K NP Z. unfold kind_of in K. rewrite (kind_pos _ _ K) in NP. rewrite NP in K. injection K as <-.
      revert Z. unfold option_kind.
      match goal with |- context [option_kind] => idtac | _ => idtac end.
      destruct (N.eqb_spec (c_nargs match m with MAction x => cfg_action (a_cfg a) x | MNargs n => cfg_nargs (a_cfg a) (n mod w64)%N | _ => a_cfg a end) 0) as [Z0|Z0]; [intros; exact I|].
      match goal with |- context [match ?x with NONE => _ | _ => _ end] => destruct x end; simpl; try (intros; exact I); try (intros Q; discriminate Q);
        repeat (match goal with |- context [if ?b then _ else _] => destruct b end); simpl; intros Q; try discriminate Q; try contradiction.
    - intros m a s _ _ Ka R NP Z.
      set (c := match m with MAction x => cfg_action (a_cfg a) x | MNargs n => cfg_nargs (a_cfg a) (n mod w64)%N | _ => a_cfg a end) in *.
      simpl in NP, Z. exfalso. unfold kind_of in R. rewrite NP in R. unfold option_kind in R. rewrite Z in R. simpl in R.
      destruct R as [R|[k [R T]]]; [discriminate|]. injection R as <-. simpl in T. destruct T; discriminate. }
  intros a Ia NP Z. specialize (H a Ia NP Z). simpl in H. unfold arity_of. destruct (c_type (a_cfg a)); try contradiction; reflexivity.
Qed.

(** histories with sane nargs lead to sensible states *)
Theorem reach_sensible : forall P, (forall a s, p_meth P (MAction HELP) a s) -> (forall h a s, p_meth P (MHelp h) a s) ->
  (forall s, p_add P (free_help s) s) ->
  (forall n a s, p_meth P (MNargs n) a s -> (n < 2 ^ 63)%N /\ (is_positional (c_type (a_cfg a)) = true -> n <> 0%N)) ->
  forall s, reach_with P s -> sensible s.
Proof.
  intros P A1 A2 A3 PN s R.
  assert (H : all_kinds (fun k => (snd (fst k) < 2 ^ 63)%N /\ (is_positional (fst (fst k)) = true -> snd (fst k) <> 0%N)) s).
  { revert s R. apply kind_invariant; auto; try (split; [reflexivity | discriminate]).
    - intros m a s k _ PM [L NZ] K.
      set (c := match m with MAction x => cfg_action (a_cfg a) x | MNargs n => cfg_nargs (a_cfg a) (n mod w64)%N | _ => a_cfg a end) in *.
      assert (Lc : (c_nargs c < 2 ^ 63)%N /\ (is_positional (c_type c) = true -> c_nargs c <> 0%N)).
      { unfold c. destruct m; try (split; [exact L | exact NZ]). simpl. apply PN in PM. destruct PM as [PM1 PM2].
        rewrite N.mod_small; [split; [exact PM1 | exact PM2]|]. unfold w64. eapply N.lt_trans; [exact PM1 | reflexivity]. }
      clearbody c. destruct Lc as [L1 L2]. unfold kind_of in K. destruct (is_positional (c_type c)) eqn:Pc.
      + specialize (L2 eq_refl). unfold positional_kind in K. destruct (c_action c); try discriminate;
          destruct (N.eqb_spec (c_nargs c) 0); try congruence; repeat (match type of K with context [if ?b then _ else _] => destruct b end);
          injection K as <-; simpl; split; try reflexivity; try exact L1; try (intros _; assumption); try (intros _; discriminate).
      + injection K as <-. split.
        * unfold option_kind. destruct (N.eqb (c_nargs c) 0); [reflexivity|]. destruct (c_action c); simpl; try reflexivity;
            repeat (match goal with |- context [if ?b then _ else _] => destruct b end); simpl; try reflexivity; exact L1.
        * intros Q. exfalso. revert Q. unfold option_kind. destruct (N.eqb (c_nargs c) 0); [discriminate|]. destruct (c_action c); simpl; try discriminate;
            repeat (match goal with |- context [if ?b then _ else _] => destruct b end); simpl; discriminate.
    - intros m a s _ PM [L NZ] _. destruct m; try (split; [exact L | exact NZ]). simpl. apply PN in PM. destruct PM as [PM1 PM2].
        rewrite N.mod_small; [split; [exact PM1 | exact PM2]|]. unfold w64. eapply N.lt_trans; [exact PM1 | reflexivity]. }
  intros a Ia. destruct (H a Ia) as [H1 H2]. split; [exact H1|]. intros T. apply H2. simpl. now rewrite T.
Qed.

(* ------------------------------------------------------------------ *)
(** * the pointers to the help and version arguments *)
Definition role (p : option (nat * nat)) (act : eAction) (l : list argument) : Prop :=
  match p with
  | None => True
  | Some (i, g) => forall a, In a l -> a_id a = i ->
      g <= a_gen a /\ (a_gen a = g -> c_action (a_cfg a) = act /\ is_positional (c_type (a_cfg a)) = false)
  end.
Definition points (p : option (nat * nat)) (l : list argument) : Prop :=
  match p with None => True | Some q => exists a, In a l /\ ptr_of a = q end.
Definition roles (s : state) : Prop := role (s_help s) HELP (s_args s) /\ role (s_version s) VERSION (s_args s).
Definition pointing (s : state) : Prop := points (s_help s) (s_args s) /\ points (s_version s) (s_args s).

Lemma role_incl : forall p act l l', (forall a, In a l' -> In a l) -> role p act l -> role p act l'.
Proof. intros [[i g]|] act l l' H R; simpl in *; [|exact I]. intros a Ia. apply R. auto. Qed.
Lemma points_incl : forall p l l', (forall a, In a l -> In a l') -> points p l -> points p l'.
Proof. intros [q|] l l' H R; simpl in *; [|exact I]. destruct R as [a [Ia E]]. exists a. auto. Qed.
Lemma role_static : forall p act l l', map static l' = map static l -> role p act l -> role p act l'.
Proof.
  intros [[i g]|] act l l' E R; simpl in *; [|exact I]. intros a Ia Ea.
  assert (X : In (static a) (map static l)) by (rewrite <- E; now apply in_map).
  apply in_map_iff in X. destruct X as [b [Eb Ib]]. unfold static in Eb. injection Eb as E1 E2 E3.
  rewrite <- E2, <- E3. apply R; [exact Ib | congruence].
Qed.
Lemma points_static : forall p l l', map static l' = map static l -> points p l -> points p l'.
Proof.
  intros [q|] l l' E R; simpl in *; [|exact I]. destruct R as [a [Ia Ea]].
  assert (X : In (static a) (map static l')) by (rewrite E; now apply in_map).
  apply in_map_iff in X. destruct X as [b [Eb Ib]]. unfold static in Eb. injection Eb as E1 E2 E3.
  exists b. split; [exact Ib|]. unfold ptr_of in *. congruence.
Qed.
Lemma role_put : forall p act s b,
  role p act (s_args s) ->
  (forall i g, p = Some (i, g) -> i = a_id b -> g <= a_gen b /\ (a_gen b = g -> c_action (a_cfg b) = act /\ is_positional (c_type (a_cfg b)) = false)) ->
  role p act (s_args (put b s)).
Proof.
  intros [[i g]|] act s b R H; simpl in *; [|exact I]. intros a Ia Ea.
  change (In a (s_args (put b s))) in Ia. apply put_In in Ia. destruct Ia as [->|[Ia _]]; [eapply H; eauto | now apply R].
Qed.
Lemma points_put : forall p s a b, In a (s_args s) -> a_id b = a_id a -> a_gen b = a_gen a -> NoDup (map a_id (s_args s)) ->
  points p (s_args s) -> points p (s_args (put b s)).
Proof.
  intros [q|] s a b Ia E1 E2 ND R; simpl in *; [|exact I]. destruct R as [x [Ix Ex]].
  change (exists y, In y (s_args (put b s)) /\ ptr_of y = q).
  destruct (Nat.eq_dec (a_id x) (a_id b)) as [E|E].
  - exists b. split; [eapply put_In_self; [exact Ia | congruence]|].
    assert (x = a). { pose proof (In_find_id _ _ ND Ix). pose proof (In_find_id _ _ ND Ia). replace (a_id a) with (a_id x) in H0 by congruence. congruence. }
    subst x. unfold ptr_of in *. congruence.
  - exists x. split; [now apply put_In_other | exact Ex].
Qed.
(** [b] in place of [a], with the same action and position *)
Lemma role_same : forall p act s a b, role p act (s_args s) -> In a (s_args s) -> a_id b = a_id a -> a_gen b = a_gen a ->
  c_action (a_cfg b) = c_action (a_cfg a) -> is_positional (c_type (a_cfg b)) = is_positional (c_type (a_cfg a)) ->
  role p act (s_args (put b s)).
Proof.
  intros p act s a b R Ia E1 E2 E3 E4. apply role_put; [exact R|]. intros i g -> Ei. rewrite E2, E3, E4. apply R; [exact Ia | congruence].
Qed.
Lemma kind_action : forall c k, kind_of c = Some k -> is_positional (c_type c) = false ->
  c_action c = HELP \/ c_action c = VERSION -> snd k = c_action c.
Proof.
  intros c k K NP A. unfold kind_of in K. rewrite NP in K. injection K as <-. unfold option_kind.
  destruct (N.eqb (c_nargs c) 0); [reflexivity|]. destruct A as [-> | ->]; reflexivity.
Qed.
Lemma kind_help : forall c k, kind_of c = Some k -> (fst (fst k) = HELP_OPTION -> snd k = HELP /\ c_action c = HELP) /\ (fst (fst k) = VERSION_OPTION -> snd k = VERSION /\ c_action c = VERSION).
Proof.
  intros c k K. unfold kind_of in K. destruct (is_positional (c_type c)).
  - unfold positional_kind in K. destruct (c_action c); try discriminate; repeat (match type of K with context [if ?b then _ else _] => destruct b end);
      try discriminate; injection K as <-; split; discriminate.
  - injection K as <-. unfold option_kind. destruct (N.eqb (c_nargs c) 0); [split; discriminate|].
    destruct (c_action c); repeat (match goal with |- context [if ?b then _ else _] => destruct b end); split; simpl; intros; try discriminate; auto.
Qed.
Lemma declared_roles : forall a b s, NoDup (map a_id (s_args s)) -> In a (s_args s) -> a_id b = a_id a -> a_gen b = a_gen a ->
  is_positional (c_type (a_cfg b)) = is_positional (c_type (a_cfg a)) ->
  roles s ->
  (c_action (a_cfg b) = c_action (a_cfg a) \/
     (forall i g, s_help s = Some (i, g) -> i = a_id a -> g <> a_gen a) /\ (forall i g, s_version s = Some (i, g) -> i = a_id a -> g <> a_gen a)) ->
  roles (fst (declared b s)) /\ (pointing s -> pointing (fst (declared b s))).
Proof.
  intros a b s ND Ia E1 E2 E3 [RH RV] CA.
  destruct (declared_cases b s) as [[k [K [EA [EM [EF [EH EV]]]]]]|[K [E _]]].
  - set (d := fst (defaults_arg (arg_cfg b (retyped (a_cfg b) k)))) in *.
    assert (D1 : a_id d = a_id a) by (unfold d; rewrite defaults_arg_id; exact E1).
    assert (D2 : a_gen d = a_gen a) by (unfold d; rewrite defaults_arg_gen; exact E2).
    assert (D3 : kact (a_cfg d) = k) by (unfold d; rewrite defaults_arg_kact; apply retyped_kact).
    assert (D4 : is_positional (c_type (a_cfg d)) = is_positional (c_type (a_cfg a))).
    { rewrite <- E3, <- (kind_pos _ _ K), <- D3. reflexivity. }
    assert (D5 : c_action (a_cfg d) = snd k) by (rewrite <- D3; reflexivity).
    assert (R0 : forall p act, (act = HELP \/ act = VERSION) -> role p act (s_args s) ->
       (c_action (a_cfg b) = c_action (a_cfg a) \/ (forall i g, p = Some (i, g) -> i = a_id a -> g <> a_gen a)) -> role p act (s_args (put d s))).
    { intros p act HA R Q. apply role_put; [exact R|]. intros i g -> Ei. rewrite D1 in Ei. destruct (R a Ia (eq_sym Ei)) as [R1 R2].
      split; [lia|]. intros G. rewrite D2 in G. specialize (R2 G). destruct R2 as [R2 R3].
      destruct Q as [Q|Q]; [|exfalso; eapply Q; [reflexivity | exact Ei | symmetry; exact G]].
      split; [|now rewrite D4]. rewrite D5. rewrite (kind_action _ _ K); [congruence|congruence|]. rewrite Q, R2. exact HA. }
    destruct (kind_help _ _ K) as [KH KV]. unfold roles, pointing. rewrite EA, EH, EV.
    assert (IP : In d (s_args (put d s))) by (eapply put_In_self; [exact Ia | congruence]).
    split; [split|intros [PH PV]; split].
    + destruct (fst (fst k)) eqn:T; try (apply R0; [now left | exact RH | tauto]).
      simpl. intros x Ix Ex. change (In x (s_args (put d s))) in Ix. apply put_In in Ix. destruct Ix as [->|[_ N]]; [|congruence].
      rewrite D2, E2. split; [lia|]. intros _. split; [rewrite D5; now apply KH|]. rewrite D4, <- E3, <- (kind_pos _ _ K), T. reflexivity.
    + destruct (fst (fst k)) eqn:T; try (apply R0; [now right | exact RV | tauto]).
      simpl. intros x Ix Ex. change (In x (s_args (put d s))) in Ix. apply put_In in Ix. destruct Ix as [->|[_ N]]; [|congruence].
      rewrite D2, E2. split; [lia|]. intros _. split; [rewrite D5; now apply KV|]. rewrite D4, <- E3, <- (kind_pos _ _ K), T. reflexivity.
    + destruct (fst (fst k)) eqn:T; try (solve [eapply points_put; eauto]). exists d. split; [exact IP|]. unfold ptr_of. congruence.
    + destruct (fst (fst k)) eqn:T; try (solve [eapply points_put; eauto]). exists d. split; [exact IP|]. unfold ptr_of. congruence.
  - rewrite E. split; [|intros [PH PV]; split; eapply points_put; eauto].
    assert (R0 : forall p act, role p act (s_args s) ->
       (c_action (a_cfg b) = c_action (a_cfg a) \/ (forall i g, p = Some (i, g) -> i = a_id a -> g <> a_gen a)) -> role p act (s_args (put b s))).
    { intros p act R Q. apply role_put; [exact R|]. intros i g -> Ei. rewrite E1 in Ei. destruct (R a Ia (eq_sym Ei)) as [R1 R2].
      split; [lia|]. intros G. rewrite E2 in G. destruct Q as [Q|Q]; [|exfalso; eapply Q; [reflexivity | exact Ei | symmetry; exact G]].
      rewrite Q, E3. auto. }
    split; apply R0; auto; tauto.
Qed.
Lemma meth_roles : forall m s a, wf0 s -> roles s -> In a (s_args s) ->
  roles (fst (meth_state m a s)) /\
  ((match m with MDest _ => c_action (a_cfg a) <> HELP /\ c_action (a_cfg a) <> VERSION | _ => True end) -> pointing s -> pointing (fst (meth_state m a s))).
Proof.
  intros m s a W [RH RV] Ia. pose proof (wf_ids s W) as ND.
  assert (SAME : forall b, a_id b = a_id a -> a_gen b = a_gen a -> c_action (a_cfg b) = c_action (a_cfg a) ->
     is_positional (c_type (a_cfg b)) = is_positional (c_type (a_cfg a)) ->
     (role (s_help s) HELP (s_args (put b s)) /\ role (s_version s) VERSION (s_args (put b s))) /\
     (pointing s -> points (s_help s) (s_args (put b s)) /\ points (s_version s) (s_args (put b s)))).
  { intros b E1 E2 E3 E4. split; [split; eapply role_same; eauto|]. intros [PH PV]. split; eapply points_put; eauto. }
  assert (SORT : forall l, forall x, In x (sort_by arg_lt l) <-> In x l).
  { intros l x. split; apply Permutation_in; [symmetry|]; apply sort_perm. }
  destruct m; unfold meth_state; cbv zeta; cbn [fst].
  - assert (Q : roles s /\ (True -> pointing s -> pointing s)) by (split; [split; assumption | auto]).
    destruct (SAME (arg_cfg a (cfg_names (a_cfg a) (sort_flags (c_names (a_cfg a) ++ [f])))) eq_refl eq_refl eq_refl eq_refl) as [[S1 S2] S3].
    destruct (is_positional _); [exact Q|]. destruct (validFormatFlag f); [exact Q|]. destruct (mem_key f (s_map s)); [exact Q|].
    split; [split|intros _ PP; destruct (S3 PP) as [S4 S5]; split].
    + eapply role_incl; [|exact S1]. intros x Ix. first [exact (proj1 (SORT _ x) Ix) | exact (proj2 (SORT _ x) Ix)].
    + eapply role_incl; [|exact S2]. intros x Ix. first [exact (proj1 (SORT _ x) Ix) | exact (proj2 (SORT _ x) Ix)].
    + eapply points_incl; [|exact S4]. intros x Ix. first [exact (proj1 (SORT _ x) Ix) | exact (proj2 (SORT _ x) Ix)].
    + eapply points_incl; [|exact S5]. intros x Ix. first [exact (proj1 (SORT _ x) Ix) | exact (proj2 (SORT _ x) Ix)].
  - assert (EA : s_args (released a s) = s_args s) by (unfold released; destruct (c_action (a_cfg a)); reflexivity).
    assert (RR : roles (released a s)).
    { unfold released. destruct (c_action (a_cfg a)); split; simpl; auto. }
    assert (PR : pointing s -> pointing (released a s)).
    { intros [PH PV]. unfold released. destruct (c_action (a_cfg a)); split; simpl; auto. }
    destruct (declared_roles a (arg_cfg a (cfg_action (a_cfg a) a0)) (released a s)) as [D1 D2]; try (rewrite EA; assumption); auto.
    + right. unfold released. split; intros i g.
      * destruct (c_action (a_cfg a)) eqn:A; simpl; intros H Ei Eg; try discriminate; rewrite H in RH; destruct (RH a Ia (eq_sym Ei)) as [_ R2]; destruct (R2 (eq_sym Eg)); congruence.
      * destruct (c_action (a_cfg a)) eqn:A; simpl; intros H Ei Eg; try discriminate; rewrite H in RV; destruct (RV a Ia (eq_sym Ei)) as [_ R2]; destruct (R2 (eq_sym Eg)); congruence.
  - destruct (SAME (arg_cfg a (cfg_required (a_cfg a) b)) eq_refl eq_refl eq_refl eq_refl) as [[S1 S2] S3].
    split; [split|intros _ PP; destruct (S3 PP) as [S4 S5]; split].
    + eapply role_incl; [|exact S1]. intros x Ix. first [exact (proj1 (SORT _ x) Ix) | exact (proj2 (SORT _ x) Ix)].
    + eapply role_incl; [|exact S2]. intros x Ix. first [exact (proj1 (SORT _ x) Ix) | exact (proj2 (SORT _ x) Ix)].
    + eapply points_incl; [|exact S4]. intros x Ix. first [exact (proj1 (SORT _ x) Ix) | exact (proj2 (SORT _ x) Ix)].
    + eapply points_incl; [|exact S5]. intros x Ix. first [exact (proj1 (SORT _ x) Ix) | exact (proj2 (SORT _ x) Ix)].
  - destruct (SAME (arg_cfg a (cfg_help (a_cfg a) h)) eq_refl eq_refl eq_refl eq_refl) as [S1 S2]. split; [exact S1 | intros _; exact S2].
  - destruct (SAME (arg_cfg a (cfg_metavar (a_cfg a) m)) eq_refl eq_refl eq_refl eq_refl) as [S1 S2]. split; [exact S1 | intros _; exact S2].
  - destruct (declared_roles a (arg_cfg a (cfg_nargs (a_cfg a) (n mod w64)%N)) s) as [D1 D2]; auto. split; assumption.
  - set (b := fst (defaults_arg (arg_cfg a (cfg_defaults (a_cfg a) v)))).
    assert (KB : kact (a_cfg b) = kact (a_cfg a)) by (unfold b; rewrite defaults_arg_kact; reflexivity).
    unfold kact in KB. injection KB as K1 K2 K3.
    destruct (SAME b) as [S1 S2].
    + unfold b; now rewrite defaults_arg_id.
    + unfold b; now rewrite defaults_arg_gen.
    + exact K3.
    + now rewrite K1.
    + split; [exact S1 | intros _; exact S2].
  - destruct (SAME (arg_cfg a (cfg_valid (a_cfg a) p isDeletable)) eq_refl eq_refl eq_refl eq_refl) as [S1 S2]. split; [exact S1 | intros _; exact S2].
  - set (b := Arg (a_id a) (S (a_gen a)) (cfg_dest (cfg_defaults (a_cfg a) []) (Some d)) (a_dyn a)).
    assert (R0 : forall p act, role p act (s_args s) -> role p act (s_args (put b s))).
    { intros p act R. apply role_put; [exact R|]. intros i g -> Ei. simpl in *. destruct (R a Ia (eq_sym Ei)) as [R1 _]. split; [lia|]. intros; lia. }
    split; [split; apply R0; assumption|]. intros [N1 N2] [PH PV].
    assert (P0 : forall p act, role p act (s_args s) -> c_action (a_cfg a) <> act -> points p (s_args s) -> points p (s_args (put b s))).
    { intros [[i g]|] act R N Q; simpl in *; [|exact I]. destruct Q as [x [Ix Ex]].
      change (exists y, In y (s_args (put b s)) /\ ptr_of y = (i, g)). exists x. split; [|exact Ex].
      apply put_In_other; [exact Ix|]. intros E. simpl in E. unfold ptr_of in Ex. injection Ex as X1 X2.
      assert (x = a) by (eapply wf_unique; eauto). subst x. destruct (R a Ia X1) as [_ R2]. destruct (R2 X2). congruence. }
    split; eapply P0; eauto.
Qed.

Lemma registered_roles : forall s c, wf0 s -> roles s -> roles (registered s c) /\ (pointing s -> pointing (registered s c)).
Proof.
  intros s c W [RH RV].
  assert (SORT : forall x, In x (s_args (registered s c)) <-> In x (s_args s) \/ x = Arg (fresh_id s) 0 c new_dyn).
  { intros x. unfold registered; simpl. split.
    - intros Ix. apply Permutation_in with (l' := s_args s ++ [Arg (fresh_id s) 0 c new_dyn]) in Ix; [|symmetry; apply sort_perm].
      apply in_app_or in Ix. destruct Ix as [Ix|[<-|[]]]; auto.
    - intros Ix. eapply Permutation_in; [apply sort_perm|]. apply in_or_app. destruct Ix as [Ix| ->]; [now left | right; now left]. }
  assert (FRESH : forall p g, s_help s = Some (p, g) \/ s_version s = Some (p, g) -> p < fresh_id s).
  { intros p g H. unfold fresh_id. apply Nat.lt_succ_r.
    assert (G : forall l b, b <= fold_right Nat.max b l) by (induction l; simpl; intros; [lia | specialize (IHl b); lia]).
    eapply Nat.le_trans; [|apply G]. destruct H as [-> | ->]; simpl; lia. }
  split; [split|intros [PH PV]; split]; unfold roles.
  - change (s_help (registered s c)) with (s_help s). destruct (s_help s) as [[i g]|] eqn:H; [|exact I].
    intros x Ix Ex. apply SORT in Ix. destruct Ix as [Ix| ->]; [now apply RH|]. simpl in Ex. specialize (FRESH i g (or_introl eq_refl)). lia.
  - change (s_version (registered s c)) with (s_version s). destruct (s_version s) as [[i g]|] eqn:H; [|exact I].
    intros x Ix Ex. apply SORT in Ix. destruct Ix as [Ix| ->]; [now apply RV|]. simpl in Ex. specialize (FRESH i g (or_intror eq_refl)). lia.
  - eapply points_incl; [|exact PH]. intros x Ix. apply SORT. now left.
  - eapply points_incl; [|exact PV]. intros x Ix. apply SORT. now left.
Qed.
Lemma removed_roles : forall s n a, wf0 s -> In a (s_args s) -> roles s -> roles (removed s n a) /\ (pointing s -> pointing (removed s n a)).
Proof.
  intros s n a W Ia [RH RV]. unfold removed. destruct (existsb _ _).
  - assert (ST : forall p act, role p act (s_args s) -> role p act (upd_id (a_id a) (fun x => arg_cfg x (cfg_names (a_cfg x) (remove_first n (c_names (a_cfg x))))) (s_args s))).
    { intros [[i g]|] act R; [|exact I]. simpl. intros b Ib Eb. apply upd_id_In in Ib. destruct Ib as [x [Ix ->]].
      destruct (Nat.eqb (a_id x) (a_id a)); simpl in *; now apply R. }
    assert (PT : forall p, points p (s_args s) -> points p (upd_id (a_id a) (fun x => arg_cfg x (cfg_names (a_cfg x) (remove_first n (c_names (a_cfg x))))) (s_args s))).
    { intros [q|] Q; [|exact I]. destruct Q as [x [Ix Ex]]. simpl. eexists. split; [apply upd_id_In; exists x; split; [exact Ix | reflexivity]|].
      destruct (Nat.eqb (a_id x) (a_id a)); exact Ex. }
    split; [split; simpl; auto|]. intros [PH PV]. split; simpl; auto.
  - set (l := filter (fun b => negb (Nat.eqb (a_id b) (a_id a))) (s_args s)).
    assert (LI : forall x, In x l -> In x (s_args s)) by (intros x Ix; apply filter_In in Ix; tauto).
    assert (RH' : role (s_help s) HELP l) by (eapply role_incl; eauto).
    assert (RV' : role (s_version s) VERSION l) by (eapply role_incl; eauto).
    assert (PT : forall p, optr_eqb p (ptr_of a) = false -> points p (s_args s) -> points p l).
    { intros [q|] N Q; [|exact I]. destruct Q as [x [Ix Ex]]. exists x. split; [|exact Ex]. unfold l. apply filter_In. split; [exact Ix|].
      destruct (Nat.eqb_spec (a_id x) (a_id a)) as [E|E]; [|reflexivity]. exfalso.
      assert (x = a) by (eapply wf_unique; eauto). subst x. simpl in N. rewrite <- Ex, ptr_eqb_refl in N. discriminate. }
    destruct (optr_eqb (s_help s) (ptr_of a)) eqn:EH; [|destruct (optr_eqb (s_version s) (ptr_of a)) eqn:EV].
    + split; [split; simpl; auto|]. intros [PH PV]. split; simpl; [exact I|]. apply PT; [|exact PV].
      destruct (s_version s) as [q|] eqn:SV; [|reflexivity]. destruct (s_help s) as [h|] eqn:SH; [|discriminate]. simpl in *.
      destruct (ptr_eqb q (ptr_of a)) eqn:E; [|reflexivity]. exfalso. apply ptr_eqb_eq in EH, E. subst q h.
      simpl in RH, RV. destruct (RH a Ia eq_refl) as [_ R1]. destruct (RV a Ia eq_refl) as [_ R2]. destruct (R1 eq_refl), (R2 eq_refl). congruence.
    + split; [split; simpl; auto|]. intros [PH PV]. split; simpl; [|exact I]. now apply PT.
    + split; [split; simpl; auto|]. intros [PH PV]. split; simpl; now apply PT.
Qed.

Theorem reach_roles : forall s, reach s -> roles s.
Proof.
  intros s R. apply reach_any in R.
  refine (proj2 (reach_invariant any_use roles _ _ _ _ _ _ _ _ _ _ _ _ s R)); clear s R; try (intros; exact I).
  - intros f d. split; exact I.
  - intros s s' _ F [RH RV]. split; [rewrite (fr_help _ _ F) | rewrite (fr_version _ _ F)]; (eapply role_static; [apply (fr_args _ _ F)|]); assumption.
  - intros s n W H _ _ _. apply registered_roles; [apply W | exact H].
  - intros s v flags W H _ _ _ _ _ _. apply registered_roles; [apply W | exact H].
  - intros m s a W H Ia _ _. apply meth_roles; [apply W | exact H | exact Ia].
  - intros s n a W H Ia _ _. now apply removed_roles.
  - intros s _ [RH RV]. split; (eapply role_incl; [|eassumption]; simpl; intros x Ix; apply Permutation_in with (2 := Ix); symmetry; apply sort_perm).
  - intros s s' [RH RV] E1 _ E2 E3 _. unfold roles. rewrite E1, E2, E3. split; assumption.
  - intros s _ _. split; exact I.
Qed.

Theorem reach_pointing : forall P, (forall a s, p_meth P (MAction HELP) a s) -> (forall h a s, p_meth P (MHelp h) a s) ->
  (forall s, p_add P (free_help s) s) ->
  (forall d a s, p_meth P (MDest d) a s -> c_action (a_cfg a) <> HELP /\ c_action (a_cfg a) <> VERSION) ->
  forall s, reach_with P s -> pointing s.
Proof.
  intros P A1 A2 A3 PD s R.
  refine (proj2 (proj2 (reach_invariant P (fun s => roles s /\ pointing s) (fun a s _ _ _ _ => A1 a s) A2 A3 _ _ _ _ _ _ _ _ _ s R))); clear s R.
  - intros f d. split; split; exact I.
  - intros s s' _ F [[RH RV] [PH PV]]. split; split; try rewrite (fr_help _ _ F); try rewrite (fr_version _ _ F);
      (first [eapply role_static | eapply points_static]; [apply (fr_args _ _ F)|]); assumption.
  - intros s n W [H1 H2] _ _ _. destruct (registered_roles s (positional_cfg n) (proj1 W) H1); auto.
  - intros s v flags W [H1 H2] _ _ _ _ _ _. destruct (registered_roles s (option_cfg flags) (proj1 W) H1); auto.
  - intros m s a W [H1 H2] Ia PM _. destruct (meth_roles m s a (proj1 W) H1 Ia) as [M1 M2]. split; [exact M1|].
    apply M2; [|exact H2]. destruct m; try exact I. eapply PD; eauto.
  - intros s n a W [H1 H2] Ia _ _. destruct (removed_roles s n a W Ia H1); auto.
  - intros s _ [[RH RV] [PH PV]]. split; split.
    + eapply role_incl; [|eassumption]; simpl; intros x Ix; apply Permutation_in with (2 := Ix); symmetry; apply sort_perm.
    + eapply role_incl; [|eassumption]; simpl; intros x Ix; apply Permutation_in with (2 := Ix); symmetry; apply sort_perm.
    + eapply points_incl; [|eassumption]; simpl; intros x Ix; apply Permutation_in with (2 := Ix); apply sort_perm.
    + eapply points_incl; [|eassumption]; simpl; intros x Ix; apply Permutation_in with (2 := Ix); apply sort_perm.
  - intros s s' [[RH RV] [PH PV]] E1 _ E2 E3 _. unfold roles, pointing. rewrite E1, E2, E3. repeat split; assumption.
  - intros s _ _. split; split; exact I.
Qed.

(** find_ptr versus points *)
Lemma find_ptr_In : forall q l a, find_ptr q l = Some a -> In a l /\ ptr_of a = q.
Proof.
  intros [i g] l a H. unfold find_ptr in H. apply find_some in H. destruct H as [H1 H2]. simpl in H2. apply andb_true_iff in H2. destruct H2 as [H2 H3].
  apply Nat.eqb_eq in H2, H3. split; [exact H1|]. unfold ptr_of. congruence.
Qed.
Lemma pointing_ok : forall s, pointing s -> pointers_ok s.
Proof.
  intros s [PH PV].
  assert (L : forall p, points p (s_args s) -> live_ptr p s).
  { intros [q|] Q; [|exact I]. destruct Q as [a [Ia Ea]]. simpl. destruct (find_ptr q (s_args s)) as [b|] eqn:F; [eauto|].
    exfalso. unfold find_ptr in F. eapply find_none in F; [|exact Ia]. simpl in F. subst q. simpl in F. now rewrite !Nat.eqb_refl in F. }
  split; auto.
Qed.
Lemma ok_pointing : forall s, pointers_ok s -> pointing s.
Proof.
  intros s [PH PV].
  assert (L : forall p, live_ptr p s -> points p (s_args s)).
  { intros [q|] Q; [|exact I]. destruct Q as [a F]. apply find_ptr_In in F. exists a. exact F. }
  split; auto.
Qed.
