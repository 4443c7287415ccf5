(** Proofs_Inv.v -- the invariant of the argument table, kept by every call. *)
From Coq Require Import Permutation Sorted.
From Verif Require Import Base Model_Utils Model_Number Model_Types Model_Argument Model_Usage Model_Args Model_Api
  Spec_Order Spec_Names Proofs_Base Proofs_Order Proofs_Frame.

Definition starts_dash (n : str) : bool := Ascii.eqb (cget n 0) dash.

Record wf0 (s : state) : Prop := Wf0 {
  wf_ids : NoDup (map a_id (s_args s));
  wf_keys : NoDup (map fst (s_map s));
  wf_entry : forall n id, In (n, id) (s_map s) ->
     exists a, In a (s_args s) /\ a_id a = id /\ In n (c_names (a_cfg a));
  wf_mapped : forall a, In a (s_args s) -> exists n, In (n, a_id a) (s_map s);
  wf_pos : forall a, In a (s_args s) -> is_positional (c_type (a_cfg a)) = true ->
     exists n, c_names (a_cfg a) = [n] /\ plain_name n;
  wf_opt : forall a, In a (s_args s) -> is_positional (c_type (a_cfg a)) = false ->
     Forall (fun f => validFormatFlag f = None) (c_names (a_cfg a)) /\
     StronglySorted (le_by compareFlag) (c_names (a_cfg a))
}.
Definition listed_sorted (s : state) : Prop := StronglySorted (le_by arg_lt) (s_args s).
Definition wf (s : state) : Prop := wf0 s /\ listed_sorted s.

Lemma validFlag_dash : forall f, validFormatFlag f = None -> starts_dash f = true.
Proof.
  intros f; unfold validFormatFlag, starts_dash. destruct (Ascii.eqb (cget f 0) dash); [reflexivity | discriminate].
Qed.
Lemma plain_no_dash : forall n, plain_name n -> starts_dash n = false.
Proof.
  intros n [c [r [-> N]]]; unfold starts_dash, cget; simpl. now apply Ascii.eqb_neq.
Qed.

(** what determines wf0 and sortedness *)
Definition shape1 (a b : argument) : Prop :=
  a_id a = a_id b /\ c_names (a_cfg a) = c_names (a_cfg b) /\
  is_positional (c_type (a_cfg a)) = is_positional (c_type (a_cfg b)) /\
  c_required (a_cfg a) = c_required (a_cfg b).
Lemma shape1_refl : forall a, shape1 a a. Proof. repeat split. Qed.
Lemma shape1_trans : forall a b c, shape1 a b -> shape1 b c -> shape1 a c.
Proof. intros a b c [A1 [A2 [A3 A4]]] [B1 [B2 [B3 B4]]]; repeat split; congruence. Qed.
Lemma shape1_sym : forall a b, shape1 a b -> shape1 b a.
Proof. intros a b [A1 [A2 [A3 A4]]]; repeat split; congruence. Qed.

Lemma Forall2_refl : forall {A} (R : A -> A -> Prop), (forall a, R a a) -> forall l, Forall2 R l l.
Proof. intros A R H; induction l; constructor; auto. Qed.
Lemma Forall2_trans : forall {A} (R : A -> A -> Prop), (forall a b c, R a b -> R b c -> R a c) ->
  forall l m n, Forall2 R l m -> Forall2 R m n -> Forall2 R l n.
Proof.
  intros A R H l m n H1; revert n; induction H1; intros n H2; inversion H2; subst; constructor; eauto.
Qed.
Lemma Forall2_in_l : forall {A} (R : A -> A -> Prop) l m a, Forall2 R l m -> In a l -> exists b, In b m /\ R a b.
Proof.
  intros A R l m a H; induction H; simpl; intros I; [tauto|].
  destruct I as [->|I]; [exists y; auto | destruct (IHForall2 I) as [b []]; exists b; auto].
Qed.
Lemma Forall2_in_r : forall {A} (R : A -> A -> Prop) l m b, Forall2 R l m -> In b m -> exists a, In a l /\ R a b.
Proof.
  intros A R l m a H; induction H; simpl; intros I; [tauto|].
  destruct I as [->|I]; [exists x; auto | destruct (IHForall2 I) as [b []]; exists b; auto].
Qed.
Lemma Forall2_map_r : forall {A} (R : A -> A -> Prop) f l, (forall a, In a l -> R a (f a)) -> Forall2 R l (map f l).
Proof. induction l; simpl; intros; constructor; auto. Qed.
Lemma Forall2_map_eq : forall {A B} (R : A -> A -> Prop) (f : A -> B) l m,
  (forall a b, R a b -> f a = f b) -> Forall2 R l m -> map f l = map f m.
Proof. intros A B R f l m H F; induction F; simpl; f_equal; auto. Qed.

(** the shape of the table is kept (if node identities are unique) *)
Definition shape (s s' : state) : Prop :=
  NoDup (map a_id (s_args s)) -> Forall2 shape1 (s_args s) (s_args s') /\ s_map s' = s_map s.
Lemma shape_refl : forall s, shape s s.
Proof. intros s _; split; [apply Forall2_refl, shape1_refl | reflexivity]. Qed.
Lemma shape_ids : forall l l', Forall2 shape1 l l' -> map a_id l' = map a_id l.
Proof. intros l l' H; symmetry; eapply Forall2_map_eq; [|exact H]. intros a b [E _]; exact E. Qed.
Lemma shape_trans : forall a b c, shape a b -> shape b c -> shape a c.
Proof.
  intros a b c H1 H2 ND. destruct (H1 ND) as [F1 E1].
  rewrite <- (shape_ids _ _ F1) in ND. destruct (H2 ND) as [F2 E2].
  split; [eapply Forall2_trans; [apply shape1_trans|eassumption|eassumption] | congruence].
Qed.

Lemma shape_wf0 : forall s s', wf0 s -> shape s s' -> wf0 s'.
Proof.
  intros s s' W S. destruct (S (wf_ids s W)) as [F E]. destruct W as [W1 W2 W3 W4 W5 W6].
  constructor.
  - now rewrite (shape_ids _ _ F).
  - now rewrite E.
  - rewrite E. intros n id H. destruct (W3 n id H) as [a [I [<- K]]].
    destruct (Forall2_in_l _ _ _ _ F I) as [b [I' [E1 [E2 E3]]]]. exists b. rewrite <- E2. auto.
  - rewrite E. intros b I'. destruct (Forall2_in_r _ _ _ _ F I') as [a [I [E1 E2]]]. rewrite <- E1. auto.
  - intros b I' P. destruct (Forall2_in_r _ _ _ _ F I') as [a [I [E1 [E2 [E3 E4]]]]].
    rewrite <- E2. rewrite <- E3 in P. auto.
  - intros b I' P. destruct (Forall2_in_r _ _ _ _ F I') as [a [I [E1 [E2 [E3 E4]]]]].
    rewrite <- E2. rewrite <- E3 in P. auto.
Qed.
Lemma shape1_class : forall a b, shape1 a b -> cfg_class (a_cfg a) = cfg_class (a_cfg b) /\ first_name (a_cfg a) = first_name (a_cfg b).
Proof. intros a b [E1 [E2 [E3 E4]]]; unfold cfg_class, first_name; now rewrite E2, E3, E4. Qed.
Lemma shape1_lt : forall a a' b b', shape1 a a' -> shape1 b b' -> arg_lt a b = arg_lt a' b'.
Proof.
  intros a a' b b' Ha Hb. unfold arg_lt. rewrite !compareOption_key.
  destruct (shape1_class _ _ Ha) as [-> ->]. destruct (shape1_class _ _ Hb) as [-> ->].
  destruct Ha as [_ [_ [-> _]]]. reflexivity.
Qed.
Lemma shape_sorted_list : forall l l', Forall2 shape1 l l' -> StronglySorted (le_by arg_lt) l -> StronglySorted (le_by arg_lt) l'.
Proof.
  intros l l' F; induction F as [|a b l l' H F IH]; intros S; [constructor|].
  inversion S as [|? ? S1 S2]; subst. constructor; [auto|].
  apply Forall_forall; intros y I. destruct (Forall2_in_r _ _ _ _ F I) as [x [I' H']].
  rewrite Forall_forall in S2. specialize (S2 x I'). unfold le_by in *.
  now rewrite <- (shape1_lt _ _ _ _ H' H).
Qed.
Lemma shape_wf : forall s s', wf s -> shape s s' -> wf s'.
Proof.
  intros s s' [W S] H. split; [eapply shape_wf0; eassumption|].
  destruct (H (wf_ids s W)) as [F _]. eapply shape_sorted_list; eassumption.
Qed.

Lemma frame_shape : forall s s', frame s s' -> shape s s'.
Proof.
  intros s s' [F M _ _ _ _ _ _] _; split; [|exact M].
  revert F. generalize (s_args s'); generalize (s_args s). induction l as [|a l IH]; intros [|b l'] E; try discriminate; constructor.
  - injection E; intros. unfold shape1. now repeat split; congruence.
  - apply IH. now injection E.
Qed.

(* ------------------------------------------------------------------ *)
(** ** methods that keep the shape *)
Lemma shape_map_eq : forall s s', s_args s' = s_args s -> s_map s' = s_map s -> shape s s'.
Proof. intros s s' E1 E2 _; rewrite E1, E2; split; [apply Forall2_refl, shape1_refl | reflexivity]. Qed.
Lemma shape_upd : forall s id f,
  (forall a, find_id id (s_args s) = Some a -> shape1 a (f a)) ->
  shape s (with_args s (upd_id id f (s_args s))).
Proof.
  intros s id f H ND; split; [|reflexivity]. simpl. apply Forall2_map_r. intros a I.
  destruct (Nat.eqb_spec (a_id a) id) as [E|N]; [|apply shape1_refl].
  apply H. subst id. now apply In_find_id.
Qed.
Lemma shape_set_cfg_const : forall s id c' a, find_id id (s_args s) = Some a ->
  c_names c' = c_names (a_cfg a) -> is_positional (c_type c') = is_positional (c_type (a_cfg a)) ->
  c_required c' = c_required (a_cfg a) ->
  shape s (fst (set_cfg id (fun _ => c') s)).
Proof.
  intros s id c' a E N P R. unfold set_cfg, modify; simpl. apply shape_upd.
  intros b Eb. rewrite E in Eb; injection Eb as <-. repeat split; simpl; auto.
Qed.
Lemma shape_set_cfg : forall id f,
  (forall c, c_names (f c) = c_names c /\ is_positional (c_type (f c)) = is_positional (c_type c) /\ c_required (f c) = c_required c) ->
  keeps shape (set_cfg id f).
Proof.
  intros id f H s. unfold set_cfg, modify; simpl. apply shape_upd.
  intros a _. destruct (H (a_cfg a)) as [H1 [H2 H3]]. repeat split; simpl; auto.
Qed.
Lemma shape_set_dyn : forall id f, keeps shape (set_dyn id f).
Proof. intros id f s. apply frame_shape, frame_set_dyn. Qed.

Ltac sp := first
  [ apply keeps_ret; exact shape_refl | apply keeps_throw; exact shape_refl | apply keeps_ub; exact shape_refl
  | apply keeps_get; exact shape_refl | apply keeps_find_name; exact shape_refl
  | apply keeps_front; exact shape_refl | apply keeps_deref; exact shape_refl
  | apply keeps_pure; exact shape_refl | apply shape_set_dyn
  | apply shape_set_cfg; solve [intros; repeat split]
  | apply keeps_modify; solve [intros; apply shape_map_eq; reflexivity] ].
Ltac sb := first [ sp | apply keeps_bind; [exact shape_trans | | intros ?] ].
Ltac ss := repeat first [ sb | match goal with |- keeps shape (if ?b then _ else _) => destruct b end ].

Lemma deref_eq : forall id s, deref id s =
  match find_id id (s_args s) with Some a => (s, Ok a) | None => (s, UB) end.
Proof. reflexivity. Qed.

Lemma shape_front_throw : forall {A} l k m s s', shape s s' -> shape s (fst ((do f <- front l ;; @throw A k f m) s')).
Proof. intros A l k m s s' H. destruct l; exact H. Qed.

Lemma shape_typeConstructor : forall id, keeps shape (typeConstructor id).
Proof.
  intros id s. unfold typeConstructor.
  unfold bind at 1. rewrite deref_eq.
  destruct (find_id id (s_args s)) as [a|] eqn:E; [|apply shape_refl].
  set (c := a_cfg a). set (n := c_nargs c). set (act := c_action c).
  destruct (is_positional (c_type c)) eqn:P.
  - repeat match goal with |- shape s (fst ((if ?b then _ else _) s)) => destruct b end;
      try (eapply shape_set_cfg_const; [exact E|reflexivity|exact (eq_sym P)|reflexivity]).
    apply shape_front_throw, shape_refl.
  - destruct ((n =? 0)%N || action_eqb act STORE_TRUE);
      [eapply shape_set_cfg_const; [exact E|reflexivity|exact (eq_sym P)|reflexivity]|].
    destruct (action_eqb act STORE_FALSE);
      [eapply shape_set_cfg_const; [exact E|reflexivity|exact (eq_sym P)|reflexivity]|].
    destruct (action_eqb act HELP).
    { unfold bind, get, modify, ret, throw. destruct (s_help s) as [h|] eqn:Eh; cbv beta iota zeta; rewrite ?Eh.
      - destruct (optr_eqb (Some h) (ptr_of a));
          [eapply shape_set_cfg_const; [exact E|reflexivity|exact (eq_sym P)|reflexivity]|].
        destruct (c_names c); apply shape_refl.
      - destruct (optr_eqb (s_help (with_help s (Some (ptr_of a)))) (ptr_of a)).
        + eapply shape_trans; [|eapply (shape_set_cfg_const (with_help s (Some (ptr_of a)))); [exact E|reflexivity|exact (eq_sym P)|reflexivity]].
          apply shape_map_eq; reflexivity.
        + destruct (c_names c); apply shape_map_eq; reflexivity. }
    destruct (action_eqb act VERSION).
    { unfold bind, get, modify, ret, throw. destruct (s_version s) as [h|] eqn:Eh; cbv beta iota zeta; rewrite ?Eh.
      - destruct (optr_eqb (Some h) (ptr_of a));
          [eapply shape_set_cfg_const; [exact E|reflexivity|exact (eq_sym P)|reflexivity]|].
        destruct (c_names c); apply shape_refl.
      - destruct (optr_eqb (s_version (with_version s (Some (ptr_of a)))) (ptr_of a)).
        + eapply shape_trans; [|eapply (shape_set_cfg_const (with_version s (Some (ptr_of a)))); [exact E|reflexivity|exact (eq_sym P)|reflexivity]].
          apply shape_map_eq; reflexivity.
        + destruct (c_names c); apply shape_map_eq; reflexivity. }
    repeat match goal with |- shape s (fst ((if ?b then _ else _) s)) => destruct b end;
      try (eapply shape_set_cfg_const; [exact E|reflexivity|exact (eq_sym P)|reflexivity]).
    apply shape_refl.
Qed.
Lemma shape_defaultsConstructor : forall id, keeps shape (defaultsConstructor id).
Proof.
  intros id. unfold defaultsConstructor. sb; [sp|].
  destruct ((0 <? c_nargs (a_cfg a))%N && (0 <? N.of_nat (length (c_defaults (a_cfg a))))%N); [|sp].
  sb; [sp|]. destruct (c_type (a_cfg a)); ss.
Qed.
Lemma shape_action : forall id x, keeps shape (action id x).
Proof.
  intros. unfold action. sb; [sp|]. sb; [ss|]. sb; [ss|]. sb; [sp|].
  sb; [apply shape_typeConstructor | apply shape_defaultsConstructor].
Qed.
Lemma shape_nargs : forall id n, keeps shape (nargs id n).
Proof.
  intros. unfold nargs. sb; [sp|]. sb; [sp|].
  sb; [apply shape_typeConstructor | apply shape_defaultsConstructor].
Qed.
Lemma shape_defaults : forall id v, keeps shape (defaults id v).
Proof. intros. unfold defaults. sb; [sp|]. sb; [sp|]. apply shape_defaultsConstructor. Qed.
Lemma shape_help : forall id v, keeps shape (help id v). Proof. intros; unfold help; ss. Qed.
Lemma shape_metavar : forall id v, keeps shape (metavar id v). Proof. intros; unfold metavar; ss. Qed.
Lemma shape_valid : forall id p b, keeps shape (valid id p b).
Proof. intros; unfold valid, delete_valid; ss. Qed.
Lemma shape_dest : forall id d, keeps shape (dest_to id d).
Proof.
  intros; unfold dest_to. sb; [sp|]. intros s. unfold modify; simpl. apply shape_upd.
  intros b _. repeat split.
Qed.

(* ------------------------------------------------------------------ *)
(** ** sorting *)
Lemma wf0_perm : forall s l, wf0 s -> Permutation (s_args s) l -> wf0 (with_args s l).
Proof.
  intros s l [W1 W2 W3 W4 W5 W6] P. constructor; simpl; auto.
  - eapply Permutation_NoDup; [apply Permutation_map; exact P | exact W1].
  - intros n id H. destruct (W3 n id H) as [a [I K]]. exists a; split; [eapply Permutation_in; eassumption | exact K].
  - intros a I. apply W4. eapply Permutation_in; [symmetry; exact P | exact I].
  - intros a I. apply W5. eapply Permutation_in; [symmetry; exact P | exact I].
  - intros a I. apply W6. eapply Permutation_in; [symmetry; exact P | exact I].
Qed.
Lemma wf0_has_name : forall s, wf0 s -> forallb has_name (s_args s) = true.
Proof.
  intros s W. apply forallb_forall. intros a I. unfold has_name.
  destruct (is_positional (c_type (a_cfg a))) eqn:P.
  - destruct (wf_pos s W a I P) as [n [-> _]]. reflexivity.
  - destruct (wf_mapped s W a I) as [n In1]. destruct (wf_entry s W _ _ In1) as [b [Ib [Eb Nb]]].
    assert (a = b) as ->.
    { pose proof (In_find_id _ _ (wf_ids s W) I) as F1. pose proof (In_find_id _ _ (wf_ids s W) Ib) as F2.
      rewrite Eb in F2. congruence. }
    destruct (c_names (a_cfg b)); [destruct Nb | reflexivity].
Qed.
Lemma sort_args_ok : forall s, wf0 s -> sort_args s = (with_args s (sort_by arg_lt (s_args s)), Ok tt).
Proof. intros s W; unfold sort_args. now rewrite wf0_has_name. Qed.
Lemma wf_sort : forall s, wf0 s -> wf (with_args s (sort_by arg_lt (s_args s))).
Proof.
  intros s W; split; [apply wf0_perm; [exact W | apply sort_perm] | apply sort_args_sorted].
Qed.

Lemma wf_unique : forall s a b, wf0 s -> In a (s_args s) -> In b (s_args s) -> a_id a = a_id b -> a = b.
Proof.
  intros s a b W Ia Ib E.
  pose proof (In_find_id _ _ (wf_ids s W) Ia) as F1. pose proof (In_find_id _ _ (wf_ids s W) Ib) as F2.
  rewrite E in F1. congruence.
Qed.

(* ------------------------------------------------------------------ *)
(** ** required, flag *)
Lemma wf0_upd : forall s id f, wf0 s ->
  (forall a, find_id id (s_args s) = Some a -> a_id (f a) = a_id a) ->
  (forall a, find_id id (s_args s) = Some a ->
     (forall n, In n (c_names (a_cfg a)) -> In n (c_names (a_cfg (f a)))) /\
     (is_positional (c_type (a_cfg (f a))) = true -> exists n, c_names (a_cfg (f a)) = [n] /\ plain_name n) /\
     (is_positional (c_type (a_cfg (f a))) = false ->
        Forall (fun g => validFormatFlag g = None) (c_names (a_cfg (f a))) /\
        StronglySorted (le_by compareFlag) (c_names (a_cfg (f a))))) ->
  wf0 (with_args s (upd_id id f (s_args s))).
Proof.
  intros s id f W Hid H. pose proof W as [W1 W2 W3 W4 W5 W6].
  assert (FI : forall b, In b (s_args s) -> Nat.eqb (a_id b) id = true -> find_id id (s_args s) = Some b).
  { intros b I E. apply Nat.eqb_eq in E. subst id. now apply In_find_id. }
  assert (IDS : forall b, In b (s_args s) -> a_id (if Nat.eqb (a_id b) id then f b else b) = a_id b).
  { intros b I. destruct (Nat.eqb (a_id b) id) eqn:E; auto. }
  constructor; simpl.
  - unfold upd_id. rewrite map_map. erewrite map_ext_in; [exact W1|]. exact IDS.
  - exact W2.
  - intros n i Hn. destruct (W3 n i Hn) as [a [I [Ea Na]]].
    exists (if Nat.eqb (a_id a) id then f a else a). repeat split.
    + apply upd_id_In. eauto.
    + now rewrite IDS.
    + destruct (Nat.eqb (a_id a) id) eqn:E; [|exact Na]. apply (H a (FI a I E)). exact Na.
  - intros a Ia. apply upd_id_In in Ia. destruct Ia as [b [Ib ->]]. rewrite IDS by exact Ib. auto.
  - intros a Ia P. apply upd_id_In in Ia. destruct Ia as [b [Ib ->]].
    destruct (Nat.eqb (a_id b) id) eqn:E; [apply (H b (FI b Ib E)); exact P | now apply W5].
  - intros a Ia P. apply upd_id_In in Ia. destruct Ia as [b [Ib ->]].
    destruct (Nat.eqb (a_id b) id) eqn:E; [apply (H b (FI b Ib E)); exact P | now apply W6].
Qed.

Lemma wf_required : forall id b s, wf s -> wf (fst (required id b s)).
Proof.
  intros id b s W. unfold required, bind at 1. rewrite deref_eq.
  destruct (find_id id (s_args s)) as [a|] eqn:E; [|exact W].
  unfold set_cfg, modify, bind.
  set (s1 := with_args s _).
  assert (W1 : wf0 s1).
  { apply wf0_upd; [apply W | reflexivity |]. intros x Ex. simpl. split; [auto|].
    destruct W as [W _]. apply find_id_In in Ex. split; intros P.
    - apply (wf_pos s W x); tauto.
    - apply (wf_opt s W x); tauto. }
  rewrite sort_args_ok by exact W1. apply wf_sort, W1.
Qed.

Lemma wf_flag : forall id f s, wf s -> wf (fst (flag id f s)).
Proof.
  intros id f s W. unfold flag, bind at 1. rewrite deref_eq.
  destruct (find_id id (s_args s)) as [a|] eqn:E; [|exact W].
  destruct (is_positional (c_type (a_cfg a))) eqn:P; [exact W|].
  destruct (validFormatFlag f) eqn:V; [exact W|].
  unfold bind at 1, get. destruct (mem_key f (s_map s)) eqn:K; [exact W|].
  unfold set_cfg, modify, bind.
  set (s1 := with_map _ _).
  assert (W1 : wf0 s1).
  { destruct W as [W _].
    set (g := fun x : argument => arg_cfg x (cfg_names (a_cfg x) (sort_flags (c_names (a_cfg x) ++ [f])))).
    assert (W0 : wf0 (with_args s (upd_id id g (s_args s)))).
    { apply wf0_upd; [exact W | reflexivity |]. intros x Ex. rewrite E in Ex; injection Ex as <-. simpl.
      split; [|split].
      - intros n Hn. apply sort_flags_In, in_or_app. auto.
      - congruence.
      - intros _. split; [|apply sort_flags_sorted].
        apply Forall_forall. intros y Hy. apply sort_flags_In, in_app_or in Hy.
        apply find_id_In in E. destruct (wf_opt s W a (proj1 E) P) as [F _]. rewrite Forall_forall in F.
        destruct Hy as [Hy|[<-|[]]]; auto. }
    destruct W0 as [A1 A2 A3 A4 A5 A6]. constructor; auto.
    - simpl. rewrite map_app. simpl. apply mem_key_false, assoc_key in K.
      apply (Permutation_NoDup (l := f :: map fst (s_map s))).
      + apply Permutation_cons_append.
      + constructor; [exact K | exact (wf_keys s W)].
    - simpl. intros n i Hn. apply in_app_or in Hn. destruct Hn as [Hn|[Hn|[]]]; [now apply A3|].
      injection Hn as <- <-. apply find_id_In in E. destruct E as [Ia Ea].
      exists (g a). repeat split; [|exact Ea|].
      + apply upd_id_In. exists a. rewrite Ea, Nat.eqb_refl. auto.
      + simpl. apply sort_flags_In, in_or_app. right; now left.
    - simpl. intros x Ix. destruct (A4 x Ix) as [n Hn]. exists n. apply in_or_app. now left. }
  rewrite sort_args_ok by exact W1. apply wf_sort, W1.
Qed.

(* ------------------------------------------------------------------ *)
(** ** addArgument *)
Lemma fold_max_ge : forall l b x, In x l -> x <= fold_right Nat.max b l.
Proof. induction l as [|y l IH]; simpl; intros b x H; [tauto|]. destruct H as [->|H]; [lia|]. specialize (IH b x H). lia. Qed.
Lemma fresh_id_new : forall s, ~ In (fresh_id s) (map a_id (s_args s)).
Proof. intros s H. unfold fresh_id in H. eapply fold_max_ge in H. unfold fresh_id in H. apply Nat.nle_succ_diag_l in H. exact H. Qed.

Lemma assoc_insert : forall k n v m, assoc k (map_insert n v m) =
  match assoc k m with Some x => Some x | None => if String.eqb k n then Some v else None end.
Proof.
  intros. unfold map_insert. destruct (mem_key n m) eqn:E.
  - destruct (assoc k m) eqn:K; [reflexivity|]. apply mem_key_true in E. destruct E as [x Ex].
    destruct (String.eqb_spec k n); [congruence | reflexivity].
  - rewrite assoc_app. simpl. reflexivity.
Qed.
Lemma assoc_insert_fold : forall names k v m,
  assoc k (fold_left (fun m n => map_insert n v m) names m) =
  match assoc k m with Some x => Some x | None => if mem_str k names then Some v else None end.
Proof.
  induction names as [|n names IH]; simpl; intros.
  - now destruct (assoc k m).
  - rewrite IH, assoc_insert. destruct (assoc k m); [reflexivity|].
    destruct (String.eqb k n); simpl; reflexivity.
Qed.
Lemma keys_insert_fold : forall names v m, NoDup (map fst m) ->
  NoDup (map fst (fold_left (fun m n => map_insert n v m) names m)).
Proof.
  induction names as [|n names IH]; simpl; intros v m H; [exact H|]. apply IH.
  unfold map_insert. destruct (mem_key n m) eqn:E; [exact H|].
  rewrite map_app. simpl. apply mem_key_false, assoc_key in E.
  apply (Permutation_NoDup (l := n :: map fst m)); [apply Permutation_cons_append | constructor; auto].
Qed.

Lemma add_flags_ok : forall flags first m acc r, add_flags first m flags acc = inr r ->
  (flags <> [] -> mem_key first m = false) /\
  Forall (fun f => validFormatFlag f = None) flags /\
  (forall x, In x r <-> In x acc \/ In x flags) /\
  (NoDup acc -> NoDup r).
Proof.
  induction flags as [|f flags IH]; simpl; intros first m acc r H.
  - injection H as <-. repeat split; auto; try tauto.
  - destruct (validFormatFlag f) eqn:V; [discriminate|].
    destruct (mem_key first m) eqn:K; [discriminate|].
    apply IH in H. destruct H as [_ [H2 [H3 H4]]]. repeat split; auto.
    + intros Hx. apply H3 in Hx. destruct Hx as [Hx|Hx]; [|auto].
      destruct (mem_str f acc); [auto|]. apply in_app_or in Hx. destruct Hx as [Hx|[<-|[]]]; auto.
    + intros Hx. apply H3. destruct (mem_str f acc) eqn:E.
      * apply mem_str_In in E. destruct Hx as [Hx|[<-|Hx]]; auto.
      * destruct Hx as [Hx|[<-|Hx]]; auto; left; apply in_or_app; simpl; auto.
    + intros ND. apply H4. destruct (mem_str f acc) eqn:E; [exact ND|].
      apply mem_str_nIn in E. apply (Permutation_NoDup (l := f :: acc)); [apply Permutation_cons_append | constructor; auto].
Qed.

Definition registered (s : state) (c : acfg) : state :=
  let id := fresh_id s in
  let s1 := with_map (with_args s (s_args s ++ [Arg id 0 c new_dyn]))
      (fold_left (fun m n => map_insert n id m) (c_names c) (s_map s)) in
  with_args s1 (sort_by arg_lt (s_args s1)).

Lemma wf0_registered : forall s c, wf0 s ->
  (exists n, In n (c_names c) /\ mem_key n (s_map s) = false) ->
  (is_positional (c_type c) = true -> exists n, c_names c = [n] /\ plain_name n) ->
  (is_positional (c_type c) = false ->
        Forall (fun g => validFormatFlag g = None) (c_names c) /\ StronglySorted (le_by compareFlag) (c_names c)) ->
  wf0 (with_map (with_args s (s_args s ++ [Arg (fresh_id s) 0 c new_dyn]))
      (fold_left (fun m n => map_insert n (fresh_id s) m) (c_names c) (s_map s))).
Proof.
  intros s c W [n [Hn Kn]] HP HO. pose proof W as [W1 W2 W3 W4 W5 W6].
  assert (KD := keys_insert_fold (c_names c) (fresh_id s) _ W2).
  constructor; simpl.
  - rewrite map_app. simpl. apply (Permutation_NoDup (l := fresh_id s :: map a_id (s_args s))).
    + apply Permutation_cons_append.
    + constructor; [apply fresh_id_new | exact W1].
  - exact KD.
  - intros k i Hk. apply (In_assoc _ _ _ KD) in Hk. rewrite assoc_insert_fold in Hk.
    destruct (assoc k (s_map s)) eqn:A.
    + injection Hk as ->. apply assoc_In in A. destruct (W3 _ _ A) as [a [I K]].
      exists a; split; [apply in_or_app; now left | exact K].
    + destruct (mem_str k (c_names c)) eqn:Mk; [|discriminate]. injection Hk as <-.
      eexists; split; [apply in_or_app; right; left; reflexivity|]. split; [reflexivity | now apply mem_str_In].
  - intros a Ia. apply in_app_or in Ia. destruct Ia as [Ia|[<-|[]]].
    + destruct (W4 a Ia) as [k Hk]. exists k. apply assoc_In. rewrite assoc_insert_fold.
      now rewrite (In_assoc _ _ _ W2 Hk).
    + exists n. apply assoc_In. rewrite assoc_insert_fold. apply mem_key_false in Kn. rewrite Kn.
      apply mem_str_In in Hn. now rewrite Hn.
  - intros a Ia P. apply in_app_or in Ia. destruct Ia as [Ia|[<-|[]]]; auto.
  - intros a Ia P. apply in_app_or in Ia. destruct Ia as [Ia|[<-|[]]]; auto.
Qed.
Lemma register_eq : forall s c, wf0 s ->
  (exists n, In n (c_names c) /\ mem_key n (s_map s) = false) ->
  (is_positional (c_type c) = true -> exists n, c_names c = [n] /\ plain_name n) ->
  (is_positional (c_type c) = false ->
        Forall (fun g => validFormatFlag g = None) (c_names c) /\ StronglySorted (le_by compareFlag) (c_names c)) ->
  register c s = (registered s c, Ok (fresh_id s)) /\ wf (registered s c).
Proof.
  intros s c W H1 H2 H3. pose proof (wf0_registered s c W H1 H2 H3) as W1.
  split; [|apply wf_sort; exact W1].
  unfold register, bind, get, modify. cbv beta iota zeta.
  match goal with |- context [s_map (with_args s ?l)] => change (s_map (with_args s l)) with (s_map s) end.
  rewrite (sort_args_ok _ W1). reflexivity.
Qed.

(** the two ways in which addArgument succeeds *)
Definition positional_cfg (n : str) : acfg := cfg_type (cfg_nargs (cfg_names new_cfg [n]) 1) POSITIONAL_ARGUMENT.
Definition option_cfg (flags : list str) : acfg := cfg_names new_cfg (sort_flags flags).

Lemma not_dash_plain : forall n, n <> "" -> Ascii.eqb (cget n 0) dash = false -> plain_name n.
Proof.
  intros [|c r] N H; [congruence|]. exists c, r; split; [reflexivity|]. unfold cget in H; simpl in H. now apply Ascii.eqb_neq in H.
Qed.

Lemma addArgument_cases : forall v s, wf0 s ->
  (exists e, addArgument v s = (s, Throw e) /\ x_kind e = KArgument) \/
  (exists n, v = [n] /\ plain_name n /\ mem_key n (s_map s) = false /\
     addArgument v s = (registered s (positional_cfg n), Ok (fresh_id s)) /\ wf (registered s (positional_cfg n))) \/
  (exists f rest flags, v = f :: rest /\ add_flags f (s_map s) v [] = inr flags /\ mem_key f (s_map s) = false /\
     (rest = [] -> starts_dash f = true) /\
     addArgument v s = (registered s (option_cfg flags), Ok (fresh_id s)) /\ wf (registered s (option_cfg flags))).
Proof.
  intros v s W. destruct v as [|n rest]; [left; eexists; split; reflexivity|].
  unfold addArgument.
  destruct ((match rest with [] => true | _ => false end) && negb (Ascii.eqb (cget n 0) dash)) eqn:C.
  - apply andb_true_iff in C. destruct C as [C1 C2]. destruct rest; [|discriminate].
    apply negb_true_iff in C2. destruct n as [|c r]; [left; eexists; split; reflexivity|].
    unfold bind, get; cbv beta iota zeta. destruct (mem_key (String c r) (s_map s)) eqn:K; [left; eexists; split; reflexivity|].
    right; left. exists (String c r).
    assert (PN : plain_name (String c r)) by (apply not_dash_plain; [discriminate | exact C2]).
    destruct (register_eq s (positional_cfg (String c r)) W) as [E W1].
    + exists (String c r); split; [now left | exact K].
    + intros _; eexists; split; [reflexivity | exact PN].
    + discriminate.
    + split; [reflexivity|]. split; [exact PN|]. split; [exact K|]. split; [exact E | exact W1].
  - unfold bind, get; cbv beta iota zeta. destruct (add_flags n (s_map s) (n :: rest) []) as [e|flags] eqn:A.
    + left. exists e; split; [reflexivity|].
      assert (G : forall fl first m acc e, add_flags first m fl acc = inl e -> x_kind e = KArgument).
      { induction fl as [|f fl IH]; simpl; intros first m acc e' H; [discriminate|].
        destruct (validFormatFlag f); [injection H as <-; reflexivity|].
        destruct (mem_key first m); [injection H as <-; reflexivity|]. eauto. }
      eapply G; eassumption.
    + right; right. exists n, rest, flags. destruct (add_flags_ok _ _ _ _ _ A) as [H1 [H2 [H3 H4]]].
      specialize (H1 ltac:(discriminate)).
      destruct (register_eq s (option_cfg flags) W) as [E W1].
      * exists n; split; [|exact H1]. apply sort_flags_In, H3. right; now left.
      * discriminate.
      * intros _; split; [|apply sort_flags_sorted]. apply Forall_forall; intros x Hx.
        apply sort_flags_In, H3 in Hx. destruct Hx as [[]|Hx]. rewrite Forall_forall in H2; auto.
      * split; [reflexivity|]. split; [exact A|]. split; [exact H1|]. split; [|split; [exact E | exact W1]].
        intros ->. simpl in C. apply negb_false_iff in C. exact C.
Qed.
Lemma wf_addArgument : forall v s, wf s -> wf (fst (addArgument v s)).
Proof.
  intros v s W. destruct (addArgument_cases v s (proj1 W)) as [[e [E _]]|[[n [_ [_ [_ [E W1]]]]]|[f [r [fl [_ [_ [_ [_ [E W1]]]]]]]]]];
    rewrite E; assumption.
Qed.

(* ------------------------------------------------------------------ *)
(** ** methods *)
Lemma wf_run_meth : forall id m s, wf s -> wf (fst (run_meth id m s)).
Proof.
  intros id m s W. destruct m; simpl.
  - now apply wf_flag.
  - eapply shape_wf; [exact W | apply shape_action].
  - now apply wf_required.
  - eapply shape_wf; [exact W | apply shape_help].
  - eapply shape_wf; [exact W | apply shape_metavar].
  - eapply shape_wf; [exact W | apply shape_nargs].
  - eapply shape_wf; [exact W | apply shape_defaults].
  - eapply shape_wf; [exact W | apply shape_valid].
  - eapply shape_wf; [exact W | apply shape_dest].
Qed.
(** predicates kept whatever the outcome *)
Definition pres (P : state -> Prop) {A} (m : M A) : Prop := forall s, P s -> P (fst (m s)).
Lemma pres_bind : forall (P : state -> Prop) {A B} (m : M A) (f : A -> M B),
  pres P m -> (forall a, pres P (f a)) -> pres P (bind m f).
Proof.
  intros P A B m f Hm Hf s H. unfold bind. specialize (Hm s H). destruct (m s) as [s1 [a|e|o| |]]; simpl in *; auto.
  now apply Hf.
Qed.
Lemma wf_run_meths : forall ms id, pres wf (run_meths id ms).
Proof.
  induction ms as [|m ms IH]; intros id; simpl; [intros s H; exact H|].
  apply pres_bind; [intros s; apply wf_run_meth | intros _; apply IH].
Qed.

(* ------------------------------------------------------------------ *)
(** ** removeArguments *)
Lemma remove_first_In : forall x n l, In x (remove_first n l) -> In x l.
Proof.
  induction l as [|y l IH]; simpl; [tauto|]. destruct (String.eqb n y); simpl; intros; [auto | intuition].
Qed.
Lemma In_remove_first : forall x n l, In x l -> x <> n -> In x (remove_first n l).
Proof.
  induction l as [|y l IH]; simpl; [tauto|]. intros [->|H] N.
  - destruct (String.eqb_spec n x); [congruence | now left].
  - destruct (String.eqb n y); [exact H | right; auto].
Qed.
Lemma remove_first_sorted : forall R n l, StronglySorted R l -> StronglySorted R (remove_first n l).
Proof.
  induction l as [|y l IH]; simpl; intros S; [constructor|]. inversion S; subst.
  destruct (String.eqb n y); [assumption|]. constructor; [auto|].
  apply Forall_forall; intros x Hx. apply remove_first_In in Hx. rewrite Forall_forall in *. auto.
Qed.

(** the state after removing one registered name *)
Definition removed (s : state) (n : str) (a : argument) : state :=
  let id := a_id a in
  let m' := del_key n (s_map s) in
  if existsb (fun kv => Nat.eqb (snd kv) id) m' then
    with_map (with_args s (upd_id id (fun x => arg_cfg x (cfg_names (a_cfg x) (remove_first n (c_names (a_cfg x))))) (s_args s))) m'
  else
    let s1 := with_map (with_args s (filter (fun b => negb (Nat.eqb (a_id b) id)) (s_args s))) m' in
    let s2 := if optr_eqb (s_help s) (ptr_of a) then with_help s1 None
              else if optr_eqb (s_version s) (ptr_of a) then with_version s1 None else s1 in
    with_freed s2 (s_freed s ++ owned (a_cfg a)).

Lemma filter_upd : forall id f l, (forall a, a_id (f a) = a_id a) ->
  filter (fun b => negb (Nat.eqb (a_id b) id)) (upd_id id f l) = filter (fun b => negb (Nat.eqb (a_id b) id)) l.
Proof.
  intros id f l H. induction l as [|a l IH]; simpl; [reflexivity|].
  destruct (Nat.eqb (a_id a) id) eqn:E.
  - rewrite H, E. simpl. exact IH.
  - rewrite E. simpl. now f_equal.
Qed.

Lemma remove_one_eq : forall s n a, wf0 s -> assoc n (s_map s) = Some (a_id a) -> In a (s_args s) ->
  remove_one n s = (removed s n a, Ok tt) /\ wf0 (removed s n a).
Proof.
  intros s n a W A I. pose proof W as [W1 W2 W3 W4 W5 W6].
  pose proof (In_find_id _ _ W1 I) as F.
  assert (Nn : In n (c_names (a_cfg a))).
  { destruct (W3 _ _ (assoc_In _ _ _ A)) as [b [Ib [Eb Nb]]]. now rewrite (wf_unique s a b W I Ib (eq_sym Eb)). }
  unfold remove_one. unfold bind at 1, find_name. rewrite A.
  unfold bind at 1. rewrite deref_eq, F.
  rewrite (proj2 (mem_str_In _ _) Nn). change (negb true) with false. cbv iota.
  unfold bind at 1, set_cfg at 1, modify at 1. cbv beta iota zeta.
  unfold bind at 1, modify at 1. cbv beta iota zeta.
  unfold bind at 1, get. cbv beta iota zeta.
  match goal with |- context [s_map (with_map ?x ?y)] => change (s_map (with_map x y)) with (del_key n (s_map s)) end.
  unfold removed.
  destruct (existsb (fun kv => Nat.eqb (snd kv) (a_id a)) (del_key n (s_map s))) eqn:X.
  - assert (POS : is_positional (c_type (a_cfg a)) = false).
    { destruct (is_positional (c_type (a_cfg a))) eqn:P; [|reflexivity]. exfalso.
      apply existsb_exists in X. destruct X as [[k i] [Hk E]]. simpl in E. apply Nat.eqb_eq in E; subst i.
      apply del_key_In in Hk. destruct Hk as [Hk Nk]. simpl in Nk.
      destruct (W3 _ _ Hk) as [b [Ib [Eb Nb]]]. rewrite <- (wf_unique s a b W I Ib (eq_sym Eb)) in Nb.
      destruct (W5 a I P) as [q [Eq _]]. rewrite Eq in *. simpl in *. intuition congruence. }
    destruct (W6 a I POS) as [V6 S6].
    split.
    + unfold set_cfg, modify. unfold with_args, with_map; simpl. f_equal.
      f_equal. rewrite upd_id_comp by reflexivity. apply upd_id_ext. intros x Ix Ex. simpl.
      rewrite (wf_unique s x a W Ix I Ex). unfold arg_cfg; simpl. f_equal. unfold cfg_names; simpl. f_equal.
      apply sort_id. now apply remove_first_sorted.
    + constructor; simpl.
      * rewrite upd_id_ids; [exact W1 | reflexivity].
      * now apply del_key_NoDup.
      * intros k i Hk. apply del_key_In in Hk. destruct Hk as [Hk Nk]. simpl in Nk.
        destruct (W3 _ _ Hk) as [b [Ib [Eb Nb]]].
        eexists; split; [apply upd_id_In; exists b; split; [exact Ib | reflexivity]|].
        destruct (Nat.eqb (a_id b) (a_id a)); simpl; split; auto. now apply In_remove_first.
      * intros x Ix. apply upd_id_In in Ix. destruct Ix as [b [Ib Ex]].
        assert (Eid : a_id x = a_id b) by (rewrite Ex; destruct (Nat.eqb (a_id b) (a_id a)); reflexivity).
        rewrite Eid. destruct (Nat.eqb_spec (a_id b) (a_id a)) as [E|N].
        -- rewrite E. apply existsb_exists in X. destruct X as [[k i] [Hk Ek]]. simpl in Ek. apply Nat.eqb_eq in Ek; subst i. eauto.
        -- destruct (W4 b Ib) as [k Hk]. exists k. apply del_key_In. split; [exact Hk|]. simpl. intros ->.
           apply N. rewrite (In_assoc _ _ _ W2 Hk) in A. congruence.
      * intros x Ix P. apply upd_id_In in Ix. destruct Ix as [b [Ib Ex]]. subst x.
        destruct (Nat.eqb_spec (a_id b) (a_id a)) as [E|N]; [|now apply W5].
        simpl in P. rewrite (wf_unique s b a W Ib I E) in P. congruence.
      * intros x Ix P. apply upd_id_In in Ix. destruct Ix as [b [Ib Ex]]. subst x.
        destruct (Nat.eqb_spec (a_id b) (a_id a)) as [E|N]; [|now apply W6].
        rewrite (wf_unique s b a W Ib I E). simpl. split; [|now apply remove_first_sorted].
        apply Forall_forall; intros y Hy. apply remove_first_In in Hy. rewrite Forall_forall in V6; auto.
  - assert (NX : forall k, ~ In (k, a_id a) (del_key n (s_map s))).
    { intros k Hk. rewrite <- not_true_iff_false in X. apply X. apply existsb_exists.
      exists (k, a_id a); split; [exact Hk | apply Nat.eqb_refl]. }
    set (s1 := with_map (with_args s (filter (fun b => negb (Nat.eqb (a_id b) (a_id a))) (s_args s))) (del_key n (s_map s))).
    assert (W0 : wf0 s1).
    { constructor; simpl.
      - clear -W1. induction (s_args s) as [|x l IH]; simpl in *; [constructor|].
        inversion W1; subst. destruct (negb (Nat.eqb (a_id x) (a_id a))); simpl; [|auto].
        constructor; [|auto]. intros H. apply H1. apply in_map_iff in H. destruct H as [y [<- Hy]].
        apply filter_In in Hy. now apply in_map.
      - now apply del_key_NoDup.
      - intros k i Hk. pose proof Hk as Hk0. apply del_key_In in Hk. destruct Hk as [Hk Nk].
        destruct (W3 _ _ Hk) as [b [Ib [Eb Nb]]]. exists b. repeat split; auto.
        apply filter_In. split; [exact Ib|]. apply negb_true_iff, Nat.eqb_neq. intros E.
        apply (NX k). now rewrite <- E, Eb.
      - intros b Ib. apply filter_In in Ib. destruct Ib as [Ib Nb]. apply negb_true_iff, Nat.eqb_neq in Nb.
        destruct (W4 b Ib) as [k Hk]. exists k. apply del_key_In. split; [exact Hk|]. simpl. intros ->.
        apply Nb. rewrite (In_assoc _ _ _ W2 Hk) in A. congruence.
      - intros b Ib. apply filter_In in Ib. now apply W5.
      - intros b Ib. apply filter_In in Ib. now apply W6. }
    split.
    + cbn [s_help s_version with_map with_args].
      destruct (optr_eqb (s_help s) (ptr_of a)); [|destruct (optr_eqb (s_version s) (ptr_of a))];
        unfold bind, delete_valid, modify, ret; unfold with_args, with_map, with_help, with_version, with_freed; simpl;
        rewrite filter_upd by reflexivity; reflexivity.
    + destruct W0 as [Y1 Y2 Y3 Y4 Y5 Y6].
      destruct (optr_eqb (s_help s) (ptr_of a)); [|destruct (optr_eqb (s_version s) (ptr_of a))];
        constructor; assumption.
Qed.
Lemma remove_one_cases : forall s n, wf0 s ->
  (mem_key n (s_map s) = false /\ remove_one n s = (s, UB)) \/
  (exists a, In a (s_args s) /\ assoc n (s_map s) = Some (a_id a) /\
     remove_one n s = (removed s n a, Ok tt) /\ wf0 (removed s n a)).
Proof.
  intros s n W. destruct (assoc n (s_map s)) as [id|] eqn:A.
  - right. destruct (wf_entry s W _ _ (assoc_In _ _ _ A)) as [a [I [E _]]]. subst id.
    exists a. destruct (remove_one_eq s n a W A I). auto.
  - left. split; [now apply mem_key_false|]. unfold remove_one, bind, find_name. now rewrite A.
Qed.
Lemma remove_loop_cases : forall l s, wf0 s ->
  exists s', wf0 s' /\ (remove_loop l s = (s', Ok tt) \/ remove_loop l s = (s', UB)).
Proof.
  induction l as [|n l IH]; intros s W; simpl.
  - exists s; split; [exact W | now left].
  - unfold bind. destruct (remove_one_cases s n W) as [[_ E]|[a [_ [_ [E W1]]]]]; rewrite E.
    + exists s; split; [exact W | now right].
    + apply IH, W1.
Qed.
Lemma wf_remove : forall l s s' r, wf s -> removeArguments l s = (s', r) -> completed r -> wf s'.
Proof.
  intros l s s' r W E C. unfold removeArguments in E. destruct l as [|n l]; [injection E as <- _; exact W|].
  unfold bind at 1, get in E. destruct (find _ (n :: l)); [injection E as <- _; exact W|].
  unfold bind in E. destruct (remove_loop_cases (n :: l) s (proj1 W)) as [s1 [W1 [E1|E1]]]; rewrite E1 in E.
  - rewrite (sort_args_ok _ W1) in E. injection E as <- _. now apply wf_sort.
  - injection E as <- <-. destruct C.
Qed.

(* ------------------------------------------------------------------ *)
(** ** parseArguments, and all histories *)
Lemma wf_help_setup : pres wf help_setup.
Proof.
  unfold help_setup. apply pres_bind; [intros s H; exact H|]. intros s0.
  destruct (s_help s0); [intros s H; exact H|].
  destruct (mem_key "-h" (s_map s0) && mem_key "--help" (s_map s0)); [intros s H; exact H|].
  apply pres_bind; [intros s; apply wf_addArgument|]. intros id.
  apply pres_bind; [intros s H; eapply shape_wf; [exact H | apply shape_action]|]. intros _.
  apply pres_bind; [intros s H; eapply shape_wf; [exact H | apply shape_help]|]. intros _ s H; exact H.
Qed.
Definition presC (P : state -> Prop) {A} (m : M A) : Prop :=
  forall s s' r, P s -> m s = (s', r) -> completed r -> P s'.
Lemma presC_of : forall P {A} (m : M A), pres P m -> presC P m.
Proof. intros P A m H s s' r Hs E _. specialize (H s Hs). now rewrite E in H. Qed.
Lemma presC_bind : forall (P : state -> Prop) {A B} (m : M A) (f : A -> M B),
  presC P m -> (forall a, presC P (f a)) -> presC P (bind m f).
Proof.
  intros P A B m f Hm Hf s s' r Hs E C. unfold bind in E.
  destruct (m s) as [s1 [a|e|o| |]] eqn:Em; try (injection E as <- <-; destruct C).
  - eapply Hf; [|exact E|exact C]. eapply Hm; [exact Hs | exact Em | exact I].
  - eapply Hm; [exact Hs | exact Em | exact I].
Qed.
Lemma frame_wf : forall s s', wf s -> frame s s' -> wf s'.
Proof. intros s s' W F; eapply shape_wf; [exact W | now apply frame_shape]. Qed.
Lemma wf_parse_with : forall fuel argv, presC wf (parse_with fuel argv).
Proof.
  intros. unfold parse_with. apply presC_bind.
  { apply presC_of. intros s H. eapply frame_wf; [exact H | apply frame_clear_args]. }
  intros _. apply presC_bind; [apply presC_of, wf_help_setup|]. intros early. destruct early.
  { apply presC_of; intros s H; exact H. }
  apply presC_bind.
  { apply presC_of. intros s H. eapply frame_wf; [exact H | apply frame_scan]. }
  intros _ s s' r W E C. eapply frame_wf; [exact W|]. eapply frame_after_scan; eassumption.
Qed.
Lemma wf_parse : forall argv, presC wf (parseArguments argv).
Proof. intros argv s s' r; unfold parseArguments. apply wf_parse_with. Qed.

Lemma wf_same : forall s s', wf s -> s_args s' = s_args s -> s_map s' = s_map s -> wf s'.
Proof. intros s s' W E1 E2. eapply shape_wf; [exact W | now apply shape_map_eq]. Qed.

Lemma wf_init : wf init.
Proof.
  split; [|constructor]. constructor; simpl; try (intros; tauto); constructor.
Qed.
Lemma wf_step : forall o s s' r, wf s -> step o s = (s', r) -> completed r -> wf s'.
Proof.
  intros o; change (presC wf (step o)); destruct o; simpl.
  - apply presC_bind; [apply presC_of; intros s; apply wf_addArgument|]. intros; apply presC_of, wf_run_meths.
  - apply presC_bind; [|intros; apply presC_of, wf_run_meths].
    apply presC_of. intros s W. unfold updateArgument, bind, find_name.
    destruct (assoc nameOrFlag (s_map s)) as [id|]; [|exact W]. rewrite deref_eq. destruct (find_id id (s_args s)); exact W.
  - intros s s' r W E C. eapply wf_remove; eassumption.
  - intros s s' r _ E _. unfold clear, modify in E. injection E as <- _.
    apply (wf_same init); [exact wf_init | reflexivity | reflexivity].
  - apply wf_parse.
  - apply presC_of; intros s W; eapply wf_same; [exact W|reflexivity|reflexivity].
  - apply presC_of; intros s W; eapply wf_same; [exact W|reflexivity|reflexivity].
  - apply presC_of; intros s W; eapply wf_same; [exact W|reflexivity|reflexivity].
  - apply presC_of; intros s W; eapply wf_same; [exact W|reflexivity|reflexivity].
  - apply presC_of; intros s W; eapply wf_same; [exact W|reflexivity|reflexivity].
  - apply presC_of; intros s W; eapply wf_same; [exact W|reflexivity|reflexivity].
  - apply presC_of; intros s W; eapply wf_same; [exact W|reflexivity|reflexivity].
  - apply presC_of; intros s W; eapply wf_same; [exact W|reflexivity|reflexivity].
  - apply presC_of; intros s W; eapply wf_same; [exact W|reflexivity|reflexivity].
  - apply presC_of; intros s W; eapply wf_same; [exact W|reflexivity|reflexivity].
Qed.
Theorem reach_wf : forall s, reach s -> wf s.
Proof.
  induction 1 as [|s o s' r H IH E C]; [exact wf_init | eapply wf_step; eassumption].
Qed.
