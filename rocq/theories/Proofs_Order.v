(** Proofs_Order.v -- comparators *)
From Coq Require Import Permutation Sorted.
From Verif Require Import Base Model_Utils Model_Number Model_Types Model_Argument Spec_Order Proofs_Base.

Lemma ascii_compare_lt : forall a b, Ascii.compare a b = Lt <-> (N_of_ascii a < N_of_ascii b)%N.
Proof. intros; unfold Ascii.compare. apply N.compare_lt_iff. Qed.
Lemma ascii_compare_eq : forall a b, Ascii.compare a b = Eq <-> a = b.
Proof.
  intros; unfold Ascii.compare. rewrite N.compare_eq_iff. split; [|now intros ->].
  intros H. rewrite <- (ascii_N_embedding a), <- (ascii_N_embedding b). now rewrite H.
Qed.
Lemma ascii_compare_gt : forall a b, Ascii.compare a b = Gt <-> (N_of_ascii b < N_of_ascii a)%N.
Proof. intros; unfold Ascii.compare. rewrite N.compare_gt_iff. reflexivity. Qed.

Lemma str_compare_eq : forall a b, String.compare a b = Eq <-> a = b.
Proof.
  intros a b; split; [apply String.compare_eq_iff | intros <-].
  induction a as [|c a IH]; simpl; [reflexivity|].
  now rewrite (proj2 (ascii_compare_eq c c) eq_refl).
Qed.
Lemma str_compare_refl : forall a, String.compare a a = Eq.
Proof. intros; now apply str_compare_eq. Qed.
Lemma str_compare_antisym : forall a b, String.compare a b = CompOpp (String.compare b a).
Proof. exact String.compare_antisym. Qed.
Lemma str_compare_trans : forall a b c,
  String.compare a b = Lt -> String.compare b c = Lt -> String.compare a c = Lt.
Proof.
  induction a as [|x a IH]; intros [|y b] [|z c]; simpl; try discriminate; auto.
  destruct (Ascii.compare x y) eqn:E1; try discriminate;
  destruct (Ascii.compare y z) eqn:E2; try discriminate; intros H1 H2.
  - apply ascii_compare_eq in E1, E2; subst.
    rewrite (proj2 (ascii_compare_eq z z) eq_refl). eauto.
  - apply ascii_compare_eq in E1; subst. now rewrite E2.
  - apply ascii_compare_eq in E2; subst. now rewrite E1.
  - apply ascii_compare_lt in E1. apply ascii_compare_lt in E2.
    pose proof (proj2 (ascii_compare_lt x z) (N.lt_trans _ _ _ E1 E2)) as E3.
    now rewrite E3.
Qed.
Lemma sltb_lt : forall a b, String.ltb a b = true <-> String.compare a b = Lt.
Proof. intros; unfold String.ltb; destruct (String.compare a b); split; congruence. Qed.
Lemma sltb_irrefl : forall a, String.ltb a a = false.
Proof. intros; unfold String.ltb; now rewrite str_compare_refl. Qed.
Lemma sltb_trans : forall a b c, String.ltb a b = true -> String.ltb b c = true -> String.ltb a c = true.
Proof. intros a b c; rewrite !sltb_lt; apply str_compare_trans. Qed.
Lemma sltb_asym : forall a b, String.ltb a b = true -> String.ltb b a = false.
Proof.
  intros a b H. destruct (String.ltb b a) eqn:E; [|reflexivity].
  pose proof (sltb_trans _ _ _ H E) as K. now rewrite sltb_irrefl in K.
Qed.
Lemma sltb_total : forall a b, String.ltb a b = false -> String.ltb b a = false -> a = b.
Proof.
  intros a b; unfold String.ltb. rewrite (str_compare_antisym b a).
  destruct (String.compare a b) eqn:E; simpl; try discriminate.
  intros; now apply str_compare_eq.
Qed.
Lemma sltb_ntrans : forall a b c, String.ltb a b = false -> String.ltb b c = false -> String.ltb a c = false.
Proof.
  intros a b c H1 H2. destruct (String.ltb a c) eqn:E; [|reflexivity].
  destruct (String.ltb b a) eqn:E1.
  - rewrite (sltb_trans _ _ _ E1 E) in H2. discriminate.
  - rewrite (sltb_total _ _ H1 E1) in E. congruence.
Qed.

Lemma short_flag_ok : forall f, isShortOption f = short_flag f.
Proof.
  intros [|a [|b f]]; try reflexivity.
  - unfold isShortOption, cget; simpl. destruct (Ascii.eqb a dash) eqn:E; [|now destruct a as [[] [] [] [] [] [] [] []]].
    apply Ascii.eqb_eq in E; subst; reflexivity.
  - unfold isShortOption, cget; simpl. destruct (Ascii.eqb a dash) eqn:E.
    + apply Ascii.eqb_eq in E; subst; reflexivity.
    + destruct a as [[] [] [] [] [] [] [] []]; try reflexivity; discriminate.
Qed.

Lemma compareFlag_spec : forall a b, compareFlag a b = true <-> flag_before a b.
Proof.
  intros a b; unfold compareFlag, flag_before; rewrite !short_flag_ok.
  destruct (short_flag a), (short_flag b); simpl; intuition congruence.
Qed.
Lemma compareFlag_asym : forall a b, compareFlag a b = true -> compareFlag b a = false.
Proof.
  intros a b; unfold compareFlag. destruct (isShortOption a), (isShortOption b); simpl;
    try discriminate; auto using sltb_asym.
Qed.
Lemma compareFlag_trans : forall a b c, compareFlag a b = true -> compareFlag b c = true -> compareFlag a c = true.
Proof.
  intros a b c; unfold compareFlag. destruct (isShortOption a), (isShortOption b), (isShortOption c); simpl;
    try discriminate; eauto using sltb_trans.
Qed.
Lemma compareFlag_total : forall a b, compareFlag a b = false -> compareFlag b a = false -> a = b.
Proof.
  intros a b; unfold compareFlag. destruct (isShortOption a), (isShortOption b); simpl;
    try discriminate; auto using sltb_total.
Qed.
Lemma compareFlag_ntrans : forall a b c, compareFlag a b = false -> compareFlag b c = false -> compareFlag a c = false.
Proof.
  intros a b c; unfold compareFlag. destruct (isShortOption a), (isShortOption b), (isShortOption c); simpl;
    try discriminate; eauto using sltb_ntrans.
Qed.
Lemma compareFlag_irrefl : forall a, compareFlag a a = false.
Proof.
  intros a; unfold compareFlag. destruct (isShortOption a); simpl; apply sltb_irrefl.
Qed.

Lemma swo_of : forall {A} (lt : A -> A -> bool),
  (forall x, lt x x = false) ->
  (forall x y, lt x y = true -> lt y x = false) ->
  (forall x y z, lt x y = true -> lt y z = true -> lt x z = true) ->
  (forall x y z, lt x y = false -> lt y z = false -> lt x z = false) ->
  strict_weak_order lt.
Proof. intros A lt H1 H2 H3 H4; constructor; auto. intros; split; eauto. Qed.

Lemma compareFlag_swo : strict_weak_order compareFlag.
Proof.
  apply swo_of; eauto using compareFlag_irrefl, compareFlag_asym, compareFlag_trans, compareFlag_ntrans.
Qed.

(** sort key of an argument *)
Definition cfg_class (c : acfg) : nat :=
  listing_class (is_positional (c_type c)) (c_required c) (short_flag (first_name c)).

Lemma compareOption_key : forall a b, compareOption a b =
  Nat.ltb (cfg_class a) (cfg_class b) ||
  (Nat.eqb (cfg_class a) (cfg_class b) && negb (is_positional (c_type a)) && String.ltb (first_name a) (first_name b)).
Proof.
  intros a b; unfold compareOption, cfg_class, listing_class. rewrite !short_flag_ok.
  destruct (is_positional (c_type a)), (is_positional (c_type b)), (c_required a), (c_required b),
    (short_flag (first_name a)), (short_flag (first_name b)); reflexivity.
Qed.
Lemma class_positional : forall a b, cfg_class a = cfg_class b ->
  is_positional (c_type a) = is_positional (c_type b).
Proof.
  intros a b; unfold cfg_class, listing_class.
  destruct (is_positional (c_type a)), (is_positional (c_type b)), (c_required a), (c_required b),
    (short_flag (first_name a)), (short_flag (first_name b)); simpl; intros H; try reflexivity; discriminate H.
Qed.

Lemma compareOption_cases : forall a b, compareOption a b = true <->
  cfg_class a < cfg_class b \/
  (cfg_class a = cfg_class b /\ is_positional (c_type a) = false /\ String.ltb (first_name a) (first_name b) = true).
Proof.
  intros a b; rewrite compareOption_key, orb_true_iff, !andb_true_iff, Nat.ltb_lt, Nat.eqb_eq, negb_true_iff. tauto.
Qed.
Lemma compareOption_irrefl : forall a, compareOption a a = false.
Proof.
  intros a. destruct (compareOption a a) eqn:E; [|reflexivity].
  apply compareOption_cases in E. destruct E as [E|[_ [_ E]]]; [lia|]. now rewrite sltb_irrefl in E.
Qed.
Lemma compareOption_trans : forall a b c,
  compareOption a b = true -> compareOption b c = true -> compareOption a c = true.
Proof.
  intros a b c; rewrite !compareOption_cases.
  intros [H1|[H1 [P1 L1]]] [H2|[H2 [P2 L2]]]; [left; lia|left; lia|left; lia|].
  right; repeat split; [lia|assumption|eapply sltb_trans; eassumption].
Qed.
Lemma compareOption_asym : forall a b, compareOption a b = true -> compareOption b a = false.
Proof.
  intros a b H. destruct (compareOption b a) eqn:E; [|reflexivity].
  pose proof (compareOption_trans _ _ _ H E) as K. now rewrite compareOption_irrefl in K.
Qed.
Lemma compareOption_false : forall a b, compareOption a b = false <->
  cfg_class b <= cfg_class a /\
  (cfg_class a = cfg_class b -> is_positional (c_type a) = false -> String.ltb (first_name a) (first_name b) = false).
Proof.
  intros a b. rewrite <- not_true_iff_false, compareOption_cases. split.
  - intros H; split; [lia|]. intros E P. destruct (String.ltb _ _) eqn:L; [|reflexivity]. exfalso; auto.
  - intros [H1 H2] [K|[K1 [K2 K3]]]; [lia|]. rewrite H2 in K3; congruence.
Qed.
Lemma compareOption_ntrans : forall a b c,
  compareOption a b = false -> compareOption b c = false -> compareOption a c = false.
Proof.
  intros a b c; rewrite !compareOption_false. intros [H1 H2] [H3 H4]; split; [lia|].
  intros E P. assert (E1 : cfg_class a = cfg_class b) by lia.
  assert (E2 : cfg_class b = cfg_class c) by lia.
  eapply sltb_ntrans; [apply H2; assumption | apply H4; [assumption|]].
  rewrite <- (class_positional _ _ E1). exact P.
Qed.
Lemma compareOption_swo : strict_weak_order compareOption.
Proof.
  apply swo_of; eauto using compareOption_irrefl, compareOption_asym, compareOption_trans, compareOption_ntrans.
Qed.

(** sorting *)
Lemma sort_flags_sorted : forall l, StronglySorted (le_by compareFlag) (sort_flags l).
Proof. intros; apply sort_sorted; eauto using compareFlag_asym, compareFlag_ntrans. Qed.
Lemma sort_flags_In : forall x l, In x (sort_flags l) <-> In x l.
Proof. intros; apply sort_In. Qed.
Lemma arg_lt_asym : forall a b, arg_lt a b = true -> arg_lt b a = false.
Proof. unfold arg_lt; intros; now apply compareOption_asym. Qed.
Lemma arg_lt_ntrans : forall a b c, arg_lt a b = false -> arg_lt b c = false -> arg_lt a c = false.
Proof. unfold arg_lt; intros; eapply compareOption_ntrans; eassumption. Qed.
Lemma sort_args_sorted : forall l, StronglySorted (le_by arg_lt) (sort_by arg_lt l).
Proof. intros; apply sort_sorted; eauto using arg_lt_asym, arg_lt_ntrans. Qed.

(** the sorted listing, in words *)
Lemma le_arg_lt : forall a b, le_by arg_lt a b <->
  cfg_class (a_cfg a) <= cfg_class (a_cfg b) /\
  (cfg_class (a_cfg a) = cfg_class (a_cfg b) -> is_positional (c_type (a_cfg a)) = false ->
     String.ltb (first_name (a_cfg b)) (first_name (a_cfg a)) = false).
Proof.
  intros a b; unfold le_by, arg_lt. rewrite compareOption_false. split; intros [H1 H2]; split; auto; intros E P; apply H2; auto.
  - rewrite (class_positional _ _ (eq_sym E)); exact P.
  - rewrite (class_positional _ _ (eq_sym E)); exact P.
Qed.
