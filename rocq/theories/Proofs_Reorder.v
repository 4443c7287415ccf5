(** Proofs_Reorder.v -- two declarations in either order give parsers that are alike up to
    identities ([like_by], Proofs_Like.v). *)
From Coq Require Import Permutation Sorted.
From Verif Require Import Base Model_Utils Model_Number Model_Types Model_Argument Model_Usage Model_Args Model_Api
  Spec_Order Spec_Names Spec_Reading Spec_Extend Spec_Reorder Spec_Parse Spec_Decl Spec_Finish Spec_History Spec_Api Spec_Result
  Proofs_Base Proofs_Order Proofs_Stable Proofs_Frame Proofs_Inv Proofs_ReadFacts Proofs_Reading Proofs_Parse Proofs_Decl Proofs_Finish
  Proofs_Meth Proofs_History Proofs_Config Proofs_Central Proofs_Swap Proofs_Redecl Proofs_Extend Proofs_Like Properties_Parse Proofs_LikeParse Proofs_LikeNew.

(* ------------------------------------------------------------------ *)
(** * the place of an option in the list *)
Definition only (b : argument) (l : list argument) : list argument := filter (fun a => negb (Nat.eqb (a_id b) (a_id a))) l.
Lemma only_rest : forall (f : argument -> bool) b l, NoDup (map a_id l) -> In b l -> f b = false -> filter f (only b l) = filter f l.
Proof.
  intros f b l. unfold only. induction l as [|x l IH]; intros N I E; [destruct I|]. cbn. inversion_clear N as [|? ? A B]. destruct I as [->|I].
  - rewrite Nat.eqb_refl. cbn [negb]. rewrite E. f_equal. clear -A. induction l as [|y l IH]; [reflexivity|]. cbn. destruct (Nat.eqb_spec (a_id b) (a_id y)) as [Q|Q]; [exfalso; apply A; left; now symmetry|]. cbn. f_equal. apply IH. intros J. apply A. now right.
  - destruct (Nat.eqb_spec (a_id b) (a_id x)) as [Q|Q]; [exfalso; apply A; rewrite <- Q; now apply in_map|]. cbn. rewrite IH by assumption. reflexivity.
Qed.
Lemma only_one : forall (f : argument -> bool) b l, NoDup (map a_id l) -> In b l -> f b = true -> (forall x, In x l -> a_id x <> a_id b -> f x = false) -> filter f l = [b] /\ filter f (only b l) = [].
Proof.
  intros f b l. unfold only. induction l as [|x l IH]; intros N I E O; [destruct I|]. cbn. inversion_clear N as [|? ? A B]. destruct I as [->|I].
  - rewrite Nat.eqb_refl, E. cbn [negb].
    assert (Z : filter f l = []). { assert (O' : forall x, In x l -> f x = false). { intros x I. apply O; [now right|]. intros Q. apply A. rewrite <- Q. now apply in_map. } clear -O'. induction l as [|y l IH]; [reflexivity|]. cbn. rewrite (O' y (or_introl eq_refl)). apply IH. intros x I. apply O'. now right. }
    split; [now rewrite Z|]. rewrite filter_comm, Z. reflexivity.
  - assert (Q : a_id x <> a_id b) by (intros Q; apply A; rewrite Q; now apply in_map). rewrite (O x (or_introl eq_refl) Q). destruct (IH B I E (fun y J => O y (or_intror J))) as [I1 I2]. split; [exact I1|].
    destruct (Nat.eqb_spec (a_id b) (a_id x)) as [Q2|Q2]; cbn; [exact I2|]. rewrite (O x (or_introl eq_refl) Q). exact I2.
Qed.
Lemma placed : forall b l, StronglySorted (le_by arg_lt) l -> NoDup (map a_id l) -> In b l ->
  (forall x, In x l -> a_id x <> a_id b -> equivb arg_lt b x = false) -> l = sort_by arg_lt (b :: only b l).
Proof.
  intros b l S N I O. apply (stable_unique arg_lt arg_lt_swo); [exact S | apply sort_args_sorted|]. intros x. rewrite (sort_stable arg_lt arg_lt_swo). cbn [filter].
  destruct (equivb arg_lt x b) eqn:E.
  - destruct (only_one (equivb arg_lt x) b l N I E) as [-> ->]; [|reflexivity]. intros y J NE. destruct (equivb arg_lt x y) eqn:Q; [|reflexivity].
    rewrite <- (O y J NE). symmetry. apply (equivb_trans arg_lt arg_lt_swo b x y); [now rewrite equivb_sym | exact Q].
  - symmetry. now apply only_rest.
Qed.
Lemma option_ties : forall b x, is_positional (c_type (a_cfg b)) = false -> equivb arg_lt b x = true -> is_positional (c_type (a_cfg x)) = false /\ first_name (a_cfg b) = first_name (a_cfg x).
Proof.
  intros b x P E. apply equivb_spec in E. unfold arg_lt in E. destruct E as [A B]. apply compareOption_false in A. apply compareOption_false in B. destruct A as [A1 A2], B as [B1 B2].
  assert (C : cfg_class (a_cfg b) = cfg_class (a_cfg x)) by lia. pose proof (class_positional _ _ C) as Q. rewrite P in Q. split; [now symmetry|]. apply sltb_total; [now apply A2|]. apply B2; congruence.
Qed.

(* ------------------------------------------------------------------ *)
(** * one more argument, of any kind *)
Definition stays (P : bool) (X : list str) (c : acfg) : Prop := (forall n, In n (c_names c) -> In n X) /\ (P = true -> is_positional (c_type c) = false).
Definition fits_in (D P : bool) (X : list str) (c : acfg) : Prop := stays P X c /\ (D = false -> nonrole c).
Definition meth_in (D : bool) (X : list str) (m : meth) : Prop := (forall f, In f (meth_names m) -> In f X) /\ (D = false -> roleless m).
Lemma fits_kept : forall D P X, kept_by D (fits_in D P X) (meth_in D X).
Proof.
  intros D P X. split.
  - intros E c [_ N]. now apply N.
  - intros c k [[A B] N] K. split; [split|].
    + destruct k as [[ty n] act]. exact A.
    + intros E. specialize (B E). unfold kind_of in K. rewrite B in K. injection K as <-. unfold option_kind.
      destruct (c_nargs c =? 0)%N; [reflexivity|]. destruct (c_action c); cbv zeta; repeat (match goal with |- context [if ?b then _ else _] => destruct b end); reflexivity.
    + intros E. now apply (nonrole_kind c k (N E) K).
  - intros a [[A B] N]. split; [split|].
    + unfold defaults_arg. destruct (no_defaults _); [exact A|]. destruct (size_fits _ _); [|exact A]. cbn [fst]. unfold defaulted. destruct (c_type (a_cfg a)); exact A.
    + intros E. specialize (B E). unfold defaults_arg. destruct (no_defaults _); [exact B|]. destruct (size_fits _ _); [|exact B]. cbn [fst]. unfold defaulted. destruct (c_type (a_cfg a)) eqn:T; cbn; rewrite ?T; exact B || reflexivity.
    + intros E. apply nonrole_defaults. now apply N.
  - intros m c [M1 M2] [[A B] N]. split; [split|].
    + destruct m; cbn [meth_cfg c_names cfg_names]; try exact A. intros n I. apply (proj1 (sort_flags_In _ _)) in I. apply in_app_or in I. destruct I as [I|[<-|[]]]; [now apply A | apply M1; now left].
    + intros E. specialize (B E). destruct m; exact B.
    + intros E. specialize (N E). specialize (M2 E). destruct m as [f|act|r|h|x|n|v|p r|d]; try exact N. destruct act; try (exfalso; exact M2); split; discriminate.
Qed.
Lemma like_added : forall D P X s ns ms, wf s -> (P = true -> option_names ns) -> one_role ms -> (D = false -> Forall roleless ms) ->
  (forall n, In n X <-> In n (op_names (OpAdd ns ms))) -> (forall n, In n X -> assoc n (s_map s) = None) ->
  completed (snd (step (OpAdd ns ms) s)) /\ like_by X (stays P X) D (added ns s) (twice s) s (fst (step (OpAdd ns ms) s)).
Proof.
  intros D P X s ns ms W ON OR RL XI NX. apply (like_new X (stays P X) D (fits_in D P X) (meth_in D X)); try assumption.
  - intros c [Q _]. exact Q.
  - apply fits_kept.
  - intros c T. destruct (to_register_names _ _ _ T) as [_ NI]. split; [split|].
    + intros n I. apply XI. cbn. apply in_or_app. left. now apply NI.
    + intros E. now apply (option_registered ns (s_map s) c (ON E)).
    + intros _. exact (to_register_nonrole _ _ _ T).
  - apply Forall_forall. intros m I. split.
    + intros f J. apply XI. cbn. apply in_or_app. right. apply in_flat_map. now exists m.
    + intros E. specialize (RL E). rewrite Forall_forall in RL. now apply RL.
  - now right.
Qed.

(* ------------------------------------------------------------------ *)
(** * joining two parsers that both extend a third *)
Definition flip (p : argument * argument) : argument * argument := (snd p, fst p).
Definition one_to_one (P : pairs) : Prop := forall i i' j j', rel P i i' -> rel P j j' -> (i = j <-> i' = j').
Lemma nodup_one : forall P, NoDup (map a_id (map fst P)) -> NoDup (map a_id (map snd P)) -> one_to_one P.
Proof.
  intros P N N' i i' j j' [p [Ip [<- <-]]] [q [Iq [<- <-]]]. rewrite map_map in N, N'. split; intros E.
  - now rewrite (NoDup_inj (fun p => a_id (fst p)) P p q N Ip Iq E).
  - now rewrite (NoDup_inj (fun p => a_id (snd p)) P p q N' Ip Iq E).
Qed.
Definition nowhere : nat -> bool := fun _ => false.
Definition role_rel (N : pairs) (p p' : option (nat * nat)) : Prop :=
  match p, p' with None, None => True | Some q, Some q' => rel N (fst q) (fst q') /\ snd q' = snd q | _, _ => False end.
Lemma same_trans : forall a b c, same a b -> same b c -> same a c.
Proof. intros a b c [A1 [A2 A3]] [B1 [B2 B3]]. repeat split; congruence. Qed.
Lemma same_sym : forall a b, same a b -> same b a.
Proof. intros a b [A1 [A2 A3]]. now repeat split. Qed.
Lemma joined : forall X Qf D F F' L t u v N Q,
  like_by X Qf D F L t u -> like_by X Qf D F' (twice t) t v -> wf u -> wf v ->
  (forall p, In p N -> same (fst p) (snd p) /\ F (a_id (fst p)) = true /\ F' (a_id (snd p)) = true) ->
  s_args u = sort_by arg_lt (map fst N ++ own F (s_args u)) ->
  s_args v = sort_by arg_lt (map snd N ++ own F' (s_args v)) ->
  (forall n, match assoc n (s_map u), assoc n (s_map v) with Some i, Some i' => F i = true -> rel N i i' | None, None => True | _, _ => False end) ->
  (s_help t = None -> role_rel N (s_help u) (s_help v)) ->
  (s_version t = None -> role_rel N (s_version u) (s_version v)) ->
  exists P, like_by [] Q false nowhere P u v.
Proof.
  intros X Qf D F F' L t u v N Q H H' Wu Wv SN SU SV MP RH RV. set (P0 := N ++ map flip L). set (P := sort_by pair_lt P0).
  assert (PI : forall p, In p P <-> In p P0) by (intros p; apply sort_In).
  assert (RP : forall i i', rel P i i' <-> rel N i i' \/ rel L i' i).
  { intros i i'. unfold rel. split.
    - intros [p [I [A B]]]. apply PI in I. apply in_app_or in I. destruct I as [I|I]; [left; now exists p | right]. apply in_map_iff in I. destruct I as [q [<- I]]. now exists q.
    - intros [[p [I [A B]]]|[p [I [A B]]]].
      + exists p. split; [apply PI; apply in_or_app; now left | now split].
      + exists (flip p). split; [apply PI; apply in_or_app; right; now apply in_map | now split]. }
  assert (S0 : forall p, In p P0 -> same (fst p) (snd p)).
  { intros p I. apply in_app_or in I. destruct I as [I|I]; [now apply SN|]. apply in_map_iff in I. destruct I as [q [<- I]]. apply same_sym. now apply (lb_same _ _ _ _ _ _ _ H). }
  assert (FU : map fst P = s_args u).
  { rewrite SU. unfold P. rewrite (lb_r _ _ _ _ _ _ _ H). replace (map fst N ++ map snd L) with (map fst P0) by (unfold P0; now rewrite map_app, map_map). symmetry. now apply sort_by_map. }
  assert (FV : map snd P = s_args v).
  { rewrite SV. unfold P. rewrite (lb_r _ _ _ _ _ _ _ H'), twice_snd, (lb_l _ _ _ _ _ _ _ H). replace (map snd N ++ map fst L) with (map snd P0) by (unfold P0; now rewrite map_app, map_map). symmetry. apply sort_by_map.
    intros x y Ix Iy. unfold pair_lt, arg_lt. destruct (S0 x Ix) as [_ [-> _]], (S0 y Iy) as [_ [-> _]]. reflexivity. }
  assert (OP : one_to_one P) by (apply nodup_one; [rewrite FU; apply (wf_ids _ (proj1 Wu)) | rewrite FV; apply (wf_ids _ (proj1 Wv))]).
  assert (NF : forall i i', rel N i i' -> F i = true /\ F' i' = true) by (intros i i' [p [I [<- <-]]]; now apply SN).
  assert (TL : forall i i', rel L i i' -> rel (twice t) i i).
  { intros i i' [p [I [<- <-]]]. apply twice_rel. split; [reflexivity|]. apply in_map. rewrite (lb_l _ _ _ _ _ _ _ H). now apply in_map. }
  assert (PR : forall x y z, ptr_rel L F x y -> ptr_rel (twice t) F' x z -> (x = None -> role_rel N y z) -> ptr_rel P nowhere y z).
  { intros x y z A B R. destruct x as [q|].
    - destruct y as [q'|]; [|destruct A]. destruct z as [q''|]; [|destruct B]. destruct A as [A1 A2], B as [B1 B2]. split; [|reflexivity]. intros i i' g RR. apply RP in RR. destruct RR as [RR|RR].
      + destruct (NF _ _ RR) as [E1 E2]. split; intros ->; cbn in *; congruence.
      + rewrite <- (A1 _ _ g RR). apply B1. exact (TL _ _ RR).
    - specialize (R eq_refl). destruct y as [q'|], z as [q''|]; try (now destruct R). destruct R as [R G]. split; [|reflexivity]. intros i i' g RR.
      assert (E : fst q' = i <-> fst q'' = i') by (apply OP; [apply RP; now left | exact RR]). destruct q' as [j h], q'' as [j' h']. cbn in *. subst h'. split; intros K; injection K as K1 K2; f_equal; try assumption; now apply E. }
  exists P. split.
  - now symmetry.
  - rewrite FV. apply own_all. reflexivity.
  - intros p I. apply S0. now apply PI.
  - intros n. specialize (MP n). destruct (assoc n (s_map u)) as [i|] eqn:E1, (assoc n (s_map v)) as [i'|] eqn:E2; try (now destruct MP). apply RP.
    destruct (F i) eqn:Fi; [left; now apply MP|]. right. pose proof (lb_map _ _ _ _ _ _ _ H n) as M1. pose proof (lb_map _ _ _ _ _ _ _ H' n) as M2. rewrite E1 in M1. rewrite E2 in M2.
    destruct (assoc n (s_map t)) as [j|]; [|destruct M1; congruence]. apply twice_rel in M2. destruct M2 as [<- _]. exact M1.
  - intros n [].
  - discriminate.
  - discriminate.
  - apply (PR (s_help t)); [apply (lb_help _ _ _ _ _ _ _ H) | apply (lb_help _ _ _ _ _ _ _ H') | exact RH].
  - apply (PR (s_version t)); [apply (lb_version _ _ _ _ _ _ _ H) | apply (lb_version _ _ _ _ _ _ _ H') | exact RV].
  - intros _. split; intros E.
    + destruct (s_help t) as [q|] eqn:T.
      * pose proof (lb_help _ _ _ _ _ _ _ H) as A. rewrite T, E in A. destruct A.
      * specialize (RH eq_refl). rewrite E in RH. destruct (s_help v); [destruct RH | reflexivity].
    + destruct (s_version t) as [q|] eqn:T.
      * pose proof (lb_version _ _ _ _ _ _ _ H) as A. rewrite T, E in A. destruct A.
      * specialize (RV eq_refl). rewrite E in RV. destruct (s_version v); [destruct RV | reflexivity].
  - rewrite (lb_bin _ _ _ _ _ _ _ H'). symmetry. apply (lb_bin _ _ _ _ _ _ _ H).
  - rewrite (lb_modes _ _ _ _ _ _ _ H'). symmetry. apply (lb_modes _ _ _ _ _ _ _ H).
  - rewrite (lb_verstr _ _ _ _ _ _ _ H'). symmetry. apply (lb_verstr _ _ _ _ _ _ _ H).
  - rewrite (lb_additional _ _ _ _ _ _ _ H'). symmetry. apply (lb_additional _ _ _ _ _ _ _ H).
  - rewrite (lb_usage _ _ _ _ _ _ _ H'). symmetry. apply (lb_usage _ _ _ _ _ _ _ H).
  - rewrite (lb_dlog _ _ _ _ _ _ _ H'). symmetry. apply (lb_dlog _ _ _ _ _ _ _ H).
Qed.

(* ------------------------------------------------------------------ *)
(** * two declarations *)
Lemma unused_free : forall s n, wf0 s -> unused s n -> assoc n (s_map s) = None.
Proof.
  intros s n W U. destruct (assoc n (s_map s)) as [i|] eqn:E; [|reflexivity]. apply assoc_In in E. destruct (wf_entry _ W _ _ E) as [a [I [_ J]]]. now apply U in J.
Qed.
Lemma first_in : forall c, c_names c <> [] -> In (first_name c) (c_names c).
Proof. intros c N. unfold first_name. destruct (c_names c) as [|n l]; [congruence | now left]. Qed.
Lemma named_args_ne : forall s a, wf0 s -> In a (s_args s) -> c_names (a_cfg a) <> [].
Proof. intros s a W I E. destruct (wf_mapped _ W a I) as [n J]. destruct (wf_entry _ W _ _ J) as [b [Ib [Eb Jb]]]. rewrite (ids_unique (s_args s) b a (wf_ids _ W) Ib I Eb), E in Jb. destruct Jb. Qed.
Lemma only_own : forall b F l, (forall i, F i = Nat.eqb (a_id b) i) -> only b l = own F l.
Proof. intros b F l E. unfold only, own. apply filter_ext. intros a. now rewrite E. Qed.
Section Swap.
Variables (s : state) (ns1 : list str) (ms1 : list meth) (ns2 : list str) (ms2 : list meth) (D1 D2 : bool).
Let o1 := OpAdd ns1 ms1.
Let o2 := OpAdd ns2 ms2.
Let X1 := op_names o1.
Let X2 := op_names o2.
Hypothesis W : wf s.
Hypothesis ON : option_names ns1.
Hypothesis OR1 : one_role ms1.
Hypothesis OR2 : one_role ms2.
Hypothesis R1 : D1 = false -> Forall roleless ms1.
Hypothesis R2 : D2 = false -> Forall roleless ms2.
Hypothesis DD : D2 = negb D1.
Hypothesis U1 : forall n, In n X1 -> unused s n.
Hypothesis U2 : forall n, In n X2 -> unused s n.
Hypothesis DJ : forall n, In n X1 -> ~ In n X2.
Let s1 := fst (step o1 s).
Let s2 := fst (step o2 s).
Let s12 := fst (step o2 s1).
Let s21 := fst (step o1 s2).
Lemma W1 : wf s1.
Proof. unfold s1. destruct (step o1 s) as [t r] eqn:S. refine (wf_step _ _ _ _ W S _). pose proof (proj1 (like_added D1 true X1 s ns1 ms1 W (fun _ => ON) OR1 R1 (fun n => iff_refl _) (fun n I => unused_free s n (proj1 W) (U1 n I)))) as C. fold o1 in C. now rewrite S in C. Qed.
Lemma W2 : wf s2.
Proof. unfold s2. destruct (step o2 s) as [t r] eqn:S. refine (wf_step _ _ _ _ W S _). assert (ON2 : false = true -> option_names ns2) by discriminate. pose proof (proj1 (like_added D2 false X2 s ns2 ms2 W ON2 OR2 R2 (fun n => iff_refl _) (fun n I => unused_free s n (proj1 W) (U2 n I)))) as C. fold o2 in C. now rewrite S in C. Qed.
Lemma H1 : like_by X1 (stays true X1) D1 (added ns1 s) (twice s) s s1.
Proof. apply (like_added D1 true X1 s ns1 ms1 W (fun _ => ON) OR1 R1 (fun n => iff_refl _) (fun n I => unused_free s n (proj1 W) (U1 n I))). Qed.
Lemma H2 : like_by X2 (stays false X2) D2 (added ns2 s) (twice s) s s2.
Proof. assert (ON2 : false = true -> option_names ns2) by discriminate. apply (like_added D2 false X2 s ns2 ms2 W ON2 OR2 R2 (fun n => iff_refl _) (fun n I => unused_free s n (proj1 W) (U2 n I))). Qed.
Lemma free1 : forall n, In n X1 -> assoc n (s_map s2) = None.
Proof.
  intros n I. destruct (like_find_name X2 _ _ _ _ _ _ H2 n (DJ n I)) as [[_ E]|[p [_ [E _]]]]; [exact E|]. rewrite (unused_free s n (proj1 W) (U1 n I)) in E. discriminate.
Qed.
Lemma free2 : forall n, In n X2 -> assoc n (s_map s1) = None.
Proof.
  intros n I. destruct (like_find_name X1 _ _ _ _ _ _ H1 n (fun J => DJ n J I)) as [[_ E]|[p [_ [E _]]]]; [exact E|]. rewrite (unused_free s n (proj1 W) (U2 n I)) in E. discriminate.
Qed.
Lemma H3 : completed (snd (step o1 s2)) /\ like_by X1 (stays true X1) D1 (added ns1 s2) (twice s2) s2 s21.
Proof. apply (like_added D1 true X1 s2 ns1 ms1 W2 (fun _ => ON) OR1 R1 (fun n => iff_refl _) free1). Qed.
Lemma H4 : completed (snd (step o2 s1)) /\ like_by X2 (stays false X2) D2 (added ns2 s1) (twice s1) s1 s12.
Proof. assert (ON2 : false = true -> option_names ns2) by discriminate. apply (like_added D2 false X2 s1 ns2 ms2 W1 ON2 OR2 R2 (fun n => iff_refl _) free2). Qed.
Lemma W12 : wf s12.
Proof. unfold s12. pose proof (proj1 H4) as C. destruct (step o2 s1) as [t r] eqn:S. exact (wf_step _ _ _ _ W1 S C). Qed.
Lemma W21 : wf s21.
Proof. unfold s21. pose proof (proj1 H3) as C. destruct (step o1 s2) as [t r] eqn:S. exact (wf_step _ _ _ _ W2 S C). Qed.
Lemma H12 : snd (step o2 s1) = snd (step o2 s) /\ exists L, like_by X1 (stays true X1) D1 (added ns1 s) L s2 s12.
Proof.
  assert (NR : D1 = false \/ Forall roleless ms2) by (destruct D1; [right; apply R2; exact DD | now left]).
  destruct (add_step_like _ _ _ _ _ s s1 ns2 ms2 H1 W W1 (fun n I J => DJ n J I) NR) as [A [L [B _]]]. split; [exact A | now exists L].
Qed.
Lemma H21 : snd (step o1 s2) = snd (step o1 s) /\ exists L, like_by X2 (stays false X2) D2 (added ns2 s) L s1 s21 /\
  to_register ns1 (s_map s2) = to_register ns1 (s_map s) /\ forall c, to_register ns1 (s_map s) = inr c -> rel L (fresh_id s) (fresh_id s2).
Proof.
  assert (NR : D2 = false \/ Forall roleless ms1) by (rewrite DD; destruct D1; [now left | right; now apply R1]).
  exact (add_step_like _ _ _ _ _ s s2 ns1 ms1 H2 W W2 (fun n I J => DJ n I J) NR).
Qed.
(** the names of the other arguments *)
Lemma others2 : forall x, In x (s_args s2) -> forall n, In n X1 -> ~ In n (c_names (a_cfg x)).
Proof.
  intros x I n J K. destruct (added ns2 s (a_id x)) eqn:E.
  - destruct (lb_foreign _ _ _ _ _ _ _ H2 x I E) as [Q _]. apply (DJ n J). now apply Q.
  - assert (Io : In x (own (added ns2 s) (s_args s2))) by (apply filter_In; split; [exact I | now rewrite E]). rewrite (lb_r _ _ _ _ _ _ _ H2), twice_snd in Io. exact (U1 n J x Io K).
Qed.
Lemma place : forall F L t b c, like_by X1 (stays true X1) D1 F L s2 t -> wf t -> In b (s_args t) -> (forall i, F i = Nat.eqb (a_id b) i) -> a_cfg b = c -> stays true X1 c ->
  s_args t = sort_by arg_lt (b :: own F (s_args t)).
Proof.
  intros F L t b c H Wt I FE <- [ST PO]. rewrite <- (only_own b F (s_args t) FE). apply placed; [apply Wt | apply (wf_ids _ (proj1 Wt)) | exact I|].
  intros x Ix NE. destruct (equivb arg_lt b x) eqn:E; [|reflexivity]. exfalso. destruct (option_ties b x (PO eq_refl) E) as [_ EN].
  assert (Fx : F (a_id x) = false) by (rewrite FE; apply Nat.eqb_neq; congruence).
  assert (Io : In x (own F (s_args t))) by (apply filter_In; split; [exact Ix | now rewrite Fx]). rewrite (lb_r _ _ _ _ _ _ _ H) in Io. apply in_map_iff in Io. destruct Io as [p [<- Ip]].
  destruct (lb_same _ _ _ _ _ _ _ H p Ip) as [_ [C _]]. apply (others2 (fst p) (like_in_l _ _ _ _ _ _ _ H p Ip) (first_name (a_cfg b))).
  - apply ST. apply first_in. now apply (named_args_ne t b (proj1 Wt)).
  - rewrite EN, C. apply first_in. rewrite <- C. apply (named_args_ne t (snd p) (proj1 Wt) Ix).
Qed.
Theorem swap_like : forall Q, snd (step o1 s2) = snd (step o1 s) /\ snd (step o2 s1) = snd (step o2 s) /\ wf s12 /\ wf s21 /\ exists P, like_by [] Q false nowhere P s12 s21.
Proof.
  intros Q. destruct H12 as [E12 [L12 K12]], H21 as [E21 [L21 [K21 [TR RF]]]]. pose proof (proj2 H3) as K3. pose proof (proj2 H4) as K4. pose proof W12 as Wu. pose proof W21 as Wv.
  split; [exact E21|]. split; [exact E12|]. split; [exact Wu|]. split; [exact Wv|].
  (* the maps *)
  assert (MN : forall n i, assoc n (s_map s12) = Some i -> added ns1 s i = true -> In n X1 /\ assoc n (s_map s1) = Some i).
  { intros n i E Fi. pose proof (lb_map _ _ _ _ _ _ _ K12 n) as M1. rewrite E in M1. destruct (assoc n (s_map s2)) as [j|] eqn:E2.
    - destruct M1 as [p [Ip [_ <-]]]. destruct (like_in_r _ _ _ _ _ _ _ K12 p Ip) as [_ Z]. congruence.
    - destruct M1 as [J _]. split; [exact J|]. destruct (like_find_name X2 _ _ _ _ _ _ K4 n (DJ n J)) as [[_ Z]|[p [Ip [A B]]]]; [congruence|]. unfold twice in Ip. apply in_map_iff in Ip. destruct Ip as [a [<- _]]. cbn in *. congruence. }
  assert (MM : forall n, In n X1 -> match assoc n (s_map s12), assoc n (s_map s21) with Some i, Some i' => rel L21 i i' | None, None => True | _, _ => False end).
  { intros n J. destruct (like_find_name X2 _ _ _ _ _ _ K4 n (DJ n J)) as [[A B]|[p [Ip [A B]]]], (like_find_name X2 _ _ _ _ _ _ K21 n (DJ n J)) as [[A' B']|[q [Iq [A' B']]]]; rewrite B, B'; try congruence; [exact I|].
    unfold twice in Ip. apply in_map_iff in Ip. destruct Ip as [a [<- _]]. cbn in *. exists q. split; [exact Iq|]. split; congruence. }
  assert (MO : forall n, ~ In n X1 -> match assoc n (s_map s12), assoc n (s_map s21) with Some i, Some i' => added ns1 s i = false | None, None => True | _, _ => False end).
  { intros n J. destruct (like_find_name X1 _ _ _ _ _ _ K12 n J) as [[A B]|[p [Ip [A B]]]], (like_find_name X1 _ _ _ _ _ _ K3 n J) as [[A' B']|[q [Iq [A' B']]]]; rewrite B, B'; try congruence; [exact I|]. apply (like_in_r _ _ _ _ _ _ _ K12 p Ip). }
  (* the roles *)
  assert (RR : forall (f : state -> option (nat * nat)) N,
     (forall X Qf D F L t u, like_by X Qf D F L t u -> ptr_rel L F (f t) (f u) /\ (D = false -> f t = None -> f u = None)) ->
     (forall i i', In i (map a_id (s_args s1)) -> added ns1 s i = true -> rel L21 i i' -> rel N i i') ->
     f s2 = None -> role_rel N (f s12) (f s21)).
  { intros f N PF RN E2. destruct (PF _ _ _ _ _ _ _ K12) as [P12 T12], (PF _ _ _ _ _ _ _ K3) as [P3 T3], (PF _ _ _ _ _ _ _ K4) as [P4 T4], (PF _ _ _ _ _ _ _ K21) as [P21 T21].
    assert (DC : D1 = false \/ D2 = false) by (rewrite DD; destruct D1; [now right | now left]). destruct DC as [DC|DC]; [rewrite (T12 DC E2), (T3 DC E2); exact I|]. rewrite E2 in P12.
    destruct (f s1) as [q|] eqn:E1.
    - destruct (f s12) as [q'|] eqn:E12'; [|destruct P4]. destruct (f s21) as [q''|] eqn:E21'; [|destruct P21]. destruct P4 as [P4 _], P21 as [P21 _]. cbn in P12.
      assert (LV : In (fst q') (map a_id (s_args s1))).
      { apply (lb_live _ _ _ _ _ _ _ H1) in P12. exact P12. }
      assert (QQ : q = q'). { destruct q' as [i g]. apply (P4 i i g); [now apply twice_rel | reflexivity]. } subst q'. destruct q as [i g]. cbn [fst] in *.
      assert (RI : exists i', rel L21 i i'). { apply in_map_iff in LV. destruct LV as [a [EA IA]]. rewrite (lb_l _ _ _ _ _ _ _ K21) in IA. apply in_map_iff in IA. destruct IA as [p [<- Ip]]. exists (a_id (snd p)). exists p. now repeat split. }
      destruct RI as [i' RI]. pose proof (proj1 (P21 i i' g RI) eq_refl) as ->. split; [|reflexivity]. cbn. now apply (RN i i').
    - rewrite (T4 DC eq_refl), (T21 DC eq_refl). exact I. }
  assert (PH : forall X Qf D F L t u, like_by X Qf D F L t u -> ptr_rel L F (s_help t) (s_help u) /\ (D = false -> s_help t = None -> s_help u = None)).
  { intros X Qf D F L t u K. split; [apply (lb_help _ _ _ _ _ _ _ K)|]. intros T. apply (lb_tight _ _ _ _ _ _ _ K T). }
  assert (PV : forall X Qf D F L t u, like_by X Qf D F L t u -> ptr_rel L F (s_version t) (s_version u) /\ (D = false -> s_version t = None -> s_version u = None)).
  { intros X Qf D F L t u K. split; [apply (lb_version _ _ _ _ _ _ _ K)|]. intros T. apply (lb_tight _ _ _ _ _ _ _ K T). }
  unfold added in K12, K3, MN, MO, RR. rewrite TR in K3. destruct (to_register ns1 (s_map s)) as [e|c] eqn:T.
  - apply (joined X1 _ D1 _ _ L12 s2 s12 s21 [] Q K12 K3 Wu Wv); try (intros p []).
    + cbn [map app]. rewrite own_all by reflexivity. symmetry. apply sort_id. apply Wu.
    + cbn [map app]. rewrite own_all by reflexivity. symmetry. apply sort_id. apply Wv.
    + intros n. destruct (in_dec string_dec n X1) as [J|J]; [specialize (MM n J) | specialize (MO n J)]; destruct (assoc n (s_map s12)), (assoc n (s_map s21)); try exact MM; try exact MO; discriminate.
    + apply RR; [exact PH | discriminate].
    + apply RR; [exact PV | discriminate].
  - destruct (RF c eq_refl) as [p [Ip [F1 F2]]].
    assert (B1 : In (fst p) (s_args s12)). { destruct (like_in_r _ _ _ _ _ _ _ K4 (fst p, fst p)) as [Z _]; [|exact Z]. unfold twice. apply in_map_iff. exists (fst p). split; [reflexivity|]. apply (like_in_l _ _ _ _ _ _ _ K21 p Ip). }
    destruct (like_in_r _ _ _ _ _ _ _ K21 p Ip) as [B2 _].
    assert (FE1 : forall i, Nat.eqb (fresh_id s) i = Nat.eqb (a_id (fst p)) i) by (intros i; now rewrite F1).
    assert (FE2 : forall i, Nat.eqb (fresh_id s2) i = Nat.eqb (a_id (snd p)) i) by (intros i; now rewrite F2).
    destruct (lb_same _ _ _ _ _ _ _ K21 p Ip) as [S1 [S2 S3]]. assert (SP : same (fst p) (snd p)) by now repeat split.
    assert (ST : stays true X1 (a_cfg (fst p))). { apply (lb_foreign _ _ _ _ _ _ _ K12 (fst p) B1). now rewrite FE1, Nat.eqb_refl. }
    assert (RN : forall i i', Nat.eqb (fresh_id s) i = true -> rel L21 i i' -> rel [p] i i').
    { intros i i' E RI. apply Nat.eqb_eq in E. exists p. split; [now left|]. split; [congruence|]. rewrite F1 in *. 
      pose proof (rel_inj _ _ _ _ _ _ _ K21 (wf_ids _ (proj1 W1)) (wf_ids _ (proj1 Wv)) i (a_id (fst p)) i' (a_id (snd p)) RI (in_rel L21 p Ip)) as Z. symmetry. apply Z. congruence. }
    apply (joined X1 _ D1 _ _ L12 s2 s12 s21 [p] Q K12 K3 Wu Wv).
    + intros q [<-|[]]. split; [exact SP|]. rewrite FE1, FE2, !Nat.eqb_refl. now split.
    + apply (place _ L12 s12 (fst p) _ K12 Wu B1 FE1 eq_refl ST).
    + apply (place _ _ s21 (snd p) _ K3 Wv B2 FE2 S2 ST).
    + intros n. destruct (in_dec string_dec n X1) as [J|J].
      * specialize (MM n J). destruct (assoc n (s_map s12)) as [i|], (assoc n (s_map s21)) as [i'|]; try exact MM. intros E. now apply RN.
      * specialize (MO n J). destruct (assoc n (s_map s12)) as [i|], (assoc n (s_map s21)) as [i'|]; try exact MO. intros E. congruence.
    + apply RR; [exact PH|]. intros i i' _. apply RN.
    + apply RR; [exact PV|]. intros i i' _. apply RN.
Qed.
End Swap.
