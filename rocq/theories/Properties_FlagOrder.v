(** Properties_FlagOrder.v -- C84 (the flags of an option: order, repetition, flag()). *)
From Coq Require Import Permutation Sorted.
From Verif Require Import Base Model_Utils Model_Number Model_Types Model_Argument Model_Usage Model_Args Model_Api
  Spec_Order Spec_Names Spec_Reading Spec_Extend Spec_Reorder Spec_Parse Spec_Decl Spec_Finish Spec_History Spec_Api Spec_Result
  Proofs_Base Proofs_Order Proofs_Stable Proofs_Inv Proofs_Decl Proofs_Meth Proofs_Fresh Proofs_Names Proofs_Distinct Proofs_Redecl Proofs_Like Properties_Parse Proofs_LikeParse Proofs_LikeNew Proofs_Reorder Proofs_Reorder2
  Properties_Names Properties_Reorder.

(** begins with a dash *)
Definition dashed (f : str) : Prop := exists r, f = String dash r.

(* ------------------------------------------------------------------ *)
(** * the order of the flags and their repetition do not matter *)
Lemma sort_same : forall l r, NoDup l -> NoDup r -> (forall f, In f l <-> In f r) -> sort_flags l = sort_flags r.
Proof.
  intros l r Nl Nr E. apply C07_flag_sort_unique; [|apply sort_flags_sorted].
  etransitivity; [apply (NoDup_Permutation Nr Nl); intros f; symmetry; apply E | apply sort_perm].
Qed.
Lemma add_flags_all : forall fl first m acc, (fl <> [] -> mem_key first m = false) -> Forall (fun f => validFormatFlag f = None) fl -> exists r, add_flags first m fl acc = inr r.
Proof.
  induction fl as [|f fl IH]; intros first m acc K V; [now exists acc|]. inversion_clear V as [|? ? V1 V2]. cbn [add_flags]. rewrite V1, K; [|discriminate].
  apply IH; [intros _; apply K; discriminate | exact V2].
Qed.
Lemma add_flags_kind : forall fl first m acc e, add_flags first m fl acc = inl e -> x_kind e = KArgument.
Proof.
  induction fl as [|f fl IH]; cbn [add_flags]; intros first m acc e H; [discriminate|].
  destruct (validFormatFlag f); [injection H as <-; reflexivity|]. destruct (mem_key first m); [injection H as <-; reflexivity | eauto].
Qed.
Lemma dashed_register : forall vs m, vs <> [] -> Forall dashed vs ->
  to_register vs m = match vs with [] => inl (Exn KArgument "" "") | f :: _ => match add_flags f m vs [] with inl e => inl e | inr r => inr (option_cfg r) end end.
Proof.
  intros [|f rest] m NE D; [congruence|]. inversion_clear D as [|? ? [r ->] _]. unfold to_register.
  replace (negb (Ascii.eqb (cget (String dash r) 0) dash)) with false by reflexivity. rewrite andb_false_r. reflexivity.
Qed.
Lemma same_register : forall vs vs' m, vs <> [] -> (forall f, In f vs <-> In f vs') -> Forall dashed vs -> (forall f, In f vs -> mem_key f m = false) ->
  (exists e e', to_register vs m = inl e /\ to_register vs' m = inl e' /\ x_kind e = KArgument /\ x_kind e' = KArgument) \/
  exists c, to_register vs m = inr c /\ to_register vs' m = inr c.
Proof.
  intros vs vs' m NE EQ D FR.
  assert (NE' : vs' <> []). { destruct vs as [|f r]; [congruence|]. intros ->. apply (proj1 (EQ f)). now left. }
  assert (D' : Forall dashed vs'). { rewrite Forall_forall in *. intros f I. apply D. now apply EQ. }
  rewrite (dashed_register vs m NE D), (dashed_register vs' m NE' D'). destruct vs as [|f r]; [congruence|]. destruct vs' as [|f' r']; [congruence|].
  assert (K : mem_key f m = false) by (apply FR; now left). assert (K' : mem_key f' m = false) by (apply FR, EQ; now left).
  destruct (add_flags f m (f :: r) []) as [e|q] eqn:A; destruct (add_flags f' m (f' :: r') []) as [e'|q'] eqn:A'.
  - left. exists e, e'. split; [reflexivity|]. split; [reflexivity|]. split; [exact (add_flags_kind _ _ _ _ _ A) | exact (add_flags_kind _ _ _ _ _ A')].
  - exfalso. apply add_flags_ok in A'. destruct A' as [_ [V _]]. destruct (add_flags_all (f :: r) f m [] (fun _ => K)) as [q B]; [|rewrite B in A; discriminate].
    rewrite Forall_forall in *. intros x I. apply V. now apply EQ.
  - exfalso. apply add_flags_ok in A. destruct A as [_ [V _]]. destruct (add_flags_all (f' :: r') f' m [] (fun _ => K')) as [q' B]; [|rewrite B in A'; discriminate].
    rewrite Forall_forall in *. intros x I. apply V. now apply EQ.
  - right. exists (option_cfg q). split; [reflexivity|]. apply add_flags_ok in A. apply add_flags_ok in A'. destruct A as [_ [_ [A N]]], A' as [_ [_ [A' N']]].
    unfold option_cfg. rewrite (sort_same q' q); [reflexivity | apply N'; constructor | apply N; constructor |]. intros x. rewrite A, A'. rewrite EQ. reflexivity.
Qed.
Lemma argumentExists_key : forall s f, argumentExists s f = mem_key f (s_map s).
Proof. reflexivity. Qed.
(** the same flags in another order, some of them repeated: both declarations are refused,
    or both give the same object *)
Theorem C84_order : forall s vs vs' ms, reach s -> vs <> [] -> (forall f, In f vs <-> In f vs') -> Forall dashed vs ->
  (forall f, In f vs -> argumentExists s f = false) ->
  (exists e e', step (OpAdd vs ms) s = (s, Throw e) /\ step (OpAdd vs' ms) s = (s, Throw e') /\ x_kind e = KArgument /\ x_kind e' = KArgument) \/
  step (OpAdd vs' ms) s = step (OpAdd vs ms) s.
Proof.
  intros s vs vs' ms R NE EQ D FR. pose proof (reach_wf s R) as W.
  destruct (same_register vs vs' (s_map s) NE EQ D FR) as [[e [e' [A [A' [K K']]]]]|[c [A A']]].
  - left. exists e, e'. pose proof (addArgument_register vs s) as B. pose proof (addArgument_register vs' s) as B'. rewrite A in B. rewrite A' in B'.
    cbn [step]. split; [exact (bind_throw _ _ _ _ _ B)|]. split; [exact (bind_throw _ _ _ _ _ B')|]. now split.
  - right. pose proof (addArgument_register vs s) as B. pose proof (addArgument_register vs' s) as B'. rewrite A in B. rewrite A' in B'.
    cbn [step]. unfold bind. rewrite B, B'. reflexivity.
Qed.
Print Assumptions C84_order.

(* ------------------------------------------------------------------ *)
(** * flag() right after the declaration *)
Lemma only_sorted : forall b l, only b (sort_by arg_lt l) = sort_by arg_lt (only b l).
Proof. intros b l. apply sort_filter. Qed.
Lemma only_upd : forall b l, only b (upd_id (a_id b) (fun _ => b) l) = only b l.
Proof.
  intros b l. unfold only, upd_id. induction l as [|x l IH]; [reflexivity|]. cbn [map filter]. destruct (Nat.eqb_spec (a_id x) (a_id b)) as [Q|Q].
  - rewrite Q, Nat.eqb_refl. cbn [negb]. exact IH.
  - rewrite IH. reflexivity.
Qed.
Lemma dashed_valid : forall f, validFormatFlag f = None -> dashed f.
Proof.
  intros [|c r] V; [discriminate|]. unfold validFormatFlag in V. cbn in V. destruct (Ascii.eqb_spec c dash) as [->|N]; [now exists r|]. cbn in V. discriminate.
Qed.
Lemma names_again : forall q c, cfg_names (option_cfg q) c = cfg_names new_cfg c.
Proof. reflexivity. Qed.
Lemma one_more_flag : forall s vs f q, wf s -> vs <> [] -> Forall dashed vs -> validFormatFlag f = None -> ~ In f vs ->
  (forall n, In n (vs ++ [f]) -> unused s n) -> to_register vs (s_map s) = inr (option_cfg q) -> (forall x, In x q <-> In x vs) -> NoDup q ->
  exists q', to_register (vs ++ [f]) (s_map s) = inr (option_cfg q') /\
    let a := Arg (fresh_id s) 0 (option_cfg q) new_dyn in let s1 := registered s (option_cfg q') in
    exists s2, meth_state (MFlag f) a (registered s (option_cfg q)) = (s2, None) /\
      s_args s2 = s_args s1 /\ (forall n, assoc n (s_map s2) = assoc n (s_map s1)) /\
      s_help s2 = s_help s1 /\ s_version s2 = s_version s1 /\ s_bin s2 = s_bin s1 /\ s_modes s2 = s_modes s1 /\ s_verstr s2 = s_verstr s1 /\
      s_additional s2 = s_additional s1 /\ s_usage s2 = s_usage s1 /\ s_dlog s2 = s_dlog s1.
Proof.
  intros s vs f q W NE D V NI U T QV QN.
  assert (D' : Forall dashed (vs ++ [f])). { apply Forall_app. split; [exact D|]. constructor; [now apply dashed_valid | constructor]. }
  assert (FR : forall n, In n (vs ++ [f]) -> assoc n (s_map s) = None) by (intros n I; apply unused_free; [apply W | now apply U]).
  assert (FK : forall n, In n (vs ++ [f]) -> mem_key n (s_map s) = false) by (intros n I; apply mem_key_false; now apply FR).
  (* the flags of the declaration with all the names *)
  assert (T' : exists q', to_register (vs ++ [f]) (s_map s) = inr (option_cfg q') /\ (forall x, In x q' <-> In x (vs ++ [f])) /\ NoDup q').
  { rewrite (dashed_register _ _ NE D) in T. rewrite (dashed_register (vs ++ [f])); [| destruct vs; discriminate | exact D'].
    destruct vs as [|v r]; [congruence|]. cbn [app]. destruct (add_flags v (s_map s) (v :: r) []) as [e|q0] eqn:A; [discriminate|].
    destruct (add_flags_all (v :: r ++ [f]) v (s_map s) []) as [q' A'].
    - intros _. apply FK. now left.
    - apply add_flags_ok in A. destruct A as [_ [A _]]. change (v :: r ++ [f]) with ((v :: r) ++ [f]). apply Forall_app. split; [exact A|]. constructor; [exact V | constructor].
    - exists q'. rewrite A'. apply add_flags_ok in A'. destruct A' as [_ [_ [B1 B2]]]. split; [reflexivity|]. split; [|apply B2; constructor]. intros x. rewrite B1. cbn. tauto. }
  destruct T' as [q' [T' [Q'V Q'N]]]. exists q'. split; [exact T'|]. cbv zeta. set (a := Arg (fresh_id s) 0 (option_cfg q) new_dyn).
  unfold meth_state. cbv zeta. change (is_positional (c_type (a_cfg a))) with false. cbv iota. rewrite V.
  assert (MK : mem_key f (s_map (registered s (option_cfg q))) = false).
  { apply mem_key_false. rewrite registered_assoc, FR; [|apply in_or_app; right; now left].
    destruct (mem_str f (c_names (option_cfg q))) eqn:M; [|reflexivity]. apply mem_str_In in M. cbn in M. apply sort_flags_In, QV in M. contradiction. }
  rewrite MK. eexists. split; [reflexivity|].
  assert (CF : cfg_names (a_cfg a) (sort_flags (c_names (a_cfg a) ++ [f])) = option_cfg q').
  { change (a_cfg a) with (option_cfg q). change (option_cfg q') with (cfg_names new_cfg (sort_flags q')). rewrite names_again. f_equal. apply sort_same; [| exact Q'N |].
    - cbn [c_names option_cfg cfg_names]. apply (Permutation_NoDup (l := f :: sort_flags q)); [apply Permutation_cons_append|]. constructor.
      + intros I. apply sort_flags_In, QV in I. contradiction.
      + apply (Permutation_NoDup (l := q)); [apply sort_perm | exact QN].
    - intros x. cbn [c_names option_cfg cfg_names]. rewrite in_app_iff, sort_flags_In, QV, Q'V, in_app_iff. reflexivity. }
  rewrite CF. set (b := arg_cfg a (option_cfg q')). set (s1 := registered s (option_cfg q')). set (s2 := with_map _ _).
  assert (M : meth_state (MFlag f) a (registered s (option_cfg q)) = (s2, None)).
  { unfold meth_state. cbv zeta. change (is_positional (c_type (a_cfg a))) with false. cbv iota. rewrite V, MK, CF. reflexivity. }
  assert (W0 : wf (registered s (option_cfg q))).
  { apply (wf_step (OpAdd vs []) s _ (Ok tt) W); [|exact Logic.I]. cbn [step]. pose proof (addArgument_register vs s) as B. rewrite T in B.
    rewrite (register_plain s _ (proj1 W) (proj1 (to_register_names _ _ _ T))) in B. rewrite (bind_ok _ _ _ _ _ B). reflexivity. }
  assert (Ia : In a (s_args (registered s (option_cfg q)))) by (apply Proofs_Names.registered_In; now left).
  pose proof (proj1 (meth_wf _ _ _ _ _ W0 Ia M)) as W2.
  split; [|split; [|repeat split]].
  - assert (E1 : s_args s1 = sort_by arg_lt (s_args s ++ [b])) by reflexivity.
    assert (E2 : s_args s2 = sort_by arg_lt (upd_id (a_id b) (fun _ => b) (sort_by arg_lt (s_args s ++ [a])))) by reflexivity.
    assert (NB : only b (s_args s) = s_args s).
    { unfold only. apply own_all. intros x I. pose proof (fresh_above_args s x I). apply Nat.eqb_neq. cbn. lia. }
    assert (O1 : only b (s_args s1) = sort_by arg_lt (s_args s)).
    { rewrite E1, only_sorted. f_equal. unfold only. rewrite filter_app. cbn [filter]. rewrite Nat.eqb_refl. cbn [negb]. rewrite app_nil_r. exact NB. }
    assert (O2 : only b (s_args s2) = sort_by arg_lt (s_args s)).
    { rewrite E2, only_sorted. rewrite only_upd, only_sorted, (sort_id arg_lt); [|apply sort_args_sorted]. f_equal. unfold only.
      rewrite filter_app. cbn [filter]. change (a_id b) with (a_id a). rewrite Nat.eqb_refl. cbn [negb]. rewrite app_nil_r. exact NB. }
    assert (W1 : wf0 s1).
    { apply (wf_step (OpAdd (vs ++ [f]) []) s s1 (Ok tt) W); [|exact Logic.I]. cbn [step]. pose proof (addArgument_register (vs ++ [f]) s) as B. rewrite T' in B.
      rewrite (register_plain s _ (proj1 W) (proj1 (to_register_names _ _ _ T'))) in B. rewrite (bind_ok _ _ _ _ _ B). reflexivity. }
    assert (TIE : forall x, In x (s_args s) -> equivb arg_lt b x = false).
    { intros x I. destruct (equivb arg_lt b x) eqn:Q; [|reflexivity]. exfalso. apply option_ties in Q; [|reflexivity]. destruct Q as [_ Q].
      assert (I1 : In (first_name (a_cfg b)) (vs ++ [f])). { apply Q'V. apply sort_flags_In. apply (first_in (option_cfg q')). apply (to_register_names _ _ _ T'). }
      apply (U _ I1 x I). rewrite Q. apply first_in. now apply (named_args_ne s x (proj1 W)). }
    assert (P1 : s_args s1 = sort_by arg_lt (b :: only b (s_args s1))).
    { apply placed.
      - rewrite E1. apply sort_args_sorted.
      - apply (wf_ids _ W1).
      - rewrite E1. apply sort_In, in_or_app. right. now left.
      - intros x I NX. rewrite E1 in I. apply (proj1 (sort_In _ _ _)) in I. apply in_app_or in I. destruct I as [I|[<-|[]]]; [now apply TIE | congruence]. }
    assert (P2 : s_args s2 = sort_by arg_lt (b :: only b (s_args s2))).
    { apply placed.
      - rewrite E2. apply sort_args_sorted.
      - apply (wf_ids _ W2).
      - rewrite E2. apply sort_In. unfold upd_id. apply in_map_iff. exists a. split; [|apply sort_In, in_or_app; right; now left].
        change (a_id a) with (a_id b). now rewrite Nat.eqb_refl.
      - intros x I NX. rewrite E2 in I. apply (proj1 (sort_In _ _ _)) in I. unfold upd_id in I. apply in_map_iff in I. destruct I as [y [<- I]].
        destruct (Nat.eqb_spec (a_id y) (a_id b)) as [Q|Q]; [congruence|]. apply (proj1 (sort_In _ _ _)) in I. apply in_app_or in I. destruct I as [I|[<-|[]]]; [now apply TIE | exact (False_ind _ (Q eq_refl))]. }
    rewrite P2, P1, O1, O2. reflexivity.
  - intros n. change (s_map s2) with (s_map (registered s (option_cfg q)) ++ [(f, a_id a)]). unfold s1. rewrite Proofs_Distinct.assoc_app, !registered_assoc.
    destruct (assoc n (s_map s)); [reflexivity|]. cbn [c_names option_cfg cfg_names].
    assert (ME : mem_str n (sort_flags q') = mem_str n (sort_flags q) || String.eqb n f).
    { apply eq_iff_eq_true. rewrite orb_true_iff, !mem_str_In, !sort_flags_In, QV, Q'V, in_app_iff, String.eqb_eq. cbn. split; intros [I|I]; auto. destruct I as [I|[]]; auto. }
    rewrite ME. destruct (mem_str n (sort_flags q)); [reflexivity|]. cbn. destruct (String.eqb n f); reflexivity.
Qed.

(* ------------------------------------------------------------------ *)
(** * the flag given to addArgument or to flag() *)
Lemma like_same : forall s t, wf0 s -> s_args t = s_args s -> (forall n, assoc n (s_map t) = assoc n (s_map s)) -> s_help t = s_help s -> s_version t = s_version s ->
  s_bin t = s_bin s -> s_modes t = s_modes s -> s_verstr t = s_verstr s -> s_additional t = s_additional s -> s_usage t = s_usage s -> s_dlog t = s_dlog s ->
  like_by [] silent false (fun _ => false) (twice s) s t.
Proof.
  intros s t W E1 E2 E3 E4 E5 E6 E7 E8 E9 E10. destruct (like_self [] silent false s W) as [H1 H2 H3 H4 H5 H6 H7 H8 H9 H10 H11 H12 H13 H14 H15 H16]; [intros n []|].
  split; try assumption; try (rewrite ?E1, ?E3, ?E4; assumption).
  - intros n. rewrite E2. apply H4.
Qed.
Lemma declared_with : forall s vs ms c, wf s -> to_register vs (s_map s) = inr c -> step (OpAdd vs ms) s = run_meths (fresh_id s) ms (registered s c).
Proof.
  intros s vs ms c W T. pose proof (addArgument_register vs s) as B. rewrite T in B. rewrite (register_plain s _ (proj1 W) (proj1 (to_register_names _ _ _ T))) in B.
  cbn [step]. rewrite (bind_ok _ _ _ _ _ B). reflexivity.
Qed.
(** [vs]: the flags of a declaration that is accepted; [f]: one more, well formed; none of
    them is a name of an argument.  The two ways of giving [f]: *)
Definition together (vs : list str) (f : str) (ms : list meth) : op := OpAdd (vs ++ [f]) ms.
Definition after_all (vs : list str) (f : str) (ms : list meth) : op := OpAdd vs (MFlag f :: ms).
Lemma two_ways : forall s vs f ms, wf s -> vs <> [] -> Forall dashed vs -> validFormatFlag f = None -> ~ In f vs ->
  (forall n, In n (vs ++ [f]) -> unused s n) ->
  (exists e e', step (together vs f ms) s = (s, Throw e) /\ step (after_all vs f ms) s = (s, Throw e') /\ x_kind e = KArgument /\ x_kind e' = KArgument) \/
  (snd (step (after_all vs f ms) s) = snd (step (together vs f ms) s) /\
   wf (fst (step (together vs f ms) s)) /\ wf (fst (step (after_all vs f ms) s)) /\
   alike (fst (step (together vs f ms) s)) (fst (step (after_all vs f ms) s))).
Proof.
  intros s vs f ms W NE D V NI U. destruct (to_register vs (s_map s)) as [e|c] eqn:T.
  - left. assert (D' : Forall dashed (vs ++ [f])). { apply Forall_app. split; [exact D|]. constructor; [now apply dashed_valid | constructor]. }
    pose proof T as K. rewrite (dashed_register _ _ NE D) in K. destruct vs as [|v r]; [congruence|]. destruct (add_flags v (s_map s) (v :: r) []) as [x|q] eqn:A; [|discriminate]. injection K as ->.
    assert (TV : exists e', to_register ((v :: r) ++ [f]) (s_map s) = inl e' /\ x_kind e' = KArgument).
    { rewrite (dashed_register ((v :: r) ++ [f]) (s_map s)); [|discriminate | exact D']. cbn [app]. destruct (add_flags v (s_map s) (v :: r ++ [f]) []) as [x|q] eqn:B; [exists x; split; [reflexivity | exact (add_flags_kind _ _ _ _ _ B)]|].
      exfalso. apply add_flags_ok in B. destruct B as [B0 [B _]]. change (v :: r ++ [f]) with ((v :: r) ++ [f]) in B. apply Forall_app in B.
      destruct (add_flags_all (v :: r) v (s_map s) [] (fun _ => B0 ltac:(discriminate)) (proj1 B)) as [q' Q]. rewrite Q in A. discriminate. }
    destruct TV as [e' [T' K']]. exists e', e. pose proof (addArgument_register (v :: r) s) as B. pose proof (addArgument_register ((v :: r) ++ [f]) s) as B'. rewrite T in B. rewrite T' in B'.
    unfold together, after_all. cbn [step]. split; [exact (bind_throw _ _ _ _ _ B')|]. split; [exact (bind_throw _ _ _ _ _ B)|]. split; [exact K' | exact (add_flags_kind _ _ _ _ _ A)].
  - right. assert (Q : exists q, c = option_cfg q /\ (forall x, In x q <-> In x vs) /\ NoDup q).
    { pose proof T as K. rewrite (dashed_register _ _ NE D) in K. destruct vs as [|v r]; [congruence|]. destruct (add_flags v (s_map s) (v :: r) []) as [x|q] eqn:A; [discriminate|]. injection K as <-.
      exists q. split; [reflexivity|]. apply add_flags_ok in A. destruct A as [_ [_ [A N]]]. split; [intros x; rewrite A; cbn; tauto | apply N; constructor]. }
    destruct Q as [q [-> [QV QN]]]. destruct (one_more_flag s vs f q W NE D V NI U T QV QN) as [q' [T' [s2 [M [E1 [E2 [E3 [E4 [E5 [E6 [E7 [E8 [E9 E10]]]]]]]]]]]]].
    set (a := Arg (fresh_id s) 0 (option_cfg q) new_dyn) in *. set (s1 := registered s (option_cfg q')) in *. set (s0 := registered s (option_cfg q)) in *.
    assert (W0 : wf s0). { apply (wf_step (OpAdd vs []) s _ (Ok tt) W); [|exact Logic.I]. rewrite (declared_with s vs [] _ W T). reflexivity. }
    assert (W1 : wf s1). { apply (wf_step (OpAdd (vs ++ [f]) []) s _ (Ok tt) W); [|exact Logic.I]. rewrite (declared_with s (vs ++ [f]) [] _ W T'). reflexivity. }
    assert (Ia : In a (s_args s0)) by (apply Proofs_Names.registered_In; now left).
    pose proof (meth_wf _ _ _ _ _ W0 Ia M) as W2.
    unfold together, after_all. rewrite (declared_with s (vs ++ [f]) ms _ W T'), (declared_with s vs (MFlag f :: ms) _ W T).
    change (run_meths (fresh_id s) (MFlag f :: ms) (registered s (option_cfg q))) with (run_meths (a_id a) (MFlag f :: ms) s0). rewrite (more_meths _ _ _ _ _ (proj1 W0) Ia M).
    pose proof (like_same s1 s2 (proj1 W1) E1 E2 E3 E4 E5 E6 E7 E8 E9 E10) as H.
    assert (R : rel (twice s1) (fresh_id s) (a_id a)). { apply twice_rel. split; [reflexivity|]. change (fresh_id s) with (a_id (Arg (fresh_id s) 0 (option_cfg q') new_dyn)). apply in_map. apply Proofs_Names.registered_In. now left. }
    destruct (meths_like [] silent false ms (fun _ => false) (twice s1) s1 s2 (fresh_id s) (a_id a) H W1 W2 R) as [EO [L' [HL _]]]; [intros g _; intros Q; destruct Q | now left |].
    split; [exact EO|].
    split; [exact (wf_run_meths ms _ s1 W1)|]. split; [exact (wf_run_meths ms _ s2 W2)|]. exists (fun _ => false), L'. split; [reflexivity | exact HL].
Qed.
(** the outcome is the same, and so is that of every call that follows *)
Theorem C84_outcomes : forall s vs f ms ops, reach s -> vs <> [] -> Forall dashed vs -> validFormatFlag f = None -> ~ In f vs ->
  (forall n, In n (vs ++ [f]) -> unused s n) -> Forall sets_up ops ->
  (exists e e', step (together vs f ms) s = (s, Throw e) /\ step (after_all vs f ms) s = (s, Throw e') /\ x_kind e = KArgument /\ x_kind e' = KArgument) \/
  snd (calls (after_all vs f ms :: ops) s) = snd (calls (together vs f ms :: ops) s).
Proof.
  intros s vs f ms ops R NE D V NI U FO. destruct (two_ways s vs f ms (reach_wf s R) NE D V NI U) as [A|[E [W1 [W2 AL]]]]; [now left | right].
  destruct (calls_alike ops _ _ AL W1 W2 FO) as [EC _]. cbn [calls].
  destruct (step (together vs f ms) s) as [s1 r1], (step (after_all vs f ms) s) as [s2 r2]. cbn [fst snd] in *. subst r2.
  destruct r1 as [[]|e1|x1| |]; try reflexivity; destruct (calls ops s1) as [u l], (calls ops s2) as [u' l']; cbn [snd] in *; now subst l'.
Qed.
Print Assumptions C84_outcomes.
(** the objects can be exchanged for one another *)
Theorem C84_parsers : forall s vs f ms ops t, reach s -> vs <> [] -> Forall dashed vs -> validFormatFlag f = None -> ~ In f vs ->
  (forall n, In n (vs ++ [f]) -> unused s n) -> Forall sets_up ops -> run (together vs f ms :: ops) s = Some t ->
  exists t', run (after_all vs f ms :: ops) s = Some t' /\ interchangeable t t' /\ answers_alike t t'.
Proof.
  intros s vs f ms ops t R NE D V NI U FO RU.
  assert (AW : (exists e e', step (together vs f ms) s = (s, Throw e) /\ step (after_all vs f ms) s = (s, Throw e')) \/
    (snd (step (after_all vs f ms) s) = snd (step (together vs f ms) s) /\
     wf (fst (step (together vs f ms) s)) /\ wf (fst (step (after_all vs f ms) s)) /\
     alike (fst (step (together vs f ms) s)) (fst (step (after_all vs f ms) s)))).
  { destruct (two_ways s vs f ms (reach_wf s R) NE D V NI U) as [[e [e' [A [B _]]]]|A]; [left; now exists e, e' | now right]. }
  assert (G : exists s1 s2, run (together vs f ms :: ops) s = run ops s1 /\ run (after_all vs f ms :: ops) s = run ops s2 /\ wf s1 /\ wf s2 /\ alike s1 s2).
  { destruct AW as [[e [e' [A B]]]|[E [W1 [W2 AL]]]].
    - exists s, s. cbn [run]. rewrite A, B. split; [reflexivity|]. split; [reflexivity|]. split; [exact (reach_wf s R)|]. split; [exact (reach_wf s R)|]. apply like_itself, (reach_wf s R).
    - cbn [run] in *. destruct (step (together vs f ms) s) as [s1 r1], (step (after_all vs f ms) s) as [s2 r2]. cbn [fst snd] in *. subst r2. exists s1, s2.
      destruct r1 as [[]|e1|x1| |]; try discriminate; (split; [reflexivity|]; split; [reflexivity|]; split; [exact W1|]; split; [exact W2 | exact AL]). }
  destruct G as [s1 [s2 [E1 [E2 [W1 [W2 AL]]]]]]. rewrite E1 in RU. destruct (calls_alike ops s1 s2 AL W1 W2 FO) as [_ B]. destruct (B t RU) as [t' [RU' [AL' [Wt Wt']]]].
  exists t'. assert (RT : run (after_all vs f ms :: ops) s = Some t') by (rewrite E2; exact RU').
  split; [exact RT|]. split; [apply alike_interchangeable; [exact AL' | apply Wt | apply Wt']|]. apply alike_answers; [exact AL' | exact (run_reach _ _ _ R RT)].
Qed.
Print Assumptions C84_parsers.

(* ------------------------------------------------------------------ *)
(** * a case, and why the flags must be free *)
(** the shop's -n, declared with its flags in the other order and with one twice *)
Theorem C84_example : forall r, let vs := ["-n"; "--name"] in let vs' := ["--name"; "-n"; "--name"] in
  run [OpAdd ["FILE"] []] init = Some r ->
  vs <> [] /\ (forall f, In f vs <-> In f vs') /\ Forall dashed vs /\ (forall f, In f vs -> argumentExists r f = false) /\
  validFormatFlag "-N" = None /\ ~ In "-N" vs /\ (forall n, In n (vs ++ ["-N"]) -> unused r n) /\
  exists t a, run (together vs "-N" [MNargs 2] :: [OpUpdate "-N" [MRequired true]]) r = Some t /\ getArgument t "-n" = Ok a /\
    getNameOrFlags a = ["-N"; "-n"; "--name"] /\ c_required (a_cfg a) = true.
Proof.
  intros r. cbv zeta. intros RU. vm_compute in RU. injection RU as <-.
  split; [discriminate|]. split; [intros f; cbn; tauto|]. split; [repeat constructor; eexists; reflexivity|].
  split; [intros f [<-|[<-|[]]]; reflexivity|]. split; [reflexivity|]. split; [intros [Q|[Q|[]]]; discriminate|].
  split; [intros n I a [<-|[]] [<-|[]]; destruct I as [Q|[Q|[Q|[]]]]; discriminate|].
  eexists. eexists. split; [vm_compute; reflexivity|]. split; [vm_compute; reflexivity|]. split; vm_compute; reflexivity.
Qed.
(** if one of the flags is taken the order matters: only the first one is checked *)
Theorem C84_taken : exists r e, run [OpAdd ["-b"] []] init = Some r /\
  snd (step (OpAdd ["-a"; "-b"] []) r) = Ok tt /\ snd (step (OpAdd ["-b"; "-a"] []) r) = Throw e /\ x_kind e = KArgument.
Proof. eexists. eexists. split; [vm_compute; reflexivity|]. split; [vm_compute; reflexivity|]. split; vm_compute; reflexivity. Qed.
Print Assumptions C84_taken.
