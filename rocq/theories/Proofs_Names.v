(** Proofs_Names.v -- lemmas behind C01-C07: lookup, registration, removal. *)
From Coq Require Import Permutation Sorted.
From Verif Require Import Base Model_Utils Model_Number Model_Types Model_Argument Model_Usage Model_Args Model_Api
  Spec_Order Spec_Names Spec_History Spec_Api Proofs_Base Proofs_Order Proofs_Frame Proofs_Inv.

Lemma validFlag_form : forall f, cstr f = true -> (validFormatFlag f = None <-> well_formed_flag f).
Proof.
  intros f C. unfold validFormatFlag. split.
  - destruct f as [|a [|b [|c r]]]; try discriminate; unfold cget; cbn [String.get].
    + destruct (Ascii.eqb a dash); discriminate.
    + destruct (Ascii.eqb_spec a dash) as [->|N]; [|discriminate]. simpl.
      destruct (Ascii.eqb_spec b nul); [discriminate|]. destruct (Ascii.eqb_spec b dash) as [->|N]; [discriminate|].
      intros _. left. exists b. split; [reflexivity | exact N].
    + destruct (Ascii.eqb_spec a dash) as [->|N]; [|discriminate]. simpl.
      destruct (Ascii.eqb_spec b nul); [discriminate|]. destruct (Ascii.eqb_spec b dash) as [->|N].
      * intros _. right. exists c, r. reflexivity.
      * simpl. destruct (Ascii.eqb_spec c nul) as [->|Nc]; [|discriminate].
        simpl in C. rewrite andb_false_r in C. discriminate.
  - intros [[c [-> N]]|[c [r ->]]]; unfold cget; cbn [String.get].
    + simpl in C. apply andb_true_iff in C. destruct C as [C _]. apply negb_true_iff in C. rewrite C. change "-"%char with dash in *.
      change (Ascii.eqb dash dash) with true. apply Ascii.eqb_neq in N. rewrite N. reflexivity.
    + simpl in C. apply andb_true_iff in C. destruct C as [C _]. apply negb_true_iff in C. rewrite C. reflexivity.
Qed.

Lemma assoc_In : forall {A} k (v : A) m, assoc k m = Some v -> In (k, v) m.
Proof.
  intros A k v m. induction m as [|[k' v'] m IH]; simpl; [discriminate|]. destruct (String.eqb_spec k k') as [->|N]; [|auto].
  intros H; injection H as ->. now left.
Qed.
Lemma In_assoc : forall {A} k (v : A) m, NoDup (map fst m) -> In (k, v) m -> assoc k m = Some v.
Proof.
  intros A k v m ND I. induction m as [|[k' v'] m IH]; [destruct I|]. simpl in *. inversion ND; subst. destruct I as [I|I].
  - injection I as -> ->. now rewrite String.eqb_refl.
  - destruct (String.eqb_spec k k') as [->|N]; [|auto]. exfalso. apply H1. apply in_map_iff. now exists (k', v).
Qed.
Lemma assoc_lookup : forall s n id, wf0 s -> assoc n (s_map s) = Some id ->
  exists a, In a (s_args s) /\ a_id a = id /\ In n (c_names (a_cfg a)) /\ find_id id (s_args s) = Some a.
Proof.
  intros s n id W H. destruct (wf_entry s W n id (assoc_In _ _ _ H)) as [a [Ia [E In_]]]. exists a.
  repeat split; auto. rewrite <- E. apply In_find_id; [apply W | exact Ia].
Qed.
Lemma getArgument_some : forall s n, wf0 s -> argumentExists s n = true ->
  exists a, getArgument s n = Ok a /\ In a (s_args s) /\ In n (c_names (a_cfg a)) /\ assoc n (s_map s) = Some (a_id a).
Proof.
  intros s n W H. unfold argumentExists, mem_key in H. destruct (assoc n (s_map s)) as [id|] eqn:E; [|discriminate].
  destruct (assoc_lookup s n id W E) as [a [Ia [Ei [In_ F]]]]. exists a. unfold getArgument. rewrite E, F. subst id. auto.
Qed.
Lemma getArgument_none : forall s n, argumentExists s n = false -> getArgument s n = Throw (not_found n) /\ assoc n (s_map s) = None.
Proof.
  intros s n H. unfold argumentExists, mem_key in H. unfold getArgument. destruct (assoc n (s_map s)); [discriminate|]. split; reflexivity.
Qed.
Lemma getArgument_by : forall s n a, wf0 s -> In a (s_args s) -> assoc n (s_map s) = Some (a_id a) -> getArgument s n = Ok a.
Proof. intros s n a W I H. unfold getArgument. rewrite H, (In_find_id _ _ (wf_ids s W) I). reflexivity. Qed.
Lemma getArgument_inv : forall s n a, wf0 s -> getArgument s n = Ok a -> In a (s_args s) /\ In n (c_names (a_cfg a)) /\ assoc n (s_map s) = Some (a_id a).
Proof.
  intros s n a W H. unfold getArgument in H. destruct (assoc n (s_map s)) as [id|] eqn:E; [|discriminate].
  destruct (assoc_lookup s n id W E) as [b [Ib [Ei [In_ F]]]]. rewrite F in H. injection H as ->. subst id. auto.
Qed.

(* ------------------------------------------------------------------ *)
(** registration *)
Lemma registered_In : forall s c x, In x (s_args (registered s c)) <-> x = Arg (fresh_id s) 0 c new_dyn \/ In x (s_args s).
Proof.
  intros s c x. unfold registered; simpl. split.
  - intros Ix. apply Permutation_in with (l' := s_args s ++ [Arg (fresh_id s) 0 c new_dyn]) in Ix; [|symmetry; apply sort_perm].
    apply in_app_or in Ix. destruct Ix as [Ix|[<-|[]]]; auto.
  - intros Ix. eapply Permutation_in; [apply sort_perm|]. apply in_or_app. destruct Ix as [->|Ix]; [right; now left | now left].
Qed.
Lemma registered_assoc : forall s c n, assoc n (s_map (registered s c)) =
  match assoc n (s_map s) with Some x => Some x | None => if mem_str n (c_names c) then Some (fresh_id s) else None end.
Proof. intros. unfold registered; simpl. apply assoc_insert_fold. Qed.

Lemma add_flags_inl : forall flags first m acc e, add_flags first m flags acc = inl e ->
  (exists f, In f flags /\ validFormatFlag f <> None) \/ (flags <> [] /\ mem_key first m = true).
Proof.
  induction flags as [|f r IH]; simpl; intros first m acc e H; [discriminate|].
  destruct (validFormatFlag f) eqn:V; [left; exists f; split; [now left | congruence]|].
  destruct (mem_key first m) eqn:M; [right; split; [discriminate | reflexivity]|].
  destruct (IH _ _ _ _ H) as [[g [Ig Vg]]|[_ Q]]; [left; exists g; split; [now right | exact Vg] | congruence].
Qed.
Lemma NoDup_sort_flags : forall l, NoDup l -> NoDup (sort_flags l).
Proof. intros l H. eapply Permutation_NoDup; [apply sort_perm | exact H]. Qed.
Lemma add_flags_NoDup : forall flags first m acc r, add_flags first m flags acc = inr r -> NoDup acc -> NoDup r.
Proof.
  induction flags as [|f rest IH]; simpl; intros first m acc r H ND; [injection H as <-; exact ND|].
  destruct (validFormatFlag f); [discriminate|]. destruct (mem_key first m); [discriminate|].
  eapply IH; [exact H|]. destruct (mem_str f acc) eqn:E; [exact ND|]. apply mem_str_nIn in E.
  apply (Permutation_NoDup (l := f :: acc)); [apply Permutation_cons_append | now constructor].
Qed.

(* ------------------------------------------------------------------ *)
(** removal *)
Lemma del_key_In : forall {A} k (m : list (str * A)) kv, In kv (del_key k m) <-> In kv m /\ fst kv <> k.
Proof.
  intros. unfold del_key. rewrite filter_In, negb_true_iff, String.eqb_neq. firstorder congruence.
Qed.
Lemma assoc_del : forall {A} k n (m : list (str * A)), assoc n (del_key k m) = if String.eqb n k then None else assoc n m.
Proof.
  intros A k n m. induction m as [|[k' v] m IH]; [simpl; destruct (String.eqb n k); reflexivity|].
  unfold del_key in *. simpl. destruct (String.eqb_spec k k') as [->|N]; simpl.
  - destruct (String.eqb_spec n k') as [->|N']; [exact IH | exact IH].
  - destruct (String.eqb_spec n k') as [->|N']; [|exact IH].
    destruct (String.eqb_spec k' k); [congruence | reflexivity].
Qed.
Lemma removed_assoc : forall s n a k, assoc k (s_map (removed s n a)) = if String.eqb k n then None else assoc k (s_map s).
Proof.
  intros. unfold removed. destruct (existsb _ _); [apply assoc_del|]. destruct (optr_eqb (s_help s) _); [apply assoc_del|].
  destruct (optr_eqb (s_version s) _); apply assoc_del.
Qed.
(** an argument without some names *)
Definition without (n : str) (a : argument) : argument := arg_cfg a (cfg_names (a_cfg a) (remove_first n (c_names (a_cfg a)))).
Definition reg_names (s : state) (a : argument) : list str := map fst (filter (fun kv => Nat.eqb (snd kv) (a_id a)) (s_map s)).
Lemma removed_args : forall s n a b, wf0 s -> In a (s_args s) -> assoc n (s_map s) = Some (a_id a) ->
  (In b (s_args (removed s n a)) <->
     (exists k, k <> n /\ assoc k (s_map s) = Some (a_id b)) /\
     exists x, In x (s_args s) /\ a_id x = a_id b /\ b = if Nat.eqb (a_id x) (a_id a) then without n x else x).
Proof.
  intros s n a b W Ia As.
  assert (EX : existsb (fun kv => Nat.eqb (snd kv) (a_id a)) (del_key n (s_map s)) = true <-> exists k, k <> n /\ assoc k (s_map s) = Some (a_id a)).
  { rewrite existsb_exists. split.
    - intros [[k v] [I E]]. apply Nat.eqb_eq in E. simpl in E. subst v. apply del_key_In in I. destruct I as [I N]. simpl in N.
      exists k. split; [exact N|]. apply In_assoc; [apply W | exact I].
    - intros [k [N E]]. exists (k, a_id a). split; [apply del_key_In; split; [now apply assoc_In | exact N]|]. simpl. apply Nat.eqb_refl. }
  assert (OTHER : forall x, In x (s_args s) -> a_id x <> a_id a -> exists k, k <> n /\ assoc k (s_map s) = Some (a_id x)).
  { intros x Ix N. destruct (wf_mapped s W x Ix) as [k Ik]. exists k. pose proof (In_assoc _ _ _ (wf_keys s W) Ik) as E. split; [congruence | exact E]. }
  unfold removed. destruct (existsb _ _) eqn:Q.
  - pose proof (proj1 EX eq_refl) as [k0 [N0 E0]]. change (In b (upd_id (a_id a) (without n) (s_args s)) <-> (exists k, k <> n /\ assoc k (s_map s) = Some (a_id b)) /\
      exists x, In x (s_args s) /\ a_id x = a_id b /\ b = if Nat.eqb (a_id x) (a_id a) then without n x else x).
    rewrite upd_id_In. split.
    + intros [x [Ix E]]. assert (a_id x = a_id b) by (rewrite E; destruct (Nat.eqb (a_id x) (a_id a)); reflexivity).
      split; [|exists x; auto]. destruct (Nat.eq_dec (a_id x) (a_id a)) as [E1|E1]; [exists k0; split; congruence|].
      destruct (OTHER x Ix E1) as [k [N1 E2]]. exists k. split; congruence.
    + intros [_ [x [Ix [_ E]]]]. exists x. auto.
  - set (l := filter (fun b => negb (Nat.eqb (a_id b) (a_id a))) (s_args s)).
    assert (G : In b l <-> (exists k, k <> n /\ assoc k (s_map s) = Some (a_id b)) /\
      exists x, In x (s_args s) /\ a_id x = a_id b /\ b = if Nat.eqb (a_id x) (a_id a) then without n x else x).
    { unfold l. rewrite filter_In, negb_true_iff, Nat.eqb_neq. split.
      - intros [Ib N]. split; [now apply OTHER|]. exists b. split; [exact Ib|]. split; [reflexivity|]. apply Nat.eqb_neq in N. now rewrite N.
      - intros [[k [N1 E1]] [x [Ix [Ei E]]]]. assert (N : a_id b <> a_id a).
        { intros H. assert (false = true); [|discriminate]. apply EX. exists k. split; congruence. }
        assert (Nx : a_id x <> a_id a) by congruence. apply Nat.eqb_neq in Nx. rewrite Nx in E. subst b. split; [exact Ix | exact N]. }
    destruct (optr_eqb (s_help s) _); [exact G|]. destruct (optr_eqb (s_version s) _); exact G.
Qed.

(** [b] is [x] without some of the names [l], namely such that designate it *)
Definition stripped (s : state) (l : list str) (x b : argument) : Prop :=
  exists ns, b = arg_cfg x (cfg_names (a_cfg x) ns) /\
    (forall k, In k ns -> In k (c_names (a_cfg x))) /\
    (forall k, In k (c_names (a_cfg x)) -> In k ns \/ (In k l /\ assoc k (s_map s) = Some (a_id x))).
Definition same_settings (s s' : state) : Prop :=
  s_bin s' = s_bin s /\ s_verstr s' = s_verstr s /\ s_modes s' = s_modes s /\ s_additional s' = s_additional s /\ s_usage s' = s_usage s /\
  s_dlog s' = s_dlog s.
Lemma removed_settings : forall s n a, same_settings s (removed s n a).
Proof.
  intros. unfold removed. destruct (existsb _ _); [repeat split|]. destruct (optr_eqb (s_help s) _); [repeat split|].
  destruct (optr_eqb (s_version s) _); repeat split.
Qed.
Lemma arg_cfg_names_id : forall x, x = arg_cfg x (cfg_names (a_cfg x) (c_names (a_cfg x))).
Proof. intros [i g [] d]; reflexivity. Qed.

Lemma remove_loop_eq : forall l s, wf0 s -> NoDup l -> (forall n, In n l -> mem_key n (s_map s) = true) ->
  exists s', remove_loop l s = (s', Ok tt) /\ wf0 s' /\
    (forall k, assoc k (s_map s') = if mem_str k l then None else assoc k (s_map s)) /\
    (forall b, In b (s_args s') <-> (exists k, ~ In k l /\ assoc k (s_map s) = Some (a_id b)) /\
        exists x, In x (s_args s) /\ a_id x = a_id b /\ In b (s_args s')) /\
    (forall b, In b (s_args s') -> exists x, In x (s_args s) /\ stripped s l x b) /\
    (forall x, In x (s_args s) -> (exists k, ~ In k l /\ assoc k (s_map s) = Some (a_id x)) -> exists b, In b (s_args s') /\ stripped s l x b) /\
    same_settings s s'.
Proof.
  induction l as [|n l IH]; intros s W ND R.
  - exists s. split; [reflexivity|]. split; [exact W|]. split; [reflexivity|].
    assert (EX : forall b, In b (s_args s) -> exists k, ~ In k [] /\ assoc k (s_map s) = Some (a_id b)).
    { intros b Ib. destruct (wf_mapped s W b Ib) as [k Ik]. exists k. split; [tauto|]. apply In_assoc; [apply W | exact Ik]. }
    assert (ST : forall x, stripped s [] x x).
    { intros x. exists (c_names (a_cfg x)). split; [apply arg_cfg_names_id|]. split; auto. }
    split; [|split; [|split]].
    + intros b. split; [intros Ib; split; [auto | exists b; auto]|]. intros [_ [x [_ [_ Ib]]]]. exact Ib.
    + intros b Ib. exists b. auto.
    + intros x Ix _. exists x. auto.
    + repeat split.
  - inversion ND as [|? ? NI ND']; subst. cbn [remove_loop].
    destruct (remove_one_cases s n W) as [[F _]|[a [Ia [As [E W1]]]]]; [rewrite (R n (or_introl eq_refl)) in F; discriminate|].
    rewrite (bind_ok _ _ _ _ _ E).
    destruct (IH (removed s n a) W1 ND') as [s' [E' [W' [M' [A' [B' [C' D']]]]]]].
    { intros k Ik. unfold mem_key. rewrite removed_assoc. destruct (String.eqb_spec k n) as [->|N]; [contradiction|].
      specialize (R k (or_intror Ik)). exact R. }
    exists s'. split; [exact E'|]. split; [exact W'|].
    assert (MM : forall k, assoc k (s_map s') = if mem_str k (n :: l) then None else assoc k (s_map s)).
    { intros k. rewrite M', removed_assoc. unfold mem_str. simpl. destruct (String.eqb k n); simpl; [destruct (existsb _ l); reflexivity | reflexivity]. }
    assert (KEEP : forall k b, ~ In k l -> assoc k (s_map (removed s n a)) = Some (a_id b) -> ~ In k (n :: l) /\ assoc k (s_map s) = Some (a_id b)).
    { intros k b Nk Ek. rewrite removed_assoc in Ek. destruct (String.eqb_spec k n); [discriminate|]. split; [|exact Ek]. intros [H|H]; [congruence | contradiction]. }
    assert (STEP : forall x y b, In x (s_args s) -> a_id x = a_id y -> (y = if Nat.eqb (a_id x) (a_id a) then without n x else x) ->
       stripped (removed s n a) l y b -> stripped s (n :: l) x b).
    { intros x y b Ix Exy Ey [ns [Eb [N1 N2]]]. exists ns. split.
      - rewrite Eb, Ey. destruct (Nat.eqb (a_id x) (a_id a)); [|reflexivity]. reflexivity.
      - split.
        + intros k Ik. specialize (N1 k Ik). rewrite Ey in N1. destruct (Nat.eqb (a_id x) (a_id a)); [|exact N1].
          unfold without in N1; simpl in N1. now apply remove_first_In in N1.
        + intros k Ik. destruct (String.eqb_spec k n) as [->|Nk].
          * destruct (Nat.eqb_spec (a_id x) (a_id a)) as [Exa|Exa]; [right; split; [now left | congruence]|].
            subst y. destruct (N2 n Ik) as [H|[H _]]; [now left | contradiction].
          * assert (Iy : In k (c_names (a_cfg y))).
            { rewrite Ey. destruct (Nat.eqb (a_id x) (a_id a)); [|exact Ik]. unfold without; simpl. now apply In_remove_first. }
            destruct (N2 k Iy) as [H|[H1 H2]]; [now left|]. right. split; [now right|].
            rewrite removed_assoc in H2. apply String.eqb_neq in Nk. rewrite Nk in H2. congruence. }
    split; [exact MM|]. split; [|split; [|split]].
    + intros b. split; [|intros [_ [_ [_ [_ Ib]]]]; exact Ib]. intros Ib.
      destruct (proj1 (A' b) Ib) as [[k [Nk Ek]] [y [Iy [Ey _]]]]. split; [exists k; now apply KEEP|].
      apply (removed_args s n a y W Ia As) in Iy. destruct Iy as [_ [x [Ix [Ex _]]]]. exists x. split; [exact Ix|]. split; [congruence | exact Ib].
    + intros b Ib. destruct (B' b Ib) as [y [Iy Sy]]. apply (removed_args s n a y W Ia As) in Iy. destruct Iy as [_ [x [Ix [Ex Ey]]]].
      exists x. split; [exact Ix|]. eapply STEP; eauto.
    + intros x Ix [k [Nk Ek]].
      set (y := if Nat.eqb (a_id x) (a_id a) then without n x else x).
      assert (Eyx : a_id x = a_id y) by (unfold y; destruct (Nat.eqb (a_id x) (a_id a)); reflexivity).
      assert (Iy : In y (s_args (removed s n a))).
      { apply (removed_args s n a y W Ia As). split.
        - exists k. split; [intros ->; apply Nk; now left | congruence].
        - exists x. auto. }
      destruct (C' y Iy) as [b [Ib Sb]].
      { exists k. split; [intros H; apply Nk; now right|]. rewrite removed_assoc. destruct (String.eqb_spec k n) as [->|Q]; [exfalso; apply Nk; now left | congruence]. }
      exists b. split; [exact Ib|]. eapply STEP; eauto.
    + destruct (removed_settings s n a) as [S1 [S2 [S3 [S4 [S5 S6]]]]]. destruct D' as [D1 [D2 [D3 [D4 [D5 D6]]]]]. unfold same_settings.
      repeat split; congruence.
Qed.
