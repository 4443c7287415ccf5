(** Properties_Safe.v -- C10 (termination) and C11 (no undefined behaviour) of parseArguments. *)
From Coq Require Import Permutation Sorted.
From Verif Require Import Base Model_Utils Model_Number Model_Types Model_Argument Model_Usage Model_Args Model_Api
  Spec_Order Spec_Names Spec_Reading Spec_Parse Spec_Finish Spec_History Spec_Api Spec_Result
  Proofs_Base Proofs_Order Proofs_Frame Proofs_Inv Proofs_ReadFacts Proofs_Reading Proofs_Parse Proofs_Decl Proofs_Finish
  Proofs_Meth Proofs_History Proofs_Config Proofs_Central Proofs_Check Proofs_Safe Proofs_Term Properties_Names Demo.

(* ------------------------------------------------------------------ *)
(** * C10 *)

(** [parse_with n argv s] is the call parseArguments(argc, argv) in which each loop gets
    stuck (outcome [OutOfFuel]) when it comes to its n-th iteration; if none does, it is
    the call itself: *)
Definition finishes_within (n : nat) (argv : list str) (s : state) : Prop := snd (parse_with n argv s) <> OutOfFuel.
Definition never_finishes (argv : list str) (s : state) : Prop := forall n, ~ finishes_within n argv s.

(** the outcome does not depend on the iterations allowed, as soon as they are enough *)
Theorem C10_outcome_unique : forall n m argv s, finishes_within n argv s -> finishes_within m argv s ->
  parse_with n argv s = parse_with m argv s.
Proof.
  intros n m argv s Hn Hm. destruct (Nat.le_ge_cases n m) as [L|L].
  - symmetry. now apply agree_parse_with.
  - now apply agree_parse_with.
Qed.
Print Assumptions C10_outcome_unique.

(** The claim is false as it stands: an option with nargs(2^64-1) is read again and again, *)
Definition wrap_ops : list op := [OpAdd ["--n"] [MNargs (2 ^ 64 - 1)]].
Definition wrap : state := match run wrap_ops init with Some s => s | None => init end.
Definition wrap_line : list str := ["prog"; "--n"].
(** and a positional argument keeps the 0 of a refused nargs(0), *)
Definition zero_ops : list op := [OpAdd ["p"] [MAction INFINITE; MNargs 2; MNargs 0]].
Definition zero : state := match run zero_ops init with Some s => s | None => init end.
Definition zero_line : list str := ["prog"; "word"].
(** so that both calls run forever. *)
Lemma wrap_reach : reach wrap.
Proof. apply (run_reach wrap_ops init); [constructor | vm_compute; reflexivity]. Qed.
Lemma zero_reach : reach zero.
Proof. apply (run_reach zero_ops init); [constructor | vm_compute; reflexivity]. Qed.

Lemma stuck_bind : forall {A B} (m : M A) (f : A -> M B) s, snd (m s) = OutOfFuel -> snd (bind m f s) = OutOfFuel.
Proof. intros A B m f s H. unfold bind. destruct (m s) as [s1 []]; simpl in *; congruence. Qed.
Lemma find_static : forall s0 s id a, frame s0 s -> wf0 s0 -> find_id id (s_args s0) = Some a ->
  exists b, find_id id (s_args s) = Some b /\ a_cfg b = a_cfg a.
Proof.
  intros s0 s id a F W H. destruct (frame_find_id s0 s id a F H) as [b E]. exists b. split; [exact E|].
  apply find_id_In in H, E. destruct H as [Ia Ea], E as [Ib Eb].
  apply (in_map static) in Ib. rewrite (fr_args _ _ F) in Ib. apply in_map_iff in Ib. destruct Ib as [c [Ec Ic]].
  unfold static in Ec. injection Ec as E1 E2 E3. rewrite <- E3. f_equal. apply (wf_unique s0); try assumption. congruence.
Qed.
Lemma wrap_loop : forall f g s, frame (prepared wrap) s -> snd (parse_loop f g wrap_line 2 1 s) = OutOfFuel.
Proof.
  pose proof (proj1 (wf_prepared wrap (reach_wf _ wrap_reach))) as W.
  induction f as [|f IH]; intros g s F; [reflexivity|].
  change (parse_loop (S f) g wrap_line 2 1 s) with ((do j <- parseLong g 2 wrap_line 1 "--n" ;; parse_loop f g wrap_line 2 j) s).
  assert (E : exists s1, parseLong g 2 wrap_line 1 "--n" s = (s1, Ok 1) /\ frame s s1).
  { pose proof (frame_parseLong g 2 wrap_line 1 "--n" s) as K.
    unfold parseLong in *. change (takeArg "--n") with (false, "--n", "") in *. cbv iota beta in *.
    assert (Em : find_name "--n" s = (s, Ok (Some 1))) by (unfold find_name; rewrite (fr_map _ _ F); vm_compute; reflexivity).
    rewrite (bind_ok _ _ _ _ _ Em) in *. cbv iota beta in *.
    destruct (find_id 1 (s_args (prepared wrap))) as [a|] eqn:Ea; [|vm_compute in Ea; discriminate].
    destruct (find_static _ s 1 a F W Ea) as [b [Eb Cb]].
    assert (T : c_type (a_cfg b) = NUMBER_OPTION /\ c_nargs (a_cfg b) = (2 ^ 64 - 1)%N).
    { rewrite Cb. vm_compute in Ea. injection Ea as <-. split; reflexivity. }
    destruct T as [T N]. unfold parseArgument in *.
    assert (D : deref 1 s = (s, Ok b)) by (rewrite deref_eq, Eb; reflexivity).
    rewrite (bind_ok _ _ _ _ _ D) in *. rewrite T, N in *. change (szadd 1 (2 ^ 64 - 1)) with 0%N in *.
    cbv zeta in *. change (N.of_nat 2 <=? 0)%N with false in *. cbv iota in *.
    eexists. split; [reflexivity | exact K]. }
  destruct E as [s1 [E K]]. rewrite (bind_ok _ _ _ _ _ E). apply IH. eapply frame_trans; eassumption.
Qed.
Lemma zero_group : forall f err s k, frame (prepared zero) s -> 
  snd (group_loop f 1 0 zero_line false 2 1 k err s) = OutOfFuel.
Proof.
  induction f as [|f IH]; intros err s k F; [reflexivity|].
  change (group_loop (S f) 1 0 zero_line false 2 1 k err s) with
    ((push_elems 1 [group_elem []] ;;; group_loop f 1 0 zero_line false 2 1 (k + 0) err) s).
  rewrite (bind_ok (push_elems 1 [group_elem []]) _ _ _ _ eq_refl). apply IH.
  eapply frame_trans; [exact F | exact (frame_push 1 [group_elem []] s)].
Qed.
Lemma scan_stuck : forall n argv s, reach s -> interprets s ->
  (forall t, frame (prepared s) t -> s_args t = s_args (prepared s) -> snd (parse_loop n n argv (endOptionIndex argv) 1 t) = OutOfFuel) ->
  argv <> [] -> snd (parse_with n argv s) = OutOfFuel.
Proof.
  intros n argv s R I H A. pose proof (reach_wf s R) as W.
  rewrite (proj1 (parse_with_eq n argv s (proj1 W)) I). apply stuck_bind. unfold scan.
  assert (Q : exists t, set_binary argv (prepared s) = (t, Ok tt) /\ s_args t = s_args (prepared s)).
  { unfold set_binary, bind, get. destruct (s_bin (prepared s)); [|eexists; split; reflexivity].
    destruct argv as [|w r]; [congruence|]. eexists; split; reflexivity. }
  destruct Q as [t [Q Qa]]. pose proof (frame_set_binary argv (prepared s)) as F. rewrite Q in F. simpl in F.
  rewrite (bind_ok _ _ _ _ _ Q). now apply H.
Qed.
Theorem C10_refuted : exists s argv, reach s /\ never_finishes argv s.
Proof.
  exists wrap, wrap_line. split; [exact wrap_reach|]. intros n H. apply H. apply scan_stuck; [exact wrap_reach | | | discriminate].
  - right. vm_compute. discriminate.
  - intros t F _. change (endOptionIndex wrap_line) with 2. now apply wrap_loop.
Qed.
Print Assumptions C10_refuted.
Theorem C10_refuted_zero : exists s argv, reach s /\ never_finishes argv s /\
  (forall a, In a (arguments s) -> (getNargs a < 10)%N).
Proof.
  exists zero, zero_line. split; [exact zero_reach|]. split.
  - intros n H. apply H. apply scan_stuck; [exact zero_reach | | | discriminate].
    + right. vm_compute. discriminate.
    + intros t F A. change (endOptionIndex zero_line) with 2. destruct n as [|n]; [reflexivity|].
      change (parse_loop (S n) (S n) zero_line 2 1 t) with
        ((do j <- parsePositional (S n) 2 zero_line 1 false ;; parse_loop n (S n) zero_line 2 j) t).
      apply stuck_bind. unfold parsePositional. rewrite get_bind.
      destruct (next_positional t) as [b|] eqn:E; unfold next_positional in E; rewrite A in E; vm_compute in E; [|discriminate].
      injection E as <-. apply stuck_bind. apply stuck_bind. now apply zero_group.
  - vm_compute. intuition (subst; reflexivity).
Qed.
Print Assumptions C10_refuted_zero.

(** Without such nargs the call finishes, for every argv: no loop comes to more iterations
    than there are words in argv and arguments, and then it is the call of the other
    theorems. *)
Theorem C10_partial : forall s argv, reach_with sane_nargs s -> (N.of_nat (length argv) < 2 ^ 31)%N ->
  forall n, length argv + length (arguments s) < n ->
    finishes_within n argv s /\ parse_with n argv s = parseArguments argv s.
Proof.
  intros s argv R L n Hn.
  assert (Rs : reach s) by (eapply reach_with_reach; exact R).
  pose proof (reach_wf s Rs) as W. pose proof (reach_opt_nargs s Rs) as O.
  assert (S : sensible s) by (eapply reach_sensible with (P := sane_nargs); try exact R; try (intros; exact I); intros k a t H; exact H).
  split; [now apply parse_ends|]. unfold parseArguments.
  apply C10_outcome_unique; unfold finishes_within; apply parse_ends; try assumption; unfold parse_fuel; lia.
Qed.
Print Assumptions C10_partial.
(** the same for every state with sensible nargs, however it came about *)
Theorem C10_sensible_partial : forall s argv, reach s -> sensible s -> (N.of_nat (length argv) < 2 ^ 31)%N ->
  forall n, length argv + length (arguments s) < n ->
    finishes_within n argv s /\ parse_with n argv s = parseArguments argv s.
Proof.
  intros s argv Rs S L n Hn. pose proof (reach_wf s Rs) as W. pose proof (reach_opt_nargs s Rs) as O.
  split; [now apply parse_ends|]. unfold parseArguments.
  apply C10_outcome_unique; unfold finishes_within; apply parse_ends; try assumption; unfold parse_fuel; lia.
Qed.
Print Assumptions C10_sensible_partial.

(* ------------------------------------------------------------------ *)
(** * C11 *)

(** The outcome [UB] stands for: reading argv outside [0, argc), using an argument that
    was deleted or replaced, or the first name of an argument without names.

    The claim is false as it stands: dest() on the help argument replaces the object that
    the parser still points to. *)
Definition dangling_ops : list op := [OpAdd ["-x"] [MAction HELP; MDest (Dest 7 DScalar false TyValue)]].
Definition dangling : state := match run dangling_ops init with Some s => s | None => init end.
Theorem C11_refuted : exists s, reach s /\ snd (parseArguments ["prog"] s) = UB.
Proof.
  exists dangling. split; [|vm_compute; reflexivity].
  apply (run_reach dangling_ops init); [constructor | vm_compute; reflexivity].
Qed.
Print Assumptions C11_refuted.
(** and argc >= 1 is needed: *)
Example C11_needs_argv0 : snd (parseArguments [] init) = UB.
Proof. vm_compute; reflexivity. Qed.

(** Without such a dest() no call has undefined behaviour: whatever the nargs, the words,
    and even while the call does not finish. *)
Theorem C11_partial : forall s argv, reach_with no_dest_on_help s -> argv <> [] ->
  snd (parseArguments argv s) <> UB /\ forall n, snd (parse_with n argv s) <> UB.
Proof.
  intros s argv R A. assert (Rs : reach s) by (eapply reach_with_reach; exact R).
  assert (P : pointers_ok s).
  { apply pointing_ok. eapply reach_pointing with (P := no_dest_on_help); try exact R; try (intros; exact I). intros d a t H; exact H. }
  split; [unfold parseArguments|intros n]; (apply parse_safe; [now apply reach_wf | exact P | now right]).
Qed.
Print Assumptions C11_partial.
(** the same for every state whose help and version options are alive *)
Theorem C11_alive_partial : forall s argv, reach s -> pointers_ok s -> argv <> [] \/ s_bin s <> "" ->
  forall n, snd (parse_with n argv s) <> UB.
Proof. intros s argv Rs P A n. apply parse_safe; [now apply reach_wf | exact P | tauto]. Qed.
Print Assumptions C11_alive_partial.

(** A call that does not ask for trouble: not removeArguments with a repeated name (see
    C04), and not parseArguments without argv[0]. *)
Definition fair (o : op) : Prop :=
  match o with OpRemove ns => NoDup ns | OpParse argv => argv <> [] | _ => True end.

Lemma declared_ids : forall a s, map a_id (s_args (fst (declared a s))) = map a_id (s_args s).
Proof.
  intros a s. destruct (declared_cases a s) as [[k [_ [EA _]]]|[_ [E _]]]; [rewrite EA | rewrite E]; apply put_ids.
Qed.
Lemma resorted_ids : forall s i, In i (map a_id (s_args (resorted s))) <-> In i (map a_id (s_args s)).
Proof.
  intros s i. unfold resorted. cbn [s_args with_args]. split; intros H;
    (eapply Permutation_in; [|exact H]); apply Permutation_map; [symmetry|]; apply sort_perm.
Qed.
Lemma meth_ids : forall m a s i, In i (map a_id (s_args (fst (meth_state m a s)))) <-> In i (map a_id (s_args s)).
Proof.
  intros m a s i. destruct m; unfold meth_state; cbv zeta; cbn [fst].
  - destruct (is_positional _); [reflexivity|]. destruct (validFormatFlag f); [reflexivity|]. destruct (mem_key f (s_map s)); [reflexivity|].
    cbn [fst s_args with_map]. rewrite resorted_ids, put_ids. reflexivity.
  - rewrite declared_ids. unfold released. destruct (c_action (a_cfg a)); reflexivity.
  - rewrite resorted_ids, put_ids. reflexivity.
  - rewrite put_ids. reflexivity.
  - rewrite put_ids. reflexivity.
  - rewrite declared_ids. reflexivity.
  - rewrite put_ids. reflexivity.
  - cbn [s_args with_freed]. rewrite put_ids. reflexivity.
  - rewrite put_ids. reflexivity.
Qed.
Lemma chain_safe : forall ms id s, wf s -> In id (map a_id (s_args s)) -> snd (run_meths id ms s) <> UB.
Proof.
  induction ms as [|m ms IH]; intros id s W I; [discriminate|]. cbn [run_meths].
  apply in_map_iff in I. destruct I as [a [<- Ia]].
  pose proof (wf_run_meth (a_id a) m s W) as W1. pose proof (meth_eq m s a (proj1 W) Ia) as E.
  assert (I1 : In (a_id a) (map a_id (s_args (fst (run_meth (a_id a) m s))))).
  { rewrite E, outcome_fst. apply (proj2 (meth_ids m a s (a_id a))). now apply in_map. }
  unfold bind. destruct (run_meth (a_id a) m s) as [s1 r]. unfold outcome in E. destruct (meth_state m a s) as [s2 [e|]]; injection E as -> ->; [discriminate|].
  now apply IH.
Qed.
(** No call has undefined behaviour, if dest() was never called on a help or version
    argument. *)
Theorem C11_calls_partial : forall s o, reach_with no_dest_on_help s -> fair o -> snd (step o s) <> UB.
Proof.
  intros s o R Fo. assert (Rs : reach s) by (eapply reach_with_reach; exact R). pose proof (reach_wf s Rs) as W.
  destruct o as [ns ms|n ms|ns| |argv| | | | | | | | | |]; cbn [step fair] in *; try discriminate.
  - destruct (addArgument_cases ns s (proj1 W)) as [[e [E1 _]]|[[n [_ [_ [_ [E1 W1]]]]]|[f [rest [flags [_ [_ [_ [_ [E1 W1]]]]]]]]]].
    + rewrite (bind_throw _ _ _ _ _ E1). discriminate.
    + rewrite (bind_ok _ _ _ _ _ E1). apply chain_safe; [exact W1|]. unfold registered. apply (proj2 (resorted_ids _ _)).
      cbn [s_args with_map with_args]. rewrite map_app. apply in_or_app. right. now left.
    + rewrite (bind_ok _ _ _ _ _ E1). apply chain_safe; [exact W1|]. unfold registered. apply (proj2 (resorted_ids _ _)).
      cbn [s_args with_map with_args]. rewrite map_app. apply in_or_app. right. now left.
  - unfold bind at 1. unfold updateArgument, bind at 1, find_name. destruct (assoc n (s_map s)) as [id|] eqn:E; [|discriminate].
    apply assoc_In in E. destruct (wf_entry _ (proj1 W) _ _ E) as [a [Ia [<- _]]].
    unfold bind at 1. rewrite deref_eq, (In_find_id _ a (wf_ids _ (proj1 W)) Ia).
    change (snd (run_meths (a_id a) ms s) <> UB). apply chain_safe; [exact W | now apply in_map].
  - destruct ns as [|n ns]; [discriminate|].
    destruct (find (fun n => negb (mem_key n (s_map s))) (n :: ns)) as [k|] eqn:E.
    + unfold removeArguments. rewrite get_bind, E. discriminate.
    + destruct (C04_remove s (n :: ns) Rs) as [s' [E' _]]; [discriminate | exact Fo | | rewrite E'; discriminate].
      intros k Ik. pose proof (find_none _ _ E k Ik) as H. unfold argumentExists. now apply negb_false_iff in H.
  - apply C11_partial; assumption.
Qed.
Print Assumptions C11_calls_partial.

(** ** Examples *)
Section Weaken.
  Variables P Q : policy.
  Hypothesis HA : forall ns s, p_add P ns s -> p_add Q ns s.
  Hypothesis HM : forall m a s, p_meth P m a s -> p_meth Q m a s.
  Lemma chain_weaken : forall ms id s, chain_ok P id ms s -> chain_ok Q id ms s.
  Proof. induction ms as [|m ms IH]; intros id s H; [exact I|]. destruct H as [H1 H2]. split; [auto|]. intros s' E. apply IH, H2, E. Qed.
  Lemma reach_weaken : forall s, reach_with P s -> reach_with Q s.
  Proof.
    intros s R. induction R as [|s o s' r R IH O E C]; [constructor|]. eapply rw_step; [exact IH | | exact E | exact C].
    destruct o; cbn [op_ok] in *; try exact I.
    - destruct O as [O1 O2]. split; [auto|]. intros t id Et. apply chain_weaken. now apply O2.
    - intros t id Et. apply chain_weaken. now apply O.
  Qed.
End Weaken.
Lemma careful_sane : forall s, reach_with careful s -> reach_with sane_nargs s.
Proof. apply reach_weaken; [trivial|]. intros m a s [_ H]; exact H. Qed.
Lemma careful_no_dest : forall s, reach_with careful s -> reach_with no_dest_on_help s.
Proof. apply reach_weaken; [trivial|]. intros m a s [H _]; exact H. Qed.
(** the hypotheses are met by a parser with arguments of many kinds; the call ends well *)
Example C10_example : reach_with sane_nargs shop /\ snd (parse_with 25 ["prog"; "--"; "a"; "b"; "c"] shop) = Ok tt /\
  length (arguments shop) > 5.
Proof. split; [exact (careful_sane shop shop_careful)|]. split; [vm_compute; reflexivity | vm_compute; repeat constructor]. Qed.
(** absurd nargs: no undefined behaviour, for any number of iterations *)
Example C11_example : forall n, snd (parse_with n wrap_line wrap) <> UB.
Proof.
  intros n. apply C11_alive_partial; [exact wrap_reach | | left; discriminate].
  split; [vm_compute; exact I | vm_compute; exact I].
Qed.
Example C11_example_shop : reach_with no_dest_on_help shop /\ snd (step (OpRemove ["-v"; "SRC"]) shop) <> UB.
Proof.
  split; [exact (careful_no_dest shop shop_careful)|]. apply C11_calls_partial; [exact (careful_no_dest shop shop_careful)|].
  cbn [fair]. repeat constructor; simpl; intuition discriminate.
Qed.
