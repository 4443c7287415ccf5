(** Proofs_Memory2.v -- what a call that runs out of memory leaves alone, and how a
    half-made argument is removed. *)
From Coq Require Import Permutation Sorted.
From Verif Require Import Base Model_Utils Model_Number Model_Types Model_Argument Model_Usage Model_Args Model_Api Model_Memory
  Spec_Order Spec_Names Proofs_Base Proofs_Order Proofs_Frame Proofs_Inv Proofs_Table Proofs_Memory.

(** everything of the object that is not about arguments, values excluded *)
Definition misc (s : state) := (s_bin s, s_verstr s, s_modes s, s_additional s, s_usage s, s_dlog s).
(** only the argument at node [id] changes; it may get the names [new] *)
Record kept (id : nat) (new : list str) (s s' : state) : Prop := Kept {
  k_args : forall a, a_id a <> id -> (In a (s_args s') <-> In a (s_args s));
  k_names : forall n i, assoc n (s_map s) = Some i -> assoc n (s_map s') = Some i;
  k_new : forall n i, assoc n (s_map s') = Some i -> assoc n (s_map s) = Some i \/ (i = id /\ In n new);
  k_misc : misc s' = misc s
}.
Section Kept.
  Variables (id : nat) (new : list str).
  Notation K := (kept id new).
  Lemma kept_refl : forall s, K s s. Proof. intros s. constructor; auto. intros a _. reflexivity. Qed.
  Lemma kept_trans : forall a b c, K a b -> K b c -> K a c.
  Proof.
    intros a b c [A1 A2 A3 A4] [B1 B2 B3 B4]. constructor.
    - intros x N. rewrite (B1 x N). apply A1, N.
    - auto.
    - intros n i H. destruct (B3 n i H) as [H1|H1]; [now apply A3 | now right].
    - congruence.
  Qed.
  Lemma kept_same : forall s s', s_args s' = s_args s -> s_map s' = s_map s -> misc s' = misc s -> K s s'.
  Proof. intros s s' E1 E2 E3. constructor; [rewrite E1; reflexivity | rewrite E2; auto | rewrite E2; auto | exact E3]. Qed.
  Lemma kept_tweak : forall f s, (forall a, a_id (f a) = a_id a) -> K s (tweak id f s).
  Proof.
    intros f s F. constructor; auto. intros a N. unfold tweak. cbn [s_args with_args]. rewrite upd_id_In. split.
    - intros [b [I E]]. destruct (Nat.eqb_spec (a_id b) id) as [Eb|Eb]; [exfalso; apply N; rewrite E, F; exact Eb | now rewrite E].
    - intros I. exists a. split; [exact I|]. destruct (Nat.eqb_spec (a_id a) id) as [E|E]; [congruence | reflexivity].
  Qed.
  Lemma kept_sort : keeps K sort_args.
  Proof.
    intros s. unfold sort_args. destruct (forallb has_name (s_args s)); [|apply kept_refl]. constructor; auto.
    intros a _. cbn [fst s_args with_args]. split; apply Permutation_in; [symmetry|]; apply sort_perm.
  Qed.
  Lemma kept_set_cfg : forall f, keeps K (set_cfg id f). Proof. intros f s. apply (kept_tweak (fun a => arg_cfg a (f (a_cfg a))) s). reflexivity. Qed.
  Lemma kept_set_dyn : forall f, keeps K (set_dyn id f). Proof. intros f s. apply (kept_tweak (fun a => arg_dyn a (f (a_dyn a))) s). reflexivity. Qed.
  Lemma kept_modify : forall f, (forall s, s_args (f s) = s_args s /\ s_map (f s) = s_map s /\ misc (f s) = misc s) -> keeps K (modify f).
  Proof. intros f H s. destruct (H s) as [H1 [H2 H3]]. now apply kept_same. Qed.
  Lemma kept_map : forall f n s, (forall k, assoc k (f (s_map s)) = match assoc k (s_map s) with Some x => Some x | None => if String.eqb k n then Some id else None end) ->
    In n new -> K s (with_map s (f (s_map s))).
  Proof.
    intros f n s H I. constructor; cbn [s_args s_map with_map]; auto.
    - intros a _. reflexivity.
    - intros k i E. rewrite H, E. reflexivity.
    - intros k i E. rewrite H in E. destruct (assoc k (s_map s)) as [x|]; [now left|].
      destruct (String.eqb_spec k n) as [->|_]; [|discriminate E]. injection E as <-. now right.
  Qed.
  Ltac kk1 := first
    [ apply keeps_ret; exact kept_refl | apply keeps_throw; exact kept_refl | apply keeps_ub; exact kept_refl
    | apply keeps_get; exact kept_refl | apply keeps_find_name; exact kept_refl
    | apply keeps_front; exact kept_refl | apply keeps_deref; exact kept_refl
    | apply keeps_pure; exact kept_refl | apply kept_set_dyn | apply kept_set_cfg | apply kept_sort
    | apply kept_modify; solve [intros; repeat split] ].
  Ltac kk := repeat first [ kk1 | apply keeps_bind; [exact kept_trans | | intros ?]
    | match goal with |- keeps _ (if ?b then _ else _) => destruct b end
    | match goal with |- keeps _ (match ?b with Some _ => _ | None => _ end) => destruct b end ].
  Lemma kept_typeConstructor : keeps K (typeConstructor id).
  Proof. unfold typeConstructor. cbv zeta. kk. Qed.
  Ltac ka := repeat first
    [ apply (keepsA_plain K); solve [kk]
    | apply (keepsA_alloc K kept_refl)
    | apply (keepsA_bind K kept_trans); [|intros ?] ].
  Lemma keptA_grow : forall t, keepsA K (grow_default id t). Proof. intros. unfold grow_default. ka. Qed.
  Lemma keptA_push : forall t, keepsA K (push_elem id t). Proof. intros. unfold push_elem, push_elems. ka. Qed.
  Lemma keptA_sep : forall (b : bool), keepsA K (if b then plain (ret tt) else grow_default id ", ").
  Proof. intros [|]; [ka | apply keptA_grow]. Qed.
  Lemma keptA_defaults_loop : forall ds b, keepsA K (defaults_loop id b ds).
  Proof.
    induction ds as [|d r IH]; intros b; cbn [defaults_loop]; [ka|].
    do 3 (apply (keepsA_bind K kept_trans); [first [apply keptA_sep | apply keptA_grow | apply keptA_push] | intros _]). apply IH.
  Qed.
  Lemma keptA_group_loop : forall ds b, keepsA K (group_defaults_loop id b ds).
  Proof.
    induction ds as [|d r IH]; intros b; cbn [group_defaults_loop]; [ka|].
    do 3 (apply (keepsA_bind K kept_trans); [first [apply keptA_sep | apply keptA_grow | apply (keepsA_alloc K kept_refl)] | intros _]). apply IH.
  Qed.
  Lemma keptA_groups_loop : forall gs b, keepsA K (groups_loop id b gs).
  Proof.
    induction gs as [|d r IH]; intros b; cbn [groups_loop]; [ka|].
    do 5 (apply (keepsA_bind K kept_trans); [first [apply keptA_sep | apply keptA_grow | apply keptA_push | apply keptA_group_loop] | intros _]). apply IH.
  Qed.
  Lemma keptA_defaultsConstructor : keepsA K (defaultsConstructor_mem id).
  Proof.
    unfold defaultsConstructor_mem. apply (keepsA_bind K kept_trans); [ka|]. intros a. cbv zeta.
    destruct (_ && _)%bool; [|ka]. apply (keepsA_bind K kept_trans); [ka|]. intros _.
    assert (F : keepsA K (plain (do f <- front (c_names (a_cfg a)) ;; @throw unit KArgument f msg_defaults))) by ka.
    assert (L : forall ds, keepsA K (plain (set_cfg id (fun c => cfg_default c "")) >>; defaults_loop id true ds)).
    { intros ds. apply (keepsA_bind K kept_trans); [ka|]. intros _. apply keptA_defaults_loop. }
    destruct (c_type (a_cfg a)); try (destruct (negb _)); try exact F; try apply L; try apply keptA_groups_loop; ka.
  Qed.
  Lemma keptA_assign : forall old rest done, keepsA K (assign_loop id done rest old).
  Proof.
    induction old as [|o old IH]; intros [|x rest] done; cbn [assign_loop]; try solve [ka].
    do 2 (apply (keepsA_bind K kept_trans); [ka|]; intros _). apply IH.
  Qed.
  Definition meth_flags (m : meth) : list str := match m with MFlag f => [f] | _ => [] end.
  Lemma keptA_run_meth : forall m, incl (meth_flags m) new -> keepsA K (run_meth_mem id m).
  Proof.
    intros m L. destruct m; cbn [run_meth_mem].
    - unfold flag_mem. apply (keepsA_bind K kept_trans); [ka|]. intros a. destruct (is_positional _); [ka|].
      destruct (validFormatFlag f); [ka|]. apply (keepsA_bind K kept_trans); [ka|]. intros _.
      intros k s. unfold bindA at 1, plain at 1, get. cbv iota beta zeta.
      destruct (mem_key f (s_map s)) eqn:Mf; [destruct k; apply kept_refl|]. destruct k as [|k]; [apply kept_refl|].
      unfold bindA at 1, alloc at 1. unfold bindA at 1, plain at 1. 
      set (g := fun b => arg_cfg b (cfg_names (a_cfg b) (sort_flags (c_names (a_cfg b) ++ [f])))).
      change (set_cfg id (fun c => cfg_names c (sort_flags (c_names c ++ [f]))) s) with (tweak id g s, @Ok unit tt). cbv iota beta zeta.
      assert (K1 : K s (tweak id g s)) by (apply kept_tweak; reflexivity).
      destruct k as [|k]; [exact K1|]. eapply kept_trans; [exact K1|].
      unfold bindA at 1, alloc at 1. unfold bindA at 1, plain at 1, modify. cbv iota beta zeta.
      eapply kept_trans; [|apply (keepsA_plain K), kept_sort].
      apply (kept_map (fun m => m ++ [(f, id)]) f); [|apply L; now left].
      intros q. rewrite assoc_app. reflexivity.
    - unfold action_mem. apply (keepsA_bind K kept_trans); [ka|]. intros a1.
      do 3 (apply (keepsA_bind K kept_trans); [ka|]; intros _).
      apply (keepsA_bind K kept_trans); [apply (keepsA_plain K), kept_typeConstructor|]. intros _. apply keptA_defaultsConstructor.
    - unfold required. ka.
    - unfold help. ka.
    - unfold metavar. ka.
    - unfold nargs_mem. do 2 (apply (keepsA_bind K kept_trans); [ka|]; intros _).
      apply (keepsA_bind K kept_trans); [apply (keepsA_plain K), kept_typeConstructor|]. intros _. apply keptA_defaultsConstructor.
    - unfold defaults_mem. do 2 (apply (keepsA_bind K kept_trans); [ka|]; intros ?).
      apply (keepsA_bind K kept_trans); [apply keptA_assign|]. intros _. apply keptA_defaultsConstructor.
    - unfold valid, delete_valid. ka.
    - unfold dest_to_mem. do 4 (apply (keepsA_bind K kept_trans); [ka|]; intros ?).
      apply (keepsA_plain K). unfold dest_to. apply keeps_bind; [exact kept_trans | kk | intros _]. intros s.
      apply (kept_tweak (fun x => Arg (a_id x) (Datatypes.S (a_gen x)) (cfg_dest (cfg_defaults (a_cfg x) []) (Some d)) (a_dyn x)) s). reflexivity.
  Qed.
  Lemma keptA_run_meths : forall ms, incl (flat_map meth_flags ms) new -> keepsA K (run_meths_mem id ms).
  Proof.
    induction ms as [|m ms IH]; intros L; cbn [run_meths_mem]; [ka|].
    apply (keepsA_bind K kept_trans); [apply keptA_run_meth | intros _; apply IH]; intros x I; apply L; apply in_or_app; auto.
  Qed.
End Kept.

(* ------------------------------------------------------------------ *)
(** ** addArgument *)
Lemma kept_weaken : forall id l l' s s', incl l l' -> kept id l s s' -> kept id l' s s'.
Proof. intros id l l' s s' L [A B C D]. constructor; auto. intros n i H. destruct (C n i H) as [X|[X Y]]; auto. Qed.
Lemma kept_half : forall s c i, kept (fresh_id s) (c_names c) s (half c i s).
Proof.
  intros s c i. unfold half. constructor; cbn [s_args s_map with_args with_map].
  - intros a N. rewrite in_app_iff. cbn [In]. split; [intros [H|[H|[]]]; [exact H | exfalso; apply N; now rewrite <- H] | now left].
  - intros n j E. rewrite assoc_insert_fold, E. reflexivity.
  - intros n j E. rewrite assoc_insert_fold in E. destruct (assoc n (s_map s)) as [x|]; [now left|].
    destruct (mem_str n (firstn i (c_names c))) eqn:M; [|discriminate E]. injection E as <-. right. split; [reflexivity|].
    apply mem_str_In in M. rewrite <- (firstn_skipn i (c_names c)). apply in_or_app. now left.
  - reflexivity.
Qed.
Lemma kept_registered : forall s c, kept (fresh_id s) (c_names c) s (registered s c).
Proof.
  intros s c. unfold registered. rewrite <- half_all. eapply kept_trans; [apply (kept_half s c (length (c_names c)))|].
  constructor; auto. intros a _. cbn [s_args with_args]. split; apply Permutation_in; [symmetry|]; apply sort_perm.
Qed.
Lemma wanted_names : forall ns c, cfg_wanted ns c -> incl (c_names c) ns /\ NoDup (c_names c) /\ c_valid c = None.
Proof.
  intros ns c [[n [-> [_ ->]]]|[fl [-> [ND [Sm _]]]]].
  - split; [intros x I; exact I|]. split; [|reflexivity]. constructor; [intros [] | constructor].
  - split; [intros x I; apply Sm, sort_flags_In, I|]. split; [|reflexivity].
    eapply Permutation_NoDup; [apply sort_perm | exact ND].
Qed.
Lemma keptA_add : forall ns k s, table s -> kept (fresh_id s) ns s (fst (addArgument_mem ns k s)).
Proof.
  intros ns k s T. destruct (addArgument_mem_cases ns k s T) as [->|[[k' [e ->]]|[c [C [_ [_ H]]]]]]; cbn [fst]; try apply kept_refl.
  destruct (wanted_names ns c C) as [L _]. eapply kept_weaken; [exact L|].
  destruct H as [[i [_ ->]]|[k' ->]]; cbn [fst]; [apply kept_half | apply kept_registered].
Qed.
(** the whole declaration *)
Lemma add_id : forall ns k s s1 k1 id, table s -> addArgument_mem ns k s = (s1, Done k1 (Ok id)) -> id = fresh_id s.
Proof.
  intros ns k s s1 k1 id T E. destruct (addArgument_mem_cases ns k s T) as [H|[[k' [e H]]|[c [_ [_ [_ [[i [_ H]]|[k' H]]]]]]]]; rewrite H in E; try discriminate E.
  now injection E.
Qed.
Lemma kept_add_chain : forall ns ms k s, table s ->
  kept (fresh_id s) (ns ++ flat_map meth_flags ms) s (fst (step_mem (OpAdd ns ms) k s)).
Proof.
  intros ns ms k s T. cbn [step_mem]. unfold bindA.
  assert (K1 : kept (fresh_id s) (ns ++ flat_map meth_flags ms) s (fst (addArgument_mem ns k s))).
  { eapply kept_weaken; [|apply keptA_add, T]. apply incl_appl, incl_refl. }
  destruct (addArgument_mem ns k s) as [s1 [k1 [id|e|o| |]|]] eqn:E; try exact K1.
  rewrite (add_id _ _ _ _ _ _ T E). eapply kept_trans; [exact K1|]. apply keptA_run_meths. apply incl_appr, incl_refl.
Qed.

(* ------------------------------------------------------------------ *)
(** ** removing the names of a half-made argument gives the old object back *)
Lemma fold_insert_app : forall l id m, NoDup l ->
  fold_left (fun m n => map_insert n id m) l m = m ++ map (fun n => (n, id)) (filter (fun n => negb (mem_key n m)) l).
Proof.
  induction l as [|n l IH]; intros id m ND; cbn [fold_left]; [now rewrite app_nil_r|].
  inversion ND as [|? ? Nn NDl]; subst. rewrite IH by exact NDl. cbn [filter]. unfold map_insert. destruct (mem_key n m) eqn:E; cbn [negb]; [reflexivity|].
  rewrite <- app_assoc. f_equal. cbn [app map]. f_equal. f_equal. apply filter_ext_in. intros x Ix. f_equal.
  unfold mem_key. rewrite assoc_app. destruct (assoc x m); [reflexivity|]. cbn [assoc].
  destruct (String.eqb_spec x n) as [->|_]; [contradiction | reflexivity].
Qed.
Lemma NoDup_firstn : forall {A} (l : list A) i, NoDup l -> NoDup (firstn i l).
Proof.
  intros A. induction l as [|x l IH]; intros [|i] ND; cbn [firstn]; try constructor; inversion ND; subst; [|now apply IH].
  intros H. apply H1. rewrite <- (firstn_skipn i l). apply in_or_app. now left.
Qed.
(** the object with one more argument, which has the names [l] registered *)
Definition extra (s : state) (c : acfg) (l : list str) : state :=
  with_map (with_args s (s_args s ++ [Arg (fresh_id s) 0 c new_dyn])) (s_map s ++ map (fun n => (n, fresh_id s)) l).
Lemma half_extra : forall s c i, NoDup (c_names c) ->
  half c i s = extra s c (filter (fun n => negb (mem_key n (s_map s))) (firstn i (c_names c))).
Proof.
  intros s c i ND. unfold half, extra. rewrite fold_insert_app; [reflexivity|].
  now apply NoDup_firstn.
Qed.
Lemma find_app_none : forall id l a, ~ In id (map a_id l) -> a_id a = id -> find_id id (l ++ [a]) = Some a.
Proof.
  intros id. induction l as [|b l IH]; intros a N E; cbn [app find_id find].
  - rewrite E, Nat.eqb_refl. reflexivity.
  - unfold find_id. cbn [find]. destruct (Nat.eqb_spec (a_id b) id) as [X|X]; [exfalso; apply N; now left|].
    apply IH; [|exact E]. intros Y. apply N. now right.
Qed.
Lemma fresh_not_help : forall s, optr_eqb (s_help s) (fresh_id s, 0) = false /\ optr_eqb (s_version s) (fresh_id s, 0) = false.
Proof.
  intros s. assert (L : forall b l, b <= fold_right Nat.max b l) by (induction l; cbn; lia).
  unfold optr_eqb, ptr_eqb. split.
  - destruct (s_help s) as [[i g]|] eqn:E; [|reflexivity]. cbn [fst snd]. destruct (Nat.eqb_spec i (fresh_id s)) as [X|X]; [|reflexivity].
    exfalso. unfold fresh_id in X. rewrite E in X. cbn [opt_id] in X.
    pose proof (L (Nat.max i (opt_id (s_version s))) (map a_id (s_args s))). lia.
  - destruct (s_version s) as [[i g]|] eqn:E; [|reflexivity]. cbn [fst snd]. destruct (Nat.eqb_spec i (fresh_id s)) as [X|X]; [|reflexivity].
    exfalso. unfold fresh_id in X. rewrite E in X. cbn [opt_id] in X.
    pose proof (L (Nat.max (opt_id (s_help s)) i) (map a_id (s_args s))). lia.
Qed.
Lemma del_key_none : forall n (m : list (str * nat)), assoc n m = None -> del_key n m = m.
Proof.
  intros n m H. unfold del_key. induction m as [|[k v] m IH]; cbn [filter fst]; [reflexivity|].
  cbn [assoc] in H. destruct (String.eqb_spec n k) as [->|X]; [discriminate H|].
  cbn [negb]. now rewrite (IH H).
Qed.

Lemma assoc_extra : forall (m : list (str * nat)) id n l, assoc n m = None -> assoc n (m ++ map (fun n => (n, id)) (n :: l)) = Some id.
Proof. intros m id n l H. rewrite assoc_app, H. cbn [map assoc]. now rewrite String.eqb_refl. Qed.
Lemma del_extra : forall (m : list (str * nat)) id n l, assoc n m = None -> ~ In n l ->
  del_key n (m ++ map (fun n => (n, id)) (n :: l)) = m ++ map (fun n => (n, id)) l.
Proof.
  intros m id n l H N. unfold del_key. rewrite filter_app. change (filter (fun kv => negb (String.eqb n (fst kv))) m) with (del_key n m).
  rewrite (del_key_none n m H). f_equal. cbn [map filter fst]. rewrite String.eqb_refl. cbn [negb].
  apply (del_key_none n). destruct (assoc n (map (fun n0 => (n0, id)) l)) as [v|] eqn:A; [|reflexivity].
  exfalso. apply N. apply assoc_In in A. apply in_map_iff in A. destruct A as [x [E I]]. injection E as -> _. exact I.
Qed.
Lemma upd_app_fresh : forall id f l a, ~ In id (map a_id l) -> a_id a = id -> upd_id id f (l ++ [a]) = l ++ [f a].
Proof.
  intros id f l a N E. unfold upd_id. rewrite map_app. cbn [map]. rewrite E, Nat.eqb_refl. f_equal.
  rewrite <- (map_id l) at 2. apply map_ext_in. intros b Ib. destruct (Nat.eqb_spec (a_id b) id) as [X|X]; [|reflexivity].
  exfalso. apply N. rewrite <- X. now apply in_map.
Qed.
Lemma filter_app_fresh : forall id l a, ~ In id (map a_id l) -> a_id a = id ->
  filter (fun b => negb (Nat.eqb (a_id b) id)) (l ++ [a]) = l.
Proof.
  intros id l a N E. rewrite filter_app. cbn [filter]. rewrite E, Nat.eqb_refl. cbn [negb]. rewrite app_nil_r.
  induction l as [|b l IH]; cbn [filter]; [reflexivity|]. destruct (Nat.eqb_spec (a_id b) id) as [X|X]; [exfalso; apply N; now left|].
  cbn [negb]. f_equal. apply IH. intros Y. apply N. now right.
Qed.
Lemma remove_extra : forall s c n l, table s -> c_valid c = None -> In n (c_names c) -> assoc n (s_map s) = None -> ~ In n l ->
  remove_one n (extra s c (n :: l)) =
    (match l with [] => s | _ :: _ => extra s (cfg_names c (sort_flags (remove_first n (c_names c)))) l end, Ok tt).
Proof.
  intros s c n l T V Inn A N. pose proof (fresh_id_new s) as Fr.
  set (a := Arg (fresh_id s) 0 c new_dyn).
  assert (Fi : find_id (fresh_id s) (s_args (extra s c (n :: l))) = Some a) by (apply find_app_none; [exact Fr | reflexivity]).
  unfold remove_one. unfold bind at 1, find_name.
  change (s_map (extra s c (n :: l))) with (s_map s ++ map (fun n => (n, fresh_id s)) (n :: l)).
  rewrite assoc_extra by exact A. unfold bind at 1. rewrite deref_eq, Fi.
  change (c_names (a_cfg a)) with (c_names c). rewrite (proj2 (mem_str_In _ _) Inn). change (negb true) with false. cbv iota.
  unfold bind at 1, set_cfg at 1, modify at 1. cbv beta iota zeta.
  unfold bind at 1, modify at 1. cbv beta iota zeta. unfold bind at 1, get. cbv beta iota zeta.
  assert (Ea : upd_id (fresh_id s) (fun b => arg_cfg b (cfg_names (a_cfg b) (remove_first n (c_names (a_cfg b))))) (s_args (extra s c (n :: l)))
    = s_args s ++ [arg_cfg a (cfg_names c (remove_first n (c_names c)))]) by (apply upd_app_fresh; [exact Fr | reflexivity]).
  rewrite Ea. cbn [s_map with_map with_args].
  change (s_map (extra s c (n :: l))) with (s_map s ++ map (fun n => (n, fresh_id s)) (n :: l)).
  rewrite del_extra by assumption.
  assert (Ex : existsb (fun kv => Nat.eqb (snd kv) (fresh_id s)) (s_map s ++ map (fun n => (n, fresh_id s)) l) = match l with [] => false | _ => true end).
  { rewrite existsb_app. replace (existsb (fun kv => Nat.eqb (snd kv) (fresh_id s)) (s_map s)) with false.
    - destruct l as [|x l]; [reflexivity|]. cbn [map existsb snd orb]. now rewrite Nat.eqb_refl.
    - symmetry. apply not_true_iff_false. intros H. apply existsb_exists in H. destruct H as [[k i] [I E]]. cbn [snd] in E. apply Nat.eqb_eq in E. subst i.
      destruct (t_entry s T _ _ I) as [b [Ib [Eb _]]]. apply Fr. rewrite <- Eb. now apply in_map. }
  rewrite Ex. destruct l as [|x l].
  - destruct (fresh_not_help s) as [Eh Ev].
    change (s_help (with_map (with_args (extra s c [n]) (s_args s ++ [arg_cfg a (cfg_names c (remove_first n (c_names c)))])) (s_map s ++ map (fun n => (n, fresh_id s)) []))) with (s_help s).
    change (s_version (with_map (with_args (extra s c [n]) (s_args s ++ [arg_cfg a (cfg_names c (remove_first n (c_names c)))])) (s_map s ++ map (fun n => (n, fresh_id s)) []))) with (s_version s).
    change (ptr_of a) with (fresh_id s, 0). rewrite Eh, Ev.
    unfold bind, delete_valid, modify, ret. cbv beta iota zeta. f_equal.
    cbn [s_args with_freed with_map with_args]. rewrite filter_app_fresh; [|exact Fr | reflexivity].
    unfold with_args, with_freed, with_map, extra. cbn [s_bin s_args s_map s_help s_version s_verstr s_modes s_additional s_usage s_freed s_dlog with_map with_args map].
    unfold owned. change (c_valid (a_cfg a)) with (c_valid c). rewrite V, !app_nil_r. now destruct s.
  - unfold set_cfg, modify. f_equal. cbn [s_args with_map with_args].
    rewrite upd_app_fresh; [reflexivity | exact Fr | reflexivity].
Qed.
Lemma remove_extra_all : forall l s c, table s -> c_valid c = None -> l <> [] -> NoDup l -> incl l (c_names c) ->
  (forall n, In n l -> assoc n (s_map s) = None) -> remove_loop l (extra s c l) = (s, Ok tt).
Proof.
  induction l as [|n l IH]; intros s c T V NE ND L A; [congruence|]. inversion ND as [|? ? Nn NDl]; subst. cbn [remove_loop]. unfold bind.
  rewrite remove_extra; [|exact T | exact V | apply L; now left | apply A; now left | exact Nn].
  destruct l as [|x l]; [reflexivity|]. apply IH; [exact T | exact V | discriminate | exact NDl | | intros m Im; apply A; now right].
  intros m Im. cbn [c_names cfg_names]. apply sort_flags_In. apply In_remove_first; [apply L; now right|]. intros ->. contradiction.
Qed.
Theorem undo_half : forall s c i l, wf s -> c_valid c = None -> NoDup (c_names c) ->
  l = filter (fun n => negb (mem_key n (s_map s))) (firstn i (c_names c)) -> l <> [] ->
  removeArguments l (half c i s) = (s, Ok tt).
Proof.
  intros s c i l W V ND El NE. pose proof (wf0_table s (proj1 W)) as T. rewrite (half_extra s c i ND), <- El.
  assert (Fr : forall n, In n l -> assoc n (s_map s) = None).
  { intros n I. rewrite El in I. apply filter_In in I. destruct I as [_ I]. apply negb_true_iff in I. now apply mem_key_false. }
  assert (NDl : NoDup l) by (rewrite El; apply NoDup_filter, NoDup_firstn, ND).
  assert (L : incl l (c_names c)).
  { intros n I. rewrite El in I. apply filter_In in I. destruct I as [I _]. rewrite <- (firstn_skipn i (c_names c)). apply in_or_app. now left. }
  unfold removeArguments. destruct l as [|n l]; [congruence|]. unfold bind at 1, get.
  assert (Fn : find (fun n0 => negb (mem_key n0 (s_map (extra s c (n :: l))))) (n :: l) = None).
  { destruct (find _ (n :: l)) as [q|] eqn:F; [|reflexivity]. apply find_some in F. destruct F as [I Q]. exfalso.
    apply negb_true_iff in Q. apply mem_key_false in Q. unfold extra in Q. cbn [s_map with_map] in Q. rewrite assoc_app, (Fr q I) in Q.
    destruct (assoc q (map (fun n0 => (n0, fresh_id s)) (n :: l))) eqn:Y; [discriminate Q|].
    apply (in_map (fun n0 => (n0, fresh_id s))) in I. apply (in_map fst) in I. apply assoc_key in Y. now apply Y. }
  rewrite Fn. unfold bind. rewrite remove_extra_all; [|exact T | exact V | discriminate | exact NDl | exact L | exact Fr].
  rewrite (table_sort_args s T). rewrite sort_id by apply W. now destruct s.
Qed.
