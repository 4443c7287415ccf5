(** Properties_Memory.v -- C79: calls that run out of memory. *)
From Coq Require Import Permutation Sorted.
From Verif Require Import Base Model_Utils Model_Number Model_Types Model_Argument Model_Usage Model_Args Model_Api Model_Memory
  Spec_Order Spec_Names Spec_History Spec_Api
  Proofs_Base Proofs_Order Proofs_Frame Proofs_Inv Proofs_Table Proofs_Memory Proofs_Memory2 Proofs_Names Proofs_Distinct.

(* ------------------------------------------------------------------ *)
(** * lookups in a sound table *)
Lemma table_lookup : forall s n id, table s -> assoc n (s_map s) = Some id -> exists a, getArgument s n = Ok a /\ In a (s_args s) /\ a_id a = id /\ In n (c_names (a_cfg a)).
Proof.
  intros s n id T E. destruct (t_entry s T n id (assoc_In _ _ _ E)) as [a [Ia [Ea Na]]]. exists a. split; [|auto].
  unfold getArgument. rewrite E, <- Ea, (In_find_id _ _ (t_ids s T) Ia). reflexivity.
Qed.
Lemma table_getArgument : forall s n a, getArgument s n = Ok a -> In a (s_args s) /\ assoc n (s_map s) = Some (a_id a).
Proof.
  intros s n a E. unfold getArgument in E. destruct (assoc n (s_map s)) as [id|]; [|discriminate E].
  destruct (find_id id (s_args s)) as [b|] eqn:F; [|discriminate E]. injection E as ->. destruct (find_id_In _ _ _ F) as [I ->]. auto.
Qed.
Lemma table_get : forall s n a, table s -> In a (s_args s) -> assoc n (s_map s) = Some (a_id a) -> getArgument s n = Ok a.
Proof. intros s n a T I E. unfold getArgument. rewrite E, (In_find_id _ _ (t_ids s T) I). reflexivity. Qed.
Lemma exists_assoc : forall s n, argumentExists s n = true <-> exists id, assoc n (s_map s) = Some id.
Proof.
  intros s n. unfold argumentExists, mem_key. destruct (assoc n (s_map s)) as [i|]; split; intros H.
  - exists i; reflexivity.
  - reflexivity.
  - discriminate H.
  - destruct H as [i H]; discriminate H.
Qed.

(* ------------------------------------------------------------------ *)
(** * enough memory *)
Theorem C79_enough : forall s o, reach_mem s -> (forall argv, o <> OpParse argv) -> exists c,
  (forall k, k < c -> snd (step_mem o k s) = NoMemory) /\
  (forall k, step_mem o (c + k) s = (fst (step o s), Done k (snd (step o s)))).
Proof. intros s o R _. exact (refines_step o s (reach_mem_table s R)). Qed.

(* ------------------------------------------------------------------ *)
(** * calls that are all or nothing *)
Lemma sort_no_throw : forall s s' e, sort_args s <> (s', Throw e).
Proof. intros s s' e. unfold sort_args. destruct (forallb _ _); discriminate. Qed.
Lemma remove_one_no_throw : forall n s s' e, remove_one n s <> (s', Throw e).
Proof.
  intros n s s' e. unfold remove_one, bind, find_name, set_cfg, modify, get, delete_valid, modify. destruct (assoc n (s_map s)) as [id|]; [|discriminate].
  rewrite deref_eq. destruct (find_id id (s_args s)) as [a|]; [|discriminate]. destruct (negb _); [discriminate|].
  match goal with |- context [existsb ?f ?l] => destruct (existsb f l) end; [discriminate|].
  match goal with |- context [optr_eqb ?x ?y] => destruct (optr_eqb x y) end; [discriminate|].
  match goal with |- context [optr_eqb ?x ?y] => destruct (optr_eqb x y) end; discriminate.
Qed.
Lemma remove_loop_no_throw : forall l s s' e, remove_loop l s <> (s', Throw e).
Proof.
  induction l as [|n l IH]; intros s s' e; cbn [remove_loop]; [discriminate|]. unfold bind. destruct (remove_one n s) as [s1 [u|x|o| |]] eqn:E; try discriminate.
  - apply IH.
  - exfalso. exact (remove_one_no_throw _ _ _ _ E).
Qed.
Lemma removeArguments_throw : forall l s s' e, removeArguments l s = (s', Throw e) -> s' = s.
Proof.
  intros [|n l] s s' e E; [injection E as <- _; reflexivity|]. unfold removeArguments, bind at 1, get in E.
  destruct (find _ (n :: l)) as [m|]; [injection E as <- _; reflexivity|]. exfalso. unfold bind in E.
  destruct (remove_loop (n :: l) s) as [s1 [u|x|o| |]] eqn:R; try discriminate E; [exact (sort_no_throw _ _ _ E) | exact (remove_loop_no_throw _ _ _ _ R)].
Qed.
Lemma plain_out : forall {A} (m : M A) k s s', plain m k s = (s', NoMemory) -> exists e, m s = (s', Throw e).
Proof. intros A m k s s' E. unfold plain in E. destruct (m s) as [s1 [u|x|o| |]]; try discriminate E. destruct k; [injection E as <-; eauto | discriminate E]. Qed.
Lemma alloc_out : forall {A} (m : AM A) k s s', (alloc >>; m) k s = (s', NoMemory) -> s' = s \/ exists k', m k' s = (s', NoMemory).
Proof. intros A m [|k] s s' E; [injection E as <-; auto|]. right. exists k. exact E. Qed.
Lemma bindA_out : forall {A B} (m : AM A) (f : A -> AM B) k s s', bindA m f k s = (s', NoMemory) ->
  m k s = (s', NoMemory) \/ exists k1 s1 a, m k s = (s1, Done k1 (Ok a)) /\ f a k1 s1 = (s', NoMemory).
Proof.
  intros A B m f k s s' E. unfold bindA in E. destruct (m k s) as [s1 [k1 [a|e|o| |]|]]; try discriminate E.
  - right. eauto 6.
  - left. injection E as ->. reflexivity.
Qed.
Lemma update_throw : forall n s s' e, updateArgument n s = (s', Throw e) -> s' = s.
Proof.
  intros n s s' e E. unfold updateArgument, bind, find_name in E. destruct (assoc n (s_map s)) as [id|]; [|injection E as <- _; reflexivity].
  rewrite deref_eq in E. destruct (find_id id (s_args s)); discriminate E.
Qed.
Lemma update_ok : forall n s s' i, updateArgument n s = (s', Ok i) -> s' = s /\ assoc n (s_map s) = Some i.
Proof.
  intros n s s' e E. unfold updateArgument, bind, find_name in E. destruct (assoc n (s_map s)) as [id|]; [|discriminate E].
  rewrite deref_eq in E. destruct (find_id id (s_args s)); [|discriminate E]. injection E as <- <-. auto.
Qed.
Lemma plain_done : forall {A} (m : M A) k s s' k' r, plain m k s = (s', Done k' r) -> m s = (s', r).
Proof. intros A m k s s' k' r E. unfold plain in E. destruct (m s) as [s1 [u|x|o| |]]; try (injection E as <- _ <-; reflexivity). destruct k; [discriminate E|]. injection E as <- _ <-. reflexivity. Qed.

(** calls that have no effect at all if they run out of memory *)
Definition all_or_nothing (o : op) : Prop :=
  match o with
  | OpRemove _ | OpSetVersion _ | OpSetBinaryName _ | OpSetUsage _ | OpSetDescription _ | OpSetEpilog _ => True
  | OpUpdate _ ms => exists m, ms = [m] /\ match m with MHelp _ | MMetavar _ | MRequired _ | MValid _ _ => True | _ => False end
  | _ => False
  end.
(** calls that never do *)
Definition no_allocation (o : op) : Prop :=
  match o with
  | OpClear | OpSetAlternative _ | OpSetStrict _ | OpSetHelpException _ | OpSetVersionException _ | OpSetUsageWidth _ _ _ _ => True
  | _ => False
  end.
Theorem C79_all_or_nothing : forall s o s', all_or_nothing o -> out_of_memory o s s' -> s' = s.
Proof.
  intros s o s' A H. destruct H as [o k s s' _ E|argv k s s0 s1 r s' F0 E F1]; [|contradiction A].
  destruct o; try contradiction A; cbn [step_mem] in E; destruct (alloc_out _ _ _ _ E) as [->|[k' E']]; try reflexivity;
    try (destruct (plain_out _ _ _ _ E') as [exc E2]; cbn [step] in E2; try discriminate E2; exact (removeArguments_throw _ _ _ _ E2)).
  destruct A as [m [-> A]]. destruct (bindA_out _ _ _ _ _ E') as [E2|[k1 [s1 [id [E2 E3]]]]].
  - destruct (plain_out _ _ _ _ E2) as [e E3]. exact (update_throw _ _ _ _ E3).
  - apply plain_done in E2. destruct (update_ok _ _ _ _ E2) as [-> _]. cbn [run_meths_mem] in E3.
    assert (N : forall k s' (u : unit), plain (ret tt) k s' <> (s', @NoMemory unit)) by (intros; discriminate).
    destruct (bindA_out _ _ _ _ _ E3) as [E4|[k2 [s2 [u [_ E4]]]]]; [|discriminate E4].
    destruct m; try contradiction A; cbn [run_meth_mem] in E4.
    + destruct (plain_out _ _ _ _ E4) as [e E5]. exfalso. unfold required, bind, set_cfg, modify in E5. rewrite deref_eq in E5.
      destruct (find_id id (s_args s)); [|discriminate E5]. exact (sort_no_throw _ _ _ E5).
    + destruct (alloc_out _ _ _ _ E4) as [->|[k3 E5]]; [reflexivity|]. destruct (plain_out _ _ _ _ E5) as [e E6]. exfalso.
      unfold help, bind, set_cfg, modify in E6. rewrite deref_eq in E6. destruct (find_id id (s_args s)); discriminate E6.
    + destruct (alloc_out _ _ _ _ E4) as [->|[k3 E5]]; [reflexivity|]. destruct (plain_out _ _ _ _ E5) as [e E6]. exfalso.
      unfold metavar, bind, set_cfg, modify in E6. rewrite deref_eq in E6. destruct (find_id id (s_args s)); discriminate E6.
    + destruct (plain_out _ _ _ _ E4) as [e E6]. exfalso.
      unfold valid, bind, set_cfg, modify, delete_valid, modify in E6. rewrite deref_eq in E6. destruct (find_id id (s_args s)); discriminate E6.
Qed.
Theorem C79_never : forall s o s', no_allocation o -> ~ out_of_memory o s s'.
Proof.
  intros s o s' A H. destruct H as [o k s s' _ E|argv k s s0 s1 r s' F0 E F1]; [|contradiction A].
  destruct o; try contradiction A; cbn [step_mem] in E; destruct (plain_out _ _ _ _ E) as [exc E2]; discriminate E2.
Qed.

(* ------------------------------------------------------------------ *)
(** * what an interrupted declaration leaves alone *)

(** the argument that the call is about *)
Definition about (o : op) (s : state) (b : argument) : Prop :=
  match o with OpUpdate n _ => exists a, getArgument s n = Ok a /\ a_id b = a_id a | _ => False end.
(** the names that the call gives *)
Definition gives (o : op) : list str :=
  match o with
  | OpAdd ns ms => ns ++ flat_map meth_flags ms
  | OpUpdate _ ms => flat_map meth_flags ms
  | _ => []
  end.
Definition declares (o : op) : Prop := match o with OpAdd _ _ | OpUpdate _ _ => True | _ => False end.

Lemma out_kept : forall o s s', table s -> declares o -> out_of_memory o s s' ->
  exists id, kept id (gives o) s s' /\ (forall b, In b (s_args s) -> a_id b = id -> about o s b).
Proof.
  intros o s s' T D H. destruct H as [o k s s' _ E|argv k s s0 s1 r s' F0 E F1]; [|contradiction D]. destruct o; try contradiction D.
  - exists (fresh_id s). split.
    + pose proof (kept_add_chain nameOrFlags ms k s T) as K. rewrite E in K. exact K.
    + intros b Ib Eb. exfalso. exact (fresh_id_new s (eq_ind _ (fun i => In i (map a_id (s_args s))) (in_map a_id _ _ Ib) _ Eb)).
  - cbn [step_mem] in E. destruct (assoc nameOrFlag (s_map s)) as [id|] eqn:As.
    + exists id. split.
      * destruct (alloc_out _ _ _ _ E) as [->|[k' E']]; [apply kept_refl|].
        destruct (bindA_out _ _ _ _ _ E') as [E2|[k1 [s1 [i [E2 E3]]]]].
        -- destruct (plain_out _ _ _ _ E2) as [e E3]. rewrite (update_throw _ _ _ _ E3). apply kept_refl.
        -- apply plain_done in E2. destruct (update_ok _ _ _ _ E2) as [-> As2]. rewrite As2 in As. injection As as ->.
           pose proof (keptA_run_meths id (gives (OpUpdate nameOrFlag ms)) ms (incl_refl _) k1 s) as K. rewrite E3 in K. exact K.
      * intros b Ib Eb. destruct (table_lookup s _ _ T As) as [a [G [_ [Ea _]]]]. exists a. split; [exact G | congruence].
    + exists (fresh_id s). assert (s' = s) as ->.
      { destruct (alloc_out _ _ _ _ E) as [->|[k' E']]; [reflexivity|]. destruct (bindA_out _ _ _ _ _ E') as [E2|[k1 [s1 [i [E2 E3]]]]].
        - destruct (plain_out _ _ _ _ E2) as [e E3]. exact (update_throw _ _ _ _ E3).
        - apply plain_done in E2. destruct (update_ok _ _ _ _ E2) as [_ As2]. congruence. }
      split; [apply kept_refl|]. intros b Ib Eb. exfalso. exact (fresh_id_new s (eq_ind _ (fun i => In i (map a_id (s_args s))) (in_map a_id _ _ Ib) _ Eb)).
Qed.
Theorem C79_others : forall s o s', reach_mem s -> declares o -> out_of_memory o s s' ->
  (** every name keeps its argument; every other argument is exactly as before *)
  (forall n b, getArgument s n = Ok b -> exists b', getArgument s' n = Ok b' /\ a_id b' = a_id b /\ (about o s b \/ b' = b)) /\
  (** new names are among those given, and name the argument that the call is about *)
  (forall n, argumentExists s' n = true -> argumentExists s n = false -> In n (gives o) /\
     exists b', getArgument s' n = Ok b' /\ forall b, In b (arguments s) -> a_id b = a_id b' -> about o s b) /\
  (** listed arguments stay listed *)
  (forall b, In b (arguments s) -> about o s b \/ In b (arguments s')) /\
  (** the settings of the parser *)
  s_bin s' = s_bin s /\ s_verstr s' = s_verstr s /\ s_modes s' = s_modes s /\ s_usage s' = s_usage s /\
  getAdditionalArguments s' = getAdditionalArguments s.
Proof.
  intros s o s' R D H. pose proof (reach_mem_table s R) as T. pose proof (table_out _ _ _ T H) as T'.
  destruct (out_kept o s s' T D H) as [id [[Ka Kn Kw Km] Ab]]. unfold misc in Km. injection Km as E1 E2 E3 E4 E5 E6.
  split; [|split; [|split; [|repeat split; assumption]]].
  - intros n b G. destruct (table_getArgument _ _ _ G) as [Ib As]. pose proof (Kn _ _ As) as As'.
    destruct (table_lookup s' n _ T' As') as [b' [G' [Ib' [Eb' _]]]]. exists b'. split; [exact G'|]. split; [exact Eb'|].
    destruct (Nat.eq_dec (a_id b) id) as [E|E]; [left; exact (Ab b Ib E)|]. right.
    pose proof (table_get s' n b T' (proj2 (Ka b E) Ib) As') as G2. congruence.
  - intros n X N. apply exists_assoc in X. destruct X as [i X].
    assert (Nn : assoc n (s_map s) = None). { unfold argumentExists, mem_key in N. destruct (assoc n (s_map s)); [discriminate N | reflexivity]. }
    destruct (Kw n i X) as [Y|[-> Y]]; [congruence|]. split; [exact Y|].
    destruct (table_lookup s' n _ T' X) as [b' [G' [_ [Eb' _]]]]. exists b'. split; [exact G'|]. intros b Ib Eb. apply (Ab b Ib). congruence.
  - intros b Ib. destruct (Nat.eq_dec (a_id b) id) as [E|E]; [left; exact (Ab b Ib E) | right; exact (proj2 (Ka b E) Ib)].
Qed.

(* ------------------------------------------------------------------ *)
(** * parsing *)
Lemma frame_lookup : forall s s' n a, table s -> frame s s' -> getArgument s n = Ok a ->
  exists a', getArgument s' n = Ok a' /\ a_id a' = a_id a /\ a_gen a' = a_gen a /\ a_cfg a' = a_cfg a.
Proof.
  intros s s' n a T F G. destruct (table_getArgument _ _ _ G) as [Ia As]. pose proof (in_map static _ _ Ia) as I2. rewrite <- (fr_args _ _ F) in I2.
  apply in_map_iff in I2. destruct I2 as [a' [E Ia']]. unfold static in E. injection E as E1 E2 E3. exists a'. split; [|auto].
  apply table_get; [exact (table_frame _ _ T F) | exact Ia'|]. rewrite (fr_map _ _ F), As, E1. reflexivity.
Qed.
Lemma help_setup_kept : forall k s, table s -> kept (fresh_id s) ["-h"; "--help"] s (fst (help_setup_mem k s)).
Proof.
  intros k s T. unfold help_setup_mem, bindA at 1, plain at 1, get. destruct (s_help s) as [p|]; [apply kept_refl|].
  unfold bindA at 1, alloc. destruct k as [|k]; [apply kept_refl|]. destruct (_ && _); [apply kept_refl|].
  set (l := (if mem_key "-h" (s_map s) then [] else ["-h"]) ++ (if mem_key "--help" (s_map s) then [] else ["--help"])).
  assert (L : incl l ["-h"; "--help"]).
  { unfold l. destruct (mem_key "-h" _), (mem_key "--help" _); intros x H; cbn in H |- *; tauto. }
  unfold bindA at 1. assert (K1 : kept (fresh_id s) ["-h"; "--help"] s (fst (addArgument_mem l k s))) by (eapply kept_weaken; [exact L | apply keptA_add, T]).
  destruct (addArgument_mem l k s) as [s1 [k1 [id|e|o| |]|]] eqn:E; try exact K1. rewrite (add_id _ _ _ _ _ _ T E).
  eapply kept_trans; [exact K1|].
  pose proof (keptA_run_meths (fresh_id s) ["-h"; "--help"] [MAction HELP; MHelp "show this help message and exit"] (fun x (H : In x []) => match H with end) k1 s1) as K2.
  cbn [run_meths_mem run_meth_mem] in K2. unfold bindA in K2 |- *. cbn [fst] in *.
  destruct (action_mem (fresh_id s) HELP k1 s1) as [s2 [k2 [u|e|o| |]|]]; try exact K2. unfold alloc, plain, ret in *. destruct k2 as [|k2]; [exact K2|].
  destruct (help _ _ s2) as [s3 [u2|e|o| |]]; try exact K2. destruct k2; exact K2.
Qed.
Theorem C79_parse : forall s argv s', reach_mem s -> out_of_memory (OpParse argv) s s' ->
  (** every declared argument is still there under its names, with the same declaration *)
  (forall n a, getArgument s n = Ok a -> exists a', getArgument s' n = Ok a' /\ a_id a' = a_id a /\ a_gen a' = a_gen a /\ a_cfg a' = a_cfg a) /\
  (** only the automatic help option can be new *)
  (forall n, argumentExists s' n = true -> argumentExists s n = true \/ n = "-h" \/ n = "--help") /\
  (forall a', In a' (arguments s') -> In (a_id a') (map a_id (arguments s)) \/ a_id a' = fresh_id s) /\
  s_verstr s' = s_verstr s /\ s_modes s' = s_modes s /\ s_usage s' = s_usage s.
Proof.
  intros s argv s' R H. pose proof (reach_mem_table s R) as T.
  inversion H as [o k t t' N E|argv' k t s0 s1 r t' F0 E F1]; subst; [exfalso; exact (N argv eq_refl)|].
  pose proof (table_frame _ _ T F0) as T0. pose proof (help_setup_kept k s0 T0) as K. rewrite E in K. cbn [fst] in K. destruct K as [Ka Kn Kw Km].
  assert (T1 : table s1). { pose proof (table_help_setup k s0 T0) as Q. rewrite E in Q. exact Q. }
  unfold misc in Km. injection Km as E1 E2 E3 E4 E5 E6.
  assert (FR : fresh_id s0 = fresh_id s).
  { unfold fresh_id. assert (Q : map a_id (s_args s0) = map a_id (s_args s)).
    { pose proof (f_equal (map (fun t => fst (fst t))) (fr_args _ _ F0)) as Q. rewrite !map_map in Q. exact Q. }
    rewrite Q, (fr_help _ _ F0), (fr_version _ _ F0). reflexivity. }
  split; [|split; [|split]].
  - intros n a G. destruct (frame_lookup s s0 n a T F0 G) as [a0 [G0 [I0 [J0 C0]]]].
    destruct (table_getArgument _ _ _ G0) as [Ia0 As0].
    assert (NE : a_id a0 <> fresh_id s0). { intros Q. apply (fresh_id_new s0). rewrite <- Q. apply in_map, Ia0. }
    assert (G1 : getArgument s1 n = Ok a0). { apply table_get; [exact T1 | apply (Ka a0 NE), Ia0 | apply Kn, As0]. }
    destruct (frame_lookup s1 s' n a0 T1 F1 G1) as [a' [G' [I' [J' C']]]]. exists a'. repeat split; congruence.
  - intros n X. apply exists_assoc in X. destruct X as [i X]. rewrite (fr_map _ _ F1) in X. destruct (Kw n i X) as [Y|[_ Y]].
    + left. apply exists_assoc. exists i. rewrite (fr_map _ _ F0) in Y. exact Y.
    + right. destruct Y as [Y|[Y|[]]]; auto.
  - intros a' Ia'. pose proof (in_map static _ _ Ia') as I2. rewrite (fr_args _ _ F1) in I2. apply in_map_iff in I2. destruct I2 as [a1 [Q Ia1]].
    unfold static in Q. injection Q as Q1 Q2 Q3. rewrite <- Q1. destruct (Nat.eq_dec (a_id a1) (fresh_id s0)) as [N|N]; [right; congruence|].
    left. apply (Ka a1 N) in Ia1. pose proof (in_map static _ _ Ia1) as I3. rewrite (fr_args _ _ F0) in I3. apply in_map_iff in I3.
    destruct I3 as [a2 [Q4 Ia2]]. unfold static in Q4. injection Q4 as Q5 _ _. rewrite <- Q5. apply in_map, Ia2.
  - pose proof (fr_verstr _ _ F0). pose proof (fr_verstr _ _ F1). pose proof (fr_modes _ _ F0). pose proof (fr_modes _ _ F1).
    pose proof (fr_usage _ _ F0). pose proof (fr_usage _ _ F1). repeat split; congruence.
Qed.

(* ------------------------------------------------------------------ *)
(** * the object stays consistent *)
Theorem C79_consistent : forall s, reach_mem s ->
  (forall n, argumentExists s n = true -> exists a, getArgument s n = Ok a /\ In a (arguments s) /\ In n (getNameOrFlags a)) /\
  (forall n, argumentExists s n = false -> getArgument s n = Throw (not_found n)) /\
  (forall a, In a (arguments s) -> getNameOrFlags a <> []).
Proof.
  intros s R. pose proof (reach_mem_table s R) as T. split; [|split].
  - intros n X. apply exists_assoc in X. destruct X as [i X]. destruct (table_lookup s n i T X) as [a [G [I [_ N]]]]. exists a. auto.
  - intros n X. exact (proj1 (getArgument_none s n X)).
  - exact (t_named s T).
Qed.

(* ------------------------------------------------------------------ *)
(** * an interrupted addArgument can be undone, unless nothing was registered *)
Theorem C79_undo_partial : forall s ns s', reach s -> out_of_memory (OpAdd ns []) s s' -> exists mine,
  incl mine ns /\ NoDup mine /\ (forall n, argumentExists s' n = argumentExists s n || mem_str n mine) /\
  (mine <> [] -> step (OpRemove mine) s' = (s, Ok tt)) /\
  (mine = [] -> s' = s \/ exists a, arguments s' = arguments s ++ [a] /\ incl (getNameOrFlags a) ns /\ s' = with_args s (arguments s')).
Proof.
  intros s ns s' R H. pose proof (reach_wf s R) as W. pose proof (wf0_table s (proj1 W)) as T.
  inversion H as [o k t t' N E|]; subst. cbn [step_mem run_meths_mem] in E.
  assert (C : addArgument_mem ns k s = (s', NoMemory)).
  { destruct (bindA_out _ _ _ _ _ E) as [C|[k1 [s1 [a [_ C]]]]]; [exact C | discriminate C]. }
  assert (Z : forall n, argumentExists s n = argumentExists s n || mem_str n []) by (intros n; rewrite orb_false_r; reflexivity).
  destruct (addArgument_mem_cases ns k s T) as [D|[[k' [e D]]|[c [Wc [Nc [Fr [[i [Li D]]|[k' D]]]]]]]]; rewrite D in C; try discriminate C.
  - injection C as <-. exists []. repeat split; [intros x []|constructor|exact Z|intros Q; contradiction|intros _; left; reflexivity].
  - injection C as <-. destruct (wanted_names ns c Wc) as [IN [ND VN]].
    set (mine := filter (fun n => negb (mem_key n (s_map s))) (firstn i (c_names c))). exists mine.
    assert (IM : incl mine (firstn i (c_names c))) by (intros x Hx; apply filter_In in Hx; exact (proj1 Hx)).
    assert (IF : incl (firstn i (c_names c)) (c_names c)).
    { intros x Hx. rewrite <- (firstn_skipn i (c_names c)). apply in_or_app. left. exact Hx. }
    split; [exact (incl_tran IM (incl_tran IF IN))|]. split; [apply NoDup_filter, NoDup_firstn, ND|]. rewrite (half_extra s c i ND). fold mine. split; [|split].
    + intros n. unfold argumentExists, extra, mem_key. cbn [s_map with_map]. rewrite Proofs_Distinct.assoc_app. destruct (assoc n (s_map s)); [reflexivity|]. cbn [orb].
      assert (Q : forall l, match assoc n (map (fun n => (n, fresh_id s)) l) with Some _ => true | None => false end = mem_str n l).
      { induction l as [|x l IH]; [reflexivity|]. unfold mem_str in IH |- *. cbn [map assoc existsb]. rewrite <- IH. destruct (String.eqb n x) eqn:Ex; [reflexivity|]. reflexivity. }
      exact (Q mine).
    + intros NE. pose proof (undo_half s c i mine W VN ND eq_refl NE) as U. rewrite (half_extra s c i ND) in U. exact U.
    + intros EM. right. exists (Arg (fresh_id s) 0 c new_dyn). rewrite EM. unfold extra. cbn [map]. rewrite app_nil_r. split; [reflexivity|].
      split; [exact IN|]. destruct s; reflexivity.
Qed.

(* ------------------------------------------------------------------ *)
(** * what cannot be undone *)
Definition after (o : op) (k : nat) (s : state) : state := fst (step_mem o k s).
Lemma after_out : forall o k s, (forall argv, o <> OpParse argv) -> snd (step_mem o k s) = NoMemory -> out_of_memory o s (after o k s).
Proof. intros o k s N E. apply (out_call o k); [exact N|]. unfold after. rewrite <- E. apply surjective_pairing. Qed.
Ltac out := apply after_out; [discriminate | vm_compute; reflexivity].

(** A positional whose addArgument ends after it is listed and before its name is
    registered: it takes the words of the command line and has no name.  It cannot be
    removed; declaring it again makes a second one, for which no word is left. *)
Definition ghost : state := after (OpAdd ["file"] []) 3 init.
Definition ghost_retried : state := fst (step (OpAdd ["file"] []) ghost).
Definition ghost_parsed : state := fst (step (OpParse ["prog"; "a.txt"]) ghost_retried).
Theorem C79_undo_refuted :
  out_of_memory (OpAdd ["file"] []) init ghost /\
  length (arguments ghost) = 1 /\ argumentExists ghost "file" = false /\
  step (OpRemove ["file"]) ghost = (ghost, Throw (Exn KArgument "file" "argument not found")) /\
  (** declared again *)
  snd (step (OpAdd ["file"] []) ghost) = Ok tt /\ length (arguments ghost_retried) = 2 /\
  snd (step (OpParse ["prog"; "a.txt"]) ghost_retried) = Ok tt /\
  (exists a, getArgument ghost_parsed "file" = Ok a /\ isExists a = false) /\
  (** while without the interruption the word is its value *)
  (exists a, getArgument (fst (step (OpParse ["prog"; "a.txt"]) (fst (step (OpAdd ["file"] []) init)))) "file" = Ok a /\ isExists a = true).
Proof.
  split; [out|]. split; [vm_compute; reflexivity|]. split; [vm_compute; reflexivity|]. split; [vm_compute; reflexivity|].
  split; [vm_compute; reflexivity|]. split; [vm_compute; reflexivity|]. split; [vm_compute; reflexivity|].
  split; eexists; (split; [vm_compute; reflexivity | vm_compute; reflexivity]).
Qed.

(** An option of which only one name was registered: the same call is accepted, and the
    two names then name two arguments, each of which lists both. *)
Definition torn : state := after (OpAdd ["--verbose"; "-v"] []) 4 init.
Definition torn_retried : state := fst (step (OpAdd ["--verbose"; "-v"] []) torn).
Theorem C79_retry_refuted :
  out_of_memory (OpAdd ["--verbose"; "-v"] []) init torn /\
  argumentExists torn "-v" = true /\ argumentExists torn "--verbose" = false /\
  snd (step (OpAdd ["--verbose"; "-v"] []) torn) = Ok tt /\
  exists a b, getArgument torn_retried "-v" = Ok a /\ getArgument torn_retried "--verbose" = Ok b /\
    a_id a <> a_id b /\ getNameOrFlags a = ["-v"; "--verbose"] /\ getNameOrFlags b = ["-v"; "--verbose"].
Proof.
  split; [out|]. split; [vm_compute; reflexivity|]. split; [vm_compute; reflexivity|]. split; [vm_compute; reflexivity|].
  do 2 eexists. split; [vm_compute; reflexivity|]. split; [vm_compute; reflexivity|].
  split; [vm_compute; discriminate | split; vm_compute; reflexivity].
Qed.

(** flag(): the argument lists a flag that is not registered, and lists it twice when the
    call is repeated *)
Definition verbose : state := history [OpAdd ["-v"] []].
Definition flag_torn : state := after (OpUpdate "-v" [MFlag "-x"]) 3 verbose.
Theorem C79_flag_refuted :
  out_of_memory (OpUpdate "-v" [MFlag "-x"]) verbose flag_torn /\
  argumentExists flag_torn "-x" = false /\ (exists a, getArgument flag_torn "-v" = Ok a /\ getNameOrFlags a = ["-v"; "-x"]) /\
  snd (step (OpUpdate "-v" [MFlag "-x"]) flag_torn) = Ok tt /\
  (exists a, getArgument (fst (step (OpUpdate "-v" [MFlag "-x"]) flag_torn)) "-v" = Ok a /\ getNameOrFlags a = ["-v"; "-x"; "-x"]).
Proof.
  split; [out|]. split; [vm_compute; reflexivity|]. split; [eexists; split; vm_compute; reflexivity|]. split; [vm_compute; reflexivity|].
  eexists; split; vm_compute; reflexivity.
Qed.

(** dest(): the validator that the object was to delete is never deleted *)
Definition checked : state := history [OpAdd ["-v"] [MValid (Some (Validator 5 (fun vs => VOk true vs))) true]].
Definition dest_torn : state := after (OpUpdate "-v" [MDest (Dest 0 DScalar false TyValue)]) 1 checked.
Theorem C79_validator_refuted :
  out_of_memory (OpUpdate "-v" [MDest (Dest 0 DScalar false TyValue)]) checked dest_torn /\
  destroyed checked = [5] /\ destroyed dest_torn = [].
Proof. split; [out|]. split; vm_compute; reflexivity. Qed.

(** clear() makes the object as new after any history *)
Theorem C79_clear : forall s, reach_mem s -> exists s', step OpClear s = (s', Ok tt) /\ visible s' = init.
Proof. intros s _. eexists. split; [reflexivity|]. reflexivity. Qed.

(** non-trivial cases: a call of seven allocations interrupted at each, and undone *)
Example C79_example :
  reach_mem ghost /\ reach_mem torn /\ reach_mem flag_torn /\
  (** the number of allocations *)
  (forall k, k < 5 -> snd (step_mem (OpAdd ["--verbose"; "-v"] []) k init) = NoMemory) /\
  snd (step_mem (OpAdd ["--verbose"; "-v"] []) 5 init) = Done 0 (Ok tt) /\
  (** with one name registered: undone *)
  step (OpRemove ["-v"]) torn = (init, Ok tt) /\
  (** removing, with too little memory *)
  out_of_memory (OpRemove ["-v"]) torn torn /\
  (** a parse that stops after the help option is listed *)
  (exists s', out_of_memory (OpParse ["prog"]) verbose s' /\ length (arguments s') = 2).
Proof.
  assert (I : reach_mem init) by constructor.
  assert (V : reach_mem verbose).
  { apply (rm_step init (OpAdd ["-v"] []) verbose (Ok tt) I); [vm_compute; reflexivity | exact Logic.I]. }
  split; [eapply rm_out; [exact I | exact (proj1 C79_undo_refuted)]|].
  split; [eapply rm_out; [exact I | exact (proj1 C79_retry_refuted)]|].
  split; [eapply rm_out; [exact V | exact (proj1 C79_flag_refuted)]|].
  split; [intros k L; do 5 (destruct k as [|k]; [vm_compute; reflexivity|]); exfalso; lia|].
  split; [vm_compute; reflexivity|]. split; [vm_compute; reflexivity|].
  split. { change torn with (after (OpRemove ["-v"]) 0 torn) at 2. out. }
  eexists. split.
  { eapply (out_parse ["prog"] 4 verbose verbose); [apply frame_refl | apply surjective_pairing | apply frame_refl]. }
  vm_compute. reflexivity.
Qed.

Print Assumptions C79_enough.
Print Assumptions C79_all_or_nothing.
Print Assumptions C79_never.
Print Assumptions C79_others.
Print Assumptions C79_parse.
Print Assumptions C79_consistent.
Print Assumptions C79_undo_partial.
Print Assumptions C79_undo_refuted.
Print Assumptions C79_retry_refuted.
Print Assumptions C79_flag_refuted.
Print Assumptions C79_validator_refuted.
Print Assumptions C79_clear.
