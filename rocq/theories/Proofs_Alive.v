(** Proofs_Alive.v -- defined behaviour after calls that ran out of memory: the help and
    version options stay alive, and no declaration call goes wrong. *)
From Coq Require Import Permutation Sorted.
From Verif Require Import Base Model_Utils Model_Number Model_Types Model_Argument Model_Usage Model_Args Model_Api Model_Memory
  Spec_Order Spec_Names Spec_Parse Spec_History Proofs_Base Proofs_Order Proofs_Frame Proofs_Inv Proofs_Table Proofs_Memory Proofs_Memory2.

(* ------------------------------------------------------------------ *)
(** * declaration methods *)
Section Steady.
  Variable id : nat.
  (** the argument is listed, and every argument has a name *)
  Definition steady (s : state) : Prop := In id (map a_id (s_args s)) /\ forallb has_name (s_args s) = true.
  Definition fine {A} (m : M A) : Prop := forall s, steady s -> snd (m s) <> UB /\ steady (fst (m s)).
  Lemma fine_ret : forall {A} (a : A), fine (ret a). Proof. intros A a s H. split; [discriminate | exact H]. Qed.
  Lemma fine_throw : forall {A} k x y, fine (@throw A k x y). Proof. intros A k x y s H. split; [discriminate | exact H]. Qed.
  Lemma fine_bind : forall {A B} (m : M A) (f : A -> M B), fine m -> (forall a, fine (f a)) -> fine (bind m f).
  Proof.
    intros A B m f Fm Ff s H. destruct (Fm s H) as [N H1]. unfold bind. destruct (m s) as [s1 [a|e|o| |]]; cbn [fst snd] in *; try (split; [discriminate | exact H1]).
    - exact (Ff a s1 H1).
    - contradiction.
  Qed.
  Lemma fine_get : forall {B} (f : state -> M B), (forall s, fine (f s)) -> fine (bind get f).
  Proof. intros B f H. apply fine_bind; [|exact H]. intros s Hs. split; [discriminate | exact Hs]. Qed.
  Lemma fine_deref : forall {B} (f : argument -> M B), (forall a, c_names (a_cfg a) <> [] -> fine (f a)) -> fine (bind (deref id) f).
  Proof.
    intros B f H s Hs. unfold bind. rewrite deref_eq. destruct (find_id id (s_args s)) as [a|] eqn:F.
    - apply (H a); [|exact Hs]. destruct Hs as [_ Hn]. rewrite forallb_forall in Hn. specialize (Hn a (proj1 (find_id_In _ _ _ F))). unfold has_name in Hn.
      intros E. rewrite E in Hn. discriminate Hn.
    - exfalso. apply find_id_none in F. exact (F (proj1 Hs)).
  Qed.
  Lemma fine_modify : forall f, (forall s, s_args (f s) = s_args s) -> fine (modify f).
  Proof. intros f E s H. split; [discriminate|]. unfold modify, steady in *. cbn [fst]. rewrite E. exact H. Qed.
  Lemma steady_tweak : forall f s, (forall a, In a (s_args s) -> a_id (f a) = a_id a /\ (has_name a = true -> has_name (f a) = true)) -> steady s -> steady (tweak id f s).
  Proof.
    intros f s F [H1 H2]. unfold tweak, steady. cbn [s_args with_args]. split.
    - apply in_map_iff in H1. destruct H1 as [a [E Ia]]. apply in_map_iff. exists (f a). split; [rewrite (proj1 (F a Ia)); exact E|].
      apply upd_id_In. exists a. split; [exact Ia|]. rewrite E, Nat.eqb_refl. reflexivity.
    - apply forallb_forall. intros b Ib. apply upd_id_In in Ib. destruct Ib as [a [Ia ->]]. rewrite forallb_forall in H2. specialize (H2 a Ia).
      destruct (Nat.eqb (a_id a) id); [exact (proj2 (F a Ia) H2) | exact H2].
  Qed.
  Lemma fine_set_cfg : forall f, (forall c, c_names c <> [] -> c_names (f c) <> []) -> fine (set_cfg id f).
  Proof.
    intros f F s H. split; [discriminate|]. apply (steady_tweak (fun a => arg_cfg a (f (a_cfg a)))); [|exact H].
    intros a _. split; [reflexivity|]. unfold has_name. cbn [a_cfg arg_cfg]. intros N. specialize (F (a_cfg a)). destruct (c_names (a_cfg a)); [discriminate N|].
    destruct (c_names (f (a_cfg a))); [exfalso; apply F; [discriminate | reflexivity] | reflexivity].
  Qed.
  Lemma fine_set_dyn : forall f, fine (set_dyn id f).
  Proof. intros f s H. split; [discriminate|]. apply (steady_tweak (fun a => arg_dyn a (f (a_dyn a)))); [|exact H]. intros a _. split; [reflexivity | auto]. Qed.
  Lemma fine_front : forall {B} l (f : str -> M B), l <> [] -> (forall x, fine (f x)) -> fine (bind (front l) f).
  Proof. intros B [|x l] f N F; [contradiction|]. apply fine_bind; [apply fine_ret | exact F]. Qed.
  Lemma fine_sort : fine sort_args.
  Proof.
    intros s [H1 H2]. unfold sort_args. rewrite H2. split; [discriminate|]. unfold steady. cbn [fst s_args with_args]. split.
    - eapply Permutation_in; [apply Permutation_map, sort_perm | exact H1].
    - apply forallb_forall. intros a Ia. rewrite forallb_forall in H2. apply H2. eapply Permutation_in; [symmetry; apply sort_perm | exact Ia].
  Qed.
  Ltac fi := repeat lazymatch goal with
    | |- fine (ret _) => apply fine_ret
    | |- fine (throw _ _ _) => apply fine_throw
    | |- fine sort_args => apply fine_sort
    | |- fine (set_dyn _ _) => apply fine_set_dyn
    | |- fine (set_cfg _ _) => first [solve [apply fine_set_cfg; intros; cbn; assumption] | fail 1]
    | |- fine (modify _) => first [solve [apply fine_modify; reflexivity] | fail 1]
    | |- fine (bind (front _) _) => apply fine_front; [assumption | intros ?]
    | |- fine (bind (deref _) _) => apply fine_deref; intros ? ?
    | |- fine (bind get _) => apply fine_get; intros ?
    | |- fine (bind _ _) => apply fine_bind; [|intros ?]
    | |- fine (match ?b with _ => _ end) => destruct b
    end.
  Lemma fine_typeConstructor : fine (typeConstructor id).
  Proof. unfold typeConstructor. apply fine_deref; intros ? ?. cbv zeta. fi. Qed.
  Lemma fine_defaultsConstructor : fine (defaultsConstructor id).
  Proof. unfold defaultsConstructor. apply fine_deref; intros ? ?. cbv zeta. fi. Qed.
  Lemma fine_run_meth : forall m, fine (run_meth id m).
  Proof.
    intros m. destruct m; cbn [run_meth].
    - unfold flag. fi. apply fine_set_cfg. intros c N E. assert (K : In f (sort_flags (c_names c ++ [f]))) by (apply sort_flags_In, in_or_app; right; now left).
      cbn [c_names cfg_names] in E. rewrite E in K. destruct K.
    - unfold action. fi; try apply fine_typeConstructor; apply fine_defaultsConstructor.
    - unfold required. fi.
    - unfold help. fi.
    - unfold metavar. fi.
    - unfold nargs. fi; [apply fine_typeConstructor | apply fine_defaultsConstructor].
    - unfold defaults. fi. apply fine_defaultsConstructor.
    - unfold valid, delete_valid. fi.
    - unfold dest_to. fi. intros s Hs. split; [discriminate|].
      apply (steady_tweak (fun a => Arg (a_id a) (Datatypes.S (a_gen a)) (cfg_dest (cfg_defaults (a_cfg a) []) (Some d)) (a_dyn a))); [|exact Hs].
      intros b _. split; [reflexivity | auto].
  Qed.
  Lemma fine_run_meths : forall ms, fine (run_meths id ms).
  Proof. induction ms as [|m ms IH]; cbn [run_meths]; [apply fine_ret|]. apply fine_bind; [apply fine_run_meth | intros _; exact IH]. Qed.
End Steady.

(** addArgument in the main model, on a sound table *)
Lemma addArgument_table : forall ns s, table s ->
  (exists e, addArgument ns s = (s, Throw e)) \/
  (exists c, cfg_wanted ns c /\ sane_names c /\ addArgument ns s = (registered s c, Ok (fresh_id s))).
Proof.
  intros ns s T. destruct (refines_addArgument ns s) as [k0 [_ R]]. specialize (R 0).
  destruct (addArgument ns s) as [s' r] eqn:E. cbn [fst snd] in R.
  destruct (addArgument_mem_cases ns (k0 + 0) s T) as [D|[[k' [e D]]|[c [Wc [Sn [_ [[i [_ D]]|[k' D]]]]]]]]; rewrite D in R.
  - discriminate R.
  - left. exists e. injection R as <- _ <-. reflexivity.
  - discriminate R.
  - right. exists c. split; [exact Wc|]. split; [exact Sn|]. injection R as <- _ <-. reflexivity.
Qed.
(** removing names *)
Lemma remove_one_fine : forall n s, table s -> argumentExists s n = true ->
  snd (remove_one n s) = Ok tt /\ (forall m, m <> n -> argumentExists (fst (remove_one n s)) m = argumentExists s m).
Proof.
  intros n s T X. unfold argumentExists, mem_key in X. destruct (assoc n (s_map s)) as [id|] eqn:A; [|discriminate X].
  destruct (t_entry s T n id (assoc_In _ _ _ A)) as [a [Ia [Ea Na]]].
  assert (F : find_id id (s_args s) = Some a) by (rewrite <- Ea; apply In_find_id; [apply (t_ids s T) | exact Ia]).
  assert (MS : mem_str n (c_names (a_cfg a)) = true) by (now apply mem_str_In).
  assert (D : exists s', remove_one n s = (s', Ok tt) /\ s_map s' = del_key n (s_map s)).
  { unfold remove_one. unfold bind at 1, find_name. rewrite A. unfold bind at 1. rewrite deref_eq, F, MS. cbn [negb].
    unfold bind, set_cfg, modify, get, delete_valid, modify. cbv beta iota zeta.
    match goal with |- context [existsb ?f ?l] => destruct (existsb f l) end; [eexists; split; reflexivity|].
    repeat match goal with |- context [if ?b then _ else _] => destruct b end; eexists; split; reflexivity. }
  destruct D as [s' [-> M]]. cbn [fst snd]. split; [reflexivity|]. intros m N. unfold argumentExists, mem_key. rewrite M, assoc_del.
  destruct (String.eqb_spec m n); [contradiction | reflexivity].
Qed.
Lemma remove_loop_fine : forall l s, table s -> NoDup l -> (forall n, In n l -> argumentExists s n = true) -> snd (remove_loop l s) = Ok tt.
Proof.
  induction l as [|n l IH]; intros s T ND H; cbn [remove_loop]; [reflexivity|]. inversion ND as [|? ? NI ND']; subst.
  destruct (remove_one_fine n s T (H n (or_introl eq_refl))) as [E1 E2]. pose proof (table_remove_one n s T) as T1. unfold bind.
  destruct (remove_one n s) as [s1 r]. cbn [fst snd] in *. subst r. apply IH; [exact T1 | exact ND'|].
  intros m Im. rewrite E2; [apply H; now right | intros ->; contradiction].
Qed.
Lemma pres_remove_loop : forall l, pres table (remove_loop l).
Proof. induction l as [|n l IH]; cbn [remove_loop]; [intros s T; exact T|]. apply pres_bind; [apply table_remove_one | intros _; exact IH]. Qed.
Lemma removeArguments_fine : forall l s, table s -> NoDup l -> snd (removeArguments l s) <> UB.
Proof.
  intros l s T ND. destruct l as [|n l]; [discriminate|]. unfold removeArguments. unfold bind at 1, get.
  destruct (find _ (n :: l)) as [m|] eqn:F; [discriminate|].
  assert (H : forall m, In m (n :: l) -> argumentExists s m = true).
  { intros m Im. pose proof (find_none _ _ F m Im) as K. now apply negb_false_iff in K. }
  pose proof (remove_loop_fine (n :: l) s T ND H) as E. pose proof (pres_remove_loop (n :: l) s T) as T1. unfold bind.
  destruct (remove_loop (n :: l) s) as [s1 r]. cbn [fst snd] in *. subst r. rewrite (table_sort_args s1 T1). discriminate.
Qed.

(* ------------------------------------------------------------------ *)
(** * the help and version options *)
Definition roled (p : option (nat * nat)) (act : eAction) (l : list argument) : Prop :=
  match p with None => True | Some q => exists a, In a l /\ ptr_of a = q /\ c_action (a_cfg a) = act end.
Record good (s : state) : Prop := Good {
  g_ids : NoDup (map a_id (s_args s));
  g_help : roled (s_help s) HELP (s_args s);
  g_version : roled (s_version s) VERSION (s_args s)
}.
(** the same arguments, as far as this matters *)
Definition mark (a : argument) := (a_id a, a_gen a, c_action (a_cfg a)).
Definition rs (s s' : state) : Prop := s_help s' = s_help s /\ s_version s' = s_version s /\ Permutation (map mark (s_args s)) (map mark (s_args s')).
Lemma rs_refl : forall s, rs s s. Proof. intros s. repeat split. apply Permutation_refl. Qed.
Lemma rs_trans : forall a b c, rs a b -> rs b c -> rs a c.
Proof. intros a b c [A1 [A2 A3]] [B1 [B2 B3]]. split; [congruence|]. split; [congruence|]. eapply Permutation_trans; eassumption. Qed.
Lemma rs_tweak : forall id f s, (forall a, mark (f a) = mark a) -> rs s (tweak id f s).
Proof.
  intros id f s H. split; [reflexivity|]. split; [reflexivity|]. unfold tweak, upd_id. cbn [s_args with_args]. rewrite map_map.
  match goal with |- Permutation ?x ?y => replace y with x; [apply Permutation_refl|] end.
  apply map_ext. intros a. destruct (Nat.eqb (a_id a) id); [symmetry; apply H | reflexivity].
Qed.
Lemma roled_marks : forall p act l l', Permutation (map mark l) (map mark l') -> roled p act l -> roled p act l'.
Proof.
  intros [q|] act l l' P H; [|exact I]. destruct H as [a [Ia [Ea Ca]]]. pose proof (Permutation_in _ P (in_map mark _ _ Ia)) as K.
  apply in_map_iff in K. destruct K as [b [Eb Ib]]. unfold mark in Eb. injection Eb as E1 E2 E3. exists b. split; [exact Ib|].
  unfold ptr_of in *. split; congruence.
Qed.
Lemma good_rs : forall s s', good s -> rs s s' -> good s'.
Proof.
  intros s s' [G1 G2 G3] [E1 [E2 P]]. constructor.
  - assert (M : forall l, map a_id l = map (fun m => fst (fst m)) (map mark l)) by (intros l; rewrite map_map; reflexivity).
    rewrite M in G1 |- *. eapply Permutation_NoDup; [apply Permutation_map, P | exact G1].
  - rewrite E1. eapply roled_marks; eassumption.
  - rewrite E2. eapply roled_marks; eassumption.
Qed.
Lemma good_frame : forall s s', good s -> frame s s' -> good s'.
Proof.
  intros s s' G F. eapply good_rs; [exact G|]. split; [apply (fr_help _ _ F)|]. split; [apply (fr_version _ _ F)|].
  assert (M : forall l, map mark l = map (fun t : nat * nat * acfg => (fst (fst t), snd (fst t), c_action (snd t))) (map static l)) by (intros l; rewrite map_map; reflexivity).
  rewrite !M, (fr_args _ _ F). apply Permutation_refl.
Qed.
(** an argument that is pointed to has the action *)
Lemma pointed : forall p act l a, NoDup (map a_id l) -> roled p act l -> In a l -> p = Some (ptr_of a) -> c_action (a_cfg a) = act.
Proof.
  intros p act l a ND R Ia ->. destruct R as [b [Ib [Eb Cb]]]. unfold ptr_of in Eb. injection Eb as E1 E2.
  assert (b = a) as <-; [|exact Cb]. pose proof (In_find_id _ _ ND Ib) as F. pose proof (In_find_id _ _ ND Ia) as F2. rewrite E1 in F. congruence.
Qed.
Lemma roled_tweak : forall p act id f s, roled p act (s_args s) ->
  (forall a, In a (s_args s) -> a_id a = id -> p = Some (ptr_of a) -> mark (f a) = mark a) -> roled p act (s_args (tweak id f s)).
Proof.
  intros [q|] act id f s R H; [|exact I]. destruct R as [a [Ia [Ea Ca]]]. unfold tweak. cbn [s_args with_args].
  exists (if Nat.eqb (a_id a) id then f a else a). split; [apply upd_id_In; exists a; split; [exact Ia | reflexivity]|].
  destruct (Nat.eqb_spec (a_id a) id) as [E|E]; [|auto]. assert (M : mark (f a) = mark a) by (apply H; congruence).
  unfold mark in M. injection M as M1 M2 M3. unfold ptr_of in *. split; congruence.
Qed.
Lemma good_tweak : forall id f s, good s -> (forall a, In a (s_args s) -> a_id a = id -> a_id (f a) = a_id a) ->
  (forall a, In a (s_args s) -> a_id a = id -> s_help s = Some (ptr_of a) \/ s_version s = Some (ptr_of a) -> mark (f a) = mark a) ->
  good (tweak id f s).
Proof.
  intros id f s [G1 G2 G3] I H. constructor.
  - unfold tweak. cbn [s_args with_args]. unfold upd_id. rewrite map_map. erewrite map_ext_in; [exact G1|]. intros a Ia.
    destruct (Nat.eqb_spec (a_id a) id); [apply I; assumption | reflexivity].
  - change (s_help (tweak id f s)) with (s_help s). apply roled_tweak; [exact G2|]. intros a Ia E P. apply H; auto.
  - change (s_version (tweak id f s)) with (s_version s). apply roled_tweak; [exact G3|]. intros a Ia E P. apply H; auto.
Qed.
(** an argument with another action is not pointed to *)
Lemma good_tweak_free : forall id f s, good s -> (forall a, In a (s_args s) -> a_id a = id -> a_id (f a) = a_id a) ->
  (forall a, In a (s_args s) -> a_id a = id -> c_action (a_cfg a) <> HELP /\ c_action (a_cfg a) <> VERSION) -> good (tweak id f s).
Proof.
  intros id f s G I H. apply good_tweak; [exact G | exact I|]. intros a Ia E [P|P]; exfalso; destruct (H a Ia E) as [N1 N2].
  - exact (N1 (pointed _ _ _ a (g_ids s G) (g_help s G) Ia P)).
  - exact (N2 (pointed _ _ _ a (g_ids s G) (g_version s G) Ia P)).
Qed.

Lemma rs_same : forall f, (forall s, s_args (f s) = s_args s /\ s_help (f s) = s_help s /\ s_version (f s) = s_version s) -> keeps rs (modify f).
Proof. intros f H s. unfold modify. cbn [fst]. destruct (H s) as [E1 [E2 E3]]. split; [exact E2|]. split; [exact E3|]. rewrite E1. apply Permutation_refl. Qed.
Lemma rs_set_cfg : forall id f, (forall c, c_action (f c) = c_action c) -> keeps rs (set_cfg id f).
Proof. intros id f H s. apply (rs_tweak id (fun a => arg_cfg a (f (a_cfg a)))). intros a. unfold mark. cbn [a_id a_gen a_cfg arg_cfg]. now rewrite H. Qed.
Lemma rs_set_dyn : forall id f, keeps rs (set_dyn id f).
Proof. intros id f s. apply (rs_tweak id (fun a => arg_dyn a (f (a_dyn a)))). reflexivity. Qed.
Lemma rs_sort : keeps rs sort_args.
Proof.
  intros s. unfold sort_args. destruct (forallb _ _); [|apply rs_refl]. split; [reflexivity|]. split; [reflexivity|]. apply Permutation_map, sort_perm.
Qed.
Ltac kr1 := first
  [ apply keeps_ret; exact rs_refl | apply keeps_throw; exact rs_refl | apply keeps_ub; exact rs_refl
  | apply keeps_get; exact rs_refl | apply keeps_find_name; exact rs_refl
  | apply keeps_front; exact rs_refl | apply keeps_deref; exact rs_refl
  | apply keeps_pure; exact rs_refl | apply rs_set_dyn | apply rs_set_cfg; solve [reflexivity] | apply rs_sort
  | apply rs_same; solve [intros; repeat split] ].
Ltac kr := repeat first [ kr1 | apply keeps_bind; [exact rs_trans | | intros ?]
  | match goal with |- keeps _ (if ?b then _ else _) => destruct b end
  | match goal with |- keeps _ (match ?b with Some _ => _ | None => _ end) => destruct b end ].
Ltac kra := repeat first
  [ apply (keepsA_plain rs); solve [kr]
  | apply (keepsA_alloc rs rs_refl)
  | apply (keepsA_bind rs rs_trans); [|intros ?] ].
Lemma rsA_grow : forall id t, keepsA rs (grow_default id t). Proof. intros. unfold grow_default. kra. Qed.
Lemma rsA_push : forall id t, keepsA rs (push_elem id t). Proof. intros. unfold push_elem, push_elems. kra. Qed.
Lemma rsA_sep : forall id (b : bool), keepsA rs (if b then plain (ret tt) else grow_default id ", ").
Proof. intros id [|]; [kra | apply rsA_grow]. Qed.
Lemma rsA_defaults_loop : forall id ds b, keepsA rs (defaults_loop id b ds).
Proof.
  intros id. induction ds as [|d r IH]; intros b; cbn [defaults_loop]; [kra|].
  do 3 (apply (keepsA_bind rs rs_trans); [first [apply rsA_sep | apply rsA_grow | apply rsA_push] | intros _]). apply IH.
Qed.
Lemma rsA_group_loop : forall id ds b, keepsA rs (group_defaults_loop id b ds).
Proof.
  intros id. induction ds as [|d r IH]; intros b; cbn [group_defaults_loop]; [kra|].
  do 3 (apply (keepsA_bind rs rs_trans); [first [apply rsA_sep | apply rsA_grow | apply (keepsA_alloc rs rs_refl)] | intros _]). apply IH.
Qed.
Lemma rsA_groups_loop : forall id gs b, keepsA rs (groups_loop id b gs).
Proof.
  intros id. induction gs as [|d r IH]; intros b; cbn [groups_loop]; [kra|].
  do 5 (apply (keepsA_bind rs rs_trans); [first [apply rsA_sep | apply rsA_grow | apply rsA_push | apply rsA_group_loop] | intros _]). apply IH.
Qed.
Lemma rsA_defaultsConstructor : forall id, keepsA rs (defaultsConstructor_mem id).
Proof.
  intros id. unfold defaultsConstructor_mem. apply (keepsA_bind rs rs_trans); [kra|]. intros a. cbv zeta.
  destruct (_ && _)%bool; [|kra]. apply (keepsA_bind rs rs_trans); [kra|]. intros _.
  assert (F : keepsA rs (plain (do f <- front (c_names (a_cfg a)) ;; @throw unit KArgument f msg_defaults))) by kra.
  assert (L : forall ds, keepsA rs (plain (set_cfg id (fun c => cfg_default c "")) >>; defaults_loop id true ds)).
  { intros ds. apply (keepsA_bind rs rs_trans); [kra|]. intros _. apply rsA_defaults_loop. }
  destruct (c_type (a_cfg a)); try (destruct (negb _)); try exact F; try apply L; try apply rsA_groups_loop; kra.
Qed.
Lemma rsA_assign : forall id old rest done, keepsA rs (assign_loop id done rest old).
Proof.
  intros id. induction old as [|o old IH]; intros [|x rest] done; cbn [assign_loop]; try solve [kra].
  do 2 (apply (keepsA_bind rs rs_trans); [kra|]; intros _). apply IH.
Qed.
Lemma rsA_defaults : forall id v, keepsA rs (defaults_mem id v).
Proof.
  intros. unfold defaults_mem. do 2 (apply (keepsA_bind rs rs_trans); [kra|]; intros ?).
  apply (keepsA_bind rs rs_trans); [apply rsA_assign|]. intros _. apply rsA_defaultsConstructor.
Qed.
Lemma rsA_flag : forall id f, keepsA rs (flag_mem id f).
Proof.
  intros. unfold flag_mem. apply (keepsA_bind rs rs_trans); [kra|]. intros a. destruct (is_positional _); [kra|].
  destruct (validFormatFlag f); [kra|]. do 2 (apply (keepsA_bind rs rs_trans); [kra|]; intros ?). destruct (mem_key _ _); kra.
Qed.
Lemma good_keepsA : forall {A} (m : AM A), keepsA rs m -> presA good m.
Proof. intros A m H k s G. eapply good_rs; [exact G | apply H]. Qed.
Lemma good_keeps : forall {A} (m : M A), keeps rs m -> pres good m.
Proof. intros A m H s G. eapply good_rs; [exact G | apply H]. Qed.

(** typeConstructor_ *)
Lemma action_eqb_eq : forall x y, action_eqb x y = true -> x = y.
Proof. intros [] []; cbn; intros H; try discriminate H; reflexivity. Qed.
Lemma good_become : forall id s a c', good s -> find_id id (s_args s) = Some a ->
  c_action c' = c_action (a_cfg a) \/ (c_action (a_cfg a) <> HELP /\ c_action (a_cfg a) <> VERSION) ->
  good (fst (set_cfg id (fun _ => c') s)).
Proof.
  intros id s a c' G F H. assert (U : forall b, In b (s_args s) -> a_id b = id -> b = a) by (intros b Ib Eb; eapply find_id_unique; [exact F | apply G | exact Ib | exact Eb]).
  change (good (tweak id (fun x => arg_cfg x c') s)). destruct H as [H|H].
  - apply good_tweak; [exact G | reflexivity|]. intros b Ib Eb _. rewrite (U b Ib Eb). unfold mark. cbn [a_id a_gen a_cfg arg_cfg]. now rewrite H.
  - apply good_tweak_free; [exact G | reflexivity|]. intros b Ib Eb. now rewrite (U b Ib Eb).
Qed.
Lemma good_throw_front : forall {A} l k m s, good s -> good (fst ((do f <- front l ;; @throw A k f m) s)).
Proof. intros A [|x l] k m s G; exact G. Qed.
Lemma good_typeConstructor : forall id, pres good (typeConstructor id).
Proof.
  intros id s G. unfold typeConstructor. unfold bind at 1. rewrite deref_eq. destruct (find_id id (s_args s)) as [a|] eqn:F; [|exact G]. cbv zeta.
  pose proof (find_id_In _ _ _ F) as [Ia Ea].
  assert (B : forall c', c_action c' = c_action (a_cfg a) \/ (c_action (a_cfg a) <> HELP /\ c_action (a_cfg a) <> VERSION) -> good (fst (set_cfg id (fun _ => c') s)))
    by (intros; eapply good_become; eassumption).
  assert (FR : forall act, action_eqb (c_action (a_cfg a)) act = true -> act <> HELP -> act <> VERSION -> c_action (a_cfg a) <> HELP /\ c_action (a_cfg a) <> VERSION).
  { intros act E. rewrite (action_eqb_eq _ _ E). auto. }
  destruct (is_positional _).
  { match goal with |- good (fst ((if ?b then _ else _) s)) => destruct b end; [apply B; left; reflexivity|].
    match goal with |- good (fst ((if ?b then _ else _) s)) => destruct b eqn:O end.
    - apply B. right. apply orb_true_iff in O. destruct O as [O|O]; apply andb_true_iff in O; destruct O as [_ O]; eapply FR; try exact O; discriminate.
    - do 2 (match goal with |- good (fst ((if ?b then _ else _) s)) => destruct b end; [apply B; left; reflexivity|]). now apply good_throw_front. }
  match goal with |- good (fst ((if ?b then _ else _) s)) => destruct b end; [apply B; left; reflexivity|]. destruct (action_eqb _ STORE_FALSE); [apply B; left; reflexivity|].
  assert (W : forall s1, s_args s1 = s_args s -> s_help s1 = s_help s \/ (s_help s1 = Some (ptr_of a) /\ c_action (a_cfg a) = HELP) ->
     s_version s1 = s_version s \/ (s_version s1 = Some (ptr_of a) /\ c_action (a_cfg a) = VERSION) -> good s1).
  { intros s1 E1 E2 E3. destruct G as [G1 G2 G3]. constructor; rewrite E1; [exact G1| |].
    - destruct E2 as [->|[-> C]]; [exact G2 | exists a; auto].
    - destruct E3 as [->|[-> C]]; [exact G3 | exists a; auto]. }
  destruct (action_eqb _ HELP) eqn:EH.
  { apply action_eqb_eq in EH. unfold bind at 1, get. set (s1 := match s_help s with None => with_help s (Some (ptr_of a)) | Some _ => s end).
    assert (G1 : good s1). { apply W; unfold s1; destruct (s_help s) eqn:EP; cbn; rewrite ?EP; try reflexivity; try (left; reflexivity); right; split; [reflexivity | assumption]. }
    assert (A1 : s_args s1 = s_args s) by (unfold s1; destruct (s_help s); reflexivity).
    match goal with |- good (fst (bind ?m ?f s)) => assert (E : m s = (s1, Ok tt)) by (unfold s1; destruct (s_help s); reflexivity) end.
    rewrite (bind_ok _ _ _ _ _ E). unfold bind at 1, get. destruct (optr_eqb _ _); [|now apply good_throw_front].
    eapply good_become; [exact G1 | rewrite A1; exact F | left; reflexivity]. }
  destruct (action_eqb _ VERSION) eqn:EV.
  { apply action_eqb_eq in EV. unfold bind at 1, get. set (s1 := match s_version s with None => with_version s (Some (ptr_of a)) | Some _ => s end).
    assert (G1 : good s1). { apply W; unfold s1; destruct (s_version s) eqn:EP; cbn; rewrite ?EP; try reflexivity; try (left; reflexivity); right; split; [reflexivity | assumption]. }
    assert (A1 : s_args s1 = s_args s) by (unfold s1; destruct (s_version s); reflexivity).
    match goal with |- good (fst (bind ?m ?f s)) => assert (E : m s = (s1, Ok tt)) by (unfold s1; destruct (s_version s); reflexivity) end.
    rewrite (bind_ok _ _ _ _ _ E). unfold bind at 1, get. destruct (optr_eqb _ _); [|now apply good_throw_front].
    eapply good_become; [exact G1 | rewrite A1; exact F | left; reflexivity]. }
  assert (FREE : c_action (a_cfg a) <> HELP /\ c_action (a_cfg a) <> VERSION) by (split; intros E; rewrite E in *; discriminate).
  repeat match goal with |- good (fst ((if ?b then _ else _) s)) => destruct b; [apply B; right; exact FREE|] end.
  first [now apply good_throw_front | exact G].
Qed.
Lemma good_unset : forall s b c, good s -> good (with_version (with_help s (if b : bool then None else s_help s)) (if c : bool then None else s_version s)).
Proof. intros s b c [G1 G2 G3]. constructor; cbn [s_args s_help s_version with_help with_version]; [exact G1 | destruct b; [exact I | exact G2] | destruct c; [exact I | exact G3]]. Qed.
Lemma good_action : forall id x, presA good (action_mem id x).
Proof.
  intros id x k s G. unfold action_mem. unfold bindA at 1, plain at 1. rewrite deref_eq. destruct (find_id id (s_args s)) as [a|] eqn:F; [|exact G]. cbv iota beta zeta.
  pose proof (find_id_In _ _ _ F) as [Ia Ea].
  set (s1 := with_version (with_help s (if action_eqb (c_action (a_cfg a)) HELP then None else s_help s)) (if action_eqb (c_action (a_cfg a)) VERSION then None else s_version s)).
  assert (G1 : good s1) by (apply good_unset, G).
  assert (G2 : good (tweak id (fun b => arg_cfg b (cfg_action (a_cfg b) x)) s1)).
  { apply good_tweak; [exact G1 | reflexivity|]. intros b Ib Eb P. exfalso.
    assert (b = a) as ->. { eapply find_id_unique; [exact F | apply G | exact Ib | exact Eb]. }
    unfold s1 in P. cbn [s_help s_version with_help with_version] in P. destruct P as [P|P].
    - destruct (action_eqb (c_action (a_cfg a)) HELP) eqn:E; [discriminate P|].
      rewrite (pointed _ _ _ a (g_ids s G) (g_help s G) Ia P) in E. discriminate E.
    - destruct (action_eqb (c_action (a_cfg a)) VERSION) eqn:E; [discriminate P|].
      rewrite (pointed _ _ _ a (g_ids s G) (g_version s G) Ia P) in E. discriminate E. }
  assert (R : forall k s, good s -> good (fst ((plain (typeConstructor id) >>; defaultsConstructor_mem id) k s))).
  { apply presA_bind; [apply presA_plain, good_typeConstructor | intros _; apply good_keepsA, rsA_defaultsConstructor]. }
  unfold s1 in G2. unfold bindA at 1, plain at 1. destruct (action_eqb (c_action (a_cfg a)) HELP); cbv iota beta zeta delta [modify ret];
  unfold bindA at 1, plain at 1; destruct (action_eqb (c_action (a_cfg a)) VERSION); cbv iota beta zeta delta [modify ret];
  unfold bindA at 1, plain at 1, set_cfg, modify; cbv iota beta zeta; apply R; destruct s; exact G2.
Qed.
Lemma good_nargs : forall id x, presA good (nargs_mem id x).
Proof.
  intros. unfold nargs_mem. do 2 (apply presA_bind; [apply good_keepsA; kra|]; intros _).
  apply presA_bind; [apply presA_plain, good_typeConstructor | intros _; apply good_keepsA, rsA_defaultsConstructor].
Qed.
Lemma good_dest : forall id d k s, good s -> (forall a, In a (s_args s) -> a_id a = id -> c_action (a_cfg a) <> HELP /\ c_action (a_cfg a) <> VERSION) ->
  good (fst (dest_to_mem id d k s)).
Proof.
  intros id d k s G H. unfold dest_to_mem. unfold bindA at 1, plain at 1. rewrite deref_eq. destruct (find_id id (s_args s)) as [a|] eqn:F; [|exact G]. cbv iota beta zeta.
  set (Q := fun t => good t /\ forall a, In a (s_args t) -> a_id a = id -> c_action (a_cfg a) <> HELP /\ c_action (a_cfg a) <> VERSION).
  assert (QS : forall f, (forall c, c_action (f c) = c_action c) -> presA Q (plain (set_cfg id f))).
  { intros f Hf. apply presA_plain. intros t [Gt Ht]. split; [apply (good_keeps _ (rs_set_cfg id f Hf)), Gt|].
    intros b Ib Eb. unfold set_cfg, modify in Ib. cbn [fst s_args with_args] in Ib. apply upd_id_In in Ib. destruct Ib as [b0 [Ib0 ->]].
    destruct (Nat.eqb (a_id b0) id) eqn:E; [|apply Ht; assumption]. cbn [a_cfg arg_cfg]. rewrite Hf. apply Ht; [exact Ib0 | now apply Nat.eqb_eq]. }
  assert (QD : presA Q (plain (dest_to id d))).
  { apply presA_plain. intros t [Gt Ht]. unfold dest_to, bind. rewrite deref_eq. destruct (find_id id (s_args t)); [|split; assumption]. cbv iota beta zeta delta [modify fst]. split.
    - apply (good_tweak_free id (fun a => Arg (a_id a) (Datatypes.S (a_gen a)) (cfg_dest (cfg_defaults (a_cfg a) []) (Some d)) (a_dyn a))); [exact Gt | reflexivity | exact Ht].
    - intros b Ib Eb. cbn [s_args with_args] in Ib. apply upd_id_In in Ib. destruct Ib as [b0 [Ib0 ->]].
      destruct (Nat.eqb (a_id b0) id) eqn:E; [|apply Ht; assumption]. cbn [a_cfg c_action cfg_dest cfg_defaults]. apply Ht; [exact Ib0 | now apply Nat.eqb_eq]. }
  refine (proj1 ((_ : presA Q _) k s (conj G H))). apply presA_bind; [apply QS; reflexivity|]. intros _. apply presA_bind; [apply presA_alloc|]. intros _.
  apply presA_bind; [apply QS; reflexivity|]. intros _. exact QD.
Qed.
Lemma good_run_meth : forall id m k s, good s -> (forall a, In a (s_args s) -> a_id a = id -> p_meth no_dest_on_help m a s) -> good (fst (run_meth_mem id m k s)).
Proof.
  intros id m k s G H. destruct m; cbn [run_meth_mem].
  - apply (good_keepsA _ (rsA_flag id f)), G.
  - apply good_action, G.
  - apply good_keepsA; [|exact G]. unfold required. kra.
  - apply good_keepsA; [|exact G]. unfold help. kra.
  - apply good_keepsA; [|exact G]. unfold metavar. kra.
  - apply good_nargs, G.
  - apply (good_keepsA _ (rsA_defaults id v)), G.
  - apply good_keepsA; [|exact G]. unfold valid, delete_valid. kra.
  - apply good_dest; [exact G | exact H].
Qed.
Lemma refines_done : forall {A} (m : AM A) (m' : M A) s k s1 k1 r, refines_at m m' s -> m k s = (s1, Done k1 r) -> m' s = (s1, r).
Proof.
  intros A m m' s k s1 k1 r [c [R1 R2]] E. destruct (Nat.lt_ge_cases k c) as [L|L].
  - specialize (R1 k L). rewrite E in R1. discriminate R1.
  - replace k with (c + (k - c)) in E by lia. rewrite R2 in E. destruct (m' s) as [t x]. cbn [fst snd] in E. injection E as -> _ ->. reflexivity.
Qed.
Lemma good_run_meths : forall ms id k s, table s -> good s -> chain_ok no_dest_on_help id ms s -> good (fst (run_meths_mem id ms k s)).
Proof.
  induction ms as [|m ms IH]; intros id k s T G C; cbn [run_meths_mem]; [exact G|]. destruct C as [C1 C2].
  pose proof (good_run_meth id m k s G C1) as G1. pose proof (table_run_meth id m k s T) as T1. unfold bindA.
  destruct (run_meth_mem id m k s) as [s1 [k1 [u|e|o| |]|]] eqn:E; cbn [fst] in *; try exact G1.
  apply IH; [exact T1 | exact G1|]. apply C2. destruct u. exact (refines_done _ _ _ _ _ _ _ (refines_run_meth id m s T) E).
Qed.
Lemma good_more : forall s s' a, good s -> s_help s' = s_help s -> s_version s' = s_version s -> NoDup (map a_id (s_args s')) ->
  Permutation (s_args s ++ [a]) (s_args s') -> good s'.
Proof.
  intros s s' a [G1 G2 G3] E1 E2 ND P.
  assert (Q : forall p act, roled p act (s_args s) -> roled p act (s_args s')).
  { intros [q|] act R; [|exact I]. destruct R as [b [Ib K]]. exists b. split; [|exact K]. eapply Permutation_in; [exact P|]. apply in_or_app. now left. }
  constructor; [exact ND | rewrite E1; apply Q, G2 | rewrite E2; apply Q, G3].
Qed.
Lemma good_addArgument : forall ns k s, table s -> good s -> good (fst (addArgument_mem ns k s)).
Proof.
  intros ns k s T G. destruct (addArgument_mem_cases ns k s T) as [->|[[k' [e ->]]|[c [_ [N [_ [[i [_ ->]]|[k' ->]]]]]]]]; try exact G; cbn [fst].
  - eapply (good_more s); [exact G | reflexivity | reflexivity | apply (t_ids _ (table_half s c i T N)) | apply Permutation_refl].
  - eapply (good_more s); [exact G | reflexivity | reflexivity | apply (t_ids _ (table_registered s c T N)) | apply sort_perm].
Qed.
Lemma good_help_setup : forall k s, table s -> good s -> good (fst (help_setup_mem k s)).
Proof.
  intros k s T G. unfold help_setup_mem. unfold bindA at 1, plain at 1, get. destruct (s_help s) as [p|]; [exact G|].
  unfold bindA at 1, alloc. destruct k as [|k]; [exact G|]. cbv zeta. destruct (_ && _)%bool; [exact G|].
  match goal with |- context [addArgument_mem ?l] => pose proof (good_addArgument l k s T G) as G1 end.
  unfold bindA at 1. match goal with |- context [addArgument_mem ?l k s] => destruct (addArgument_mem l k s) as [s1 [k1 [id|e|o| |]|]] end; cbn [fst] in *; try exact G1.
  refine ((_ : presA good _) k1 s1 G1). apply presA_bind; [apply good_action|]. intros _. apply presA_bind; [|intros _; apply good_keepsA; kra].
  apply good_keepsA. unfold help. kra.
Qed.
(** removal *)
Lemma good_remove_one : forall n s, table s -> good s -> good (fst (remove_one n s)).
Proof.
  intros n s T G. unfold remove_one. unfold bind at 1, find_name. destruct (assoc n (s_map s)) as [id|]; [|exact G].
  unfold bind at 1. rewrite deref_eq. destruct (find_id id (s_args s)) as [a|] eqn:F; [|exact G]. destruct (negb _); [exact G|].
  pose proof (find_id_In _ _ _ F) as [Ia Ea].
  set (g := fun b => arg_cfg b (cfg_names (a_cfg b) (remove_first n (c_names (a_cfg b))))).
  set (s1 := with_map (tweak id g s) (del_key n (s_map s))).
  assert (G1 : good s1).
  { eapply (good_rs (tweak id g s)); [eapply good_rs; [exact G | apply rs_tweak; reflexivity] | split; [reflexivity|]; split; [reflexivity | apply Permutation_refl]]. }
  unfold bind at 1, set_cfg at 1, modify at 1. cbv beta iota zeta. unfold bind at 1, modify at 1. cbv beta iota zeta. unfold bind at 1, get. cbv beta iota zeta.
  change (with_map (with_args s (upd_id id (fun b => arg_cfg b (cfg_names (a_cfg b) (remove_first n (c_names (a_cfg b))))) (s_args s)))
            (del_key n (s_map (with_args s (upd_id id (fun b => arg_cfg b (cfg_names (a_cfg b) (remove_first n (c_names (a_cfg b))))) (s_args s)))))) with s1.
  destruct (existsb _ _); [apply (good_keeps _ (rs_set_cfg id (fun c => cfg_names c (sort_flags (c_names c))) (fun c => eq_refl))), G1|].
  set (l := filter (fun b => negb (Nat.eqb (a_id b) id)) (s_args s1)).
  assert (PA : forall p act, roled p act (s_args s1) -> p <> Some (ptr_of a) -> roled p act l).
  { intros [q|] act R NP; [|exact I]. destruct R as [b [Ib [Eb Cb]]]. exists b. split; [|auto]. apply filter_In. split; [exact Ib|].
    apply negb_true_iff, Nat.eqb_neq. intros E. apply NP. f_equal. rewrite <- Eb.
    unfold s1, tweak in Ib. cbn [s_args with_map with_args] in Ib. apply upd_id_In in Ib. destruct Ib as [b0 [Ib0 E0]].
    assert (I0 : a_id b0 = id) by (subst b; destruct (Nat.eqb (a_id b0) id) eqn:Q; [now apply Nat.eqb_eq | exact E]).
    assert (b0 = a) by (eapply find_id_unique; [exact F | apply G | exact Ib0 | exact I0]). subst b0. rewrite I0, Nat.eqb_refl in E0. subst b. reflexivity. }
  assert (NDl : NoDup (map a_id l)).
  { pose proof (g_ids _ G1) as ND. unfold l. clear -ND. induction (s_args s1) as [|x xs IH]; cbn [filter map] in *; [constructor|].
    inversion ND as [|? ? NI ND']; subst. destruct (negb _); cbn [map]; [|auto]. constructor; [|auto]. intros H. apply NI. apply in_map_iff in H. destruct H as [y [E Hy]].
    apply filter_In in Hy. rewrite <- E. apply in_map. tauto. }
  assert (NE : forall p, optr_eqb p (ptr_of a) = false -> p <> Some (ptr_of a)).
  { intros p H ->. cbn [optr_eqb] in H. unfold ptr_eqb in H. rewrite !Nat.eqb_refl in H. discriminate H. }
  assert (NP : forall p act, roled p act (s_args s1) -> c_action (a_cfg a) <> act -> p <> Some (ptr_of a)).
  { intros p act R N E. apply N. apply (pointed p act (s_args s1) (g a) (g_ids _ G1)); [exact R | | exact E].
    unfold s1, tweak. cbn [s_args with_map with_args]. apply upd_id_In. exists a. split; [exact Ia|]. rewrite Ea, Nat.eqb_refl. reflexivity. }
  destruct (optr_eqb (s_help s1) (ptr_of a)) eqn:O1.
  - unfold bind, modify, delete_valid, modify. cbn [fst]. constructor; cbn [s_args s_help s_version with_args with_freed with_help]; fold l; [exact NDl | exact I|].
    apply PA; [apply (g_version _ G1)|]. intros E. pose proof (pointed _ _ _ (g a) (g_ids _ G1) (g_version _ G1)) as Q1.
    assert (Ig : In (g a) (s_args s1)) by (unfold s1, tweak; cbn [s_args with_map with_args]; apply upd_id_In; exists a; split; [exact Ia|]; rewrite Ea, Nat.eqb_refl; reflexivity).
    specialize (Q1 Ig E). assert (OH : s_help s1 = Some (ptr_of (g a))).
    { destruct (s_help s1) as [[i j]|]; [|discriminate O1]. cbn [optr_eqb] in O1. unfold ptr_eqb in O1. apply andb_true_iff in O1. destruct O1 as [O1 O2].
      cbn [fst snd ptr_of] in O1, O2. apply Nat.eqb_eq in O1, O2. unfold ptr_of, g. cbn [a_id a_gen arg_cfg]. congruence. }
    pose proof (pointed _ _ _ (g a) (g_ids _ G1) (g_help _ G1) Ig OH) as Q2. congruence.
  - destruct (optr_eqb (s_version s1) (ptr_of a)) eqn:O2; unfold bind, modify, delete_valid, modify, ret; cbn [fst];
      constructor; cbn [s_args s_help s_version with_args with_freed with_version]; fold l; try exact NDl; try exact I;
      apply PA; try apply (g_help _ G1); try apply (g_version _ G1); apply NE; assumption.
Qed.
Lemma good_remove_loop : forall l s, table s -> good s -> good (fst (remove_loop l s)).
Proof.
  induction l as [|n l IH]; intros s T G; cbn [remove_loop]; [exact G|]. pose proof (good_remove_one n s T G) as G1. pose proof (table_remove_one n s T) as T1.
  unfold bind. destruct (remove_one n s) as [s1 [u|e|o| |]]; cbn [fst] in *; try exact G1. now apply IH.
Qed.
Lemma good_remove : forall l s, table s -> good s -> good (fst (removeArguments l s)).
Proof.
  intros [|n l] s T G; [exact G|]. unfold removeArguments. unfold bind at 1, get. destruct (find _ (n :: l)); [exact G|].
  pose proof (good_remove_loop (n :: l) s T G) as G1. unfold bind. destruct (remove_loop (n :: l) s) as [s1 [u|e|o| |]]; cbn [fst] in *; try exact G1.
  apply (good_keeps _ rs_sort), G1.
Qed.

(* ------------------------------------------------------------------ *)
(** * histories *)
Lemma good_init : good init. Proof. constructor; [constructor | exact I | exact I]. Qed.
Lemma good_clear : forall s, good (fst (clear s)).
Proof. intros s. constructor; [constructor | exact I | exact I]. Qed.
Lemma good_update : forall n, pres good (updateArgument n).
Proof.
  intros n s T. unfold updateArgument, bind, find_name. destruct (assoc n (s_map s)) as [id|]; [|exact T].
  rewrite deref_eq. destruct (find_id id (s_args s)); exact T.
Qed.
Lemma good_op_mem : forall o k s, table s -> good s -> op_ok no_dest_on_help o s -> (forall argv, o <> OpParse argv) -> good (fst (step_mem o k s)).
Proof.
  intros o k s T G P N. destruct o as [ns ms|n ms|ns| |argv| | | | | | | | | |]; cbn [step_mem].
  5: { exfalso. exact (N argv eq_refl). }
  1: { cbn [op_ok] in P. destruct P as [_ P]. pose proof (good_addArgument ns k s T G) as G1. pose proof (table_addArgument ns k s T) as T1. unfold bindA.
    destruct (addArgument_mem ns k s) as [s1 [k1 [id|e|o| |]|]] eqn:E; cbn [fst] in *; try exact G1.
    apply good_run_meths; [exact T1 | exact G1|]. apply P. exact (refines_done _ _ _ _ _ _ _ (refines_addArgument ns s) E). }
  1: { cbn [op_ok] in P. unfold bindA at 1, alloc. destruct k as [|k]; [exact G|]. unfold bindA.
    pose proof (presA_plain good _ (good_update n) k s G) as G1. pose proof (presA_plain table _ (table_update n) k s T) as T1.
    destruct (plain (updateArgument n) k s) as [s1 [k1 [id|e|o| |]|]] eqn:E; cbn [fst] in *; try exact G1.
    apply good_run_meths; [exact T1 | exact G1|]. apply P. exact (refines_done _ _ _ _ _ _ _ (refines_plain (updateArgument n) s) E). }
  1: { unfold bindA at 1, alloc. destruct k as [|k]; [exact G|]. cbn [step].
    refine (proj2 (presA_plain (fun s => table s /\ good s) _ _ k s (conj T G))).
    intros t [Tt Gt]. split; [apply table_remove, Tt | apply good_remove; assumption]. }
  1: { refine (presA_plain good _ _ k s G). intros t _. apply good_clear. }
  all: try (unfold bindA at 1, alloc; destruct k as [|k]; [exact G|]); refine (presA_plain good _ _ k s G); intros t Gt; cbn [step]; unfold modify; cbn [fst];
    (eapply good_rs; [exact Gt | split; [reflexivity|]; split; [reflexivity | apply Permutation_refl]]).
Qed.
Lemma good_setup : forall s, table s -> good s -> good (fst (help_setup s)).
Proof.
  intros s T G. destruct (refines_help_setup s) as [k [_ R]]. specialize (R 0). pose proof (good_help_setup (k + 0) s T G) as H. rewrite R in H. exact H.
Qed.
Lemma good_parse_with : forall fuel argv, presC (fun s => table s /\ good s) (parse_with fuel argv).
Proof.
  intros. unfold parse_with. apply presC_bind.
  { apply presC_of. intros s [T G]. pose proof (frame_clear_args s) as F. split; [eapply table_frame | eapply good_frame]; eassumption. }
  intros _. apply presC_bind.
  { apply presC_of. intros s [T G]. split; [|apply good_setup; assumption]. exact (pres_of_refines table _ _ s table_help_setup (refines_help_setup s) T). }
  intros early. destruct early.
  { apply presC_of; intros s H; exact H. }
  apply presC_bind.
  { apply presC_of. intros s [T G]. pose proof (frame_scan fuel argv s) as F. split; [eapply table_frame | eapply good_frame]; eassumption. }
  intros _ s s' r [T G] E C. assert (F : frame s s') by (eapply frame_after_scan; eassumption). split; [eapply table_frame | eapply good_frame]; eassumption.
Qed.
Lemma good_step : forall o s s' r, table s -> good s -> op_ok no_dest_on_help o s -> step o s = (s', r) -> completed r -> good s'.
Proof.
  intros o s s' r T G P E C. assert (D : (exists argv, o = OpParse argv) \/ (forall argv, o <> OpParse argv)).
  { destruct o; try (right; discriminate). left. eexists. reflexivity. }
  destruct D as [[argv ->]|N].
  - exact (proj2 (good_parse_with _ argv s s' r (conj T G) E C)).
  - destruct (refines_step o s T) as [k [_ R]]. specialize (R 0). pose proof (good_op_mem o (k + 0) s T G P N) as H. rewrite R, E in H. exact H.
Qed.
Lemma good_out : forall o s s', table s -> good s -> op_ok no_dest_on_help o s -> out_of_memory o s s' -> good s'.
Proof.
  intros o s s' T G P H. destruct H as [o k s s' N E|argv k s s0 s1 r s' F0 E F1].
  - pose proof (good_op_mem o k s T G P N) as K. rewrite E in K. exact K.
  - eapply good_frame; [|exact F1]. pose proof (good_help_setup k s0 (table_frame _ _ T F0) (good_frame _ _ G F0)) as H. rewrite E in H. exact H.
Qed.
Lemma good_pointers : forall s, good s -> pointers_ok s.
Proof.
  intros s [G1 G2 G3].
  assert (K : forall p act, roled p act (s_args s) -> live_ptr p s).
  { intros [q|] act R; [|exact I]. destruct R as [a [Ia [Ea _]]]. cbn [live_ptr]. destruct (find_ptr q (s_args s)) as [b|] eqn:F; [exists b; reflexivity|].
    exfalso. unfold find_ptr in F. pose proof (find_none _ _ F a Ia) as N. subst q. unfold ptr_eqb, ptr_of in N. cbn [fst snd] in N. rewrite !Nat.eqb_refl in N. discriminate N. }
  split; eapply K; eassumption.
Qed.
