(** Proofs_Like.v -- two parsers that differ in the identities of the arguments and in
    further ("foreign") options of the second one: every call that does not name the foreign
    options does the same to both. *)
From Coq Require Import Permutation Sorted.
From Verif Require Import Base Model_Utils Model_Number Model_Types Model_Argument Model_Usage Model_Args Model_Api
  Spec_Order Spec_Names Spec_Reading Spec_Extend Spec_Reorder Spec_Parse Spec_Decl Spec_Finish Spec_History Spec_Api Spec_Result
  Proofs_Base Proofs_Order Proofs_Stable Proofs_Frame Proofs_Inv Proofs_ReadFacts Proofs_Reading Proofs_Parse Proofs_Decl Proofs_Finish
  Proofs_Meth Proofs_History Proofs_Config Proofs_Central Proofs_Swap Proofs_Redecl Proofs_Extend.

Definition same (a a' : argument) : Prop := a_gen a' = a_gen a /\ a_cfg a' = a_cfg a /\ a_dyn a' = a_dyn a.
Definition pairs := list (argument * argument).
Definition rel (L : pairs) (i i' : nat) : Prop := exists p, In p L /\ a_id (fst p) = i /\ a_id (snd p) = i'.
Definition ptr_rel (L : pairs) (F : nat -> bool) (p p' : option (nat * nat)) : Prop :=
  match p, p' with
  | None, None => True
  | Some q, Some q' => (forall i i' g, rel L i i' -> (q = (i, g) <-> q' = (i', g))) /\ F (fst q') = false
  | None, Some q' => F (fst q') = true
  | _, _ => False
  end.
Definition own (F : nat -> bool) (l : list argument) : list argument := filter (fun a => negb (F (a_id a))) l.
Record like_by (X : list str) (Q : acfg -> Prop) (D : bool) (F : nat -> bool) (L : pairs) (s s' : state) : Prop := LikeBy {
  lb_l : s_args s = map fst L;
  lb_r : own F (s_args s') = map snd L;
  lb_same : forall p, In p L -> same (fst p) (snd p);
  lb_map : forall n, match assoc n (s_map s), assoc n (s_map s') with
    | Some i, Some i' => rel L i i'
    | None, None => True
    | None, Some i' => In n X /\ F i' = true
    | Some _, None => False
    end;
  lb_new : forall n, In n X -> assoc n (s_map s) = None;
  lb_foreign : forall b, In b (s_args s') -> F (a_id b) = true ->
    Q (a_cfg b);
  lb_live : forall i, F i = true -> In i (map a_id (s_args s'));
  lb_help : ptr_rel L F (s_help s) (s_help s');
  lb_version : ptr_rel L F (s_version s) (s_version s');
  lb_tight : D = false -> (s_help s = None -> s_help s' = None) /\ (s_version s = None -> s_version s' = None);
  lb_bin : s_bin s' = s_bin s;
  lb_modes : s_modes s' = s_modes s;
  lb_verstr : s_verstr s' = s_verstr s;
  lb_additional : s_additional s' = s_additional s;
  lb_usage : s_usage s' = s_usage s;
  lb_dlog : s_dlog s' = s_dlog s
}.

(* ------------------------------------------------------------------ *)
(** * lists *)
Lemma arg_lt_swo : strict_weak_order arg_lt.
Proof. destruct compareOption_swo as [H1 H2 H3 H4]. constructor; unfold arg_lt; intros; eauto. Qed.
Lemma filter_comm : forall {A} (f g : A -> bool) l, filter f (filter g l) = filter g (filter f l).
Proof. intros A f g l. induction l as [|x l IH]; cbn; [reflexivity|]. destruct (f x) eqn:E, (g x) eqn:G; cbn; rewrite ?E, ?G, IH; reflexivity. Qed.
Lemma sorted_filter : forall {A} (R : A -> A -> Prop) f l, StronglySorted R l -> StronglySorted R (filter f l).
Proof.
  intros A R f l S. induction S as [|x l S IH Fo]; cbn; [constructor|]. destruct (f x); [|exact IH]. constructor; [exact IH|].
  rewrite Forall_forall in *. intros y I. apply filter_In in I. now apply Fo.
Qed.
Lemma sort_filter : forall (f : argument -> bool) l, filter f (sort_by arg_lt l) = sort_by arg_lt (filter f l).
Proof.
  intros f l. apply (stable_unique arg_lt arg_lt_swo).
  - apply sorted_filter, sort_args_sorted.
  - apply sort_args_sorted.
  - intros x. rewrite (sort_stable arg_lt arg_lt_swo). rewrite filter_comm, (sort_stable arg_lt arg_lt_swo). apply filter_comm.
Qed.
Lemma insert_by_map : forall {A B} (lt : A -> A -> bool) (lt' : B -> B -> bool) (f : B -> A) x l,
  (forall y, In y l -> lt (f y) (f x) = lt' y x) -> insert_by lt (f x) (map f l) = map f (insert_by lt' x l).
Proof.
  intros A B lt lt' f x l. induction l as [|y l IH]; intros H; cbn; [reflexivity|]. rewrite H by now left. destruct (lt' y x); cbn; [|reflexivity].
  rewrite IH; [reflexivity|]. intros z I. apply H. now right.
Qed.
Lemma sort_by_map : forall {A B} (lt : A -> A -> bool) (lt' : B -> B -> bool) (f : B -> A) l,
  (forall x y, In x l -> In y l -> lt (f x) (f y) = lt' x y) -> sort_by lt (map f l) = map f (sort_by lt' l).
Proof.
  intros A B lt lt' f l. induction l as [|x l IH]; intros H; [reflexivity|].
  change (insert_by lt (f x) (sort_by lt (map f l)) = map f (insert_by lt' x (sort_by lt' l))). rewrite IH by (intros; apply H; now right).
  apply insert_by_map. intros y I. apply (proj1 (sort_In _ _ _)) in I. apply H; [now right | now left].
Qed.
Definition pair_lt (p q : argument * argument) : bool := arg_lt (fst p) (fst q).
Lemma rel_ext : forall L L', (forall i i', rel L i i' <-> rel L' i i') -> forall F p p', ptr_rel L F p p' -> ptr_rel L' F p p'.
Proof.
  intros L L' E F p p'. unfold ptr_rel. destruct p, p'; try tauto. intros [H N]. split; [|exact N]. intros i i' g R. apply H. now apply E.
Qed.
Lemma rel_In : forall L L', (forall p, In p L <-> In p L') -> forall i i', rel L i i' <-> rel L' i i'.
Proof. intros L L' E i i'. unfold rel. split; intros [p [I H]]; exists p; (split; [now apply E | exact H]). Qed.

Section Like.
Variables (X : list str) (Qf : acfg -> Prop) (Dt : bool).

Lemma like_sort : forall F L s s', like_by X Qf Dt F L s s' -> like_by X Qf Dt F (sort_by pair_lt L) (resorted s) (resorted s').
Proof.
  intros F L s s' H. pose proof (rel_In L (sort_by pair_lt L) (fun p => iff_sym (sort_In pair_lt p L))) as RE. destruct H. split; try assumption.
  - cbn. rewrite lb_l0. now apply sort_by_map.
  - cbn. unfold own in *. rewrite sort_filter, lb_r0. apply sort_by_map. intros x y Ix Iy. unfold pair_lt, arg_lt.
    destruct (lb_same0 x Ix) as [_ [-> _]], (lb_same0 y Iy) as [_ [-> _]]. reflexivity.
  - intros p I. apply (proj1 (sort_In _ _ _)) in I. now apply lb_same0.
  - intros n. specialize (lb_map0 n). cbn. destruct (assoc n (s_map s)), (assoc n (s_map s')); try exact lb_map0. now apply RE.
  - cbn. intros b I. apply (proj1 (sort_In _ _ _)) in I. now apply lb_foreign0.
  - cbn. intros i I. apply lb_live0 in I. apply in_map_iff in I. destruct I as [b [E I]]. apply in_map_iff. exists b. split; [exact E|]. now apply sort_In.
  - cbn. revert lb_help0. now apply rel_ext.
  - cbn. revert lb_version0. now apply rel_ext.
Qed.

(** one-to-one *)
Section Ids.
Variables (F : nat -> bool) (L : pairs) (s s' : state).
Hypothesis H : like_by X Qf Dt F L s s'.
Hypothesis N : NoDup (map a_id (s_args s)).
Hypothesis N' : NoDup (map a_id (s_args s')).
Lemma like_in_l : forall p, In p L -> In (fst p) (s_args s).
Proof. intros p I. rewrite (lb_l _ _ _ _ _ _ _ H). now apply in_map. Qed.
Lemma like_in_r : forall p, In p L -> In (snd p) (s_args s') /\ F (a_id (snd p)) = false.
Proof. intros p I. assert (J : In (snd p) (own F (s_args s'))) by (rewrite (lb_r _ _ _ _ _ _ _ H); now apply in_map). apply filter_In in J. destruct J as [J B]. split; [exact J | now apply negb_true_iff]. Qed.
Lemma ids_unique : forall l (a b : argument), NoDup (map a_id l) -> In a l -> In b l -> a_id a = a_id b -> a = b.
Proof. intros l a b ND Ia Ib E. pose proof (In_find_id _ _ ND Ia) as A. pose proof (In_find_id _ _ ND Ib) as B. rewrite E in A. congruence. Qed.
Lemma like_nodup_l : NoDup (map (fun p => a_id (fst p)) L).
Proof. rewrite <- (map_map fst a_id), <- (lb_l _ _ _ _ _ _ _ H). exact N. Qed.
Lemma NoDup_filter_ids : forall (f : argument -> bool) l, NoDup (map a_id l) -> NoDup (map a_id (filter f l)).
Proof.
  intros f l. induction l as [|x l IH]; cbn; intros ND; [constructor|]. inversion_clear ND as [|? ? A B]. destruct (f x); cbn; [constructor|]; auto.
  intros I. apply A. apply in_map_iff in I. destruct I as [y [E I]]. apply filter_In in I. apply in_map_iff. exists y. tauto.
Qed.
Lemma like_nodup_r : NoDup (map (fun p => a_id (snd p)) L).
Proof. rewrite <- (map_map snd a_id), <- (lb_r _ _ _ _ _ _ _ H). now apply NoDup_filter_ids. Qed.
Lemma NoDup_inj : forall {A} (f : A -> nat) l x y, NoDup (map f l) -> In x l -> In y l -> f x = f y -> x = y.
Proof.
  intros A f l x y. induction l as [|z l IH]; cbn; intros ND Ix Iy E; [destruct Ix|]. inversion_clear ND as [|? ? P Q].
  destruct Ix as [->|Ix], Iy as [->|Iy]; auto; exfalso; apply P; [rewrite E | rewrite <- E]; now apply in_map.
Qed.
Lemma like_inj : forall p q, In p L -> In q L -> (a_id (fst p) = a_id (fst q) <-> a_id (snd p) = a_id (snd q)).
Proof.
  intros p q Ip Iq. split; intros E.
  - now rewrite (NoDup_inj (fun p => a_id (fst p)) L p q like_nodup_l Ip Iq E).
  - now rewrite (NoDup_inj (fun p => a_id (snd p)) L p q like_nodup_r Ip Iq E).
Qed.
Lemma rel_inj : forall i j i' j', rel L i i' -> rel L j j' -> (i = j <-> i' = j').
Proof. intros i j i' j' [p [Ip [<- <-]]] [q [Iq [<- <-]]]. now apply like_inj. Qed.
Lemma like_eqb : forall p q, In p L -> In q L -> Nat.eqb (a_id (snd p)) (a_id (snd q)) = Nat.eqb (a_id (fst p)) (a_id (fst q)).
Proof.
  intros p q Ip Iq. destruct (Nat.eqb_spec (a_id (fst p)) (a_id (fst q))) as [E|E].
  - apply Nat.eqb_eq. now apply (like_inj p q Ip Iq).
  - apply Nat.eqb_neq. intros E'. apply E. now apply (like_inj p q Ip Iq).
Qed.
Lemma like_find_name : forall n, ~ In n X -> 
  (assoc n (s_map s) = None /\ assoc n (s_map s') = None) \/
  (exists p, In p L /\ assoc n (s_map s) = Some (a_id (fst p)) /\ assoc n (s_map s') = Some (a_id (snd p))).
Proof.
  intros n NX. pose proof (lb_map _ _ _ _ _ _ _ H n) as M. destruct (assoc n (s_map s)) as [i|], (assoc n (s_map s')) as [i'|]; try tauto.
  - destruct M as [p [I [<- <-]]]. right. now exists p.
Qed.
Lemma like_mem : forall n, ~ In n X -> mem_key n (s_map s') = mem_key n (s_map s).
Proof.
  intros n NX. destruct (like_find_name n NX) as [[A B]|[p [_ [A B]]]].
  - rewrite (proj2 (mem_key_false _ _) A), (proj2 (mem_key_false _ _) B). reflexivity.
  - rewrite (proj2 (mem_key_true _ _) (ex_intro _ _ A)), (proj2 (mem_key_true _ _) (ex_intro _ _ B)). reflexivity.
Qed.

(** replacing a pair *)
Definition put_pair (b b' : argument) (p : argument * argument) : argument * argument :=
  if Nat.eqb (a_id (fst p)) (a_id b) then (b, b') else p.
Lemma put_rel : forall q b b', In q L -> a_id b = a_id (fst q) -> a_id b' = a_id (snd q) ->
  forall i i', rel L i i' <-> rel (map (put_pair b b') L) i i'.
Proof.
  intros q b b' Iq Eb Eb' i i'. unfold rel. split.
  - intros [p [Ip [<- <-]]]. exists (put_pair b b' p). split; [now apply in_map|]. unfold put_pair. destruct (Nat.eqb_spec (a_id (fst p)) (a_id b)) as [E|E]; cbn; [|tauto].
    split; [now symmetry|]. rewrite Eb'. symmetry. apply (like_inj p q Ip Iq). congruence.
  - intros [p' [Ip' [<- <-]]]. apply in_map_iff in Ip'. destruct Ip' as [p [<- Ip]]. exists p. split; [exact Ip|]. unfold put_pair. destruct (Nat.eqb_spec (a_id (fst p)) (a_id b)) as [E|E]; cbn; [|tauto].
    split; [exact E|]. rewrite Eb'. apply (like_inj p q Ip Iq). congruence.
Qed.
Lemma like_put : forall q b b', In q L -> same b b' -> a_id b = a_id (fst q) -> a_id b' = a_id (snd q) ->
  like_by X Qf Dt F (map (put_pair b b') L) (put b s) (put b' s').
Proof.
  intros q b b' Iq SB Eb Eb'. pose proof (put_rel q b b' Iq Eb Eb') as RE. pose proof like_eqb as LE. pose proof (like_in_r q Iq) as [_ NF]. destruct H. split; try assumption.
  - cbn. unfold upd_id. rewrite lb_l0, !map_map. apply map_ext_in. intros p Ip. unfold put_pair. destruct (Nat.eqb (a_id (fst p)) (a_id b)); reflexivity.
  - cbn. transitivity (upd_id (a_id b') (fun _ => b') (own F (s_args s'))).
    + unfold own, upd_id. rewrite <- Eb' in NF. clear -NF. induction (s_args s') as [|x l IH]; cbn; [reflexivity|]. destruct (Nat.eqb_spec (a_id x) (a_id b')) as [E|E].
      * rewrite E, NF. cbn. rewrite E, Nat.eqb_refl. now f_equal.
      * destruct (F (a_id x)); cbn; [exact IH|]. apply Nat.eqb_neq in E. rewrite E. now f_equal.
    + rewrite lb_r0. unfold upd_id. rewrite !map_map. apply map_ext_in. intros p Ip. unfold put_pair. rewrite Eb, Eb', LE by assumption. destruct (Nat.eqb (a_id (fst p)) (a_id (fst q))); reflexivity.
  - intros p Ip. apply in_map_iff in Ip. destruct Ip as [p0 [<- Ip]]. unfold put_pair. destruct (Nat.eqb _ _); [exact SB | now apply lb_same0].
  - intros n. specialize (lb_map0 n). cbn. destruct (assoc n (s_map s)), (assoc n (s_map s')); try exact lb_map0. now apply RE.
  - intros x Ix Fx. apply put_In in Ix. destruct Ix as [->|[Ix _]]; [congruence | now apply lb_foreign0].
  - intros i Fi. rewrite put_ids. now apply lb_live0.
  - cbn. revert lb_help0. now apply rel_ext.
  - cbn. revert lb_version0. now apply rel_ext.
Qed.
Lemma like_claims : forall q, In q L -> 
  (Dt = false -> claims (s_help s') (ptr_of (snd q)) = claims (s_help s) (ptr_of (fst q)) /\ claims (s_version s') (ptr_of (snd q)) = claims (s_version s) (ptr_of (fst q))) /\
  optr_eqb (s_help s') (ptr_of (snd q)) = optr_eqb (s_help s) (ptr_of (fst q)) /\
  optr_eqb (s_version s') (ptr_of (snd q)) = optr_eqb (s_version s) (ptr_of (fst q)).
Proof.
  intros q Iq. assert (G : forall p p', ptr_rel L F p p' -> ((p = None -> p' = None) -> claims p' (ptr_of (snd q)) = claims p (ptr_of (fst q))) /\ optr_eqb p' (ptr_of (snd q)) = optr_eqb p (ptr_of (fst q))).
  { intros p p' P. unfold ptr_rel in P. destruct p as [x|], p' as [x'|].
    4: now split.
    2: destruct P.
    - destruct P as [P1 P2]. destruct (lb_same _ _ _ _ _ _ _ H q Iq) as [G _].
      assert (E : ptr_eqb x' (ptr_of (snd q)) = ptr_eqb x (ptr_of (fst q))); [|split; [intros _|]; exact E].
      destruct (P1 (a_id (fst q)) (a_id (snd q)) (a_gen (fst q)) (ex_intro _ q (conj Iq (conj eq_refl eq_refl)))) as [A B].
      destruct (ptr_eqb x (ptr_of (fst q))) eqn:E1.
      + apply ptr_eqb_eq in E1. rewrite (A E1). unfold ptr_of. rewrite G. apply ptr_eqb_refl.
      + destruct (ptr_eqb x' (ptr_of (snd q))) eqn:E2; [|reflexivity]. apply ptr_eqb_eq in E2. unfold ptr_of in E2. rewrite G in E2. rewrite (B E2) in E1. unfold ptr_of in E1. now rewrite ptr_eqb_refl in E1.
    - split; [intros E; discriminate (E eq_refl)|]. cbn [optr_eqb]. destruct (ptr_eqb x' (ptr_of (snd q))) eqn:E2; [|reflexivity]. apply ptr_eqb_eq in E2. subst x'. cbn in P. rewrite (proj2 (like_in_r q Iq)) in P. discriminate. }
  destruct (G _ _ (lb_help _ _ _ _ _ _ _ H)) as [A B], (G _ _ (lb_version _ _ _ _ _ _ _ H)) as [C D]. split; [|now split].
  intros T. destruct (lb_tight _ _ _ _ _ _ _ H T) as [T1 T2]. split; [now apply A | now apply C].
Qed.
Lemma like_ptr_some : forall q g, In q L -> ptr_rel L F (Some (a_id (fst q), g)) (Some (a_id (snd q), g)).
Proof.
  intros q g Iq. split; [|apply (like_in_r q Iq)]. intros i i' h [p [Ip [<- <-]]]. pose proof (like_inj q p Iq Ip) as E. split; intros Q; injection Q as A B; f_equal; try assumption; now apply E.
Qed.
Lemma like_with_help : forall p p', ptr_rel L F p p' -> (p = None -> p' = None) -> like_by X Qf Dt F L (with_help s p) (with_help s' p').
Proof. intros p p' P T. destruct H. split; try assumption. cbn. intros D. split; [exact T | now apply lb_tight0]. Qed.
Lemma like_with_version : forall p p', ptr_rel L F p p' -> (p = None -> p' = None) -> like_by X Qf Dt F L (with_version s p) (with_version s' p').
Proof. intros p p' P T. destruct H. split; try assumption. cbn. intros D. split; [now apply lb_tight0 | exact T]. Qed.
Lemma like_freed : forall f f', like_by X Qf Dt F L (with_freed s f) (with_freed s' f').
Proof. intros f f'. destruct H. split; assumption. Qed.
End Ids.
Lemma put_pair_In : forall L q b b', In q L -> a_id b = a_id (fst q) -> In (b, b') (map (put_pair b b') L).
Proof. intros L q b b' I E. apply in_map_iff. exists q. split; [|exact I]. unfold put_pair. rewrite E. now rewrite Nat.eqb_refl. Qed.
Lemma same_defaults : forall a a', same a a' -> same (fst (defaults_arg a)) (fst (defaults_arg a')) /\ snd (defaults_arg a') = snd (defaults_arg a).
Proof.
  intros a a' [G [C D]]. unfold defaults_arg. rewrite C. destruct (no_defaults (a_cfg a)); [now repeat split|]. destruct (size_fits _ _).
  - split; [|reflexivity]. unfold defaulted. rewrite C, D. unfold same. destruct (c_type (a_cfg a)); repeat split; cbn; assumption.
  - split; [|reflexivity]. unfold same. cbn. rewrite D. now repeat split.
Qed.

Lemma same_cfg : forall a a' c, same a a' -> same (arg_cfg a c) (arg_cfg a' c).
Proof. intros a a' c [G [C D]]. now repeat split. Qed.
Lemma in_rel : forall L q, In q L -> rel L (a_id (fst q)) (a_id (snd q)).
Proof. intros L q I. exists q. now repeat split. Qed.
Lemma put_in_rel : forall L q b b', In q L -> a_id b = a_id (fst q) -> a_id b' = a_id (snd q) -> rel (map (put_pair b b') L) (a_id (fst q)) (a_id (snd q)).
Proof. intros L q b b' I E E'. exists (b, b'). split; [now apply (put_pair_In L q)|]. now split. Qed.
(** not the help or version option *)
Definition nonrole (c : acfg) : Prop := c_action c <> HELP /\ c_action c <> VERSION.
Lemma nonrole_kind : forall c k, nonrole c -> kind_of c = Some k -> is_role (fst (fst k)) = false /\ nonrole (retyped c k).
Proof.
  intros c k [A1 A2] K. unfold kind_of, positional_kind, option_kind in K. unfold nonrole.
  destruct (is_positional (c_type c)), (c_action c); try congruence; repeat (match type of K with context [if ?b then _ else _] => destruct b end); try discriminate K; injection K as <-; cbn; repeat split; discriminate.
Qed.
Lemma nonrole_defaults : forall a, nonrole (a_cfg a) -> nonrole (a_cfg (fst (defaults_arg a))).
Proof.
  intros a Q. unfold defaults_arg. destruct (no_defaults _); [exact Q|]. destruct (size_fits _ _); [|exact Q]. cbn [fst]. unfold defaulted. destruct (c_type (a_cfg a)); exact Q.
Qed.
Lemma declared_nonrole : forall b s x, nonrole (a_cfg b) -> In x (s_args (fst (declared b s))) -> a_id x = a_id b -> nonrole (a_cfg x).
Proof.
  intros b s x NR I E. unfold declared in I. destruct (kind_of (a_cfg b)) as [k|] eqn:K.
  - destruct (nonrole_kind _ _ NR K) as [R1 R2]. cbv zeta in I.
    assert (P : In x (s_args (put (fst (defaults_arg (arg_cfg b (retyped (a_cfg b) k)))) s)) -> nonrole (a_cfg x)).
    { intros J. apply put_In in J. destruct J as [->|[_ N]]; [now apply nonrole_defaults | rewrite defaults_arg_id in N; contradiction]. }
    destruct (fst (fst k)); try (now apply P); discriminate R1.
  - apply put_In in I. destruct I as [->|[_ N]]; [exact NR | contradiction].
Qed.
Lemma meth_nonrole : forall m a s x, nonrole (a_cfg a) -> roleless m -> In a (s_args s) -> NoDup (map a_id (s_args s)) ->
  In x (s_args (fst (meth_state m a s))) -> a_id x = a_id a -> nonrole (a_cfg x).
Proof.
  intros m a s x NR RM Ia ND I E.
  assert (P : forall b, a_id b = a_id a -> nonrole (a_cfg b) -> In x (s_args (put b s)) -> nonrole (a_cfg x)).
  { intros b Eb Nb J. apply put_In in J. destruct J as [->|[_ N]]; [exact Nb | congruence]. }
  assert (S : In x (s_args s) -> nonrole (a_cfg x)).
  { intros J. assert (x = a) as ->; [|exact NR]. pose proof (In_find_id _ _ ND Ia) as A. pose proof (In_find_id _ _ ND J) as B. rewrite E in B. congruence. }
  unfold meth_state in I. destruct m as [f|act|b|h|y|n|v|p b|d].
  - destruct (is_positional _); [now apply S|]. destruct (validFormatFlag f); [now apply S|]. destruct (mem_key f (s_map s)); [now apply S|].
    cbn [fst s_args with_map resorted with_args] in I. apply (proj1 (sort_In _ _ _)) in I. refine (P _ _ _ I); [reflexivity | exact NR].
  - apply (declared_nonrole (arg_cfg a (cfg_action (a_cfg a) act)) (released a s) x); [|exact I | exact E]. destruct act; try (exfalso; exact RM); split; discriminate.
  - cbn [fst s_args resorted with_args] in I. apply (proj1 (sort_In _ _ _)) in I. refine (P _ _ _ I); [reflexivity | exact NR].
  - refine (P _ _ _ I); [reflexivity | exact NR].
  - refine (P _ _ _ I); [reflexivity | exact NR].
  - apply (declared_nonrole (arg_cfg a (cfg_nargs (a_cfg a) (n mod w64)%N)) s x); [exact NR | exact I | exact E].
  - apply (P (fst (defaults_arg (arg_cfg a (cfg_defaults (a_cfg a) v))))); [now rewrite defaults_arg_id | now apply nonrole_defaults | exact I].
  - refine (P _ _ _ I); [reflexivity | exact NR].
  - apply (P (Arg (a_id a) (Datatypes.S (a_gen a)) (cfg_dest (cfg_defaults (a_cfg a) []) (Some d)) (a_dyn a))); [reflexivity | exact NR | exact I].
Qed.
Lemma declared_like : forall F L s s' q b b', like_by X Qf Dt F L s s' -> wf0 s -> wf0 s' -> In q L -> same b b' ->
  a_id b = a_id (fst q) -> a_id b' = a_id (snd q) -> a_gen b = a_gen (fst q) -> Dt = false \/ nonrole (a_cfg b) ->
  snd (declared b' s') = snd (declared b s) /\
  exists L', like_by X Qf Dt F L' (fst (declared b s)) (fst (declared b' s')) /\ rel L' (a_id (fst q)) (a_id (snd q)).
Proof.
  intros F L s s' q b b' H W W' Iq SB Eb Eb' G NR. pose proof (wf_ids _ W) as N. pose proof (wf_ids _ W') as N'.
  assert (P : forall c c', same c c' -> a_id c = a_id b -> a_id c' = a_id b' -> exists L', like_by X Qf Dt F L' (put c s) (put c' s') /\ rel L' (a_id (fst q)) (a_id (snd q)) /\ exists r, In r L' /\ r = (c, c')).
  { intros c c' SC Ec Ec'. exists (map (put_pair c c') L). split; [|split].
    - apply (like_put F L s s' H N N' q); try assumption; congruence.
    - apply put_in_rel; [exact Iq | congruence | congruence].
    - exists (c, c'). split; [|reflexivity]. apply (put_pair_In L q); [exact Iq | congruence]. }
  destruct (like_claims F L s s' H q Iq) as [CHV _]. destruct (lb_same _ _ _ _ _ _ _ H q Iq) as [GQ _].
  assert (PB : ptr_of b = ptr_of (fst q)) by (unfold ptr_of; congruence). assert (PB' : ptr_of b' = ptr_of (snd q)) by (unfold ptr_of; destruct SB as [-> _]; congruence).
  rewrite <- PB, <- PB' in CHV. unfold declared. destruct SB as [GB [CB DB]]. rewrite CB. assert (SB : same b b') by now repeat split.
  destruct (kind_of (a_cfg b)) as [k|] eqn:K.
  2:{ split; [reflexivity|]. destruct (P b b' SB eq_refl eq_refl) as [L' [A [B _]]]. exists L'. now split. }
  destruct (same_defaults _ _ (same_cfg _ _ (retyped (a_cfg b) k) SB)) as [SD ED].
  assert (ID : a_id (fst (defaults_arg (arg_cfg b (retyped (a_cfg b) k)))) = a_id b) by (rewrite defaults_arg_id; reflexivity).
  assert (ID' : a_id (fst (defaults_arg (arg_cfg b' (retyped (a_cfg b) k)))) = a_id b') by (rewrite defaults_arg_id; reflexivity).
  destruct (P _ _ SD ID ID') as [L' [A [B [r [Ir Er]]]]].
  destruct (P b b' SB eq_refl eq_refl) as [L2 [A2 [B2 _]]].
  assert (N1 : NoDup (map a_id (s_args (put (fst (defaults_arg (arg_cfg b (retyped (a_cfg b) k)))) s)))) by (rewrite put_ids; exact N).
  assert (N1' : NoDup (map a_id (s_args (put (fst (defaults_arg (arg_cfg b' (retyped (a_cfg b) k)))) s')))) by (rewrite put_ids; exact N').
  assert (PS : ptr_rel L' F (Some (ptr_of b)) (Some (ptr_of b'))).
  { unfold ptr_of. rewrite GB, <- ID, <- ID'. pose proof (like_ptr_some F L' _ _ A N1 N1' r (a_gen b) Ir) as Q. rewrite Er in Q. exact Q. }
  assert (RC : is_role (fst (fst k)) = true -> claims (s_help s') (ptr_of b') = claims (s_help s) (ptr_of b) /\ claims (s_version s') (ptr_of b') = claims (s_version s) (ptr_of b)).
  { intros R. destruct NR as [T|NR]; [now apply CHV|]. rewrite (proj1 (nonrole_kind _ _ NR K)) in R. discriminate. }
  cbv zeta. destruct (fst (fst k)); try (split; [exact ED|]; exists L'; now split); destruct (RC eq_refl) as [CH CV]; rewrite ?CH, ?CV.
  - destruct (claims (s_help s) (ptr_of b)); [|split; [reflexivity|]; exists L2; now split]. split; [exact ED|]. exists L'. split; [|exact B]. cbn [fst]. apply like_with_help; [exact A | exact PS | discriminate].
  - destruct (claims (s_version s) (ptr_of b)); [|split; [reflexivity|]; exists L2; now split]. split; [exact ED|]. exists L'. split; [|exact B]. cbn [fst]. apply like_with_version; [exact A | exact PS | discriminate].
Qed.
Lemma like_with_map : forall F L s s' f i i', like_by X Qf Dt F L s s' -> ~ In f X -> assoc f (s_map s) = None -> rel L i i' ->
  like_by X Qf Dt F L (with_map s (s_map s ++ [(f, i)])) (with_map s' (s_map s' ++ [(f, i')])).
Proof.
  intros F L s s' f i i' H NX A R. destruct H. split; try assumption.
  - intros n. cbn. rewrite !assoc_app. specialize (lb_map0 n). cbn [assoc]. destruct (assoc n (s_map s)) eqn:E, (assoc n (s_map s')) eqn:E'; try exact lb_map0; try contradiction.
    + destruct (String.eqb_spec n f) as [->|NE]; [|exact lb_map0]. destruct lb_map0. contradiction.
    + destruct (String.eqb n f); [exact R | exact I].
  - intros n In'. cbn. rewrite assoc_app, (lb_new0 n In'). cbn. destruct (String.eqb_spec n f) as [->|NE]; [contradiction | reflexivity].
Qed.
Lemma meth_like : forall F L s s' q m, like_by X Qf Dt F L s s' -> wf0 s -> wf0 s' -> In q L -> (forall f, In f (meth_names m) -> ~ In f X) -> Dt = false \/ (roleless m /\ nonrole (a_cfg (fst q))) ->
  snd (meth_state m (snd q) s') = snd (meth_state m (fst q) s) /\
  exists L', like_by X Qf Dt F L' (fst (meth_state m (fst q) s)) (fst (meth_state m (snd q) s')) /\ rel L' (a_id (fst q)) (a_id (snd q)).
Proof.
  intros F L s s' q m H W W' Iq NX NR. pose proof (wf_ids _ W) as N. pose proof (wf_ids _ W') as N'.
  destruct (lb_same _ _ _ _ _ _ _ H q Iq) as [G [C D]]. assert (SQ : same (fst q) (snd q)) by now repeat split.
  assert (P : forall c, exists L', like_by X Qf Dt F L' (put (arg_cfg (fst q) c) s) (put (arg_cfg (snd q) c) s') /\ rel L' (a_id (fst q)) (a_id (snd q))).
  { intros c. exists (map (put_pair (arg_cfg (fst q) c) (arg_cfg (snd q) c)) L). split; [|now apply put_in_rel].
    apply (like_put F L s s' H N N' q); [exact Iq | now apply same_cfg | reflexivity | reflexivity]. }
  assert (ST : forall L1 t t' i i', like_by X Qf Dt F L1 t t' -> rel L1 i i' -> exists L', like_by X Qf Dt F L' (resorted t) (resorted t') /\ rel L' i i').
  { intros L1 t t' i i' HL R. exists (sort_by pair_lt L1). split; [now apply like_sort|]. exact (proj1 (rel_In L1 (sort_by pair_lt L1) (fun p => iff_sym (sort_In pair_lt p L1)) i i') R). }
  unfold meth_state. rewrite C. destruct m as [f|act|b|h|x|n|v|p b|d].
  - destruct (is_positional (c_type (a_cfg (fst q)))); [split; [reflexivity|]; exists L; split; [exact H | now apply in_rel]|].
    destruct (validFormatFlag f) as [msg|]; [split; [reflexivity|]; exists L; split; [exact H | now apply in_rel]|].
    assert (NF : ~ In f X) by (apply NX; now left). rewrite (like_mem F L s s' H f NF). destruct (mem_key f (s_map s)) eqn:MK; [split; [reflexivity|]; exists L; split; [exact H | now apply in_rel]|].
    split; [reflexivity|]. destruct (P (cfg_names (a_cfg (fst q)) (sort_flags (c_names (a_cfg (fst q)) ++ [f])))) as [L1 [A B]]. destruct (ST _ _ _ _ _ A B) as [L2 [A2 B2]].
    exists L2. split; [|exact B2]. cbn [fst]. apply mem_key_false in MK. apply (like_with_map F L2 _ _ f _ _ A2 NF); [exact MK | exact B2].
  - assert (HR : like_by X Qf Dt F L (released (fst q) s) (released (snd q) s')).
    { unfold released. rewrite C. destruct (c_action (a_cfg (fst q))); try exact H; [apply like_with_help | apply like_with_version]; try exact H; try exact I; intros _; reflexivity. }
    apply (declared_like F L _ _ q); try assumption; try reflexivity; try now apply same_cfg.
    + unfold released. destruct W. destruct (c_action (a_cfg (fst q))); split; assumption.
    + unfold released. destruct W'. destruct (c_action (a_cfg (snd q))); split; assumption.
    + destruct NR as [T|[RM _]]; [now left | right]. destruct act; try (exfalso; exact RM); split; discriminate.
  - split; [reflexivity|]. destruct (P (cfg_required (a_cfg (fst q)) b)) as [L1 [A B]]. exact (ST _ _ _ _ _ A B).
  - split; [reflexivity | apply P].
  - split; [reflexivity | apply P].
  - apply (declared_like F L _ _ q); try assumption; try reflexivity; [now apply same_cfg|]. destruct NR as [T|[_ NR]]; [now left | now right].
  - destruct (same_defaults _ _ (same_cfg _ _ (cfg_defaults (a_cfg (fst q)) v) SQ)) as [SD ED]. split; [exact ED|]. cbn [fst].
    exists (map (put_pair (fst (defaults_arg (arg_cfg (fst q) (cfg_defaults (a_cfg (fst q)) v)))) (fst (defaults_arg (arg_cfg (snd q) (cfg_defaults (a_cfg (fst q)) v))))) L).
    split; [apply (like_put F L s s' H N N' q); try assumption; now rewrite defaults_arg_id | apply put_in_rel; [exact Iq | now rewrite defaults_arg_id | now rewrite defaults_arg_id]].
  - split; [reflexivity|]. destruct (P (cfg_valid (a_cfg (fst q)) p b)) as [L1 [A B]]. exists L1. split; [|exact B]. now apply like_freed.
  - split; [reflexivity|]. eexists. split; [apply (like_put F L s s' H N N' q); [exact Iq | | reflexivity | reflexivity] | apply put_in_rel; [exact Iq | reflexivity | reflexivity]].
    unfold same. cbn. rewrite G, D. now repeat split.
Qed.
Lemma meths_like : forall ms F L s s' i i', like_by X Qf Dt F L s s' -> wf s -> wf s' -> rel L i i' -> (forall f, In f (flat_map meth_names ms) -> ~ In f X) ->
  Dt = false \/ (Forall roleless ms /\ forall a, In a (s_args s) -> a_id a = i -> nonrole (a_cfg a)) ->
  snd (run_meths i' ms s') = snd (run_meths i ms s) /\ exists L', like_by X Qf Dt F L' (fst (run_meths i ms s)) (fst (run_meths i' ms s')) /\ rel L' i i'.
Proof.
  induction ms as [|m ms IH]; intros F L s s' i i' H W W' R NX NR; [split; [reflexivity|]; exists L; now split|].
  destruct R as [q [Iq [<- <-]]]. pose proof (like_in_l F L s s' H q Iq) as Ia. destruct (like_in_r F L s s' H q Iq) as [Ia' _].
  assert (NM : forall f, In f (meth_names m) -> ~ In f X) by (intros f I; apply NX; cbn; apply in_or_app; now left).
  assert (NXr : forall f, In f (flat_map meth_names ms) -> ~ In f X) by (intros f I; apply NX; cbn; apply in_or_app; now right).
  assert (NR1 : Dt = false \/ (roleless m /\ nonrole (a_cfg (fst q)))). { destruct NR as [T|[A B]]; [now left | right]. inversion_clear A. split; [assumption | now apply B]. }
  assert (NR2 : Dt = false \/ (Forall roleless ms /\ forall a, In a (s_args (fst (meth_state m (fst q) s))) -> a_id a = a_id (fst q) -> nonrole (a_cfg a))).
  { destruct NR as [T|[A B]]; [now left | right]. inversion_clear A as [|? ? A1 A2]. split; [exact A2|]. intros a J E. apply (meth_nonrole m (fst q) s a); try assumption; [now apply B | apply (wf_ids _ (proj1 W))]. }
  destruct (meth_like F L s s' q m H (proj1 W) (proj1 W') Iq NM NR1) as [E [L' [H' R']]].
  destruct (meth_state m (fst q) s) as [s1 e] eqn:M1, (meth_state m (snd q) s') as [s1' e'] eqn:M1'. cbn [fst snd] in *. subst e'.
  pose proof (meth_wf _ _ _ _ _ W Ia M1) as W1. pose proof (meth_wf _ _ _ _ _ W' Ia' M1') as W1'.
  destruct e as [e|].
  - rewrite (stop_meths _ _ _ _ _ _ (proj1 W) Ia M1), (stop_meths _ _ _ _ _ _ (proj1 W') Ia' M1'). split; [reflexivity|]. exists L'. split; [exact H' | exact R'].
  - rewrite (more_meths _ _ _ _ _ (proj1 W) Ia M1), (more_meths _ _ _ _ _ (proj1 W') Ia' M1'). now apply (IH F L').
Qed.

(* ------------------------------------------------------------------ *)
(** * addArgument *)
Definition to_register (ns : list str) (m : list (str * nat)) : exn + acfg :=
  match ns with
  | [] => inl (Exn KArgument "" "invalid empty flag")
  | n :: rest =>
      if (match rest with [] => true | _ => false end) && negb (Ascii.eqb (cget n 0) dash) then
        match n with
        | EmptyString => inl (Exn KArgument "" "bad name argument")
        | String _ _ => if mem_key n m then inl (Exn KArgument n "bad name argument already exist") else inr (positional_cfg n)
        end
      else match add_flags n m ns [] with inl e => inl e | inr flags => inr (option_cfg flags) end
  end.
Lemma addArgument_register : forall ns s, addArgument ns s = match to_register ns (s_map s) with inl e => (s, Throw e) | inr c => register c s end.
Proof.
  intros [|n rest] s; [reflexivity|]. unfold addArgument, to_register. destruct (_ && _).
  - destruct n as [|c r]; [reflexivity|]. unfold bind, get. cbv beta iota. destruct (mem_key _ _); reflexivity.
  - unfold bind, get. cbv beta iota. destruct (add_flags _ _ _ _); reflexivity.
Qed.
Lemma add_flags_mem : forall first m m' flags acc, mem_key first m' = mem_key first m -> add_flags first m' flags acc = add_flags first m flags acc.
Proof. intros first m m' flags. induction flags as [|f r IH]; intros acc E; cbn; [reflexivity|]. rewrite E. destruct (validFormatFlag f); [reflexivity|]. destruct (mem_key first m); [reflexivity|]. now apply IH. Qed.
Lemma to_register_names : forall ns m c, to_register ns m = inr c -> c_names c <> [] /\ forall n, In n (c_names c) -> In n ns.
Proof.
  intros [|n rest] m c E; [discriminate|]. unfold to_register in E. destruct (_ && _) eqn:B.
  - destruct n as [|x r]; [discriminate|]. destruct (mem_key _ _); [discriminate|]. injection E as <-. cbn. split; [discriminate|]. intros k [->|[]]. now left.
  - destruct (add_flags n m (n :: rest) []) as [e|flags] eqn:A; [discriminate|]. injection E as <-. apply add_flags_ok in A. destruct A as [_ [_ [A _]]]. cbn [option_cfg c_names cfg_names].
    split.
    + intros E. assert (I : In n (sort_flags flags)) by (apply sort_flags_In, A; right; now left). rewrite E in I. destruct I.
    + intros k I. apply sort_flags_In, A in I. destruct I as [[]|I]. exact I.
Qed.
Lemma to_register_fresh : forall ns m c, to_register ns m = inr c -> exists n, In n (c_names c) /\ mem_key n m = false.
Proof.
  intros [|n rest] m c E; [discriminate|]. unfold to_register in E. destruct (_ && _) eqn:B.
  - destruct n as [|x r]; [discriminate|]. destruct (mem_key _ _) eqn:K; [discriminate|]. injection E as <-. exists (String x r). split; [now left | exact K].
  - destruct (add_flags n m (n :: rest) []) as [e|flags] eqn:A; [discriminate|]. injection E as <-. apply add_flags_ok in A. destruct A as [K [_ [A _]]]. exists n. split; [|apply K; discriminate].
    apply sort_flags_In, A. right. now left.
Qed.
Lemma register_plain : forall s c, wf0 s -> c_names c <> [] -> register c s = (registered s c, Ok (fresh_id s)).
Proof.
  intros s c W NE. unfold register, bind, get, modify. cbv beta iota zeta.
  match goal with |- context [s_map (with_args s ?l)] => change (s_map (with_args s l)) with (s_map s) end.
  unfold sort_args. cbn [s_args with_map with_args]. rewrite forallb_app, (wf0_has_name s W). cbn [forallb andb].
  assert (HN : has_name (Arg (fresh_id s) 0 c new_dyn) = true) by (unfold has_name; cbn; destruct (c_names c); [congruence | reflexivity]).
  rewrite HN. reflexivity.
Qed.
Lemma fresh_above_args : forall s a, In a (s_args s) -> a_id a < fresh_id s.
Proof. intros s a I. unfold fresh_id. apply le_n_S. apply fold_max_ge. now apply in_map. Qed.
Lemma fold_max_base : forall l b, b <= fold_right Nat.max b l.
Proof. induction l as [|x l IH]; intros b; cbn; [lia|]. specialize (IH b). lia. Qed.
Lemma fresh_above_ptr : forall s q, s_help s = Some q \/ s_version s = Some q -> fst q < fresh_id s.
Proof.
  intros s [i g] H. unfold fresh_id. apply le_n_S. cbn [fst]. etransitivity; [|apply fold_max_base]. destruct H as [H|H]; rewrite H; cbn [opt_id]; lia.
Qed.
Lemma fresh_not_foreign : forall F L s s', like_by X Qf Dt F L s s' -> F (fresh_id s') = false.
Proof. intros F L s s' H. destruct (F (fresh_id s')) eqn:E; [|reflexivity]. apply (lb_live _ _ _ _ _ _ _ H) in E. now apply fresh_id_new in E. Qed.
Lemma rel_app : forall L p i i', rel (L ++ [p]) i i' <-> rel L i i' \/ (i = a_id (fst p) /\ i' = a_id (snd p)).
Proof.
  intros L p i i'. unfold rel. split.
  - intros [q [I [A B]]]. apply in_app_or in I. destruct I as [I|[<-|[]]]; [left; exists q; tauto | right; split; congruence].
  - intros [[q [I [A B]]]|[A B]]; [exists q; split; [apply in_or_app; now left | tauto] | exists p; split; [apply in_or_app; right; now left | split; congruence]].
Qed.
Lemma like_registered : forall F L s s' c, like_by X Qf Dt F L s s' -> (forall n, In n (c_names c) -> ~ In n X) ->
  exists L', like_by X Qf Dt F L' (registered s c) (registered s' c) /\ rel L' (fresh_id s) (fresh_id s').
Proof.
  intros F L s s' c H NX. set (p := (Arg (fresh_id s) 0 c new_dyn, Arg (fresh_id s') 0 c new_dyn)).
  pose proof (fresh_not_foreign F L s s' H) as FF.
  assert (PR : forall x x', (forall q, x = Some q -> fst q < fresh_id s) -> (forall q, x' = Some q -> fst q < fresh_id s') -> ptr_rel L F x x' -> ptr_rel (L ++ [p]) F x x').
  { intros x x' B B' P. destruct x as [q|], x' as [q'|]; try exact P. destruct P as [P1 P2]. split; [|exact P2]. intros i i' g R. apply rel_app in R. destruct R as [R|[-> ->]]; [now apply P1|].
    specialize (B q eq_refl). specialize (B' q' eq_refl). cbn [p fst snd a_id]. split; intros ->; cbn in *; lia. }
  assert (H1 : like_by X Qf Dt F (L ++ [p]) 
     (with_map (with_args s (s_args s ++ [fst p])) (fold_left (fun m n => map_insert n (fresh_id s) m) (c_names c) (s_map s)))
     (with_map (with_args s' (s_args s' ++ [snd p])) (fold_left (fun m n => map_insert n (fresh_id s') m) (c_names c) (s_map s')))).
  { pose proof (fun q (E : s_help s = Some q) => fresh_above_ptr s q (or_introl E)) as BH. pose proof (fun q (E : s_help s' = Some q) => fresh_above_ptr s' q (or_introl E)) as BH'.
    pose proof (fun q (E : s_version s = Some q) => fresh_above_ptr s q (or_intror E)) as BV. pose proof (fun q (E : s_version s' = Some q) => fresh_above_ptr s' q (or_intror E)) as BV'.
    destruct H. split; try assumption.
    - cbn [s_args with_args with_map]. rewrite map_app, lb_l0. reflexivity.
    - cbn [s_args with_args with_map]. unfold own in *. rewrite filter_app, map_app, lb_r0. f_equal. cbn [p snd filter a_id]. rewrite FF. reflexivity.
    - intros q I. apply in_app_or in I. destruct I as [I|[<-|[]]]; [now apply lb_same0 | now repeat split].
    - intros n. cbn [s_map with_args with_map]. rewrite !assoc_insert_fold. specialize (lb_map0 n).
      destruct (assoc n (s_map s)) as [i|], (assoc n (s_map s')) as [i'|]; try contradiction.
      + apply rel_app. now left.
      + destruct (mem_str n (c_names c)) eqn:E; [|exact lb_map0]. apply mem_str_In in E. destruct lb_map0 as [A _]. now apply NX in E.
      + destruct (mem_str n (c_names c)); [|exact I]. apply rel_app. right. now split.
    - intros n I. cbn [s_map with_args with_map]. rewrite assoc_insert_fold, (lb_new0 n I). destruct (mem_str n (c_names c)) eqn:E; [|reflexivity]. apply mem_str_In in E. now apply NX in E.
    - cbn [s_args with_args with_map]. intros b I Fb. apply in_app_or in I. destruct I as [I|[<-|[]]]; [now apply lb_foreign0|]. cbn [p snd a_id] in Fb. congruence.
    - cbn [s_args with_args with_map]. intros i Fi. rewrite map_app. apply in_or_app. left. now apply lb_live0.
    - cbn. now apply PR.
    - cbn. now apply PR. }
  exists (sort_by pair_lt (L ++ [p])). split; [exact (like_sort _ _ _ _ H1)|].
  apply (proj1 (rel_In (L ++ [p]) (sort_by pair_lt (L ++ [p])) (fun q => iff_sym (sort_In pair_lt q (L ++ [p]))) _ _)). apply rel_app. right. now split.
Qed.
Lemma add_like : forall F L s s' ns, like_by X Qf Dt F L s s' -> wf s -> wf s' -> (forall n, In n ns -> ~ In n X) ->
  to_register ns (s_map s') = to_register ns (s_map s) /\
  ((exists e, addArgument ns s = (s, Throw e) /\ addArgument ns s' = (s', Throw e) /\ to_register ns (s_map s) = inl e) \/
  exists L', addArgument ns s = (fst (addArgument ns s), Ok (fresh_id s)) /\ addArgument ns s' = (fst (addArgument ns s'), Ok (fresh_id s')) /\
     like_by X Qf Dt F L' (fst (addArgument ns s)) (fst (addArgument ns s')) /\ rel L' (fresh_id s) (fresh_id s')).
Proof.
  intros F L s s' ns H W W' NX. assert (E : to_register ns (s_map s') = to_register ns (s_map s)).
  { destruct ns as [|n rest]; [reflexivity|]. assert (M : mem_key n (s_map s') = mem_key n (s_map s)) by (apply (like_mem F L s s' H); apply NX; now left).
    unfold to_register. rewrite M. rewrite (add_flags_mem n (s_map s) (s_map s') _ [] M). reflexivity. }
  split; [exact E|]. rewrite !addArgument_register, E. destruct (to_register ns (s_map s)) as [e|c] eqn:T; [left; exists e; now split|]. right.
  destruct (to_register_names _ _ _ T) as [NE NI]. rewrite (register_plain s c (proj1 W) NE), (register_plain s' c (proj1 W') NE).
  destruct (like_registered F L s s' c H) as [L' [A B]]; [intros n I; apply NX; now apply NI|]. exists L'. split; [reflexivity|]. split; [reflexivity|]. now split.
Qed.

(* ------------------------------------------------------------------ *)
(** * removeArguments *)
Lemma filter_map_comm : forall {A B} (f : A -> B) (g : B -> bool) l, filter g (map f l) = map f (filter (fun x => g (f x)) l).
Proof. intros A B f g l. induction l as [|x l IH]; cbn; [reflexivity|]. destruct (g (f x)); cbn; now rewrite IH. Qed.
Lemma still_named : forall m n id, NoDup (map fst m) -> existsb (fun kv => Nat.eqb (snd kv) id) (del_key n m) = true <-> exists k, k <> n /\ assoc k m = Some id.
Proof.
  intros m n id ND. rewrite existsb_exists. split.
  - intros [[k v] [I E]]. apply del_key_In in I. destruct I as [I NE]. apply Nat.eqb_eq in E. cbn in *. subst v. exists k. split; [exact NE | now apply In_assoc].
  - intros [k [NE A]]. exists (k, id). split; [apply del_key_In; split; [now apply assoc_In | exact NE] | apply Nat.eqb_refl].
Qed.
Lemma like_del : forall F L s s' n, like_by X Qf Dt F L s s' -> ~ In n X -> like_by X Qf Dt F L (with_map s (del_key n (s_map s))) (with_map s' (del_key n (s_map s'))).
Proof.
  intros F L s s' n H NX. destruct H. split; try assumption.
  - intros k. cbn. rewrite !assoc_del. destruct (String.eqb k n); [exact I | apply lb_map0].
  - intros k Ik. cbn. rewrite assoc_del. destruct (String.eqb k n); [reflexivity | now apply lb_new0].
Qed.
Lemma removed_like : forall F L s s' n q, like_by X Qf Dt F L s s' -> wf0 s -> wf0 s' -> In q L -> ~ In n X ->
  assoc n (s_map s) = Some (a_id (fst q)) -> assoc n (s_map s') = Some (a_id (snd q)) ->
  exists L', like_by X Qf Dt F L' (removed s n (fst q)) (removed s' n (snd q)).
Proof.
  intros F L s s' n q H W W' Iq NX A A'. pose proof (wf_ids _ W) as N. pose proof (wf_ids _ W') as N'.
  pose proof (like_in_l F L s s' H q Iq) as Ia. destruct (like_in_r F L s s' H q Iq) as [Ia' Fq].
  assert (EX : existsb (fun kv => Nat.eqb (snd kv) (a_id (snd q))) (del_key n (s_map s')) = existsb (fun kv => Nat.eqb (snd kv) (a_id (fst q))) (del_key n (s_map s))).
  { pose proof (still_named (s_map s) n (a_id (fst q)) (wf_keys _ W)) as E1. pose proof (still_named (s_map s') n (a_id (snd q)) (wf_keys _ W')) as E2.
    assert (E : (exists k, k <> n /\ assoc k (s_map s') = Some (a_id (snd q))) <-> (exists k, k <> n /\ assoc k (s_map s) = Some (a_id (fst q)))).
    { split; intros [k [NE K]]; exists k; (split; [exact NE|]); pose proof (lb_map _ _ _ _ _ _ _ H k) as M; rewrite K in M.
      - destruct (assoc k (s_map s)) as [i|] eqn:E; [|destruct M; congruence]. f_equal. apply (rel_inj F L s s' H N N' _ _ _ _ M (in_rel L q Iq)). reflexivity.
      - destruct (assoc k (s_map s')) as [i|] eqn:E; [|contradiction]. f_equal. apply (rel_inj F L s s' H N N' _ _ _ _ M (in_rel L q Iq)). reflexivity. }
    destruct (existsb _ (del_key n (s_map s'))), (existsb _ (del_key n (s_map s))); try reflexivity; exfalso.
    - assert (X1 : false = true) by (apply E1, E, E2; reflexivity). discriminate.
    - assert (X1 : false = true) by (apply E2, E, E1; reflexivity). discriminate. }
  destruct (lb_same _ _ _ _ _ _ _ H q Iq) as [G [C D]]. assert (SQ : same (fst q) (snd q)) by now repeat split.
  unfold removed. cbv zeta. rewrite EX. destruct (existsb _ (del_key n (s_map s))) eqn:B.
  - assert (P1 : with_args s (upd_id (a_id (fst q)) (fun x => arg_cfg x (cfg_names (a_cfg x) (remove_first n (c_names (a_cfg x))))) (s_args s)) =
        put (arg_cfg (fst q) (cfg_names (a_cfg (fst q)) (remove_first n (c_names (a_cfg (fst q)))))) s).
    { apply (put_upd s (a_id (fst q)) (fun x => arg_cfg x (cfg_names (a_cfg x) (remove_first n (c_names (a_cfg x))))) (fst q) N); [now apply In_find_id | reflexivity]. }
    assert (P2 : with_args s' (upd_id (a_id (snd q)) (fun x => arg_cfg x (cfg_names (a_cfg x) (remove_first n (c_names (a_cfg x))))) (s_args s')) =
        put (arg_cfg (snd q) (cfg_names (a_cfg (snd q)) (remove_first n (c_names (a_cfg (snd q)))))) s').
    { apply (put_upd s' (a_id (snd q)) (fun x => arg_cfg x (cfg_names (a_cfg x) (remove_first n (c_names (a_cfg x))))) (snd q) N'); [now apply In_find_id | reflexivity]. }
    rewrite P1, P2, C. eexists. apply (like_del F _ (put _ s) (put _ s') n); [|exact NX].
    apply (like_put F L s s' H N N' q); [exact Iq | now apply same_cfg | reflexivity | reflexivity].
  - destruct (like_claims F L s s' H q Iq) as [_ [OH OV]]. rewrite OH, OV, C.
    set (keep := fun p : argument * argument => negb (Nat.eqb (a_id (fst p)) (a_id (fst q)))).
    assert (RS : forall i i', rel (filter keep L) i i' -> rel L i i').
    { intros i i' [p [I R]]. apply filter_In in I. exists p. split; [apply I | exact R]. }
    assert (PR : forall x x', ptr_rel L F x x' -> ptr_rel (filter keep L) F x x').
    { intros [x|] [x'|] P; try exact P. destruct P as [P1 P2]. split; [|exact P2]. intros i i' g R. apply P1. now apply RS. }
    pose proof (like_eqb F L s s' H N N') as LE.
    assert (H1 : like_by X Qf Dt F (filter keep L) (with_map (with_args s (filter (fun b => negb (Nat.eqb (a_id b) (a_id (fst q)))) (s_args s))) (del_key n (s_map s)))
        (with_map (with_args s' (filter (fun b => negb (Nat.eqb (a_id b) (a_id (snd q)))) (s_args s'))) (del_key n (s_map s')))).
    { assert (NM : forall k, k <> n -> assoc k (s_map s) <> Some (a_id (fst q))).
      { intros k NE K. assert (Y : false = true) by (rewrite <- B; apply (still_named (s_map s) n _ (wf_keys _ W)); now exists k). discriminate. }
      pose proof (rel_inj F L s s' H N N') as RI. destruct H. split; try assumption.
      - cbn. rewrite lb_l0. rewrite filter_map_comm. reflexivity.
      - cbn. unfold own in *. rewrite filter_comm, lb_r0, filter_map_comm. f_equal. apply filter_ext_in. intros p Ip. unfold keep. now rewrite (LE p q Ip Iq).
      - intros p I. apply filter_In in I. now apply lb_same0.
      - intros k. cbn. rewrite !assoc_del. destruct (String.eqb_spec k n) as [->|NE]; [exact I|]. specialize (lb_map0 k). destruct (assoc k (s_map s)) as [i|] eqn:E, (assoc k (s_map s')) as [i'|]; try exact lb_map0.
        destruct lb_map0 as [p [Ip [E1 E2]]]. exists p. split; [|now split]. apply filter_In. split; [exact Ip|]. unfold keep. apply negb_true_iff, Nat.eqb_neq. intros EQ. apply (NM k NE). congruence.
      - intros k Ik. cbn. rewrite assoc_del. destruct (String.eqb k n); [reflexivity | now apply lb_new0].
      - cbn. intros b I. apply filter_In in I. now apply lb_foreign0.
      - cbn. intros i Fi. pose proof (lb_live0 i Fi) as I. apply in_map_iff in I. destruct I as [b [E I]]. apply in_map_iff. exists b. split; [exact E|]. apply filter_In. split; [exact I|].
        apply negb_true_iff, Nat.eqb_neq. congruence.
      - cbn. now apply PR.
      - cbn. now apply PR. }
    exists (filter keep L). apply like_freed. destruct (optr_eqb (s_help s) (ptr_of (fst q))); [apply like_with_help; [exact H1 | exact Logic.I | reflexivity]|].
    destruct (optr_eqb (s_version s) (ptr_of (fst q))); [apply like_with_version; [exact H1 | exact Logic.I | reflexivity] | exact H1].
Qed.
Lemma remove_loop_like : forall l F L s s', like_by X Qf Dt F L s s' -> wf0 s -> wf0 s' -> (forall n, In n l -> ~ In n X) ->
  snd (remove_loop l s') = snd (remove_loop l s) /\ (snd (remove_loop l s) = Ok tt -> wf0 (fst (remove_loop l s)) /\ wf0 (fst (remove_loop l s')) /\ exists L', like_by X Qf Dt F L' (fst (remove_loop l s)) (fst (remove_loop l s'))).
Proof.
  induction l as [|n l IH]; intros F L s s' H W W' NX; [split; [reflexivity|]; intros _; split; [exact W|]; split; [exact W' | now exists L]|].
  assert (NN : ~ In n X) by (apply NX; now left). cbn [remove_loop]. destruct (like_find_name F L s s' H n NN) as [[A A']|[q [Iq [A A']]]].
  - assert (U : forall t, assoc n (s_map t) = None -> (remove_one n ;;; remove_loop l) t = (t, UB)).
    { intros t E. unfold bind, remove_one, find_name. unfold bind. rewrite E. reflexivity. }
    rewrite (U s A), (U s' A'). split; [reflexivity | discriminate].
  - pose proof (like_in_l F L s s' H q Iq) as Ia. destruct (like_in_r F L s s' H q Iq) as [Ia' _].
    destruct (remove_one_eq s n (fst q) W A Ia) as [R W1]. destruct (remove_one_eq s' n (snd q) W' A' Ia') as [R' W1'].
    rewrite (bind_ok _ _ _ _ _ R), (bind_ok _ _ _ _ _ R'). destruct (removed_like F L s s' n q H W W' Iq NN A A') as [L1 H1].
    apply (IH F L1); try assumption. intros k I. apply NX. now right.
Qed.
Lemma remove_like : forall l F L s s', like_by X Qf Dt F L s s' -> wf s -> wf s' -> (forall n, In n l -> ~ In n X) ->
  snd (removeArguments l s') = snd (removeArguments l s) /\ (completed (snd (removeArguments l s)) -> exists L', like_by X Qf Dt F L' (fst (removeArguments l s)) (fst (removeArguments l s'))).
Proof.
  intros l F L s s' H [W _] [W' _] NX. destruct l as [|n0 l0]; [split; [reflexivity|]; intros _; now exists L|]. set (l := n0 :: l0) in *.
  assert (FE : find (fun n => negb (mem_key n (s_map s'))) l = find (fun n => negb (mem_key n (s_map s))) l).
  { clearbody l. induction l as [|n r IH]; [reflexivity|]. cbn. rewrite (like_mem F L s s' H n) by (apply NX; now left). destruct (negb _); [reflexivity|]. apply IH. intros k I. apply NX. now right. }
  assert (RA : forall t, removeArguments l t = match find (fun n => negb (mem_key n (s_map t))) l with Some n => (t, Throw (Exn KArgument n "argument not found")) | None => (remove_loop l ;;; sort_args) t end).
  { intros t. unfold removeArguments, l, bind at 1, get. cbv beta iota. destruct (find (fun n => negb (mem_key n (s_map t))) (n0 :: l0)); reflexivity. }
  rewrite !RA, FE. destruct (find (fun n => negb (mem_key n (s_map s))) l); [split; [reflexivity|]; intros _; now exists L|].
  destruct (remove_loop_like l F L s s' H W W' NX) as [E1 E2]. destruct (remove_loop l s) as [s1 r] eqn:R1, (remove_loop l s') as [s1' r'] eqn:R1'. cbn [fst snd] in *. subst r'.
  destruct r as [[]|e|o| |].
  - destruct (E2 eq_refl) as [W1 [W1' [L1 H1]]]. rewrite (bind_ok _ _ _ _ _ R1), (bind_ok _ _ _ _ _ R1'), (sort_args_ok _ W1), (sort_args_ok _ W1'). split; [reflexivity|]. intros _. eexists. exact (like_sort _ _ _ _ H1).
  - exfalso. destruct (remove_loop_cases l s W) as [s2 [_ [E|E]]]; congruence.
  - exfalso. destruct (remove_loop_cases l s W) as [s2 [_ [E|E]]]; congruence.
  - unfold bind. rewrite R1, R1'. split; [reflexivity | intros []].
  - exfalso. destruct (remove_loop_cases l s W) as [s2 [_ [E|E]]]; congruence.
Qed.

(* ------------------------------------------------------------------ *)
(** * every call but parseArguments *)
Lemma to_register_nonrole : forall ns m c, to_register ns m = inr c -> nonrole c.
Proof.
  intros [|n rest] m c E; [discriminate|]. unfold to_register in E. destruct (_ && _).
  - destruct n as [|x r]; [discriminate|]. destruct (mem_key _ _); [discriminate|]. injection E as <-. split; discriminate.
  - destruct (add_flags n m (n :: rest) []); [discriminate|]. injection E as <-. split; discriminate.
Qed.
Lemma registered_In : forall s c x, In x (s_args (registered s c)) -> In x (s_args s) \/ x = Arg (fresh_id s) 0 c new_dyn.
Proof.
  intros s c x I. unfold registered in I. cbn [s_args with_args with_map] in I. apply (proj1 (sort_In _ _ _)) in I. apply in_app_or in I. destruct I as [I|[<-|[]]]; [now left | now right].
Qed.
Lemma add_nonrole : forall ns s, wf s -> forall i, snd (addArgument ns s) = Ok i -> forall a, In a (s_args (fst (addArgument ns s))) -> a_id a = i -> nonrole (a_cfg a).
Proof.
  intros ns s W i E a I Ea. rewrite addArgument_register in E, I. destruct (to_register ns (s_map s)) as [e|c] eqn:T; [discriminate|].
  rewrite (register_plain s c (proj1 W) (proj1 (to_register_names _ _ _ T))) in E, I. cbn [fst snd] in E, I. apply registered_In in I. destruct I as [I| ->]; [|exact (to_register_nonrole _ _ _ T)].
  exfalso. apply fresh_above_args in I. injection E as E. lia.
Qed.
Lemma add_step_like : forall F L s s' ns ms, like_by X Qf Dt F L s s' -> wf s -> wf s' -> (forall n, In n (op_names (OpAdd ns ms)) -> ~ In n X) ->
  Dt = false \/ Forall roleless ms ->
  snd (step (OpAdd ns ms) s') = snd (step (OpAdd ns ms) s) /\
  exists L', like_by X Qf Dt F L' (fst (step (OpAdd ns ms) s)) (fst (step (OpAdd ns ms) s')) /\
    to_register ns (s_map s') = to_register ns (s_map s) /\ forall c, to_register ns (s_map s) = inr c -> rel L' (fresh_id s) (fresh_id s').
Proof.
  intros F L s s' ns ms H W W' NX NR. cbn [step op_names] in *.
  assert (N1 : forall n, In n ns -> ~ In n X) by (intros n I; apply NX, in_or_app; now left). assert (N2 : forall f, In f (flat_map meth_names ms) -> ~ In f X) by (intros n I; apply NX, in_or_app; now right).
  destruct (add_like F L s s' ns H W W' N1) as [TR [[e [E [E' TE]]]|[L' [E [E' [H' R']]]]]].
  - rewrite (bind_throw _ _ _ _ _ E), (bind_throw _ _ _ _ _ E'). split; [reflexivity|]. exists L. split; [exact H|]. split; [exact TR|]. intros c. rewrite TE. discriminate.
  - assert (NR1 : Dt = false \/ (Forall roleless ms /\ forall a, In a (s_args (fst (addArgument ns s))) -> a_id a = fresh_id s -> nonrole (a_cfg a))).
    { destruct NR as [T|R]; [now left | right]. split; [exact R|]. apply (add_nonrole ns s W). rewrite E. reflexivity. }
    rewrite (bind_ok _ _ _ _ _ E), (bind_ok _ _ _ _ _ E'). destruct (meths_like ms F L' _ _ _ _ H' (wf_addArgument ns s W) (wf_addArgument ns s' W') R' N2 NR1) as [A [L2 [B R2]]].
    split; [exact A|]. exists L2. split; [exact B|]. split; [exact TR|]. intros _ _. exact R2.
Qed.
Lemma step_like : forall o F L s s', like_by X Qf Dt F L s s' -> wf s -> wf s' -> (forall argv, o <> OpParse argv) -> (forall n, In n (op_names o) -> ~ In n X) ->
  Dt = false \/ (exists ns ms, o = OpAdd ns ms /\ Forall roleless ms) ->
  snd (step o s') = snd (step o s) /\ (completed (snd (step o s)) -> exists F' L', like_by X Qf Dt F' L' (fst (step o s)) (fst (step o s')) /\ forall i, F' i = true -> F i = true).
Proof.
  intros o F L s s' H W W' NP NX DR. destruct o as [ns ms|n ms|ns| |argv|v|b|b|b|b|b|u|d|e|p a sp h]; cbn [step op_names] in *;
    try (exfalso; eapply NP; reflexivity);
    try (split; [reflexivity|]; intros _; exists F, L; split; [destruct H; split; cbn; try assumption; congruence | trivial]).
  - assert (NR : Dt = false \/ Forall roleless ms). { destruct DR as [T|[ns0 [ms0 [EQ R]]]]; [now left | right]. injection EQ as <- <-. exact R. }
    destruct (add_step_like F L s s' ns ms H W W' NX NR) as [A [L' [B _]]]. split; [exact A|]. intros _. exists F, L'; split; [assumption | trivial].
  - assert (N1 : ~ In n X) by (apply NX; now left). assert (N2 : forall f, In f (flat_map meth_names ms) -> ~ In f X) by (intros k I; apply NX; now right).
    destruct (like_find_name F L s s' H n N1) as [[A A']|[q [Iq [A A']]]].
    + assert (U : forall t, assoc n (s_map t) = None -> updateArgument n t = (t, Throw (Exn KAccess n "argument not found"))).
      { intros t E. unfold updateArgument, bind, find_name. rewrite E. reflexivity. }
      rewrite (bind_throw _ _ _ _ _ (U s A)), (bind_throw _ _ _ _ _ (U s' A')). split; [reflexivity|]. intros _. exists F, L; split; [assumption | trivial].
    + assert (U : forall t a, NoDup (map a_id (s_args t)) -> In a (s_args t) -> assoc n (s_map t) = Some (a_id a) -> updateArgument n t = (t, Ok (a_id a))).
      { intros t a ND I E. unfold updateArgument, bind, find_name, deref. rewrite E, (In_find_id _ _ ND I). reflexivity. }
      rewrite (bind_ok _ _ _ _ _ (U s (fst q) (wf_ids _ (proj1 W)) (like_in_l F L s s' H q Iq) A)), (bind_ok _ _ _ _ _ (U s' (snd q) (wf_ids _ (proj1 W')) (proj1 (like_in_r F L s s' H q Iq)) A')).
      assert (T : Dt = false) by (destruct DR as [T|[ns0 [ms0 [EQ _]]]]; [exact T | discriminate]).
      destruct (meths_like ms F L _ _ _ _ H W W' (in_rel L q Iq) N2 (or_introl T)) as [B [L2 [C _]]]. split; [exact B|]. intros _. exists F, L2; split; [assumption | trivial].
  - destruct (remove_like ns F L s s' H W W' NX) as [A B]. split; [exact A|]. intros C. destruct (B C) as [L' H']. exists F, L'; split; [assumption | trivial].
  - split; [reflexivity|]. intros _. exists (fun _ => false), []. split; [|discriminate]. destruct H. split; cbn; try reflexivity; try exact lb_dlog0; try (intros; contradiction); try discriminate; try (intros _; now split); intros n; exact I.
Qed.
End Like.
