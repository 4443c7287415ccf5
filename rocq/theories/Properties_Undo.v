(** Properties_Undo.v -- C66: removeArguments undoes addArgument. *)
From Coq Require Import Permutation Sorted.
From Verif Require Import Base Model_Utils Model_Number Model_Types Model_Argument Model_Usage Model_Args Model_Api
  Spec_Order Spec_Names Spec_Reading Spec_Parse Spec_Decl Spec_Finish Spec_History Spec_Api Spec_Result
  Proofs_Base Proofs_Order Proofs_Frame Proofs_Inv Proofs_Reading Proofs_Parse Proofs_Decl Proofs_Meth Proofs_Names
  Proofs_Redecl Proofs_Like Proofs_Check Properties_Roles.

(** the validators handed over to the library by a chain of methods, in order *)
Definition handed_by (m : meth) : list nat :=
  match m with MValid (Some v) true => [v_id v] | _ => [] end.
Definition handed (ms : list meth) : list nat := flat_map handed_by ms.

Definition other (id : nat) (b : argument) : bool := negb (Nat.eqb (a_id b) id).
Definition elsewhere (id : nat) (kv : str * nat) : bool := negb (Nat.eqb (snd kv) id).

(** [t] is [s] with one more argument, [a], which owns all its names *)
Record extra (s t : state) (a : argument) (fr : list nat) : Prop := {
  ex_wf : wf t;
  ex_in : In a (s_args t);
  ex_args : filter (other (a_id a)) (s_args t) = s_args s;
  ex_map : filter (elsewhere (a_id a)) (s_map t) = s_map s;
  ex_nodup : NoDup (c_names (a_cfg a));
  ex_names : forall n, In n (c_names (a_cfg a)) -> assoc n (s_map t) = Some (a_id a);
  ex_freed : s_freed t ++ owned (a_cfg a) = s_freed s ++ fr;
  ex_rest : same_settings s t
}.
(** its roles *)
Definition extra_roles (s t : state) (a : argument) : Prop :=
  ((getAction a = HELP /\ s_help s = None /\ s_help t = Some (ptr_of a)) \/ (getAction a <> HELP /\ s_help t = s_help s)) /\
  ((getAction a = VERSION /\ s_version s = None /\ s_version t = Some (ptr_of a)) \/ (getAction a <> VERSION /\ s_version t = s_version s)).

Lemma filter_put : forall id b s, a_id b = id -> filter (other id) (s_args (put b s)) = filter (other id) (s_args s).
Proof.
  intros id b s <-. unfold put. cbn [s_args with_args]. unfold upd_id.
  induction (s_args s) as [|x l IH]; cbn; [reflexivity|].
  destruct (Nat.eqb_spec (a_id x) (a_id b)) as [E|E].
  - unfold other at 1. rewrite Nat.eqb_refl. cbn. unfold other at 2. rewrite E, Nat.eqb_refl. exact IH.
  - destruct (other (a_id b) x); [now f_equal | exact IH].
Qed.
Lemma filter_resorted : forall id s t, filter (other id) (s_args t) = s_args s -> listed_sorted s ->
  filter (other id) (s_args (resorted t)) = s_args s.
Proof.
  intros id s t E L. unfold resorted. cbn [s_args with_args]. rewrite sort_filter, E. now apply sort_id.
Qed.

(** a change of [a] that keeps its names and its validator *)
Lemma extra_put : forall s t a b fr t', extra s t a fr -> wf t' -> a_id b = a_id a ->
  c_names (a_cfg b) = c_names (a_cfg a) -> owned (a_cfg b) = owned (a_cfg a) ->
  s_args t' = s_args (put b t) -> s_map t' = s_map t -> s_freed t' = s_freed t -> same_settings t t' ->
  extra s t' b fr.
Proof.
  intros s t a b fr t' X W ID N O EA EM EF ST. destruct X as [X1 X2 X3 X4 X5 X6 X9 X10].
  constructor.
  - exact W.
  - rewrite EA. apply (put_In_self b t a X2). congruence.
  - rewrite EA, filter_put by reflexivity. rewrite ID. exact X3.
  - rewrite ID, EM. exact X4.
  - rewrite N. exact X5.
  - intros n I. rewrite N in I. rewrite ID, EM. exact (X6 n I).
  - rewrite O, EF. exact X9.
  - destruct X10 as [S1 [S2 [S3 [S4 [S5 S6]]]]], ST as [T1 [T2 [T3 [T4 [T5 T6]]]]]. unfold same_settings.
    repeat split; congruence.
Qed.
Lemma defaults_arg_keeps : forall a, ptr_of (fst (defaults_arg a)) = ptr_of a /\ c_names (a_cfg (fst (defaults_arg a))) = c_names (a_cfg a) /\
  getAction (fst (defaults_arg a)) = getAction a /\ owned (a_cfg (fst (defaults_arg a))) = owned (a_cfg a).
Proof.
  intros a. unfold defaults_arg. destruct (no_defaults (a_cfg a)); [repeat split|].
  destruct (size_fits _ _); [|repeat split]. cbn [fst]. unfold defaulted. destruct (c_type (a_cfg a)); repeat split.
Qed.
Lemma option_kind_help : forall act n k, k = option_kind act n -> n <> 0%N ->
  (fst (fst k) = HELP_OPTION <-> act = HELP) /\ (fst (fst k) = VERSION_OPTION <-> act = VERSION).
Proof.
  intros act n k -> N. unfold option_kind. apply N.eqb_neq in N. rewrite N.
  destruct act; repeat match goal with |- context [if ?b then _ else _] => destruct b end; cbn; split; split; congruence.
Qed.

(** what declaring does: the argument, the roles *)
Lemma declared_cases : forall b t t', declared b t = (t', None) ->
  exists k, kind_of (a_cfg b) = Some k /\
  let d := fst (defaults_arg (arg_cfg b (retyped (a_cfg b) k))) in
  match fst (fst k) with
  | HELP_OPTION => claims (s_help t) (ptr_of b) = true /\ t' = with_help (put d t) (Some (ptr_of b))
  | VERSION_OPTION => claims (s_version t) (ptr_of b) = true /\ t' = with_version (put d t) (Some (ptr_of b))
  | _ => t' = put d t
  end.
Proof.
  intros b t t' E. unfold declared in E. cbv zeta in E. destruct (kind_of (a_cfg b)) as [k|]; [|discriminate]. exists k. split; [reflexivity|].
  cbv zeta. destruct (fst (fst k)); try (injection E as <- _; reflexivity).
  - destruct (claims (s_help t) (ptr_of b)); [|discriminate]. injection E as <- _. auto.
  - destruct (claims (s_version t) (ptr_of b)); [|discriminate]. injection E as <- _. auto.
Qed.
Lemma kind_action : forall c k, kind_of c = Some k ->
  (snd k = HELP <-> c_action c = HELP) /\ (snd k = VERSION <-> c_action c = VERSION) /\
  (fst (fst k) = HELP_OPTION -> c_action c = HELP) /\ (fst (fst k) = VERSION_OPTION -> c_action c = VERSION) /\
  (c_action c = HELP -> c_nargs c <> 0%N -> fst (fst k) = HELP_OPTION) /\
  (c_action c = VERSION -> c_nargs c <> 0%N -> fst (fst k) = VERSION_OPTION).
Proof.
  intros c k E. unfold kind_of in E. destruct (is_positional (c_type c)).
  - unfold positional_kind in E. destruct (c_action c); try discriminate;
      repeat match type of E with context [if ?b then _ else _] => destruct b end; inversion E; subst k; cbn; repeat split; intros; congruence.
  - injection E as <-. unfold option_kind. destruct (N.eqb_spec (c_nargs c) 0) as [Z|Z]; [cbn; repeat split; intros; congruence|].
    destruct (c_action c); repeat match goal with |- context [if ?b then _ else _] => destruct b end; cbn; repeat split; intros; congruence.
Qed.

(** declaring: the argument becomes [d], the roles follow its action *)
Lemma declared_extra : forall s t t0 t' a b fr, extra s t a fr -> wf t' -> declared b t0 = (t', None) ->
  ptr_of b = ptr_of a -> c_names (a_cfg b) = c_names (a_cfg a) -> owned (a_cfg b) = owned (a_cfg a) ->
  s_args t0 = s_args t -> s_map t0 = s_map t -> s_freed t0 = s_freed t -> same_settings t t0 ->
  exists d, extra s t' d fr /\ ptr_of d = ptr_of a /\
   (getAction b <> HELP -> getAction d <> HELP /\ s_help t' = s_help t0) /\
   (getAction b = HELP -> getAction d = HELP /\ (getNargs b <> 0%N \/ s_help t0 = Some (ptr_of a) -> s_help t' = Some (ptr_of a))) /\
   (getAction b <> VERSION -> getAction d <> VERSION /\ s_version t' = s_version t0) /\
   (getAction b = VERSION -> getAction d = VERSION /\ (getNargs b <> 0%N \/ s_version t0 = Some (ptr_of a) -> s_version t' = Some (ptr_of a))).
Proof.
  intros s t t0 t' a b fr X W D P N O EA EM EF ST. destruct (declared_cases b t0 t' D) as [k [K H]]. cbv zeta in H.
  set (d := fst (defaults_arg (arg_cfg b (retyped (a_cfg b) k)))) in *. exists d.
  destruct (defaults_arg_keeps (arg_cfg b (retyped (a_cfg b) k))) as [K1 [K2 [K3 K4]]]. fold d in K1, K2, K3, K4.
  assert (R : ptr_of d = ptr_of a /\ c_names (a_cfg d) = c_names (a_cfg a) /\ owned (a_cfg d) = owned (a_cfg a) /\ getAction d = snd k).
  { destruct k as [[ty nn] ac]. rewrite K1, K2, K3, K4. cbn. repeat split; assumption. }
  destruct R as [R1 [R2 [R3 R4]]]. destruct (kind_action _ _ K) as [Q1 [Q2 [Q3 [Q4 [Q5 Q6]]]]].
  assert (ID : a_id d = a_id a) by (injection R1; auto).
  assert (V : s_args t' = s_args (put d t) /\ s_map t' = s_map t0 /\ s_freed t' = s_freed t0 /\ same_settings t0 t').
  { assert (PA : s_args (put d t0) = s_args (put d t)) by (unfold put; cbn [s_args with_args]; now rewrite EA).
    destruct (fst (fst k)); try (subst t'; repeat split; exact PA); destruct H as [_ ->]; repeat split; exact PA. }
  destruct V as [V1 [V2 [V3 V4]]].
  split; [|split; [exact R1|]].
  - apply (extra_put s t a d fr t' X W ID R2 R3 V1); [congruence | congruence|].
    destruct ST as [S1 [S2 [S3 [S4 [S5 S6]]]]], V4 as [T1 [T2 [T3 [T4 [T5 T6]]]]]. unfold same_settings. repeat split; congruence.
  - rewrite R4. clear -H Q1 Q2 Q3 Q4 Q5 Q6 P. split; [|split; [|split]].
    + intros NH. split; [rewrite Q1; exact NH|]. destruct (fst (fst k)); try (rewrite H; reflexivity); [now elim NH; apply Q3|]. destruct H as [_ ->]. reflexivity.
    + intros EH. split; [apply Q1; exact EH|]. intros OR. specialize (Q5 EH). rewrite <- P. rewrite <- P in OR.
      assert (Q4' : fst (fst k) <> VERSION_OPTION) by (intros Z; specialize (Q4 Z); congruence).
      destruct (fst (fst k)); try (destruct OR as [OR|OR]; [specialize (Q5 OR); discriminate|]; rewrite H; exact OR); [|congruence].
      destruct H as [_ ->]. reflexivity.
    + intros NV. split; [rewrite Q2; exact NV|]. destruct (fst (fst k)); try (rewrite H; reflexivity); [|now elim NV; apply Q4]. destruct H as [_ ->]. reflexivity.
    + intros EV. split; [apply Q2; exact EV|]. intros OR. specialize (Q6 EV). rewrite <- P. rewrite <- P in OR.
      assert (Q3' : fst (fst k) <> HELP_OPTION) by (intros Z; specialize (Q3 Z); congruence).
      destruct (fst (fst k)); try (destruct OR as [OR|OR]; [specialize (Q6 OR); discriminate|]; rewrite H; exact OR); [congruence|].
      destruct H as [_ ->]. reflexivity.
Qed.

Lemma sort_flags_perm : forall l, Permutation (sort_flags l) l.
Proof. intros l. symmetry. apply sort_perm. Qed.

(** each method keeps [extra] *)
Lemma meth_extra : forall m s t a fr t1, wf s -> extra s t a fr -> extra_roles s t a -> p_meth one_each m a t ->
  meth_state m a t = (t1, None) -> wf t1 -> exists a1, a_id a1 = a_id a /\ extra s t1 a1 (fr ++ handed_by m) /\ extra_roles s t1 a1.
Proof.
  intros m s t a fr t1 Ws X RO P E W1. pose proof (ex_wf _ _ _ _ X) as W.
  assert (SS : forall u, same_settings u u) by (intros; repeat split).
  destruct m; cbn [meth_state] in E; cbv zeta in E; unfold handed_by; cbv beta iota.
  - (* flag *)
    destruct (is_positional (c_type (a_cfg a))); [discriminate|]. destruct (validFormatFlag f); [discriminate|].
    destruct (mem_key f (s_map t)) eqn:MK; [discriminate|]. injection E as <-.
    set (b := arg_cfg a (cfg_names (a_cfg a) (sort_flags (c_names (a_cfg a) ++ [f])))) in *.
    exists b. split; [reflexivity|]. split; [|exact RO].
    destruct X as [X1 X2 X3 X4 X5 X6 X9 X10]. apply mem_key_false in MK. constructor.
    + exact W1.
    + cbn [s_args with_map resorted with_args]. apply sort_In. apply (put_In_self b t a X2 eq_refl).
    + cbn [s_args with_map]. apply filter_resorted; [|apply Ws]. rewrite filter_put by reflexivity. exact X3.
    + cbn [s_map with_map]. rewrite filter_app. cbn [filter]. unfold elsewhere at 2. cbn [snd]. rewrite Nat.eqb_refl. cbn. rewrite app_nil_r. exact X4.
    + cbn [b a_cfg arg_cfg c_names cfg_names]. apply (Permutation_NoDup (l := f :: c_names (a_cfg a))).
      * rewrite sort_flags_perm. apply Permutation_cons_append.
      * constructor; [|exact X5]. intros I. specialize (X6 f I). congruence.
    + intros n I. cbn [b a_cfg arg_cfg c_names cfg_names] in I. apply (Permutation_in _ (sort_flags_perm _)) in I. cbn [s_map with_map].
      apply in_app_or in I. destruct I as [I|[<-|[]]].
      * specialize (X6 n I). change (assoc n (s_map t ++ [(f, a_id a)]) = Some (a_id a)). rewrite assoc_app. now rewrite X6.
      * change (assoc f (s_map t ++ [(f, a_id a)]) = Some (a_id a)). rewrite assoc_app, MK. cbn. now rewrite String.eqb_refl.
    + rewrite app_nil_r. exact X9.
    + exact X10.
  - (* action *)
    rewrite app_nil_r. set (t0 := released a t) in *. set (b := arg_cfg a (cfg_action (a_cfg a) a0)) in *.
    assert (T0 : s_args t0 = s_args t /\ s_map t0 = s_map t /\ s_freed t0 = s_freed t /\ same_settings t t0).
    { unfold t0, released. destruct (c_action (a_cfg a)); repeat split. }
    destruct T0 as [T1 [T2 [T3 T4]]].
    destruct (declared_extra s t t0 t1 a b fr X W1 E eq_refl eq_refl eq_refl T1 T2 T3 T4) as [d [D1 [D2 [D3 [D4 [D5 D6]]]]]].
    exists d. split; [injection D2; auto|]. split; [exact D1|].
    assert (RH : s_help t0 = s_help s /\ s_version t0 = s_version s).
    { destruct RO as [[[A1 [A2 A3]]|[A1 A2]] [[B1 [B2 B3]]|[B1 B2]]]; unfold t0, released.
      - congruence.
      - rewrite A1. cbn. split; congruence.
      - rewrite B1. cbn. split; congruence.
      - destruct (c_action (a_cfg a)); try congruence; split; assumption. }
    destruct RH as [RH RV].
    change (getAction b) with a0 in *. change (getNargs b) with (getNargs a) in *.
    assert (DH : a0 = HELP \/ a0 <> HELP) by (destruct a0; (now left) || (right; discriminate)).
    assert (DV : a0 = VERSION \/ a0 <> VERSION) by (destruct a0; (now left) || (right; discriminate)).
    split.
    + destruct DH as [->|NH].
      * left. destruct P as [P1 [P2 P3]]. destruct (D4 eq_refl) as [G1 G2]. split; [exact G1|]. split; [|rewrite D2; apply G2; now left].
        destruct RO as [[[_ [A2 _]]|[_ A2]] _]; congruence.
      * right. destruct (D3 NH) as [G1 G2]. split; congruence.
    + destruct DV as [->|NV].
      * left. destruct P as [P1 [P2 P3]]. destruct (D6 eq_refl) as [G1 G2]. split; [exact G1|]. split; [|rewrite D2; apply G2; now left].
        destruct RO as [_ [[_ [A2 _]]|[_ A2]]]; congruence.
      * right. destruct (D5 NV) as [G1 G2]. split; congruence.
  - (* required *)
    rewrite app_nil_r. injection E as <-. set (c := arg_cfg a (cfg_required (a_cfg a) b)) in *. exists c. split; [reflexivity|]. split; [|exact RO].
    destruct X as [X1 X2 X3 X4 X5 X6 X9 X10]. constructor; try assumption.
    + cbn [s_args with_map resorted with_args]. apply sort_In. apply (put_In_self c t a X2 eq_refl).
    + apply filter_resorted; [|apply Ws]. rewrite filter_put by reflexivity. exact X3.
  - rewrite app_nil_r. injection E as <-. exists (arg_cfg a (cfg_help (a_cfg a) h)). split; [reflexivity|]. split; [|exact RO].
    apply (extra_put s t a _ fr _ X W1); repeat split.
  - rewrite app_nil_r. injection E as <-. exists (arg_cfg a (cfg_metavar (a_cfg a) m)). split; [reflexivity|]. split; [|exact RO].
    apply (extra_put s t a _ fr _ X W1); repeat split.
  - (* nargs *)
    rewrite app_nil_r. set (b := arg_cfg a (cfg_nargs (a_cfg a) (n mod w64)%N)) in *.
    destruct (declared_extra s t t t1 a b fr X W1 E eq_refl eq_refl eq_refl eq_refl eq_refl eq_refl (SS t)) as [d [D1 [D2 [D3 [D4 [D5 D6]]]]]].
    exists d. split; [injection D2; auto|]. split; [exact D1|]. change (getAction b) with (getAction a) in *.
    destruct RO as [RH RV]. split.
    + destruct RH as [[A1 [A2 A3]]|[A1 A2]].
      * left. destruct (D4 A1) as [G1 G2]. split; [exact G1|]. split; [exact A2|]. rewrite D2. apply G2. now right.
      * right. destruct (D3 A1) as [G1 G2]. split; congruence.
    + destruct RV as [[A1 [A2 A3]]|[A1 A2]].
      * left. destruct (D6 A1) as [G1 G2]. split; [exact G1|]. split; [exact A2|]. rewrite D2. apply G2. now right.
      * right. destruct (D5 A1) as [G1 G2]. split; congruence.
  - (* defaults *)
    rewrite app_nil_r. injection E as <- _. destruct (defaults_arg_keeps (arg_cfg a (cfg_defaults (a_cfg a) v))) as [K1 [K2 [K3 K4]]].
    set (d := fst (defaults_arg (arg_cfg a (cfg_defaults (a_cfg a) v)))) in *. exists d.
    split; [injection K1; auto|]. split.
    + apply (extra_put s t a d fr _ X W1); try (repeat split); try assumption. injection K1; auto.
    + unfold extra_roles. rewrite K1, K3. exact RO.
  - (* valid *)
    injection E as <-. set (b := arg_cfg a (cfg_valid (a_cfg a) p isDeletable)) in *. exists b. split; [reflexivity|]. split; [|exact RO].
    destruct X as [X1 X2 X3 X4 X5 X6 X9 X10]. constructor; try assumption.
    + apply (put_In_self b t a X2 eq_refl).
    + change (filter (other (a_id b)) (s_args (put b t)) = s_args s). rewrite filter_put by reflexivity. exact X3.
    + cbn [s_freed with_freed]. rewrite X9. rewrite <- app_assoc. f_equal.
  - (* dest *)
    rewrite app_nil_r. injection E as <-. exists (Arg (a_id a) (S (a_gen a)) (cfg_dest (cfg_defaults (a_cfg a) []) (Some d)) (a_dyn a)). split; [reflexivity|]. split.
    + apply (extra_put s t a _ fr _ X W1); repeat split.
    + destruct P as [P1 P2]. destruct RO as [[[A1 _]|[A1 A2]] [[B1 _]|[B1 B2]]]; try contradiction. split; right; split; assumption.
Qed.

Lemma meth_map : forall m a t t1, meth_state m a t = (t1, None) -> exists k, s_map t1 = s_map t ++ k.
Proof.
  assert (D : forall b t t1, declared b t = (t1, None) -> s_map t1 = s_map t).
  { intros b t t1 E. destruct (declared_cases b t t1 E) as [k [_ H]]. cbv zeta in H.
    destruct (fst (fst k)); try (rewrite H; reflexivity); destruct H as [_ ->]; reflexivity. }
  intros m a t t1 E. destruct m; cbn [meth_state] in E; cbv zeta in E;
    try (exists []; rewrite app_nil_r; injection E as <-; reflexivity).
  - destruct (is_positional (c_type (a_cfg a))); [discriminate|]. destruct (validFormatFlag f); [discriminate|].
    destruct (mem_key f (s_map t)); [discriminate|]. injection E as <-. eexists. reflexivity.
  - exists []. rewrite app_nil_r, (D _ _ _ E). unfold released. destruct (c_action (a_cfg a)); reflexivity.
  - exists []. rewrite app_nil_r. exact (D _ _ _ E).
Qed.

Lemma chain_extra : forall ms s t a fr t1, wf s -> extra s t a fr -> extra_roles s t a -> chain_ok one_each (a_id a) ms t ->
  run_meths (a_id a) ms t = (t1, Ok tt) -> exists a1, a_id a1 = a_id a /\ (exists k, s_map t1 = s_map t ++ k) /\ extra s t1 a1 (fr ++ handed ms) /\ extra_roles s t1 a1.
Proof.
  induction ms as [|m ms IH]; intros s t a fr t1 Ws X RO C E.
  - injection E as <-. exists a. cbn. rewrite app_nil_r. split; [reflexivity|]. split; [exists []; now rewrite app_nil_r|]. auto.
  - cbn [run_meths] in E. pose proof (ex_wf _ _ _ _ X) as W. pose proof (ex_in _ _ _ _ X) as Ia.
    pose proof (meth_eq m t a (proj1 W) Ia) as ME. destruct C as [C1 C2].
    destruct (meth_state m a t) as [t2 [e|]] eqn:MS; cbn [outcome] in ME.
    { unfold bind in E. rewrite ME in E. discriminate. }
    rewrite (bind_ok _ _ _ _ _ ME) in E.
    assert (W2 : wf t2) by (pose proof (wf_run_meth (a_id a) m t W) as H; rewrite ME in H; exact H).
    destruct (meth_extra m s t a fr t2 Ws X RO (C1 a Ia eq_refl) MS W2) as [a2 [I2 [X2 R2]]].
    rewrite <- I2 in E. destruct (IH s t2 a2 (fr ++ handed_by m) t1 Ws X2 R2) as [a1 [I1 [[k K] [X1 R1]]]].
    + rewrite I2. apply C2, ME.
    + exact E.
    + exists a1. split; [congruence|]. split; [destruct (meth_map m a t t2 MS) as [k0 K0]; exists (k0 ++ k); rewrite K, K0; now rewrite app_assoc|]. split; [|exact R1]. unfold handed. cbn [flat_map]. rewrite app_assoc. exact X1.
Qed.

(* ------------------------------------------------------------------ *)
(** * registering *)
Lemma filter_true : forall {A} (f : A -> bool) l, (forall x, In x l -> f x = true) -> filter f l = l.
Proof.
  intros A f l. induction l as [|x l IH]; intros H; cbn; [reflexivity|]. rewrite (H x) by now left. f_equal. apply IH. intros y I. apply H. now right.
Qed.
Lemma filter_insert_fold : forall id names m, filter (elsewhere id) (fold_left (fun m n => map_insert n id m) names m) = filter (elsewhere id) m.
Proof.
  intros id. induction names as [|n names IH]; intros m; cbn; [reflexivity|]. rewrite IH. unfold map_insert. destruct (mem_key n m); [reflexivity|].
  rewrite filter_app. cbn. unfold elsewhere at 2. cbn. rewrite Nat.eqb_refl. cbn. apply app_nil_r.
Qed.
Lemma registered_extra : forall s c, wf s -> wf (registered s c) -> NoDup (c_names c) -> (forall n, In n (c_names c) -> mem_key n (s_map s) = false) ->
  c_action c = NONE -> c_valid c = None ->
  extra s (registered s c) (Arg (fresh_id s) 0 c new_dyn) [] /\ extra_roles s (registered s c) (Arg (fresh_id s) 0 c new_dyn).
Proof.
  intros s c W W1 ND NM CA CV. pose proof (fresh_id_new s) as FR.
  assert (OI : forall b, In b (s_args s) -> other (fresh_id s) b = true).
  { intros b Ib. unfold other. apply negb_true_iff, Nat.eqb_neq. intros E. apply FR. rewrite <- E. now apply in_map. }
  split.
  - constructor.
    + exact W1.
    + cbn [registered s_args with_args with_map]. apply sort_In. apply in_or_app. right. now left.
    + unfold registered. cbv zeta. cbn [s_args with_args with_map a_id]. rewrite sort_filter, filter_app. cbn [filter]. unfold other at 2. cbn [a_id].
      rewrite Nat.eqb_refl. cbn [negb]. rewrite app_nil_r, filter_true by exact OI. apply sort_id, W.
    + unfold registered. cbv zeta. cbn [s_map with_args with_map a_id]. rewrite filter_insert_fold. apply filter_true.
      intros [k v] I. unfold elsewhere. cbn [snd]. apply negb_true_iff, Nat.eqb_neq. intros ->.
      destruct (wf_entry s (proj1 W) _ _ I) as [b [Ib [Eb _]]]. apply FR. rewrite <- Eb. now apply in_map.
    + exact ND.
    + intros n I. cbn [a_cfg] in I. unfold registered. cbv zeta. cbn [s_map with_args with_map a_id]. rewrite assoc_insert_fold.
      rewrite (proj1 (mem_key_false _ _) (NM n I)). now rewrite (proj2 (mem_str_In _ _) I).
    + cbn [a_cfg]. unfold owned. rewrite CV. now rewrite !app_nil_r.
    + repeat split.
  - cbn [a_cfg]. split; right; (split; [cbn; rewrite CA; discriminate | reflexivity]).
Qed.

Lemma fresh_pointer : forall s p, s_help s = Some p \/ s_version s = Some p -> fst p <> fresh_id s.
Proof.
  intros s p H. unfold fresh_id. set (m := Nat.max (opt_id (s_help s)) (opt_id (s_version s))).
  assert (L : fst p <= m) by (unfold m; destruct H as [H|H]; rewrite H; destruct p; cbn; lia).
  assert (G : forall l, m <= fold_right Nat.max m l) by (induction l as [|x l IH]; cbn; lia).
  specialize (G (map a_id (s_args s))). lia.
Qed.

(* ------------------------------------------------------------------ *)
(** * removing all the names of an argument *)
Lemma filter_ext_In : forall {A} (f g : A -> bool) l, (forall x, In x l -> f x = g x) -> filter f l = filter g l.
Proof.
  intros A f g l. induction l as [|x l IH]; intros H; cbn; [reflexivity|]. rewrite (H x) by now left.
  rewrite IH; [reflexivity|]. intros y I. apply H. now right.
Qed.
Lemma filter_filter_In : forall {A} (f g : A -> bool) l, (forall x, In x l -> f x = true -> g x = true) -> filter f (filter g l) = filter f l.
Proof.
  intros A f g l. induction l as [|x l IH]; intros H; cbn; [reflexivity|].
  assert (IH' : filter f (filter g l) = filter f l) by (apply IH; intros y I; apply H; now right).
  destruct (g x) eqn:G; cbn; [rewrite IH'; reflexivity|]. destruct (f x) eqn:F; [|exact IH'].
  rewrite (H x (or_introl eq_refl) F) in G. discriminate.
Qed.

Lemma remove_first_perm : forall n l, In n l -> Permutation (n :: remove_first n l) l.
Proof.
  intros n l. induction l as [|x l IH]; intros I; [destruct I|]. cbn. destruct (String.eqb_spec n x) as [->|N]; [reflexivity|].
  destruct I as [I|I]; [congruence|]. rewrite perm_swap. constructor. now apply IH.
Qed.
Lemma remove_extra : forall l s t a fr, wf0 t -> In a (s_args t) -> Permutation (c_names (a_cfg a)) l -> l <> [] -> NoDup l ->
  (forall n, In n l -> assoc n (s_map t) = Some (a_id a)) ->
  filter (other (a_id a)) (s_args t) = s_args s -> filter (elsewhere (a_id a)) (s_map t) = s_map s ->
  extra_roles s t a -> s_freed t ++ owned (a_cfg a) = s_freed s ++ fr -> same_settings s t ->
  (forall p, s_help s = Some p \/ s_version s = Some p -> fst p <> a_id a) ->
  remove_loop l t = (with_freed s (s_freed s ++ fr), Ok tt).
Proof.
  induction l as [|n l IH]; intros s t a fr W Ia EN NE ND NM FA FM RO FR ST NP; [congruence|].
  pose proof (NM n (or_introl eq_refl)) as An. destruct (remove_one_eq t n a W An Ia) as [E W1].
  cbn [remove_loop]. rewrite (bind_ok _ _ _ _ _ E). clear E. inversion ND as [|? ? NI ND']; subst.
  assert (KN : forall k v, In (k, v) (s_map t) -> (k = n -> v = a_id a)).
  { intros k v I ->. apply (In_assoc _ _ _ (wf_keys t W)) in I. congruence. }
  destruct l as [|n2 l].
  - assert (ONE : c_names (a_cfg a) = [n]) by (now apply Permutation_length_1_inv, Permutation_sym).
    cbn [remove_loop]. assert (Q : existsb (fun kv => Nat.eqb (snd kv) (a_id a)) (del_key n (s_map t)) = false).
    { apply not_true_iff_false. intros Q. apply existsb_exists in Q. destruct Q as [[k v] [I Q]]. cbn in Q. apply Nat.eqb_eq in Q. subst v.
      apply del_key_In in I. destruct I as [I Nk]. cbn in Nk. destruct (wf_entry t W _ _ I) as [b [Ib [Eb Nb]]].
      rewrite (wf_unique t b a W Ib Ia Eb), ONE in Nb. destruct Nb as [Nb|[]]. congruence. }
    unfold removed. rewrite Q. cbv zeta. unfold ret. f_equal.
    assert (DM : del_key n (s_map t) = s_map s).
    { rewrite <- FM. unfold del_key. apply filter_ext_In. intros [k v] I. unfold elsewhere. cbn [fst snd]. f_equal.
      destruct (String.eqb_spec n k) as [->|Nk].
      - rewrite (KN k v I eq_refl). now rewrite Nat.eqb_refl.
      - symmetry. apply Nat.eqb_neq. intros ->. destruct (wf_entry t W _ _ I) as [b [Ib [Eb Nb]]].
        rewrite (wf_unique t b a W Ib Ia Eb), ONE in Nb. destruct Nb as [Nb|[]]. congruence. }
    change (fun b => negb (Nat.eqb (a_id b) (a_id a))) with (other (a_id a)). rewrite FA, DM.
    destruct ST as [S1 [S2 [S3 [S4 [S5 S6]]]]]. destruct s as [b1 b2 b3 b4 b5 b6 b7 b8 b9 b10 b11], t as [c1 c2 c3 c4 c5 c6 c7 c8 c9 c10 c11].
    cbn in *. subst. rewrite <- FR.
    assert (PE : ptr_eqb (ptr_of a) (ptr_of a) = true) by (unfold ptr_eqb; now rewrite !Nat.eqb_refl).
    assert (NO : forall q, (forall p, q = Some p -> fst p <> a_id a) -> optr_eqb q (ptr_of a) = false).
    { intros [p|] N; [|reflexivity]. cbn. apply not_true_iff_false. intros X. apply ptr_eqb_eq in X. apply (N p eq_refl). rewrite X. reflexivity. }
    unfold extra_roles in RO. cbn in RO. cbn.
    destruct RO as [[[A1 [A2 A3]]|[A1 A2]] [[B1 [B2 B3]]|[B1 B2]]]; subst.
    + congruence.
    + cbn. rewrite PE. reflexivity.
    + cbn. rewrite (NO b4) by (intros p E; apply NP; now left). rewrite PE. reflexivity.
    + rewrite (NO b4) by (intros p E; apply NP; now left). rewrite (NO b5) by (intros p E; apply NP; now right). reflexivity.
  - assert (Q : existsb (fun kv => Nat.eqb (snd kv) (a_id a)) (del_key n (s_map t)) = true).
    { apply existsb_exists. exists (n2, a_id a). split; [|cbn; apply Nat.eqb_refl]. apply del_key_In. split; [|intros X; cbn in X; apply NI; now left].
      apply assoc_In. apply NM. right. now left. }
    unfold removed in *. rewrite Q in *. set (b := arg_cfg a (cfg_names (a_cfg a) (remove_first n (c_names (a_cfg a))))).
    match goal with |- remove_loop _ ?u = _ => set (t1 := u) in * end.
    assert (Nb : Permutation (c_names (a_cfg b)) (n2 :: l)).
    { apply (Permutation_cons_inv (a := n)). rewrite <- EN. unfold b. cbn [a_cfg arg_cfg c_names cfg_names]. apply remove_first_perm.
      apply (Permutation_in _ (Permutation_sym EN)). now left. }
    apply (IH s t1 b fr).
    + exact W1.
    + unfold t1. cbn [s_args with_map with_args]. apply upd_id_In. exists a. split; [exact Ia|]. now rewrite Nat.eqb_refl.
    + exact Nb.
    + discriminate.
    + exact ND'.
    + intros k I. unfold t1. cbn [s_map with_map with_args]. rewrite assoc_del. destruct (String.eqb_spec k n) as [->|N]; [contradiction|]. apply NM. now right.
    + unfold t1. cbn [s_args with_map with_args]. change (other (a_id b)) with (fun x => negb (Nat.eqb (a_id x) (a_id a))). rewrite filter_upd by reflexivity. exact FA.
    + unfold t1. cbn [s_map with_map with_args]. change (a_id b) with (a_id a). unfold del_key. rewrite filter_filter_In; [exact FM|].
      intros [k v] I H. cbn [fst]. unfold elsewhere in H. cbn [snd] in H. apply negb_true_iff in H. apply Nat.eqb_neq in H. apply negb_true_iff, String.eqb_neq. intros ->.
      apply H. now apply (KN k v I).
    + exact RO.
    + exact FR.
    + exact ST.
    + exact NP.
Qed.

(* ------------------------------------------------------------------ *)
(** * C66 *)

(** addArgument with free names and any chain of methods, then removeArguments with all
    the names the new argument lists, in any order: the object is as before, except that
    the validators handed over to the new argument are deleted.  [one_each]
    (Properties_Roles.v): the chain declares HELP / VERSION only if no other argument is
    the help / version option, on an option whose nargs is not 0, and does not call
    dest() on such an option. *)
Theorem C66_undo : forall s ns ms s1, reach s -> (forall n, In n ns -> argumentExists s n = false) ->
  op_ok one_each (OpAdd ns ms) s -> step (OpAdd ns ms) s = (s1, Ok tt) ->
  exists a, (forall n, In n ns -> getArgument s1 n = Ok a) /\
    forall l, Permutation l (getNameOrFlags a) -> step (OpRemove l) s1 = (with_freed s (s_freed s ++ handed ms), Ok tt).
Proof.
  intros s ns ms s1 R FREE [_ OK] E. pose proof (reach_wf s R) as W. cbn [step] in E.
  assert (Z : exists c, addArgument ns s = (registered s c, Ok (fresh_id s)) /\ wf (registered s c) /\ NoDup (c_names c) /\
     (forall n, In n (c_names c) <-> In n ns) /\ c_action c = NONE /\ c_valid c = None).
  { destruct (addArgument_cases ns s (proj1 W)) as [[e [A _]]|[[n [-> [_ [_ [A W1]]]]]|[f [rest [flags [-> [AF [_ [_ [A W1]]]]]]]]]].
    - unfold bind in E. rewrite A in E. discriminate.
    - exists (positional_cfg n). split; [exact A|]. split; [exact W1|]. split; [constructor; [tauto | constructor]|]. split; [reflexivity|]. split; reflexivity.
    - exists (option_cfg flags). destruct (add_flags_ok _ _ _ _ _ AF) as [_ [_ [H3 H4]]]. split; [exact A|]. split; [exact W1|]. split; [|split; [|split; reflexivity]].
      + cbn. apply (Permutation_NoDup (l := flags)); [symmetry; apply sort_flags_perm | apply H4; constructor].
      + intros x. cbn. rewrite sort_flags_In, H3. split; [intros [[]|H]; exact H | now right]. }
  destruct Z as [c [A [W1 [ND [NM [CA CV]]]]]]. rewrite (bind_ok _ _ _ _ _ A) in E.
  destruct (registered_extra s c W W1 ND) as [X RO]; [intros n I; apply FREE, NM, I | exact CA | exact CV|].
  set (a0 := Arg (fresh_id s) 0 c new_dyn) in *.
  destruct (chain_extra ms s (registered s c) a0 [] s1 W X RO (OK _ _ A) E) as [a [IA [[k K] [[X1 X2 X3 X4 X5 X6 X9 X10] R1]]]].
  exists a. split.
  - intros n I. apply getArgument_by; [apply X1 | exact X2|]. apply X6.
    assert (KA : assoc n (s_map s1) = Some (a_id a)).
    { rewrite IA, K, assoc_app. assert (Q : assoc n (s_map (registered s c)) = Some (a_id a0)) by (apply (ex_names _ _ _ _ X); apply NM, I). now rewrite Q. }
    destruct (wf_entry s1 (proj1 X1) _ _ (assoc_In _ _ _ KA)) as [b [Ib [Eb Nb]]]. now rewrite <- (wf_unique s1 b a (proj1 X1) Ib X2 Eb).
  - intros l P. cbn [step]. unfold removeArguments.
    assert (NE : l <> []).
    { intros ->. apply Permutation_nil in P. destruct (wf_mapped s1 (proj1 X1) a X2) as [k1 Ik].
      destruct (wf_entry s1 (proj1 X1) _ _ Ik) as [b [Ib [Eb Nb]]]. rewrite (wf_unique s1 b a (proj1 X1) Ib X2 Eb), P in Nb. destruct Nb. }
    assert (ALL : forall n, In n l -> assoc n (s_map s1) = Some (a_id a)) by (intros n I; apply X6; exact (Permutation_in _ P I)).
    destruct l as [|n0 l0]; [congruence|]. set (l := n0 :: l0) in *.
    unfold bind at 1, get.
    assert (F : find (fun k => negb (mem_key k (s_map s1))) l = None).
    { destruct (find _ l) as [k1|] eqn:F; [|reflexivity]. apply find_some in F. destruct F as [I F]. unfold mem_key in F. rewrite (ALL k1 I) in F. discriminate. }
    rewrite F.
    assert (RL : remove_loop l s1 = (with_freed s (s_freed s ++ handed ms), Ok tt)).
    { apply (remove_extra l s s1 a (handed ms)); try assumption.
      - apply X1.
      - now symmetry.
      - apply (Permutation_NoDup (Permutation_sym P)), X5.
      - intros p H. rewrite IA. cbn [a0 a_id]. now apply fresh_pointer. }
    rewrite (bind_ok _ _ _ _ _ RL). rewrite sort_args_ok by (destruct W as [[] _]; constructor; assumption).
    cbn [s_args with_freed]. rewrite (sort_id arg_lt (s_args s) (proj2 W)). destruct s; reflexivity.
Qed.
Print Assumptions C66_undo.
(** Nothing that is called afterwards can tell the difference. *)
Corollary C66_unnoticed : forall s ns ms s1 a l s2, reach s -> (forall n, In n ns -> argumentExists s n = false) ->
  op_ok one_each (OpAdd ns ms) s -> step (OpAdd ns ms) s = (s1, Ok tt) -> getArgument s1 (hd "" ns) = Ok a ->
  Permutation l (getNameOrFlags a) -> step (OpRemove l) s1 = (s2, Ok tt) -> visible s2 = visible s.
Proof.
  intros s ns ms s1 a l s2 R FREE OK E G P E2. destruct (C66_undo s ns ms s1 R FREE OK E) as [b [Gb U]].
  assert (NE : In (hd "" ns) ns).
  { destruct ns as [|n ns]; [|now left]. cbn in E. discriminate. }
  rewrite (Gb _ NE) in G. injection G as ->. rewrite (U l P) in E2. injection E2 as <-. reflexivity.
Qed.
Print Assumptions C66_unnoticed.

(** Both conditions are needed.  If a flag of the list is already registered, the new
    argument lists it without owning it, and removing its names destroys the other. *)
Theorem C66_free_needed : exists s ns s1 a s2, reach s /\ step (OpAdd ns []) s = (s1, Ok tt) /\ getArgument s1 (hd "" ns) = Ok a /\
  step (OpRemove (getNameOrFlags a)) s1 = (s2, Ok tt) /\ argumentExists s "-a" = true /\ argumentExists s2 "-a" = false.
Proof.
  exists (history [OpAdd ["-a"] []]), ["-b"; "-a"]. do 3 eexists. split; [apply history_reach|]. split; [vm_compute; reflexivity|]. split; [vm_compute; reflexivity|].
  split; [vm_compute; reflexivity|]. vm_compute. split; reflexivity.
Qed.
Print Assumptions C66_free_needed.
(** If the chain changes its mind about an action HELP that it did not get, the help
    option of another argument is lost. *)
Theorem C66_roles_needed : exists s ms s1 a h s2, reach s /\ step (OpAdd ["-b"] ms) s = (s1, Ok tt) /\ getArgument s1 "-b" = Ok a /\
  is_help s h /\ step (OpRemove (getNameOrFlags a)) s1 = (s2, Ok tt) /\ (forall x, ~ is_help s2 x).
Proof.
  exists (history [OpAdd ["-a"] [MAction HELP]]), [MNargs 0; MAction HELP; MAction NONE]. do 4 eexists. split; [apply history_reach|].
  split; [vm_compute; reflexivity|]. split; [vm_compute; reflexivity|]. split; [vm_compute; split; [left; reflexivity | reflexivity]|].
  split; [vm_compute; reflexivity|]. intros x H. destruct H as [_ H]. discriminate H.
Qed.
Print Assumptions C66_roles_needed.

Definition demo_undo : state := history
  [OpAdd ["-a"; "--all"] [MAction STORE_TRUE]; OpAdd ["--name"; "-n"] [MRequired true]; OpAdd ["FILE"] []].
(** the conditions are met: a new option with a validator, two flags and a role *)
Definition even_length : validator := Validator 7 (fun l => if Nat.even (length l) then VOk true l else VThrow "odd").
Definition undo_ms : list meth := [MFlag "-q"; MNargs 3; MValid (Some even_length) true; MAction HELP; MRequired true; MHelp "quiet"].
Example C66_example : exists s1, (forall n, In n ["--quiet"; "--silent"] -> argumentExists demo_undo n = false) /\
  op_ok one_each (OpAdd ["--quiet"; "--silent"] undo_ms) demo_undo /\
  step (OpAdd ["--quiet"; "--silent"] undo_ms) demo_undo = (s1, Ok tt) /\
  (exists s2, step (OpRemove ["--silent"; "-q"; "--quiet"]) s1 = (s2, Ok tt) /\ s_freed s2 = [7] /\ arguments s2 = arguments demo_undo).
Proof.
  eexists. split; [intros n [<-|[<-|[]]]; vm_compute; reflexivity|].
  split; [apply (op_okb_ok one_each one_eachb (fun _ _ => Logic.I) one_eachb_ok); vm_compute; reflexivity|].
  split; [vm_compute; reflexivity|]. eexists. split; [vm_compute; reflexivity|]. split; reflexivity.
Qed.
