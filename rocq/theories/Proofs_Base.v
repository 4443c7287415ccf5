(** Proofs_Base.v -- lemmas on strings, association lists, sorting, and the monad. *)
From Coq Require Import Permutation Sorted.
From Verif Require Import Base Model_Utils Model_Number Model_Types.

(* ------------------------------------------------------------------ *)
(** * strings *)
Lemma append_nil_r : forall s : str, s ^^ "" = s.
Proof. induction s as [|c s IH]; simpl; [reflexivity | now rewrite IH]. Qed.
Lemma append_assoc : forall a b c : str, (a ^^ b) ^^ c = a ^^ (b ^^ c).
Proof. induction a as [|x a IH]; simpl; intros; [reflexivity | now rewrite IH]. Qed.
Lemma length_append : forall a b : str, String.length (a ^^ b) = String.length a + String.length b.
Proof. induction a as [|x a IH]; simpl; intros; [reflexivity | now rewrite IH]. Qed.
Lemma append_inj_l : forall a b c : str, a ^^ b = a ^^ c -> b = c.
Proof. induction a as [|x a IH]; simpl; intros b c H; [exact H | injection H; auto]. Qed.

Lemma mem_str_In : forall s l, mem_str s l = true <-> In s l.
Proof.
  intros s l; unfold mem_str; rewrite existsb_exists; split.
  - intros [x [Hx He]]; apply String.eqb_eq in He; now subst.
  - intros H; exists s; split; [exact H | apply String.eqb_refl].
Qed.
Lemma mem_str_nIn : forall s l, mem_str s l = false <-> ~ In s l.
Proof.
  intros s l; rewrite <- mem_str_In; destruct (mem_str s l); split; congruence.
Qed.

(* ------------------------------------------------------------------ *)
(** * association lists *)
Section Assoc.
  Context {A : Type}.
  Implicit Types (m : list (str * A)) (k : str) (v : A).
  Lemma assoc_In : forall m k v, assoc k m = Some v -> In (k, v) m.
  Proof.
    induction m as [|[k' v'] m IH]; simpl; intros k v H; [discriminate|].
    destruct (String.eqb_spec k k') as [->|N].
    - left; congruence.
    - right; auto.
  Qed.
  Lemma assoc_key : forall m k, assoc k m = None <-> ~ In k (map fst m).
  Proof.
    induction m as [|[k' v'] m IH]; simpl; intros k; [tauto|].
    destruct (String.eqb_spec k k') as [->|N].
    - split; [discriminate | intros H; exfalso; apply H; now left].
    - rewrite IH; split; intros H; [intros [E|E]; [congruence|auto] | auto].
  Qed.
  Lemma In_assoc : forall m k v, NoDup (map fst m) -> In (k, v) m -> assoc k m = Some v.
  Proof.
    induction m as [|[k' v'] m IH]; simpl; intros k v ND H; [tauto|].
    inversion ND as [|? ? N1 N2]; subst.
    destruct H as [H|H].
    - injection H as -> ->; now rewrite String.eqb_refl.
    - destruct (String.eqb_spec k k') as [->|N].
      + exfalso; apply N1; apply in_map_iff; exists (k', v); auto.
      + auto.
  Qed.
  Lemma mem_key_true : forall m k, mem_key k m = true <-> exists v, assoc k m = Some v.
  Proof.
    intros m k; unfold mem_key; destruct (assoc k m); split; eauto; intros; try discriminate.
    destruct H; discriminate.
  Qed.
  Lemma mem_key_false : forall m k, mem_key k m = false <-> assoc k m = None.
  Proof. intros m k; unfold mem_key; destruct (assoc k m); split; congruence. Qed.
  Lemma assoc_app : forall m m' k,
    assoc k (m ++ m') = match assoc k m with Some v => Some v | None => assoc k m' end.
  Proof.
    induction m as [|[k' v'] m IH]; simpl; intros; [reflexivity|].
    destruct (String.eqb k k'); auto.
  Qed.
  Lemma assoc_del : forall m k k', assoc k (del_key k' m) = if String.eqb k k' then None else assoc k m.
  Proof.
    induction m as [|[x v] m IH]; simpl; intros k k'.
    - now destruct (String.eqb k k').
    - destruct (String.eqb_spec k' x) as [->|N]; simpl.
      + rewrite IH. destruct (String.eqb_spec k x); reflexivity.
      + rewrite IH. destruct (String.eqb_spec k x) as [->|N'].
        * destruct (String.eqb_spec x k'); [congruence | reflexivity].
        * reflexivity.
  Qed.
  Lemma del_key_In : forall m k p, In p (del_key k m) <-> In p m /\ fst p <> k.
  Proof.
    intros m k p; unfold del_key; rewrite filter_In.
    rewrite negb_true_iff. rewrite String.eqb_neq. intuition congruence.
  Qed.
  Lemma del_key_NoDup : forall m k, NoDup (map fst m) -> NoDup (map fst (del_key k m)).
  Proof.
    induction m as [|[x v] m IH]; simpl; intros k ND; [constructor|].
    inversion ND as [|? ? N1 N2]; subst.
    destruct (String.eqb k x); simpl; [auto|]. constructor; [|auto].
    intros H; apply N1. apply in_map_iff in H. destruct H as [[a b] [E H]].
    apply del_key_In in H. simpl in E; subst. apply in_map_iff; exists (x, b); tauto.
  Qed.
End Assoc.

(* ------------------------------------------------------------------ *)
(** * stable insertion sort *)
Section Sort.
  Context {A : Type} (lt : A -> A -> bool).
  Lemma insert_perm : forall x l, Permutation (x :: l) (insert_by lt x l).
  Proof.
    induction l as [|y l IH]; simpl; [reflexivity|].
    destruct (lt y x); [|reflexivity].
    rewrite perm_swap. now constructor.
  Qed.
  Lemma sort_perm : forall l, Permutation l (sort_by lt l).
  Proof.
    induction l as [|x l IH]; simpl; [reflexivity|].
    rewrite <- insert_perm. now constructor.
  Qed.
  Lemma insert_In : forall x y l, In y (insert_by lt x l) <-> y = x \/ In y l.
  Proof.
    intros x y l; split; intros H.
    - apply (Permutation_in _ (Permutation_sym (insert_perm x l))) in H. destruct H; auto.
    - apply (Permutation_in _ (insert_perm x l)). destruct H; [left|right]; auto.
  Qed.
  Lemma sort_In : forall y l, In y (sort_by lt l) <-> In y l.
  Proof.
    intros y l; split; apply Permutation_in; [symmetry|]; apply sort_perm.
  Qed.

  (** [x] may come before [y] *)
  Definition le_by (x y : A) : Prop := lt y x = false.

  (** negative transitivity on a set of elements *)
  Hypothesis asym : forall x y, lt x y = true -> lt y x = false.
  Hypothesis ntrans : forall x y z, lt x y = false -> lt y z = false -> lt x z = false.

  Lemma insert_sorted : forall x l, StronglySorted le_by l -> StronglySorted le_by (insert_by lt x l).
  Proof.
    induction l as [|y l IH]; simpl; intros S.
    - repeat constructor.
    - inversion S as [|? ? S1 F]; subst.
      destruct (lt y x) eqn:E.
      + constructor; [auto|]. apply Forall_forall; intros z Hz. apply insert_In in Hz.
        destruct Hz as [->|Hz].
        * unfold le_by. now apply asym.
        * rewrite Forall_forall in F. auto.
      + constructor; [exact S|]. constructor; [exact E|].
        eapply Forall_impl; [|exact F]. intros z Hz. unfold le_by in *.
        eapply ntrans; eassumption.
  Qed.
  Lemma sort_sorted : forall l, StronglySorted le_by (sort_by lt l).
  Proof.
    induction l as [|x l IH]; simpl; [constructor | now apply insert_sorted].
  Qed.
  Lemma insert_first : forall x l, Forall (le_by x) l -> insert_by lt x l = x :: l.
  Proof. intros x [|y l] F; simpl; [reflexivity|]. inversion F; subst. now rewrite H1. Qed.
  Lemma sort_id : forall l, StronglySorted le_by l -> sort_by lt l = l.
  Proof.
    induction l as [|x l IH]; simpl; intros S; [reflexivity|].
    inversion S; subst. rewrite IH by assumption. now apply insert_first.
  Qed.
End Sort.

(** the sort only looks at what the comparator looks at *)
Lemma sort_map : forall {A} (lt : A -> A -> bool) (f : A -> A),
  (forall x y, lt (f x) (f y) = lt x y) ->
  forall l, sort_by lt (map f l) = map f (sort_by lt l).
Proof.
  intros A lt f H. induction l as [|x l IH]; simpl; [reflexivity|].
  rewrite IH. generalize (sort_by lt l) as q. induction q as [|y q IHq]; simpl; [reflexivity|].
  rewrite H. destruct (lt y x); simpl; [now rewrite IHq | reflexivity].
Qed.

(* ------------------------------------------------------------------ *)
(** * find_id, upd_id *)
Lemma find_id_In : forall id l a, find_id id l = Some a -> In a l /\ a_id a = id.
Proof.
  intros id l a H. apply find_some in H. destruct H as [H E].
  apply Nat.eqb_eq in E. auto.
Qed.
Lemma find_id_none : forall id l, find_id id l = None <-> ~ In id (map a_id l).
Proof.
  intros id l; unfold find_id; split.
  - intros H I. apply in_map_iff in I. destruct I as [a [E I]].
    apply (find_none _ _ H) in I. apply Nat.eqb_neq in I. auto.
  - induction l as [|a l IH]; simpl; intros H; [reflexivity|].
    destruct (Nat.eqb_spec (a_id a) id) as [E|N]; [exfalso; apply H; now left | apply IH; tauto].
Qed.
Lemma In_find_id : forall l a, NoDup (map a_id l) -> In a l -> find_id (a_id a) l = Some a.
Proof.
  induction l as [|b l IH]; simpl; intros a ND H; [tauto|].
  inversion ND as [|? ? N1 N2]; subst.
  destruct H as [->|H]; [now rewrite Nat.eqb_refl|].
  destruct (Nat.eqb_spec (a_id b) (a_id a)) as [E|N]; [|auto].
  exfalso; apply N1; rewrite E; now apply in_map.
Qed.
Lemma upd_id_ids : forall id f l, (forall a, a_id (f a) = a_id a) -> map a_id (upd_id id f l) = map a_id l.
Proof.
  intros id f l H; unfold upd_id; rewrite map_map. apply map_ext.
  intros a; destruct (Nat.eqb (a_id a) id); auto.
Qed.
Lemma find_upd_same : forall id f l, (forall a, a_id (f a) = a_id a) ->
  find_id id (upd_id id f l) = option_map f (find_id id l).
Proof.
  intros id f l H. unfold upd_id. induction l as [|a l IH]; [reflexivity|].
  simpl. destruct (Nat.eqb (a_id a) id) eqn:E; simpl.
  - now rewrite H, E.
  - now rewrite E.
Qed.
Lemma find_upd_other : forall id id' f l, (forall a, a_id (f a) = a_id a) -> id' <> id ->
  find_id id' (upd_id id f l) = find_id id' l.
Proof.
  intros id id' f l H N. unfold upd_id. induction l as [|a l IH]; [reflexivity|].
  simpl. destruct (Nat.eqb_spec (a_id a) id) as [E|E]; simpl.
  - rewrite H, E. destruct (Nat.eqb_spec id id'); [congruence|auto].
  - destruct (Nat.eqb (a_id a) id'); auto.
Qed.
Lemma upd_id_In : forall id f l a, In a (upd_id id f l) <->
  exists b, In b l /\ a = if Nat.eqb (a_id b) id then f b else b.
Proof.
  intros. unfold upd_id. rewrite in_map_iff. split; intros [b [H1 H2]]; exists b; auto.
Qed.
Lemma upd_id_comp : forall id f g l, (forall a, a_id (f a) = a_id a) ->
  upd_id id g (upd_id id f l) = upd_id id (fun a => g (f a)) l.
Proof.
  intros. unfold upd_id. rewrite map_map. apply map_ext. intros a.
  destruct (Nat.eqb (a_id a) id) eqn:E; [now rewrite H, E | now rewrite E].
Qed.
Lemma upd_id_ext : forall id f g l, (forall a, In a l -> a_id a = id -> f a = g a) ->
  upd_id id f l = upd_id id g l.
Proof.
  intros. unfold upd_id. apply map_ext_in. intros a Ha.
  destruct (Nat.eqb_spec (a_id a) id); auto.
Qed.
Lemma upd_id_id : forall id f l, (forall a, In a l -> a_id a = id -> f a = a) -> upd_id id f l = l.
Proof.
  intros. unfold upd_id. rewrite <- (map_id l) at 2. apply map_ext_in. intros a Ha.
  destruct (Nat.eqb_spec (a_id a) id); auto.
Qed.

(* ------------------------------------------------------------------ *)
(** * the monad *)
Lemma bind_ok : forall {A B} (m : M A) (f : A -> M B) s s1 a,
  m s = (s1, Ok a) -> bind m f s = f a s1.
Proof. intros; unfold bind; now rewrite H. Qed.
Lemma bind_throw : forall {A B} (m : M A) (f : A -> M B) s s1 e,
  m s = (s1, Throw e) -> bind m f s = (s1, Throw e).
Proof. intros; unfold bind; now rewrite H. Qed.
Lemma bind_inv : forall {A B} (m : M A) (f : A -> M B) s s' b,
  bind m f s = (s', Ok b) -> exists s1 a, m s = (s1, Ok a) /\ f a s1 = (s', Ok b).
Proof.
  intros A B m f s s' b H; unfold bind in H. destruct (m s) as [s1 [a|e|o| |]]; try discriminate.
  exists s1, a; auto.
Qed.

(** a relation between the state before and after, whatever the outcome *)
Definition keeps (R : state -> state -> Prop) {A} (m : M A) : Prop := forall s, R s (fst (m s)).
Section Keeps.
  Variable R : state -> state -> Prop.
  Hypothesis Rrefl : forall s, R s s.
  Hypothesis Rtrans : forall a b c, R a b -> R b c -> R a c.
  Lemma keeps_ret : forall {A} (a : A), keeps R (ret a). Proof. intros A a s; apply Rrefl. Qed.
  Lemma keeps_throw : forall {A} k x y, keeps R (@throw A k x y). Proof. intros A k x y s; apply Rrefl. Qed.
  Lemma keeps_ub : forall {A}, keeps R (@ub A). Proof. intros A s; apply Rrefl. Qed.
  Lemma keeps_get : keeps R get. Proof. intros s; apply Rrefl. Qed.
  Lemma keeps_find_name : forall n, keeps R (find_name n). Proof. intros n s; apply Rrefl. Qed.
  Lemma keeps_front : forall l, keeps R (front l).
  Proof. intros [|x l] s; apply Rrefl. Qed.
  Lemma keeps_deref : forall id, keeps R (deref id).
  Proof. intros id s; unfold deref; destruct (find_id id (s_args s)); apply Rrefl. Qed.
  Lemma keeps_modify : forall f, (forall s, R s (f s)) -> keeps R (modify f).
  Proof. intros f H s; apply H. Qed.
  Lemma keeps_pure : forall {A} (r : res A), keeps R (fun s => (s, r)).
  Proof. intros A r s; apply Rrefl. Qed.
  Lemma keeps_bind : forall {A B} (m : M A) (f : A -> M B),
    keeps R m -> (forall a, keeps R (f a)) -> keeps R (bind m f).
  Proof.
    intros A B m f Hm Hf s; unfold bind. specialize (Hm s).
    destruct (m s) as [s1 r]; simpl in Hm. destruct r as [a|e|o| |]; simpl; try exact Hm.
    eapply Rtrans; [exact Hm | apply Hf].
  Qed.
End Keeps.
