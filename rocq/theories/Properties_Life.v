(** Properties_Life.v -- C05 (clear) and C46 (ownership of validators). *)
From Coq Require Import Permutation.
From Verif Require Import Base Model_Utils Model_Number Model_Types Model_Argument Model_Usage Model_Args Model_Api
  Spec_Names Spec_Parse Spec_History Spec_Api Proofs_Base Proofs_Frame Proofs_Inv Proofs_Decl Proofs_Meth Proofs_History Proofs_Ghost Proofs_Owner Proofs_Check Properties_Names.

(* ------------------------------------------------------------------ *)
(** * C05 *)

(** clear() itself: nothing visible is left that distinguishes the object from a new one *)
Theorem C05_clear : forall s, snd (clear s) = Ok tt /\ visible (fst (clear s)) = init.
Proof. intros s. split; reflexivity. Qed.
Print Assumptions C05_clear.

Lemma calls_ghost : forall ops f d s, calls ops (ghost f d s) = (ghost f d (fst (calls ops s)), snd (calls ops s)).
Proof.
  induction ops as [|o ops IH]; intros f d s; simpl; [reflexivity|]. rewrite eqv_step.
  destruct (step o s) as [s1 r]. simpl. destruct r; simpl; try reflexivity; rewrite IH; now destruct (calls ops s1).
Qed.
(** Whatever is called afterwards, every call has the same outcome as on a new object
    and every state on the way looks the same (to the logs of deleted validators and of
    writes to destinations, the same entries are added). *)
Theorem C05_continuation : forall s ops, reach s ->
  let cleared := fst (clear s) in
  snd (calls ops cleared) = snd (calls ops init) /\
  visible (fst (calls ops cleared)) = visible (fst (calls ops init)) /\
  s_dlog (fst (calls ops cleared)) = s_dlog s ++ s_dlog (fst (calls ops init)) /\
  s_freed (fst (calls ops cleared)) = destroyed s ++ s_freed (fst (calls ops init)).
Proof.
  intros s ops _ cleared. assert (E : cleared = ghost (destroyed s) (s_dlog s) init).
  { unfold cleared, ghost, destroyed, clear, modify. cbn. now rewrite !app_nil_r. }
  rewrite E, calls_ghost. repeat split.
Qed.
Print Assumptions C05_continuation.
Example C05_example : exists s, reach s /\ visible s <> init /\
  snd (calls [OpAdd ["-n"] []; OpAdd ["-n"] []; OpParse ["p"; "-n"; "x"]] (fst (clear s))) =
    [Ok tt; Throw (Exn KArgument "-n" "invalid flag already exist"); Ok tt].
Proof. exists demo. split; [apply demo_reach|]. split; [|vm_compute; reflexivity].
  intros E. apply (f_equal (fun s => length (s_args s))) in E. vm_compute in E. discriminate. Qed.

(* ------------------------------------------------------------------ *)
(** * C46 *)

(** [destroyed s]: the validators deleted up to and including the destruction of the
    Args object, had the program stopped using it in state [s].  [s_freed s]: those
    deleted so far.  [attached s]: those in use, with isDeletable. *)

(** valid(v, true) puts v under the care of the object at once ... *)
Theorem C46_given : forall s a v s', reach s -> In a (arguments s) ->
  run_meth (a_id a) (MValid (Some v) true) s = (s', Ok tt) -> In (v, true) (attached s') /\ In (v_id v) (destroyed s').
Proof.
  intros s a v s' R Ia E. destruct (reach_wf s R) as [W _]. rewrite (meth_eq _ _ _ W Ia) in E. cbn in E. injection E as <-.
  assert (H : In (v, true) (attached (with_freed (put (arg_cfg a (cfg_valid (a_cfg a) (Some v) true)) s) (s_freed s ++ owned (a_cfg a))))).
  { apply in_flat_map. exists (arg_cfg a (cfg_valid (a_cfg a) (Some v) true)). split; [|now left].
    cbn [s_args with_freed]. now apply (put_In_self _ s a). }
  split; [exact H|]. rewrite destroyed_rel. apply in_app_iff. right. apply in_flat_map. exists (v, true). split; [exact H | now left].
Qed.
Print Assumptions C46_given.

Definition mention (i : nat) (f : list nat) (l : list (validator * bool)) : Prop := In i (f ++ flat_map rel l).
Lemma mention_destroyed : forall i s, mention i (s_freed s) (attached s) <-> In i (destroyed s).
Proof. intros i s. unfold mention. now rewrite destroyed_rel. Qed.
Lemma flat_perm : forall l l', Permutation l l' -> Permutation (flat_map rel l) (flat_map rel l').
Proof. intros. now apply Permutation_flat_map. Qed.
Lemma mention_perm : forall i f l l', Permutation l l' -> mention i f l -> mention i f l'.
Proof. intros i f l l' P H. unfold mention in *. eapply Permutation_in; [|exact H]. now apply Permutation_app_head, flat_perm. Qed.
Lemma mention_release : forall i f x l, mention i f (x :: l) <-> mention i (f ++ rel x) l.
Proof. intros i f x l. unfold mention. simpl. now rewrite app_assoc. Qed.
Lemma op_ok_any : forall o s, op_ok any_use o s.
Proof.
  assert (C : forall ms id s, chain_ok any_use id ms s) by (induction ms; simpl; intros; [exact I | split; [intros; exact I | auto]]).
  intros [] s; simpl; auto. 
Qed.
(** ... and no later call (removal, replacement, dest(), a throwing call, ...) can lose
    it: it has been deleted or will be when the object dies. *)
Theorem C46_never_lost : forall s o s' r i, reach s -> step o s = (s', r) -> completed r ->
  In i (destroyed s) -> In i (destroyed s').
Proof.
  intros s o s' r i R E C H. apply mention_destroyed. apply mention_destroyed in H.
  destruct (owner_step any_use (mention i)) with (s := s) (o := o) (s' := s') (r := r) as [_ G]; auto; try (intros; exact I).
  - apply mention_perm.
  - intros f x l. apply mention_release.
  - intros v del a t l Ia P _ Q. unfold mention in *. rewrite owned_rel. simpl. rewrite !in_app_iff in *. rewrite in_flat_map in Q.
    destruct Q as [Q|[x [Ix Rx]]]; [now left; left|]. apply (Permutation_in x P) in Ix. apply in_app_iff in Ix.
    destruct Ix as [Ix|Ix]; [left; right | right; right]; apply in_flat_map; now exists x.
  - now apply reach_wf.
  - apply op_ok_any.
Qed.
Print Assumptions C46_never_lost.

(** Never twice, and never while in use: in a program that passes each validator object
    to one argument (or lends the same one to several without handing it over), no
    validator is deleted twice, and none that is attached to an argument has been
    deleted. *)
Definition owned_once (f : list nat) (l : list (validator * bool)) : Prop :=
  NoDup (f ++ flat_map rel l) /\ (forall w d, In (w, d) l -> ~ In (v_id w) f) /\
  (forall w d w' d' l1 l2, Permutation l ((w, d) :: (w', d') :: l1 ++ l2) -> v_id w = v_id w' -> d = false /\ d' = false).

Lemma owned_once_perm : forall f l l', Permutation l l' -> owned_once f l -> owned_once f l'.
Proof.
  intros f l l' P [H1 [H2 H3]]. repeat split.
  - eapply Permutation_NoDup; [|exact H1]. now apply Permutation_app_head, flat_perm.
  - intros w d Iw. apply (H2 w d). eapply Permutation_in; [apply Permutation_sym; exact P | exact Iw].
  - destruct (H3 w d w' d' l1 l2) as [A _]; auto. now transitivity l'.
  - destruct (H3 w d w' d' l1 l2) as [_ A]; auto. now transitivity l'.
Qed.
Lemma owned_once_release : forall f x l, owned_once f (x :: l) -> owned_once (f ++ rel x) l.
Proof.
  intros f [w d] l [H1 [H2 H3]]. split; [now rewrite <- app_assoc|]. split.
  - intros w' d' Iw. rewrite in_app_iff. intros [B|B]; [apply (H2 w' d'); [now right | exact B]|].
    unfold rel in B. simpl in B. destruct d; [|contradiction]. destruct B as [B|[]].
    destruct (in_split _ _ Iw) as [l1 [l2 ->]].
    destruct (H3 w true w' d' l1 l2) as [Q _]; [|exact B|discriminate]. constructor. apply Permutation_sym, Permutation_middle.
  - intros w1 d1 w2 d2 l1 l2 P E. apply (H3 w1 d1 w2 d2 l1 ((w, d) :: l2)); [|exact E].
    eapply Permutation_trans; [apply perm_skip, P|]. 
    change ((w1, d1) :: (w2, d2) :: l1 ++ (w, d) :: l2) with (((w1, d1) :: (w2, d2) :: l1) ++ (w, d) :: l2).
    change ((w, d) :: (w1, d1) :: (w2, d2) :: l1 ++ l2) with ((w, d) :: ((w1, d1) :: (w2, d2) :: l1) ++ l2). apply Permutation_middle.
Qed.
Lemma pair_perm : forall {A} (x y z : A) l m, Permutation (x :: l) (y :: z :: m) ->
  (x = y /\ Permutation l (z :: m)) \/ (x = z /\ Permutation l (y :: m)) \/ exists m', Permutation l (y :: z :: m') .
Proof.
  intros A x y z l m P. assert (I : In x (y :: z :: m)) by (eapply Permutation_in; [exact P | now left]).
  destruct I as [<-|[<-|I]].
  - left. split; [reflexivity|]. now apply Permutation_cons_inv in P.
  - right; left. split; [reflexivity|]. apply (Permutation_cons_inv (a := z)). eapply Permutation_trans; [exact P|]. constructor.
  - right; right. destruct (in_split _ _ I) as [m1 [m2 ->]]. exists (m1 ++ m2). apply (Permutation_cons_inv (a := x)).
    eapply Permutation_trans; [exact P|]. apply Permutation_sym. change (y :: z :: m1 ++ x :: m2) with ((y :: z :: m1) ++ x :: m2).
    change (x :: y :: z :: m1 ++ m2) with (x :: (y :: z :: m1) ++ m2). apply Permutation_middle.
Qed.
Lemma owned_once_add : forall f l v del, owned_once f l -> ~ In (v_id v) f ->
  (forall w d, In (w, d) l -> v_id w = v_id v -> del = false /\ d = false) -> owned_once f ((v, del) :: l).
Proof.
  intros f l v del [H1 [H2 H3]] NF NA. split; [|split].
  - simpl. unfold rel at 1. simpl. destruct del; [|exact H1]. simpl. apply NoDup_Add with (a := v_id v) (l := f ++ flat_map rel l).
    + apply Add_app.
    + split; [exact H1|]. rewrite in_app_iff. intros [B|B]; [contradiction|]. apply in_flat_map in B. destruct B as [[w d] [Iw Rw]].
      unfold rel in Rw. simpl in Rw. destruct d; [|contradiction]. destruct Rw as [Rw|[]]. destruct (NA w true Iw Rw); discriminate.
  - intros w d [E|Iw]; [injection E as <- <-; exact NF | now apply (H2 w d)].
  - intros w d w' d' l1 l2 P E. destruct (pair_perm _ _ _ _ _ P) as [[Q P']|[[Q P']|[m' P']]].
    + injection Q as <- <-. apply (NA w' d'); [|now symmetry]. eapply Permutation_in; [apply Permutation_sym; exact P' | now left].
    + injection Q as <- <-. assert (Iw : In (w, d) l) by (eapply Permutation_in; [apply Permutation_sym; exact P' | now left]).
      destruct (NA w d Iw E). split; assumption.
    + apply (H3 w d w' d' [] m' P' E).
Qed.
Lemma owned_once_reach : forall s, reach_with valid_once s -> owned_once (s_freed s) (attached s).
Proof.
  intros s R. refine (owner_reach valid_once owned_once _ _ _ owned_once_perm owned_once_release _ _ s R); try (intros; exact I).
  - intros v del a t l Ia P PM Q. cbn in PM. destruct PM as [NF NA]. rewrite owned_rel.
    assert (Q' : owned_once (s_freed t ++ flat_map rel (attachment a)) l).
    { apply (owned_once_perm _ _ _ P) in Q. clear - Q. revert Q. generalize (s_freed t). induction (attachment a) as [|x m IH]; intros f Q; simpl in *; [now rewrite app_nil_r|].
      rewrite app_assoc. apply IH. now apply owned_once_release. }
    apply owned_once_add; [exact Q'| |].
    + rewrite in_app_iff. intros [B|B]; [contradiction|]. apply in_flat_map in B. destruct B as [[w d] [Iw Rw]]. unfold rel in Rw. simpl in Rw.
      destruct d; [|contradiction]. destruct Rw as [Rw|[]]. destruct (NA w true) as [_ Z]; [|exact Rw|discriminate].
      eapply Permutation_in; [apply Permutation_sym; exact P|]. apply in_app_iff. now left.
    + intros w d Iw Ew. apply (NA w d); [|exact Ew]. eapply Permutation_in; [apply Permutation_sym; exact P|]. apply in_app_iff. now right.
  - split; [constructor|]. split; [intros w d []|]. intros w d w' d' l1 l2 P. apply Permutation_nil in P. discriminate.
Qed.
Theorem C46_at_most_once : forall s, reach_with valid_once s ->
  NoDup (destroyed s) /\ (forall v d, In (v, d) (attached s) -> ~ In (v_id v) (s_freed s)).
Proof.
  intros s R. destruct (owned_once_reach s R) as [H1 [H2 _]]. split; [|exact H2]. now rewrite destroyed_rel.
Qed.
Print Assumptions C46_at_most_once.

(** A validator that is only ever lent (isDeletable = false) is never deleted. *)
Definition only_lent (i : nat) : policy :=
  Policy (fun _ _ => True) (fun m _ _ => match m with MValid (Some v) true => v_id v <> i | _ => True end).
Theorem C46_lent_never_deleted : forall i s, reach_with (only_lent i) s -> ~ In i (destroyed s).
Proof.
  intros i s R. rewrite <- mention_destroyed. 
  refine (owner_reach (only_lent i) (fun f l => ~ mention i f l) _ _ _ _ _ _ _ s R); try (intros; exact I).
  - intros f l l' P H1 H2. apply H1. eapply mention_perm; [apply Permutation_sym; exact P | exact H2].
  - intros f x l H. now rewrite <- mention_release.
  - intros v del a t l Ia P PM Q B. apply Q. apply (mention_perm i _ _ _ (Permutation_sym P)). unfold mention in *. rewrite owned_rel in B.
    rewrite flat_map_app. simpl in B. rewrite <- !app_assoc in B. rewrite !in_app_iff in *.
    destruct B as [B|[B|[B|B]]]; auto. exfalso. unfold rel in B. simpl in B. destruct del; [|contradiction]. destruct B as [B|[]]. now apply PM in B.
  - unfold mention. simpl. tauto.
Qed.
Print Assumptions C46_lent_never_deleted.

(** a validator handed over, replaced, another one surviving dest(), its argument then
    removed: each deleted exactly once, the one in use not yet *)
Definition yes (i : nat) : validator := Validator i (fun vs => VOk true vs).
Definition owners : list op :=
  [OpAdd ["-a"] [MValid (Some (yes 1)) true; MValid (Some (yes 2)) true; MDest (Dest 0 DScalar false TyValue)];
   OpAdd ["-b"] [MValid (Some (yes 3)) false]; OpAdd ["-c"] [MValid (Some (yes 4)) true]; OpRemove ["-a"]].
Example C46_example : destroyed (history owners) = [1; 2; 4] /\ s_freed (history owners) = [1; 2].
Proof. vm_compute. auto. Qed.
Example C46_policy_example : reach_with valid_once (history owners).
Proof.
  apply (history_with valid_once valid_onceb); [intros; exact I | exact valid_onceb_ok | vm_compute; reflexivity].
Qed.
