(** Proofs_CopyMeth.v -- what the methods of a copy do. *)
From Coq Require Import Permutation Sorted.
From Verif Require Import Base Model_Utils Model_Number Model_Types Model_Argument Model_Usage Model_Args Model_Api Model_Copy Model_CopyMeth
  Spec_Order Spec_Names Spec_Reading Spec_Parse Spec_Decl Spec_History Proofs_Base Proofs_Order Proofs_Frame Proofs_Inv Proofs_Reading Proofs_Parse
  Proofs_Decl Proofs_Meth Proofs_History Properties_Safe.

(** nodes are numbered from 1 *)
Definition numbered (s : state) : Prop := forall a, In a (s_args s) -> 0 < a_id a.
Lemma numbered_ids : forall s, numbered s <-> forall i, In i (map a_id (s_args s)) -> 0 < i.
Proof.
  intros s. split; intros H.
  - intros i Ii. apply in_map_iff in Ii. destruct Ii as [a [<- Ia]]. now apply H.
  - intros a Ia. apply H. now apply in_map.
Qed.
Lemma numbered_registered : forall s c, numbered s -> numbered (registered s c).
Proof.
  intros s c H a Ia. unfold registered in Ia. cbn [s_args with_args with_map] in Ia. apply sort_In in Ia. apply in_app_or in Ia.
  destruct Ia as [Ia|[<-|[]]]; [now apply H|]. cbn [a_id]. unfold fresh_id. apply Nat.lt_0_succ.
Qed.
Lemma frame_ids' : forall s s', frame s s' -> map a_id (s_args s') = map a_id (s_args s).
Proof.
  intros s s' F. pose proof (fr_args _ _ F) as E. apply (f_equal (map (fun x => fst (fst x)))) in E. rewrite !map_map in E. exact E.
Qed.
Lemma frame_numbered : forall s s', frame s s' -> numbered s -> numbered s'.
Proof. intros s s' F H. apply numbered_ids. rewrite numbered_ids in H. intros i Ii. apply H. rewrite (frame_ids' _ _ F) in Ii. exact Ii. Qed.

Lemma reach_numbered : forall s, reach s -> numbered s.
Proof.
  intros s R. apply reach_any in R.
  refine (proj2 (reach_invariant any_use numbered _ _ _ _ _ _ _ _ _ _ _ _ s R)); clear s R; try (intros; exact I).
  - intros f d a [].
  - intros s s' _ F H. exact (frame_numbered s s' F H).
  - intros s n _ H _ _ _. now apply numbered_registered.
  - intros s v flags _ H _ _ _ _ _ _. now apply numbered_registered.
  - intros m s a _ H _ _ _. apply numbered_ids. intros i Ii. apply (proj1 (meth_ids m a s i)) in Ii. revert i Ii. now apply numbered_ids.
  - intros s n a _ H Ia _ _ b Ib. unfold removed in Ib. destruct (existsb _ _).
    + cbn [s_args with_map with_args] in Ib. unfold upd_id in Ib. apply in_map_iff in Ib. destruct Ib as [x [<- Ix]].
      destruct (Nat.eqb (a_id x) (a_id a)); exact (H x Ix).
    + apply H. destruct (optr_eqb (s_help s) (ptr_of a)); [|destruct (optr_eqb (s_version s) (ptr_of a))];
        cbn [s_args with_freed with_help with_version with_map with_args] in Ib; exact (proj1 (proj1 (filter_In _ _ _) Ib)).
  - intros s _ H a Ia. cbn [s_args with_args] in Ia. apply sort_In in Ia. now apply H.
  - intros s s' H E _ _ _ _ a Ia. rewrite E in Ia. now apply H.
  - intros s _ _ a [].
Qed.

(** ** typeConstructor_ and defaultsConstructor_ without a role *)
Definition roleless (act : eAction) : Prop := act <> HELP /\ act <> VERSION.
Definition redeclared (a : argument) : argument * option exn :=
  match kind_of (a_cfg a) with
  | None => (a, Some (Exn KArgument (first_name (a_cfg a)) "positional argument cannot use with this action or this nargs"))
  | Some k => defaults_arg (arg_cfg a (retyped (a_cfg a) k))
  end.
Lemma redeclared_id : forall a, a_id (fst (redeclared a)) = a_id a.
Proof. intros a. unfold redeclared. destruct (kind_of (a_cfg a)); [rewrite defaults_arg_id|]; reflexivity. Qed.
Lemma kind_roleless : forall c k, roleless (c_action c) -> kind_of c = Some k -> fst (fst k) <> HELP_OPTION /\ fst (fst k) <> VERSION_OPTION.
Proof.
  intros c k [H1 H2] E. unfold kind_of in E. destruct (is_positional (c_type c)).
  - unfold positional_kind in E. destruct (c_action c); try discriminate; repeat (destruct (N.eqb _ _) in E); try discriminate;
      injection E as <-; cbn [fst]; split; discriminate.
  - injection E as <-. unfold option_kind. destruct (N.eqb (c_nargs c) 0); [cbn [fst]; split; discriminate|].
    destruct (c_action c); try (now elim H1); try (now elim H2); repeat (destruct (N.eqb _ _)); cbn [fst]; split; discriminate.
Qed.
Lemma declared_roleless : forall a s, roleless (c_action (a_cfg a)) -> declared a s = (put (fst (redeclared a)) s, snd (redeclared a)).
Proof.
  intros a s N. unfold declared, redeclared. cbv zeta. destruct (kind_of (a_cfg a)) as [k|] eqn:E; [|reflexivity].
  destruct (kind_roleless _ _ N E) as [K1 K2]. destruct (fst (fst k)); try reflexivity; [now elim K1 | now elim K2].
Qed.
Lemma released_roleless : forall a s, roleless (c_action (a_cfg a)) -> released a s = s.
Proof. intros a s [H1 H2]. unfold released. destruct (c_action (a_cfg a)); try reflexivity; [now elim H1 | now elim H2]. Qed.

(** ** the copy in node 0 *)
Section Node.
  Variables (s : state) (k : nat) (c : acfg) (d : adyn).
  Hypothesis ND : NoDup (map a_id (s_args s)).
  Hypothesis NU : numbered s.
  Hypothesis HN : c_names c <> [].
  Let x := Arg 0 k c d.
  Let t := with_args s (x :: s_args s).
  Lemma node_ids : NoDup (map a_id (s_args t)).
  Proof.
    unfold t. cbn [s_args with_args map]. constructor; [|exact ND]. intros Z. apply in_map_iff in Z. destruct Z as [a [E Ia]].
    pose proof (NU a Ia) as P. unfold x in E. cbn [a_id] in E. rewrite E in P. exact (Nat.lt_irrefl _ P).
  Qed.
  Lemma node_find : find_id 0 (s_args t) = Some x.
  Proof. reflexivity. Qed.
  Lemma node_put : forall b, a_id b = 0 -> put b t = with_args s (b :: s_args s).
  Proof.
    intros b E. unfold put, t. cbn [s_args with_args]. rewrite E. unfold upd_id. cbn [map]. unfold x. cbn [a_id Nat.eqb].
    unfold with_args. f_equal. f_equal. rewrite <- (map_id (s_args s)) at 2. apply map_ext_in. intros a Ia.
    pose proof (NU a Ia) as P. destruct (a_id a); [now elim (Nat.lt_irrefl 0) | reflexivity].
  Qed.
  Lemma node_named : forall c', c_names c' = c_names c -> has_name (arg_cfg x c') = true.
  Proof. intros c' E. unfold has_name. cbn [a_cfg arg_cfg]. rewrite E. destruct (c_names c); [now elim HN | reflexivity]. Qed.
  Lemma node_deref : deref 0 t = (t, Ok x).
  Proof. reflexivity. Qed.
  Lemma node_set : forall f, set_cfg 0 f t = (put (arg_cfg x (f c)) t, Ok tt).
  Proof. intros f. exact (set_cfg_put t x f node_ids node_find). Qed.
  Lemma node_declared : forall c', c_names c' = c_names c -> roleless (c_action c') ->
    (typeConstructor 0 ;;; defaultsConstructor 0) (put (arg_cfg x c') t) = outcome (with_args s (fst (redeclared (arg_cfg x c')) :: s_args s), snd (redeclared (arg_cfg x c'))).
  Proof.
    intros c' E N. pose proof (declared_eq (arg_cfg x c') t x node_ids node_find (node_named c' E)) as D.
    change (a_id (arg_cfg x c')) with 0 in D. rewrite D, declared_roleless by exact N.
    rewrite node_put; [reflexivity|]. rewrite redeclared_id. reflexivity.
  Qed.
  Lemma node_nargs : forall n, roleless (c_action c) ->
    nargs 0 n t = outcome (with_args s (fst (redeclared (arg_cfg x (cfg_nargs c (n mod w64)%N))) :: s_args s), snd (redeclared (arg_cfg x (cfg_nargs c (n mod w64)%N)))).
  Proof.
    intros n N. unfold nargs. rewrite (bind_ok _ _ _ _ _ node_deref), (bind_ok _ _ _ _ _ (node_set _)). now apply node_declared.
  Qed.
  Lemma node_action : forall act, roleless (c_action c) -> roleless act ->
    action 0 act t = outcome (with_args s (fst (redeclared (arg_cfg x (cfg_action c act))) :: s_args s), snd (redeclared (arg_cfg x (cfg_action c act)))).
  Proof.
    intros act [N1 N2] N. unfold action. rewrite (bind_ok _ _ _ _ _ node_deref). unfold x at 1 2. cbn [a_cfg].
    assert (E : forall k0 : M unit, ((if action_eqb (c_action c) HELP then modify (fun s => with_help s None) else ret tt) ;;;
       (if action_eqb (c_action c) VERSION then modify (fun s => with_version s None) else ret tt) ;;; k0) t = k0 t).
    { intros k0. destruct (c_action c); try reflexivity; [now elim N1 | now elim N2]. }
    rewrite E, (bind_ok _ _ _ _ _ (node_set _)). now apply node_declared.
  Qed.
  Lemma node_defaults : forall v,
    defaults 0 v t = outcome (with_args s (fst (defaults_arg (arg_cfg x (cfg_defaults c v))) :: s_args s), snd (defaults_arg (arg_cfg x (cfg_defaults c v)))).
  Proof.
    intros v. unfold defaults. rewrite (bind_ok _ _ _ _ _ node_deref), (bind_ok _ _ _ _ _ (node_set _)).
    set (b := arg_cfg x (cfg_defaults c v)). rewrite (defaultsConstructor_eq 0 (put b t) b).
    - rewrite put_put by (now rewrite defaults_arg_id). rewrite node_put; [reflexivity|]. now rewrite defaults_arg_id.
    - rewrite put_ids. exact node_ids.
    - change 0 with (a_id b). eapply put_find. exact node_find.
    - now apply node_named.
  Qed.
End Node.

(** ** the methods of a copy, as long as no role is at stake *)
Definition verdict_of (o : option exn) : res unit := match o with None => Ok tt | Some e => Throw e end.
(** what a method makes of the argument alone *)
Definition meth_arg (m : meth) (a : argument) (s : state) : argument * option exn :=
  let c := a_cfg a in
  match m with
  | MFlag f =>
      if is_positional (c_type c) then (a, Some (Exn KArgument f "can't add flag in positionnal argument"))
      else match validFormatFlag f with
           | Some msg => (a, Some (Exn KArgument f msg))
           | None => if mem_key f (s_map s) then (a, Some (Exn KArgument f "invalid flag already exist"))
                     else (arg_cfg a (cfg_names c (sort_flags (c_names c ++ [f]))), None)
           end
  | MAction act => redeclared (arg_cfg a (cfg_action c act))
  | MRequired b => (arg_cfg a (cfg_required c b), None)
  | MHelp h => (arg_cfg a (cfg_help c h), None)
  | MMetavar x => (arg_cfg a (cfg_metavar c x), None)
  | MNargs n => redeclared (arg_cfg a (cfg_nargs c (n mod w64)%N))
  | MDefaults v => defaults_arg (arg_cfg a (cfg_defaults c v))
  | MValid p b => (arg_cfg a (cfg_valid c p b), None)
  | MDest d => (Arg (a_id a) (S (a_gen a)) (cfg_dest (cfg_defaults c []) (Some d)) (a_dyn a), None)
  end.
Definition no_role (m : meth) (a : argument) : Prop :=
  match m with
  | MAction act => roleless (c_action (a_cfg a)) /\ roleless act
  | MNargs _ => roleless (c_action (a_cfg a))
  | _ => True
  end.

(** on the listed argument *)
Lemma find_resorted : forall i s, NoDup (map a_id (s_args s)) -> find_id i (s_args (resorted s)) = find_id i (s_args s).
Proof.
  intros i s ND. unfold resorted. cbn [s_args with_args]. destruct (find_id i (s_args s)) as [a|] eqn:E.
  - destruct (find_id_In _ _ _ E) as [Ia <-]. apply In_find_id; [|now apply sort_In].
    eapply Permutation_NoDup; [|exact ND]. apply Permutation_map. apply sort_perm.
  - apply find_id_none in E. apply find_id_none. intros Z. apply E. eapply Permutation_in; [|exact Z]. apply Permutation_map. symmetry. apply sort_perm.
Qed.
Lemma meth_listed : forall m a s, wf0 s -> In a (s_args s) -> no_role m a ->
  find_id (a_id a) (s_args (fst (meth_state m a s))) = Some (fst (meth_arg m a s)) /\ snd (meth_state m a s) = snd (meth_arg m a s).
Proof.
  intros m a s W Ia N. pose proof (wf_ids s W) as ND. pose proof (In_find_id _ _ ND Ia) as F.
  assert (PF : forall b, a_id b = a_id a -> find_id (a_id a) (s_args (put b s)) = Some b) by (intros b E; rewrite <- E; eapply put_find; rewrite E; exact F).
  assert (PN : forall b, NoDup (map a_id (s_args (put b s)))) by (intros b; now rewrite put_ids).
  destruct m; unfold meth_state, meth_arg; cbv zeta.
  - destruct (is_positional (c_type (a_cfg a))); [split; [exact F | reflexivity]|]. destruct (validFormatFlag f); [split; [exact F | reflexivity]|].
    destruct (mem_key f (s_map s)); [split; [exact F | reflexivity]|]. cbn [fst snd s_args with_map]. split; [|reflexivity].
    rewrite find_resorted by apply PN. now apply PF.
  - destruct N as [N1 N2]. rewrite released_roleless by exact N1. rewrite declared_roleless by exact N2. cbn [fst snd]. split; [|reflexivity].
    apply PF. rewrite redeclared_id. reflexivity.
  - cbn [fst snd]. split; [|reflexivity]. rewrite find_resorted by apply PN. now apply PF.
  - cbn [fst snd]. split; [|reflexivity]. now apply PF.
  - cbn [fst snd]. split; [|reflexivity]. now apply PF.
  - rewrite declared_roleless by exact N. cbn [fst snd]. split; [|reflexivity]. apply PF. rewrite redeclared_id. reflexivity.
  - cbn [fst snd]. split; [|reflexivity]. apply PF. rewrite defaults_arg_id. reflexivity.
  - cbn [fst snd s_args with_freed]. split; [|reflexivity]. now apply PF.
  - cbn [fst snd]. split; [|reflexivity]. now apply PF.
Qed.

(** on a copy *)
Definition moved (i g : nat) (a : argument) : argument := Arg i g (a_cfg a) (a_dyn a).
Lemma moved_defaults : forall i g a, defaults_arg (moved i g a) = (moved i g (fst (defaults_arg a)), snd (defaults_arg a)).
Proof.
  intros i g a. unfold defaults_arg, moved. cbn [a_cfg a_dyn]. destruct (no_defaults (a_cfg a)); [reflexivity|].
  destruct (size_fits (a_cfg a) _); [|reflexivity]. cbn [fst snd]. f_equal. unfold defaulted. cbn [a_cfg a_dyn a_id a_gen].
  destruct (c_type (a_cfg a)); reflexivity.
Qed.
Lemma moved_redeclared : forall i g a, redeclared (moved i g a) = (moved i g (fst (redeclared a)), snd (redeclared a)).
Proof.
  intros i g a. unfold redeclared. cbn [a_cfg moved]. destruct (kind_of (a_cfg a)) as [k|]; [|reflexivity].
  exact (moved_defaults i g (arg_cfg a (retyped (a_cfg a) k))).
Qed.
(** the parser after a method of a copy *)
Definition copy_left (m : meth) (c : copy) (s : state) : state :=
  match m with
  | MFlag f => match snd (meth_arg (MFlag f) (cp_arg c) s) with
               | None => with_map s (s_map s ++ [(f, a_id (cp_arg c))])
               | Some _ => s
               end
  | MValid _ _ => with_freed s (s_freed s ++ owned (a_cfg (cp_arg c)))
  | _ => s
  end.
Definition sorted_parser (s : state) : Prop := forallb has_name (s_args s) = true /\ sort_by arg_lt (s_args s) = s_args s.
Lemma sort_args_same : forall s, sorted_parser s -> sort_args s = (s, Ok tt).
Proof. intros s [H1 H2]. unfold sort_args. rewrite H1, H2. destruct s; reflexivity. Qed.
Lemma on_copy_eq : forall run c s b o,
  run 0 (with_args s (Arg 0 (cp_number c) (a_cfg (cp_arg c)) (a_dyn (cp_arg c)) :: s_args s)) = outcome (with_args s (b :: s_args s), o) ->
  on_copy run c s = (s, CopyOf (cp_number c) (moved (a_id (cp_arg c)) (a_gen (cp_arg c)) b), verdict_of o).
Proof. intros run c s b o E. unfold on_copy. rewrite E. destruct o; cbn; destruct s; reflexivity. Qed.
Lemma copy_meth_eq : forall m c s, NoDup (map a_id (s_args s)) -> numbered s -> sorted_parser s -> c_names (a_cfg (cp_arg c)) <> [] ->
  no_role m (cp_arg c) -> (forall d, m <> MDest d) ->
  copy_meth m c s = (copy_left m c s, CopyOf (cp_number c) (fst (meth_arg m (cp_arg c) s)), verdict_of (snd (meth_arg m (cp_arg c) s))).
Proof.
  intros m [k a] s ND NU SP HN N D. cbn [cp_arg cp_number] in *.
  assert (MV : forall y, moved (a_id a) (a_gen a) (arg_cfg (Arg 0 k (a_cfg a) (a_dyn a)) y) = arg_cfg a y) by reflexivity.
  destruct m; unfold copy_meth, copy_left, meth_arg; cbv zeta; cbn [cp_arg cp_number].
  - destruct (is_positional (c_type (a_cfg a))); [reflexivity|]. destruct (validFormatFlag f); [reflexivity|].
    destruct (mem_key f (s_map s)); [reflexivity|]. rewrite sort_args_same by exact SP. reflexivity.
  - destruct N as [N1 N2]. erewrite on_copy_eq by (exact (node_action s k _ (a_dyn a) ND NU HN a0 N1 N2)). cbn [cp_arg cp_number].
    rewrite <- (MV (cfg_action (a_cfg a) a0)), moved_redeclared. reflexivity.
  - rewrite sort_args_same by exact SP. reflexivity.
  - reflexivity.
  - reflexivity.
  - erewrite on_copy_eq by (exact (node_nargs s k _ (a_dyn a) ND NU HN n N)). cbn [cp_arg cp_number].
    rewrite <- (MV (cfg_nargs (a_cfg a) (n mod w64)%N)), moved_redeclared. reflexivity.
  - erewrite on_copy_eq by (exact (node_defaults s k _ (a_dyn a) ND NU HN v)). cbn [cp_arg cp_number].
    rewrite <- (MV (cfg_defaults (a_cfg a) v)), moved_defaults. reflexivity.
  - reflexivity.
  - now elim (D d).
Qed.
