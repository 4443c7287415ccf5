(** Properties_Roles.v -- C43: the help option and the version option. *)
From Coq Require Import Permutation Sorted.
From Verif Require Import Base Model_Utils Model_Number Model_Types Model_Argument Model_Usage Model_Args Model_Api
  Spec_Order Spec_Names Spec_Reading Spec_Parse Spec_Decl Spec_Finish Spec_History Spec_Api Spec_Result
  Proofs_Base Proofs_Order Proofs_Frame Proofs_Inv Proofs_ReadFacts Proofs_Reading Proofs_Parse Proofs_Decl Proofs_Finish
  Proofs_Meth Proofs_History Proofs_Config Proofs_Names Proofs_Check Proofs_Central Proofs_Dyn Proofs_Fresh Proofs_Redecl Demo.

(** At most one argument acts as help option, at most one as version option, in every
    reachable state; each was declared with that action, is not positional, and they are
    different arguments.  (What "acts as" means: C18, C19.) *)
Theorem C43_at_most_one : forall s, reach s ->
  (forall a b, is_help s a -> is_help s b -> a = b) /\ (forall a b, is_version s a -> is_version s b -> a = b) /\
  (forall a, is_help s a -> getAction a = HELP /\ isPositional a = false) /\
  (forall a, is_version s a -> getAction a = VERSION /\ isPositional a = false) /\
  (forall a b, is_help s a -> is_version s b -> a <> b).
Proof.
  intros s R. destruct (reach_wf s R) as [W _]. destruct (reach_roles s R) as [RH RV].
  assert (U : forall a b p, In a (arguments s) -> In b (arguments s) -> p = Some (ptr_of a) -> p = Some (ptr_of b) -> a = b).
  { intros a b p Ia Ib -> E. injection E as E _. now apply (wf_unique s a b W Ia Ib). }
  assert (H1 : forall a, is_help s a -> getAction a = HELP /\ isPositional a = false).
  { intros a [Ia Pa]. unfold role in RH. rewrite Pa in RH. exact (proj2 (RH a Ia eq_refl) eq_refl). }
  assert (V1 : forall a, is_version s a -> getAction a = VERSION /\ isPositional a = false).
  { intros a [Ia Pa]. unfold role in RV. rewrite Pa in RV. exact (proj2 (RV a Ia eq_refl) eq_refl). }
  split; [intros a b [Ia Pa] [Ib Pb]; exact (U a b _ Ia Ib Pa Pb)|].
  split; [intros a b [Ia Pa] [Ib Pb]; exact (U a b _ Ia Ib Pa Pb)|].
  split; [exact H1|]. split; [exact V1|].
  intros a b Ha Vb E. subst b. destruct (H1 a Ha) as [X _]. destruct (V1 a Vb) as [Y _]. congruence.
Qed.
Print Assumptions C43_at_most_one.

(** Declaring a second one throws and leaves the first in place: the exception names the
    second, and the first is the help option as before. *)
Theorem C43_second_help : forall s h name b, reach s -> is_help s h -> getArgument s name = Ok b -> b <> h ->
  isPositional b = false -> getNargs b <> 0%N -> getAction b <> HELP ->
  exists s', step (OpUpdate name [MAction HELP]) s = (s', Throw (Exn KArgument (first_of (a_cfg b)) "help action already defined")) /\ is_help s' h.
Proof.
  intros s h name b R [Ih Ph] G N P N0 NH. pose proof (reach_wf s R) as W. pose proof (proj1 W) as W0.
  destruct (getArgument_inv s name b W0 G) as [Ib [_ As]]. rewrite (update_get s name b _ W0 G), (one_meth _ s b W0 Ib).
  assert (NE : a_id h <> a_id b) by (intro E; apply N; symmetry; apply (wf_unique s h b W0 Ih Ib E)).
  assert (RS : s_help (released b s) = s_help s /\ s_args (released b s) = s_args s) by (unfold released; destruct (getAction b); now split).
  destruct RS as [RS1 RS2]. cbn [meth_state]. unfold declared. cbn [arg_cfg a_cfg].
  assert (K : kind_of (cfg_action (a_cfg b) HELP) = Some (HELP_OPTION, 0%N, HELP)).
  { unfold kind_of. cbn [cfg_action c_type c_action c_nargs]. rewrite P. unfold option_kind. apply N.eqb_neq in N0. now rewrite N0. }
  rewrite K. cbn [fst snd]. rewrite RS1, Ph. cbn [claims].
  assert (PE : ptr_eqb (ptr_of h) (ptr_of (arg_cfg b (cfg_action (a_cfg b) HELP))) = false).
  { destruct (ptr_eqb _ _) eqn:Q; [|reflexivity]. exfalso. apply ptr_eqb_eq in Q. injection Q as Q _. contradiction. }
  rewrite PE. cbn [outcome]. eexists. split; [reflexivity|]. split.
  - apply put_In_other; [now rewrite RS2 | exact NE].
  - change (s_help (put ?x ?y)) with (s_help y). now rewrite RS1.
Qed.
Print Assumptions C43_second_help.
Theorem C43_second_version : forall s h name b, reach s -> is_version s h -> getArgument s name = Ok b -> b <> h ->
  isPositional b = false -> getNargs b <> 0%N -> getAction b <> VERSION ->
  exists s', step (OpUpdate name [MAction VERSION]) s = (s', Throw (Exn KArgument (first_of (a_cfg b)) "version action already defined")) /\ is_version s' h.
Proof.
  intros s h name b R [Ih Ph] G N P N0 NH. pose proof (reach_wf s R) as W. pose proof (proj1 W) as W0.
  destruct (getArgument_inv s name b W0 G) as [Ib [_ As]]. rewrite (update_get s name b _ W0 G), (one_meth _ s b W0 Ib).
  assert (NE : a_id h <> a_id b) by (intro E; apply N; symmetry; apply (wf_unique s h b W0 Ih Ib E)).
  assert (RS : s_version (released b s) = s_version s /\ s_args (released b s) = s_args s) by (unfold released; destruct (getAction b); now split).
  destruct RS as [RS1 RS2]. cbn [meth_state]. unfold declared. cbn [arg_cfg a_cfg].
  assert (K : kind_of (cfg_action (a_cfg b) VERSION) = Some (VERSION_OPTION, 0%N, VERSION)).
  { unfold kind_of. cbn [cfg_action c_type c_action c_nargs]. rewrite P. unfold option_kind. apply N.eqb_neq in N0. now rewrite N0. }
  rewrite K. cbn [fst snd]. rewrite RS1, Ph. cbn [claims].
  assert (PE : ptr_eqb (ptr_of h) (ptr_of (arg_cfg b (cfg_action (a_cfg b) VERSION))) = false).
  { destruct (ptr_eqb _ _) eqn:Q; [|reflexivity]. exfalso. apply ptr_eqb_eq in Q. injection Q as Q _. contradiction. }
  rewrite PE. cbn [outcome]. eexists. split; [reflexivity|]. split.
  - apply put_In_other; [now rewrite RS2 | exact NE].
  - change (s_version (put ?x ?y)) with (s_version y). now rewrite RS1.
Qed.
Print Assumptions C43_second_version.
Example C43_example : exists s h b, reach s /\ is_version s h /\ getArgument s "-n" = Ok b /\ b <> h /\ isPositional b = false /\ getNargs b <> 0%N /\ getAction b <> VERSION.
Proof.
  exists shop, (pick "-V" shop), (pick "-n" shop). split; [apply history_reach|].
  split; [split; [apply pick_In; vm_compute; reflexivity | vm_compute; reflexivity]|]. split; [vm_compute; reflexivity|].
  split; [intro X; apply (f_equal a_id) in X; vm_compute in X; discriminate X|]. split; [vm_compute; reflexivity|].
  split; intro X; vm_compute in X; discriminate X.
Qed.

(** But not for long: the refused declaration leaves its trace in the second argument, so
    that a later action() of the second argument takes the role from the first, which is
    still declared as the help option. *)
Definition thief : state := history [OpAdd ["-a"] [MAction HELP]; OpAdd ["-b"] [MAction HELP]].
Theorem C43_refuted : exists h s', reach_with careful thief /\ is_help thief h /\ getArgument thief "-a" = Ok h /\
  step (OpUpdate "-b" [MAction STORE_TRUE]) thief = (s', Ok tt) /\
  getArgument s' "-a" = Ok h /\ getAction h = HELP /\ (forall x, ~ is_help s' x) /\
  (exists out, snd (parseArguments ["prog"; "-a"] thief) = Exit out) /\ snd (parseArguments ["prog"; "-a"] s') = Ok tt.
Proof.
  exists (pick "-a" thief). eexists. split; [apply careful_history; vm_compute; reflexivity|].
  split; [split; [apply pick_In; vm_compute; reflexivity | vm_compute; reflexivity]|].
  split; [vm_compute; reflexivity|]. split; [vm_compute; reflexivity|]. split; [vm_compute; reflexivity|].
  split; [vm_compute; reflexivity|]. split; [intros x [_ X]; vm_compute in X; discriminate X|].
  split; [eexists; vm_compute; reflexivity | vm_compute; reflexivity].
Qed.
Print Assumptions C43_refuted.

(** Without refused declarations: action(HELP) is called only when no argument acts as
    help option, on an option whose nargs is not 0 (the same for VERSION); dest() is not
    called on help and version options. *)
Definition one_each : policy :=
  Policy (fun _ _ => True)
    (fun m a s => match m with
       | MAction HELP => s_help s = None /\ isPositional a = false /\ getNargs a <> 0%N
       | MAction VERSION => s_version s = None /\ isPositional a = false /\ getNargs a <> 0%N
       | MDest _ => getAction a <> HELP /\ getAction a <> VERSION
       | _ => True
       end).
Definition told (s : state) : Prop :=
  (forall a, In a (s_args s) -> getAction a = HELP -> s_help s = Some (ptr_of a)) /\
  (forall a, In a (s_args s) -> getAction a = VERSION -> s_version s = Some (ptr_of a)).
(** a change that keeps the roles and what the arguments say *)
Lemma told_view : forall s s', told s -> s_help s' = s_help s -> s_version s' = s_version s ->
  (forall b, In b (s_args s') -> exists a, In a (s_args s) /\ ptr_of b = ptr_of a /\ getAction b = getAction a) -> told s'.
Proof.
  intros s s' [TH TV] EH EV M. split; intros b Ib Ab; destruct (M b Ib) as [a [Ia [-> Ea]]]; rewrite Ea in Ab; [rewrite EH; now apply TH | rewrite EV; now apply TV].
Qed.
Lemma put_view : forall s a b x, In a (s_args s) -> ptr_of b = ptr_of a -> getAction b = getAction a -> In x (s_args (put b s)) ->
  exists y, In y (s_args s) /\ ptr_of x = ptr_of y /\ getAction x = getAction y.
Proof. intros s a b x Ia P A I. apply put_In in I. destruct I as [->|[I _]]; [exists a | exists x]; auto. Qed.
Lemma told_declared : forall s a b, wf0 s -> In a (s_args s) -> a_id b = a_id a -> a_gen b = a_gen a ->
  is_positional (c_type (a_cfg b)) = is_positional (c_type (a_cfg a)) ->
  (forall x, In x (s_args s) -> a_id x <> a_id a -> getAction x = HELP -> s_help s = Some (ptr_of x)) ->
  (forall x, In x (s_args s) -> a_id x <> a_id a -> getAction x = VERSION -> s_version s = Some (ptr_of x)) ->
  (getAction b = HELP -> isPositional b = false /\ (s_help s = None /\ getNargs b <> 0%N \/ s_help s = Some (ptr_of a))) ->
  (getAction b = VERSION -> isPositional b = false /\ (s_version s = None /\ getNargs b <> 0%N \/ s_version s = Some (ptr_of a))) ->
  told (fst (declared b s)).
Proof.
  intros s a b W Ia EI EG EP OH OV BH BV.
  assert (PT : ptr_of b = ptr_of a) by (unfold ptr_of; congruence).
  assert (CASES : forall x t, s_args t = s_args (put x s) -> a_id x = a_id a -> a_gen x = a_gen a ->
     (s_help t = s_help s \/ s_help t = Some (ptr_of a) /\ (forall y, In y (s_args s) -> a_id y <> a_id a -> getAction y <> HELP)) ->
     (s_version t = s_version s \/ s_version t = Some (ptr_of a) /\ (forall y, In y (s_args s) -> a_id y <> a_id a -> getAction y <> VERSION)) ->
     (getAction x = HELP -> s_help t = Some (ptr_of a)) -> (getAction x = VERSION -> s_version t = Some (ptr_of a)) -> told t).
  { intros x t EA XI XG HH HV XH XV. assert (XP : ptr_of x = ptr_of a) by (unfold ptr_of; congruence).
    split; intros y Iy Ay; rewrite EA in Iy; apply put_In in Iy; destruct Iy as [->|[Iy Ny]].
    - rewrite XP. auto.
    - rewrite XI in Ny. destruct HH as [->|[_ HH]]; [now apply OH | exfalso; exact (HH y Iy Ny Ay)].
    - rewrite XP. auto.
    - rewrite XI in Ny. destruct HV as [->|[_ HV]]; [now apply OV | exfalso; exact (HV y Iy Ny Ay)]. }
  destruct (declared_cases b s) as [[k [K [EA [_ [_ [EH EV]]]]]]|[NK [EF [e EX]]]].
  - destruct (kind_help _ _ K) as [KH KV].
    set (x := fst (defaults_arg (arg_cfg b (retyped (a_cfg b) k)))) in *.
    assert (XA : getAction x = snd k).
    { pose proof (defaults_arg_kact (arg_cfg b (retyped (a_cfg b) k))) as Q. cbn [arg_cfg a_cfg] in Q. rewrite retyped_kact in Q. fold x in Q. unfold kact in Q. now rewrite <- Q. }
    assert (XI : a_id x = a_id a) by (unfold x; rewrite defaults_arg_id; exact EI).
    assert (XG : a_gen x = a_gen a) by (unfold x; rewrite defaults_arg_gen; exact EG).
    assert (SK : snd k = HELP \/ snd k = VERSION -> snd k = getAction b).
    { intros Q. unfold kind_of in K. destruct (is_positional (c_type (a_cfg b))).
      - unfold positional_kind in K. destruct (getAction b); try discriminate K; repeat (match type of K with context [N.eqb ?u ?v] => destruct (N.eqb u v) end; try discriminate K); injection K as <-; destruct Q; discriminate.
      - injection K as <-. unfold option_kind in Q |- *. destruct (getNargs b =? 0)%N; [reflexivity|]. destruct (getAction b); try reflexivity; repeat (match type of Q with context [N.eqb ?u ?v] => destruct (N.eqb u v) end); destruct Q; discriminate. }
    assert (KHT : snd k = HELP -> s_help s = None -> fst (fst k) = HELP_OPTION).
    { intros Q SN. assert (AB : getAction b = HELP) by (rewrite <- SK; auto). destruct (BH AB) as [P [[_ N0]|Q2]]; [|congruence].
      unfold kind_of in K. rewrite P, AB in K. injection K as <-. unfold option_kind. apply N.eqb_neq in N0. now rewrite N0. }
    assert (KVT : snd k = VERSION -> s_version s = None -> fst (fst k) = VERSION_OPTION).
    { intros Q SN. assert (AB : getAction b = VERSION) by (rewrite <- SK; auto). destruct (BV AB) as [P [[_ N0]|Q2]]; [|congruence].
      unfold kind_of in K. rewrite P, AB in K. injection K as <-. unfold option_kind. apply N.eqb_neq in N0. now rewrite N0. }
    apply (CASES x); try assumption.
    + rewrite EH. destruct (fst (fst k)) eqn:T; try (now left). right. rewrite PT. split; [reflexivity|].
      intros y Iy Ny Ay. destruct (KH eq_refl) as [_ AB]. destruct (BH AB) as [_ [[Z _]|Z]]; rewrite (OH y Iy Ny Ay) in Z; [discriminate|]. injection Z as Z _. contradiction.
    + rewrite EV. destruct (fst (fst k)) eqn:T; try (now left). right. rewrite PT. split; [reflexivity|].
      intros y Iy Ny Ay. destruct (KV eq_refl) as [_ AB]. destruct (BV AB) as [_ [[Z _]|Z]]; rewrite (OV y Iy Ny Ay) in Z; [discriminate|]. injection Z as Z _. contradiction.
    + rewrite XA. intros Q. rewrite EH. assert (AB : getAction b = HELP) by (rewrite <- SK; auto). destruct (BH AB) as [_ [[Z _]|Z]].
      * rewrite (KHT Q Z). now rewrite PT.
      * destruct (fst (fst k)); try exact Z. now rewrite PT.
    + rewrite XA. intros Q. rewrite EV. assert (AB : getAction b = VERSION) by (rewrite <- SK; auto). destruct (BV AB) as [_ [[Z _]|Z]].
      * rewrite (KVT Q Z). now rewrite PT.
      * destruct (fst (fst k)); try exact Z. now rewrite PT.
  - (* refused *)
    rewrite EF. apply (CASES b (put b s)); try assumption; try reflexivity; try (now left).
    + intros AB. change (s_help (put b s)) with (s_help s). destruct (BH AB) as [P [[SN N0]|Q]]; [exfalso|exact Q].
      unfold declared, kind_of in EX. rewrite P, AB in EX. unfold option_kind in EX. apply N.eqb_neq in N0. rewrite N0, SN in EX.
      cbn [fst snd claims] in EX. discriminate EX.
    + intros AB. change (s_version (put b s)) with (s_version s). destruct (BV AB) as [P [[SN N0]|Q]]; [exfalso|exact Q].
      unfold declared, kind_of in EX. rewrite P, AB in EX. unfold option_kind in EX. apply N.eqb_neq in N0. rewrite N0, SN in EX.
      cbn [fst snd claims] in EX. discriminate EX.
Qed.
Lemma told_meth : forall m s a, wf0 s -> roles s -> told s -> In a (s_args s) -> p_meth one_each m a s -> told (fst (meth_state m a s)).
Proof.
  intros m s a W R T Ia PM. pose proof T as [TH TV].
  assert (PV : forall b, ptr_of b = ptr_of a -> getAction b = getAction a -> told (put b s)).
  { intros b P A. apply (told_view s); try assumption; try reflexivity. intros x Ix. exact (put_view s a b x Ia P A Ix). }
  assert (RS : forall t, told t -> told (resorted t)).
  { intros t Tt. apply (told_view t); try assumption; try reflexivity. intros x Ix. exists x. split; [|split; reflexivity].
    apply Permutation_in with (2 := Ix). symmetry. apply sort_perm. }
  assert (ID : forall x, In x (s_args s) -> a_id x <> a_id a -> ptr_of x <> ptr_of a).
  { intros x _ N E. apply N. now injection E. }
  destruct m; cbn [meth_state].
  - destruct (is_positional _); [exact T|]. destruct (validFormatFlag f); [exact T|]. destruct (mem_key f (s_map s)); [exact T|].
    cbn [fst]. apply (RS (put _ s)). now apply PV.
  - assert (OTH : (forall x, In x (s_args s) -> a_id x <> a_id a -> getAction x = HELP -> s_help (released a s) = Some (ptr_of x)) /\
                  (forall x, In x (s_args s) -> a_id x <> a_id a -> getAction x = VERSION -> s_version (released a s) = Some (ptr_of x))).
    { split; intros x Ix Nx Ax; [pose proof (TH x Ix Ax) as Q | pose proof (TV x Ix Ax) as Q]; unfold released; destruct (getAction a) eqn:Aa; try exact Q;
        exfalso; [pose proof (TH a Ia Aa) as Z | pose proof (TV a Ia Aa) as Z]; rewrite Z in Q; injection Q as Q; congruence. }
    assert (EA : s_args (released a s) = s_args s) by (unfold released; destruct (getAction a); reflexivity).
    assert (WR : wf0 (released a s)) by (unfold released; destruct (getAction a); try exact W; destruct W; constructor; assumption).
    apply (told_declared (released a s) a); rewrite ?EA; try assumption; try reflexivity; try (now apply OTH).
    + cbn [arg_cfg a_cfg cfg_action c_action c_type c_nargs]. intros ->. cbn in PM. destruct PM as [SN [P N0]]. split; [exact P|]. left. split; [|exact N0].
      unfold released. destruct (getAction a); try exact SN. reflexivity.
    + cbn [arg_cfg a_cfg cfg_action c_action c_type c_nargs]. intros ->. cbn in PM. destruct PM as [SN [P N0]]. split; [exact P|]. left. split; [|exact N0].
      unfold released. destruct (getAction a); try exact SN. reflexivity.
  - cbn [fst]. apply RS. now apply PV.
  - now apply PV.
  - now apply PV.
  - destruct R as [RH RV]. apply (told_declared s a); try assumption; try reflexivity; try (intros; now auto).
    + cbn [arg_cfg a_cfg cfg_nargs c_action c_type]. intros AB. pose proof (TH a Ia AB) as Q. split; [|now right].
      unfold role in RH. rewrite Q in RH. exact (proj2 (proj2 (RH a Ia eq_refl) eq_refl)).
    + cbn [arg_cfg a_cfg cfg_nargs c_action c_type]. intros AB. pose proof (TV a Ia AB) as Q. split; [|now right].
      unfold role in RV. rewrite Q in RV. exact (proj2 (proj2 (RV a Ia eq_refl) eq_refl)).
  - cbn [fst]. apply PV.
    + unfold ptr_of. now rewrite defaults_arg_id, defaults_arg_gen.
    + pose proof (defaults_arg_kact (arg_cfg a (cfg_defaults (a_cfg a) v))) as Q. unfold kact in Q. cbn [arg_cfg a_cfg cfg_defaults c_type c_nargs c_action] in Q.
      injection Q as _ _ Q. exact Q.
  - cbn [fst]. match goal with |- told (with_freed (put ?q s) _) => exact (PV q eq_refl eq_refl) end.
  - cbn [fst]. destruct PM as [NH NV].
    set (b := Arg (a_id a) (S (a_gen a)) (cfg_dest (cfg_defaults (a_cfg a) []) (Some d)) (a_dyn a)).
    split; intros x Ix Ax; apply put_In in Ix; destruct Ix as [->|[Ix _]]; try contradiction; auto.
Qed.
Lemma told_registered : forall s c, told s -> c_action c = NONE -> told (registered s c).
Proof.
  intros s c [TH TV] N.
  assert (SORT : forall x, In x (s_args (registered s c)) -> In x (s_args s) \/ getAction x = NONE).
  { intros x Ix. unfold registered in Ix; simpl in Ix. apply Permutation_in with (l' := s_args s ++ [Arg (fresh_id s) 0 c new_dyn]) in Ix; [|symmetry; apply sort_perm].
    apply in_app_or in Ix. destruct Ix as [Ix|[<-|[]]]; auto. }
  split; intros x Ix Ax; destruct (SORT x Ix) as [Iy|Z]; try congruence; [exact (TH x Iy Ax) | exact (TV x Iy Ax)].
Qed.
Lemma told_removed : forall s n a, wf0 s -> roles s -> told s -> In a (s_args s) -> told (removed s n a).
Proof.
  intros s n a W [RH RV] T Ia. unfold removed. destruct (existsb _ _).
  - apply (told_view s); try assumption; try reflexivity. cbn [s_args with_map with_args]. intros b Ib. apply upd_id_In in Ib. destruct Ib as [x [Ix ->]].
    exists x. split; [exact Ix|]. destruct (Nat.eqb (a_id x) (a_id a)); split; reflexivity.
  - cbv zeta. set (l := filter (fun b => negb (Nat.eqb (a_id b) (a_id a))) (s_args s)).
    assert (LI : forall x, In x l -> In x (s_args s) /\ a_id x <> a_id a).
    { intros x Ix. apply filter_In in Ix. destruct Ix as [Ix E]. split; [exact Ix|]. intros Q. rewrite Q, Nat.eqb_refl in E. discriminate E. }
    assert (NP : forall p x, optr_eqb p (ptr_of a) = true -> p = Some (ptr_of x) -> a_id x <> a_id a -> False).
    { intros p x E -> N. cbn [optr_eqb] in E. apply ptr_eqb_eq in E. injection E as E _. contradiction. }
    destruct T as [TH TV]. split; intros x Ix Ax.
    + assert (Ix' : In x l) by (destruct (optr_eqb (s_help s) (ptr_of a)); [exact Ix|]; destruct (optr_eqb (s_version s) (ptr_of a)); exact Ix).
      destruct (LI x Ix') as [Iy Ny]. pose proof (TH x Iy Ax) as Q.
      destruct (optr_eqb (s_help s) (ptr_of a)) eqn:E1; [exfalso; exact (NP _ x E1 Q Ny)|].
      destruct (optr_eqb (s_version s) (ptr_of a)); exact Q.
    + assert (Ix' : In x l) by (destruct (optr_eqb (s_help s) (ptr_of a)); [exact Ix|]; destruct (optr_eqb (s_version s) (ptr_of a)); exact Ix).
      destruct (LI x Ix') as [Iy Ny]. pose proof (TV x Iy Ax) as Q.
      destruct (optr_eqb (s_help s) (ptr_of a)) eqn:E1; [exact Q|].
      destruct (optr_eqb (s_version s) (ptr_of a)) eqn:E2; [exfalso; exact (NP _ x E2 Q Ny) | exact Q].
Qed.
Lemma reach_told : forall s, reach_with one_each s -> roles s /\ told s.
Proof.
  intros s R.
  refine (proj2 (reach_invariant one_each (fun s => roles s /\ told s) _ _ _ _ _ _ _ _ _ _ _ _ s R)); clear s R.
  - intros a s SH N1 _ P. cbn. split; [exact SH|]. split; [exact P|]. rewrite N1. discriminate.
  - intros; exact I.
  - intros; exact I.
  - intros f d. split; [split; exact I|]. split; intros a [].
  - intros s s' W F [[RH RV] [TH TV]]. split.
    + split; [rewrite (fr_help _ _ F) | rewrite (fr_version _ _ F)]; (eapply role_static; [apply (fr_args _ _ F)|]); assumption.
    + apply (told_view s); [split; assumption | apply (fr_help _ _ F) | apply (fr_version _ _ F)|].
      intros b Ib. apply (in_map static) in Ib. rewrite (fr_args _ _ F) in Ib. apply in_map_iff in Ib. destruct Ib as [a [E Ia]].
      exists a. split; [exact Ia|]. unfold static in E. injection E as E1 E2 E3. unfold ptr_of. rewrite E1, E2, E3. now split.
  - intros s n W [H T] _ _ _. split; [apply registered_roles; [apply W | exact H]|]. now apply told_registered.
  - intros s v flags W [H T] _ _ _ _ _ _. split; [apply registered_roles; [apply W | exact H]|]. now apply told_registered.
  - intros m s a W [H T] Ia PM _. split; [apply meth_roles; [apply W | exact H | exact Ia] | apply told_meth; try assumption; apply W].
  - intros s n a W [H T] Ia As _. split; [now apply removed_roles|]. now apply told_removed.
  - intros s _ [[RH RV] T]. split.
    + split; (eapply role_incl; [|eassumption]; simpl; intros x Ix; apply Permutation_in with (2 := Ix); symmetry; apply sort_perm).
    + apply (told_view s); try assumption; try reflexivity. intros x Ix. exists x. split; [|split; reflexivity].
      apply Permutation_in with (2 := Ix). symmetry. apply sort_perm.
  - intros s s' [[RH RV] [TH TV]] E1 _ E2 E3 _. unfold roles, told. rewrite E1, E2, E3. repeat split; assumption.
  - intros s _ _. split; [split; exact I|]. split; intros a [].
Qed.

(** Then "acts as help option" and "is declared with action(HELP)" are the same (and so at
    most one argument is declared so). *)
Theorem C43_declared_partial : forall s a, reach_with one_each s -> In a (arguments s) ->
  (is_help s a <-> getAction a = HELP) /\ (is_version s a <-> getAction a = VERSION).
Proof.
  intros s a R Ia. destruct (reach_told s R) as [_ [TH TV]]. destruct (C43_at_most_one s (reach_with_reach _ _ R)) as [_ [_ [H1 [V1 _]]]].
  split; split; intros H.
  - exact (proj1 (H1 a H)).
  - split; [exact Ia | exact (TH a Ia H)].
  - exact (proj1 (V1 a H)).
  - split; [exact Ia | exact (TV a Ia H)].
Qed.
Print Assumptions C43_declared_partial.
Definition one_eachb (m : meth) (a : argument) (s : state) : bool :=
  match m with
  | MAction HELP => match s_help s with None => true | _ => false end && negb (isPositional a) && negb (getNargs a =? 0)%N
  | MAction VERSION => match s_version s with None => true | _ => false end && negb (isPositional a) && negb (getNargs a =? 0)%N
  | MDest _ => negb (action_eqb (getAction a) HELP) && negb (action_eqb (getAction a) VERSION)
  | _ => true
  end.
Lemma one_eachb_ok : forall m a s, one_eachb m a s = true -> p_meth one_each m a s.
Proof.
  intros m a s H. destruct m as [f|act|b|h|x|n|v|p b|d]; cbn in *; try exact I.
  - destruct act; try exact I.
    + apply andb_prop in H. destruct H as [H N]. apply andb_prop in H. destruct H as [H P].
      split; [destruct (s_help s); [discriminate H | reflexivity]|]. split; [now apply negb_true_iff in P|]. apply negb_true_iff in N. now apply N.eqb_neq in N.
    + apply andb_prop in H. destruct H as [H N]. apply andb_prop in H. destruct H as [H P].
      split; [destruct (s_version s); [discriminate H | reflexivity]|]. split; [now apply negb_true_iff in P|]. apply negb_true_iff in N. now apply N.eqb_neq in N.
  - apply andb_prop in H. destruct H as [H1 H2]. split; intros E; rewrite E in *; discriminate.
Qed.
Example C43_declared_example : reach_with one_each shop /\ exists a, is_version shop a.
Proof.
  split.
  - apply (history_with one_each one_eachb); [intros; exact I | exact one_eachb_ok | vm_compute; reflexivity].
  - exists (pick "-V" shop). split; [apply pick_In; vm_compute; reflexivity | vm_compute; reflexivity].
Qed.
