(** Properties_Explicit.v -- C81: giving an option explicitly the values that it has by
    default changes nothing but its presence. *)
From Coq Require Import Permutation Sorted.
From Verif Require Import Base Model_Utils Model_Number Model_Types Model_Argument Model_Usage Model_Args Model_Api
  Spec_Order Spec_Names Spec_Reading Spec_Parse Spec_Decl Spec_Finish Spec_History Spec_Api Spec_Result
  Proofs_Base Proofs_Order Proofs_Frame Proofs_Inv Proofs_ReadFacts Proofs_Reading Proofs_Parse Proofs_Decl Proofs_Finish
  Proofs_Meth Proofs_History Proofs_Config Proofs_Check Proofs_Names Proofs_Central Proofs_Dyn Properties_Words Demo Properties_Parse Proofs_Swap Proofs_Kind
  Proofs_Values Properties_Values Properties_Positional Properties_Spell Properties_Defaults Properties_Repeat Properties_Final Properties_Required Properties_Offending Properties_Roles Spec_Roundtrip Properties_Roundtrip
  Spec_Insert Proofs_Insert Properties_Insert Proofs_Quiet Proofs_Shape Properties_Views.

(** The line has been accepted; the option of the request [q] is absent from it, is not the
    help or version option, and holds (by default) the values that the request gives; its
    validator, if any, would accept them as they are. *)
Definition accepts_unchanged (a : argument) (vs : list str) : Prop :=
  match c_valid (a_cfg a) with None => True | Some v => v_fn v vs = VOk true vs end.
Record explicit (s : state) (a0 : str) (pre : list str) (q : request) (post : list str) (p : list piece) (t : state) (a : argument) : Prop := {
  ex_insertion : insertion s a0 pre [q] post p;
  ex_accepted : parseArguments (a0 :: pre ++ post) s = (t, Ok tt);
  ex_listed : In a (arguments t);
  ex_same : a_id a = a_id (r_arg q);
  ex_absent : isExists a = false;
  ex_values : has_values (a_cfg a) = true;
  ex_holds : to_vector a = Ok (r_vals q);
  ex_valid : accepts_unchanged a (r_vals q);
  ex_writable : writable a;
  ex_no_role : ~ is_help (ready s) (r_arg q) /\ ~ is_version (ready s) (r_arg q)
}.

Lemma over_same : forall l, over l l = l.
Proof. intros l. unfold over. induction l as [|x l IH]; [reflexivity|]. cbn. f_equal. exact IH. Qed.
Lemma line_inserted : forall s ws p q r b, usable s -> reads s ws (p ++ map r_piece [q] ++ r) -> In b (arguments (ready s)) -> a_id b = a_id (r_arg q) ->
  occs_for (a_id b) (p ++ r) = [] -> line_values (p ++ map r_piece [q] ++ r) b = r_vals q /\ isPositional b = false.
Proof.
  intros s ws p q r b U R Ib ID NO. pose proof (usable_ready_wf s U) as W. rewrite occs_for_app in NO. apply app_eq_nil in NO. destruct NO as [N1 N2].
  assert (AS : asked [q] b = [r_vals q]) by (unfold asked; cbn [filter]; rewrite ID, Nat.eqb_refl; reflexivity).
  assert (PB : isPositional b = false) by (apply (option_of s ws p [q] r b U R Ib); rewrite AS; discriminate). split; [|exact PB].
  unfold line_values. rewrite (given_option_none s _ _ b W R Ib PB), !occs_for_app, N1, N2, app_nil_r. cbn [app].
  rewrite asked_occs in AS. pose proof (asked_not_glued [q] b) as NG. destruct (occs_for (a_id b) (map r_piece [q])) as [|o [|o' os]]; try discriminate AS.
  cbn [map] in AS. injection AS as AS. cbn [last flat_map]. rewrite app_nil_r, AS. specialize (NG o (or_introl eq_refl)).
  destruct (accumulates _); [|reflexivity]. destruct (o_style o); [reflexivity | reflexivity | now elim NG].
Qed.
(** what the two parses have in common *)
Lemma explicit_facts : forall s a0 pre q post p t a, explicit s a0 pre q post p t a -> exists r b,
  reads s (pre ++ post) (p ++ r) /\ reads s (pre ++ flat_map r_words [q] ++ post) (p ++ map r_piece [q] ++ r) /\
  b = r_arg q /\ In b (arguments (ready s)) /\ a_id b = a_id a /\ a_cfg b = a_cfg a /\ on_line (a_id b) (p ++ r) = false /\
  line_values (p ++ map r_piece [q] ++ r) b = r_vals q /\ isPositional b = false.
Proof.
  intros s a0 pre q post p t a [IN P Ia Eq EX HV TV AC WR NR]. pose proof (insertion_reads _ _ _ _ _ _ IN) as [X _]. pose proof IN as [U I G F _ N C C'].
  destruct (parse_ok s _ _ t U C I P) as [pcs [R _]]. destruct (X _ R) as [r [-> R']]. pose proof (usable_ready_wf s U) as W.
  destruct (accepted_holds s _ _ t _ a U I C P R Ia) as [b [Ib [IDb [CFb [EXb _]]]]]. exists r, b.
  assert (Eb : b = r_arg q).
  { inversion G as [|? ? Gq _]; subst. destruct q as [x w v vs]. destruct Gq as [Ix _]. cbn [r_arg] in *. apply (wf_unique (ready s) b x W Ib Ix). congruence. }
  assert (ON : on_line (a_id b) (p ++ r) = false) by (rewrite IDb, <- EXb; exact EX).
  destruct (line_inserted s _ p q r b U R' Ib) as [L PB]; [now rewrite Eb | rewrite on_line_eq in ON; apply orb_false_iff in ON; destruct ON as [ON _]; destruct (occs_for (a_id b) (p ++ r)); [reflexivity | discriminate ON]|].
  repeat split; assumption.
Qed.
(** the longer line is accepted as well *)
Theorem C81_accepted : forall s a0 pre q post p t a, explicit s a0 pre q post p t a ->
  exists t', parseArguments (longer a0 pre [q] post) s = (t', Ok tt).
Proof.
  intros s a0 pre q post p t a X. destruct (explicit_facts _ _ _ _ _ _ _ _ X) as [r [b [R [R' [Eb [Ib [IDb [CFb [ON [LV PB]]]]]]]]]].
  destruct X as [IN P Ia Eq EX HV TV AC WR [NH NV]]. pose proof IN as [U I G F _ N C C']. pose proof (usable_ready_wf s U) as W.
  destruct (C77_accepted s a0 pre [q] post p t IN P) as [Y|[t' [e [q' [pcs [_ [Iq [Rp Bad]]]]]]]].
  - intros h HH. assert (Ih : In h (arguments (ready s))) by (destruct HH as [[Ih _]|[Ih _]]; exact Ih).
    unfold asked. cbn [filter]. destruct (Nat.eqb_spec (a_id (r_arg q)) (a_id h)) as [E|E]; [exfalso|reflexivity].
    assert (r_arg q = h) by (apply (wf_unique (ready s) (r_arg q) h W); [rewrite <- Eb; exact Ib | exact Ih | exact E]). subst h. destruct HH; contradiction.
  - exact Y.
  - exfalso. destruct Iq as [<-|[]]. assert (pcs = p ++ map r_piece [q] ++ r) by exact (Reading_det _ _ _ _ Rp _ R'). subst pcs. rewrite <- Eb in Bad. destruct Bad as [Bad|Bad].
    + unfold refused in Bad. rewrite CFb in Bad. unfold accepts_unchanged in AC. destruct (c_valid (a_cfg a)) as [v|]; [|discriminate Bad].
      destruct (on_line (a_id b) (p ++ map r_piece [q] ++ r)); [|discriminate Bad]. rewrite LV, AC, HV in Bad. discriminate Bad.
    + apply Bad. unfold writable. rewrite CFb. exact WR.
Qed.
(** the option is then present, once, and has the values it had; everything else is the same *)
Theorem C81_values : forall s a0 pre q post p t t' a, explicit s a0 pre q post p t a -> parseArguments (longer a0 pre [q] post) s = (t', Ok tt) ->
  (exists a', In a' (arguments t') /\ a_id a' = a_id a /\ a_cfg a' = a_cfg a /\ isExists a' = true /\ count a' = 1 /\ to_vector a' = to_vector a) /\
  (forall b, a_id b <> a_id a -> (In b (arguments t) <-> In b (arguments t'))) /\
  map a_id (arguments t') = map a_id (arguments t) /\
  getAdditionalArguments t' = getAdditionalArguments t /\
  with_dlog (with_args t' []) [] = with_dlog (with_args t []) [].
Proof.
  intros s a0 pre q post p t t' a X P'. destruct (explicit_facts _ _ _ _ _ _ _ _ X) as [r [b [R [R' [Eb [Ib [IDb [CFb [ON [LV PB]]]]]]]]]].
  destruct X as [IN P Ia Eq EX HV TV AC WR _]. pose proof IN as [U I G F _ N C C']. pose proof (usable_ready_wf s U) as W.
  destruct (C77_untouched s a0 pre [q] post p t t' IN P P') as [T1 [T2 [T3 T4]]].
  assert (Ia' : exists a', In a' (arguments t') /\ a_id a' = a_id a).
  { assert (K : In (a_id a) (map a_id (arguments t'))) by (rewrite T2; now apply in_map). apply in_map_iff in K. destruct K as [a' [E K]]. exists a'. auto. }
  destruct Ia' as [a' [Ia' E']].
  assert (AS : asked [q] a' = [r_vals q]) by (unfold asked; cbn [filter]; rewrite E', Eq, Nat.eqb_refl; reflexivity).
  destruct (C77_counted s a0 pre [q] post p t t' a' IN P P' Ia' ltac:(rewrite AS; discriminate)) as [EX' [a2 [I2 [E2 [C2 CT]]]]].
  destruct (both_ok _ _ _ _ _ _ _ _ IN P P') as [r1 [R1 [_ [Et _]]]].
  assert (a2 = a).
  { rewrite Et, completed_args in Ia, I2. apply in_map_iff in Ia, I2. destruct Ia as [x [<- Ix]]. destruct I2 as [y [<- Iy]].
    rewrite !finished_id in *. cbn [read_arg a_id] in *. assert (x = y) by (apply (wf_unique (ready s) x y W Ix Iy); congruence). now subst y. }
  subst a2. split; [|split; [|auto]].
  - exists a'. split; [exact Ia'|]. split; [exact E'|]. split; [now symmetry|]. split; [exact EX'|].
    assert (CA : count a = 0). { destruct (result_with s _ _ t a _ U C I P Ia R) as [b2 [_ [_ [_ [_ [ID2 [_ CC]]]]]]]. rewrite CC.
      rewrite on_line_eq in ON. apply orb_false_iff in ON. destruct ON as [ON _]. rewrite <- ID2, <- IDb. destruct (occs_for (a_id b) (p ++ r)); [reflexivity | discriminate ON]. }
    split; [rewrite CT, AS, CA; reflexivity|].
    destruct (accepted_holds s _ _ t' _ a' U I C' P' R' Ia') as [b' [Ib' [IDb' [CFb' [_ H]]]]].
    assert (b' = b) by (apply (wf_unique (ready s) b' b W Ib' Ib); congruence). subst b'.
    specialize (H EX' ltac:(rewrite <- C2; exact HV)). rewrite LV in H. unfold holds in H. unfold accepts_unchanged in AC. rewrite <- C2 in H. rewrite TV.
    destruct (c_valid (a_cfg a)) as [v|]; [|exact H]. destruct H as [out [H1 H2]]. rewrite AC in H1. injection H1 as <-. now rewrite over_same in H2.
  - intros b0 N0. apply T3. unfold asked. cbn [filter]. destruct (Nat.eqb_spec (a_id (r_arg q)) (a_id b0)); [congruence | reflexivity].
Qed.
(** what the destinations get is the same too, unless the option has a custom destination
    (which is told the presence) or a vector of vectors for its destination *)
Definition plain_dest (a : argument) : Prop := forall d, c_dest (a_cfg a) = Some d -> d_custom d = false /\ (d_kind d = DVectorVector -> to_vector_vector a = Throw no_vector_vector).
Lemma same_delivery : forall a a' d, a_cfg a' = a_cfg a -> to_vector a' = to_vector a -> has_values (a_cfg a) = true -> c_dest (a_cfg a) = Some d -> plain_dest a -> delivery a' d = delivery a d.
Proof.
  intros a a' d C T HV D PD. destruct (PD d D) as [CU VV]. unfold delivery. rewrite CU.
  assert (F : flag_value a = None /\ flag_value a' = None) by (unfold flag_value, has_values, arity_of in *; rewrite C; destruct (c_type (a_cfg a)); try discriminate HV; split; reflexivity).
  destruct F as [-> ->].
  assert (TX : text_of a' = text_of a) by (unfold text_of, getDefault; rewrite C, T; reflexivity).
  assert (DW : dest_words a' = dest_words a) by (unfold dest_words; rewrite T, TX; reflexivity).
  assert (VC : forall v, vector_cell a' d v = vector_cell a d v) by (intros v; unfold vector_cell; rewrite C, T; reflexivity).
  destruct (d_kind d) eqn:K; [now rewrite TX | rewrite DW; apply map_ext; intros v; now rewrite VC|].
  specialize (VV eq_refl). assert (VV' : to_vector_vector a' = Throw no_vector_vector) by (unfold to_vector_vector in *; rewrite C; destruct (c_type (a_cfg a)); try discriminate VV; reflexivity).
  unfold dest_groups. rewrite VV, VV', DW. apply map_ext. intros g. f_equal. apply map_ext. exact VC.
Qed.
Lemma flat_map_pairwise : forall {X Y} (f : X -> list Y) (l l' : list X) (k : X -> nat), map k l' = map k l -> (forall x x', In x l -> In x' l' -> k x = k x' -> f x = f x') -> flat_map f l' = flat_map f l.
Proof.
  intros X Y f l. induction l as [|x l IH]; intros [|x' l'] k E H; try discriminate E; [reflexivity|]. cbn [map] in E. injection E as E1 E2. cbn [flat_map].
  rewrite (H x x' (or_introl eq_refl) (or_introl eq_refl) (eq_sym E1)). f_equal. apply (IH l' k E2). intros y y' I1 I2. apply H; now right.
Qed.
Theorem C81_delivered : forall s a0 pre q post p t t' a, explicit s a0 pre q post p t a -> parseArguments (longer a0 pre [q] post) s = (t', Ok tt) ->
  (forall b, In b (arguments t) -> c_dest (a_cfg b) <> None -> was_shaped s b) -> plain_dest a -> s_dlog t' = s_dlog t.
Proof.
  intros s a0 pre q post p t t' a X P' SH PD. destruct (C81_values _ _ _ _ _ _ _ _ _ X P') as [[a' [Ia' [E' [C' [_ [_ TV]]]]]] [OT [IDS _]]].
  destruct X as [IN P Ia Eq EX HV TVa AC WR _]. pose proof IN as [U I G F _ N CL CL'].
  assert (Wt : forall x y, In x (arguments t) -> In y (arguments t) -> a_id x = a_id y -> x = y).
  { intros x y Ix Iy E. pose proof (usable_ready_wf s U) as W. destruct (both_ok _ _ _ _ _ _ _ _ IN P P') as [r1 [_ [_ [Et _]]]]. rewrite Et, completed_args in Ix, Iy. apply in_map_iff in Ix, Iy.
    destruct Ix as [x1 [<- Ix]]. destruct Iy as [y1 [<- Iy]]. rewrite !finished_id in E. cbn [read_arg a_id] in E. now rewrite (wf_unique (ready s) x1 y1 W Ix Iy E). }
  assert (Wt' : forall x y, In x (arguments t') -> In y (arguments t') -> a_id x = a_id y -> x = y).
  { intros x y Ix Iy E. pose proof (usable_ready_wf s U) as W. destruct (both_ok _ _ _ _ _ _ _ _ IN P P') as [r1 [_ [_ [_ Et]]]]. rewrite Et, completed_args in Ix, Iy. apply in_map_iff in Ix, Iy.
    destruct Ix as [x1 [<- Ix]]. destruct Iy as [y1 [<- Iy]]. rewrite !finished_id in E. cbn [read_arg a_id] in E. now rewrite (wf_unique (ready s) x1 y1 W Ix Iy E). }
  assert (PW : forall x x', In x (arguments t) -> In x' (arguments t') -> a_id x = a_id x' -> (x = x' \/ (x = a /\ x' = a'))).
  { intros x x' Ix Ix' E. destruct (Nat.eq_dec (a_id x) (a_id a)) as [Q|Q].
    - right. split; [now apply Wt | apply Wt'; [assumption.. | congruence]].
    - left. apply Wt; [exact Ix | apply OT; [congruence | exact Ix'] | exact E]. }
  destruct (C45_exact s _ _ t U I CL P SH) as [-> SU].
  destruct (C45_exact s _ _ t' U I CL' P') as [-> SU'].
  { intros b Ib D. assert (K : In (a_id b) (map a_id (arguments t))) by (rewrite <- IDS; now apply in_map). apply in_map_iff in K. destruct K as [x [Ex Ix]].
    destruct (PW x b Ix Ib Ex) as [->|[-> ->]]; [now apply SH|]. intros c Ic Ec. rewrite C' in D. apply (SH a Ia D c Ic). now rewrite Ec. }
  f_equal. apply (flat_map_pairwise _ _ _ a_id IDS). intros x x' Ix Ix' E. destruct (PW x x' Ix Ix' E) as [->|[-> ->]]; [reflexivity|].
  rewrite C'. destruct (c_dest (a_cfg a)) as [d|] eqn:D; [|reflexivity]. symmetry. now apply same_delivery.
Qed.
Definition default_name : request := Request (pick "-n" (ready shop)) "--name=anon" (Some "anon") ["anon"].
Example C81_example : exists p t,
  explicit shop "prog" ["src"; "-p"; "1"; "2"] default_name ["-a"; "q"; "--"; "dst"] p t (pick "-n" t) /\
  (exists t', parseArguments ["prog"; "src"; "-p"; "1"; "2"; "--name=anon"; "-a"; "q"; "--"; "dst"] shop = (t', Ok tt) /\
     isExists (pick "-n" t) = false /\ isExists (pick "-n" t') = true /\ to_vector (pick "-n" t') = Ok ["anon"] /\ to_vector (pick "-n" t) = Ok ["anon"]).
Proof.
  do 2 eexists. split.
  - split.
    + split; [apply shop_usable | apply shop_interprets | constructor; [unfold default_name; good_one; apply (Sp_long shop _ (Some "anon") "name"); [vm_compute; reflexivity | cbn; intuition discriminate] | constructor]
      | | eexists; reaching | right | line | line].
      * intros q0 q E. change [?a] with ([] ++ [a]) in E at 1. apply app_inj_tail in E. destruct E as [_ <-]. vm_compute. tauto.
      * refine (forall_arguments (ready shop) (fun b => negb (isPositional b) || negb (N.eqb (getNargs b) 0)) (fun b => isPositional b = true -> getNargs b <> 0%N) _ _); [vm_compute; reflexivity|].
        intros b H P E. rewrite P, E in H. discriminate H.
    + vm_compute. reflexivity.
    + vm_compute. tauto.
    + vm_compute. reflexivity.
    + vm_compute. reflexivity.
    + vm_compute. reflexivity.
    + vm_compute. reflexivity.
    + vm_compute. exact I.
    + vm_compute. exact I.
    + split; intros [_ X]; vm_compute in X; discriminate X.
  - eexists. split; [vm_compute; reflexivity|]. repeat (split; [vm_compute; reflexivity|]). vm_compute. reflexivity.
Qed.
(** a destination gets the same; a custom one is told that the option is present *)
Definition level (custom : bool) : state := history [OpAdd ["-l"] [MDefaults ["7"]; MDest (Dest 3 DScalar custom TyValue)]].
Definition default_level (custom : bool) : request := Request (pick "-l" (ready (level custom))) "-l" None ["7"].
Lemma level_usable : forall c, usable (level c) /\ interprets (level c).
Proof. intros []; (split; [apply careful_usable, careful_history; vm_compute; reflexivity | right; vm_compute; discriminate]). Qed.
Example C81_delivered_example : (exists p t, explicit (level false) "prog" ["x"] (default_level false) [] p t (pick "-l" t) /\ plain_dest (pick "-l" t) /\
    (forall b, In b (arguments t) -> c_dest (a_cfg b) <> None -> was_shaped (level false) b) /\ s_dlog t = [EvAssign 3 (CvStr "7")]) /\
  (exists t', parseArguments ["prog"; "x"; "-l"; "7"] (level false) = (t', Ok tt) /\ s_dlog t' = [EvAssign 3 (CvStr "7")]) /\
  (exists t t', parseArguments ["prog"; "x"] (level true) = (t, Ok tt) /\ parseArguments ["prog"; "x"; "-l"; "7"] (level true) = (t', Ok tt) /\
    s_dlog t = [EvCall 3 false "7"] /\ s_dlog t' = [EvCall 3 true "7"]).
Proof.
  split; [|split].
  - do 2 eexists. split; [split|].
    + split; [apply level_usable | apply level_usable | constructor; [unfold default_level; good_one; apply (Sp_short (level false) _ None "l"); [vm_compute; reflexivity | discriminate | intros X; vm_compute in X; discriminate X] | constructor]
      | | eexists; reaching | right | line | line].
      * intros q0 q E. change [?a] with ([] ++ [a]) in E at 1. apply app_inj_tail in E. destruct E as [_ <-]. vm_compute. tauto.
      * refine (forall_arguments (ready (level false)) (fun b => negb (isPositional b) || negb (N.eqb (getNargs b) 0)) (fun b => isPositional b = true -> getNargs b <> 0%N) _ _); [vm_compute; reflexivity|].
        intros b H P E. rewrite P, E in H. discriminate H.
    + vm_compute. reflexivity.
    + vm_compute. tauto.
    + vm_compute. reflexivity.
    + vm_compute. reflexivity.
    + vm_compute. reflexivity.
    + vm_compute. reflexivity.
    + vm_compute. exact I.
    + right. vm_compute. discriminate.
    + split; intros [_ X]; vm_compute in X; discriminate X.
    + split; [|split].
      * intros d E. vm_compute in E. injection E as <-. split; [reflexivity | intros X; discriminate X].
      * intros b _ _ c. revert c. refine (forall_arguments (ready (level false)) (fun c => flat (c_type (a_cfg c)) && match d_elems (a_dyn c) with [] => true | _ => false end) (fun c => a_id c = a_id b -> shaped c) _ _); [vm_compute; reflexivity|].
        intros c H _. apply andb_true_iff in H. destruct H as [H1 H2]. unfold shaped, elems_shaped. rewrite H1. destruct (d_elems (a_dyn c)); [reflexivity | discriminate H2].
      * vm_compute. reflexivity.
  - eexists. split; vm_compute; reflexivity.
  - do 2 eexists. split; [vm_compute; reflexivity|]. split; [vm_compute; reflexivity|]. split; vm_compute; reflexivity.
Qed.
Print Assumptions C81_accepted.
Print Assumptions C81_values.
Print Assumptions C81_delivered.
