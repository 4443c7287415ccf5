(** Properties_CopyMeth.v -- C75: declaration methods called on a copy of an argument. *)
From Coq Require Import Permutation Sorted.
From Verif Require Import Base Model_Utils Model_Number Model_Types Model_Argument Model_Usage Model_Args Model_Api Model_Double Model_Copy Model_CopyMeth
  Spec_Order Spec_Names Spec_Reading Spec_Parse Spec_Decl Spec_History Spec_Api Proofs_Base Proofs_Order Proofs_Frame Proofs_Inv Proofs_Reading Proofs_Parse
  Proofs_Decl Proofs_Meth Proofs_History Proofs_Ghost Proofs_Owner Proofs_Names Proofs_Check Proofs_Redecl Proofs_Like Proofs_CopyMeth
  Properties_Names Properties_Safe Properties_Life Properties_Copy Properties_Required.

(** Full property: a program may well hold a COPY of an argument without meaning to
    (auto a = args.addArgument("-n"); drops the reference).  A declaration method called on
    the copy does to the copy what it would do to the argument, and nothing to the parser.
    True of help(), metavar(), required(), defaults() and, for arguments without the HELP or
    VERSION action, of nargs() and action() (C75_effect_partial, C75_unaffected_partial).
    False of flag(), which changes the parser but not its argument (C75_flag_refuted), of
    action() as soon as HELP or VERSION is involved (C75_role_refuted, C75_dangling_refuted),
    of valid(), which deletes the validator of the argument (C75_validator_refuted), and of
    nargs() on a copy of an argument with defaults, which the copy has lost
    (C75_defaults_refuted); dest() on a copy is undefined behaviour (C75_dest_refuted). *)

(** the actions that come with a role in the parser *)
Definition plain_action (act : eAction) : Prop := act <> HELP /\ act <> VERSION.

(** ** What the method does to the copy *)
Definition related (a b : argument) : Prop := a_dyn b = a_dyn a /\ a_cfg b = cfg_dest (a_cfg a) None.
Lemma related_view : forall a b, related a b -> same_view a b.
Proof.
  intros [i g c d] [i' g' c' d'] [E1 E2]. cbn [a_dyn a_cfg] in E1, E2. subst c' d'. destruct c. unfold same_view.
  repeat (split; [reflexivity|]). reflexivity.
Qed.
Lemma related_defaults : forall a b, related a b ->
  related (fst (defaults_arg a)) (fst (defaults_arg b)) /\ snd (defaults_arg b) = snd (defaults_arg a).
Proof.
  intros [i g c d] [i' g' c' d'] [E1 E2]. cbn [a_dyn a_cfg] in E1, E2. subst c' d'. unfold defaults_arg. cbn [a_cfg a_dyn].
  change (no_defaults (cfg_dest c None)) with (no_defaults c). destruct (no_defaults c); [split; [split; reflexivity | reflexivity]|].
  change (size_fits (cfg_dest c None) (length (c_defaults (cfg_dest c None)))) with (size_fits c (length (c_defaults c))).
  destruct (size_fits c (length (c_defaults c))); [|split; [split; reflexivity | reflexivity]]. cbn [fst snd]. split; [|reflexivity].
  unfold defaulted. cbn [a_cfg a_dyn a_id a_gen]. change (c_type (cfg_dest c None)) with (c_type c). destruct (c_type c); split; reflexivity.
Qed.
Lemma related_redeclared : forall a b, related a b ->
  related (fst (redeclared a)) (fst (redeclared b)) /\ snd (redeclared b) = snd (redeclared a).
Proof.
  intros a b R. pose proof R as [E1 E2]. unfold redeclared. rewrite E2. change (kind_of (cfg_dest (a_cfg a) None)) with (kind_of (a_cfg a)).
  destruct (kind_of (a_cfg a)) as [[[t n] act]|]; [|split; [exact R | reflexivity]].
  apply related_defaults. split; [exact E1 | reflexivity].
Qed.
Lemma related_meth : forall m a s, (getDefaults a = [] \/ exists v, m = MDefaults v) -> (forall d, m <> MDest d) ->
  related (fst (meth_arg m a s)) (fst (meth_arg m (copied a) s)) /\ snd (meth_arg m (copied a) s) = snd (meth_arg m a s).
Proof.
  intros m a s H D.
  assert (R0 : getDefaults a = [] -> related a (copied a)).
  { intros E. split; [reflexivity|]. unfold copied. cbn [a_cfg]. destruct a as [i g c d]. cbn [a_cfg] in *. destruct c. cbn in E. subst. reflexivity. }
  assert (R1 : (exists v, m = MDefaults v) \/ related a (copied a)) by (destruct H as [H|H]; [right; now apply R0 | now left]). clear H R0.
  destruct R1 as [[v ->]|R].
  - unfold meth_arg. cbv zeta. apply related_defaults. split; reflexivity.
  - pose proof R as [E1 E2]. destruct m; unfold meth_arg; cbv zeta; try (split; [split; [exact E1 | cbn [fst a_cfg arg_cfg]; rewrite E2; reflexivity] | reflexivity]).
    + rewrite E2. change (c_type (cfg_dest (a_cfg a) None)) with (c_type (a_cfg a)). destruct (is_positional (c_type (a_cfg a))); [split; [exact R | reflexivity]|].
      destruct (validFormatFlag f); [split; [exact R | reflexivity]|]. destruct (mem_key f (s_map s)); [split; [exact R | reflexivity]|].
      split; [|reflexivity]. split; [exact E1 | reflexivity].
    + apply related_redeclared. split; [exact E1|]. cbn [a_cfg arg_cfg]. rewrite E2. reflexivity.
    + apply related_redeclared. split; [exact E1|]. cbn [a_cfg arg_cfg]. rewrite E2. reflexivity.
    + apply related_defaults. split; [exact E1|]. cbn [a_cfg arg_cfg]. rewrite E2. reflexivity.
    + now elim (D d).
Qed.

(** what a program needs of the parser's state for all this *)
Lemma reach_sorted_parser : forall s, reach s -> sorted_parser s.
Proof. intros s R. destruct (reach_wf s R) as [W L]. split; [now apply wf0_has_name | now apply sorted_same]. Qed.
Lemma sorted_like : forall s t, s_args s = s_args t -> sorted_parser t -> sorted_parser s.
Proof. intros s t E [H1 H2]. split; rewrite E; assumption. Qed.
Lemma numbered_like : forall s t, s_args s = s_args t -> numbered t -> numbered s.
Proof. intros s t E H a. rewrite E. apply H. Qed.

Lemma find_new : forall k c l, (forall x, In x l -> cp_number x < k) -> cp_number c = k -> find_copy k (l ++ [c]) = Some c.
Proof.
  intros k c l H <-. unfold find_copy. induction l as [|x l IH]; [cbn; now rewrite Nat.eqb_refl|]. cbn [app find].
  pose proof (H x (or_introl eq_refl)) as Lx. destruct (Nat.eqb (cp_number x) (cp_number c)) eqn:E; [apply Nat.eqb_eq in E; lia|].
  apply IH. intros y Iy. apply H. now right.
Qed.
Lemma find_changed : forall k c c' l, find_copy k l = Some c -> cp_number c' = k ->
  find_copy k (map (fun x => if Nat.eqb (cp_number x) k then c' else x) l) = Some c'.
Proof.
  intros k c c' l H E. unfold find_copy in *. induction l as [|x l IH]; [discriminate|]. cbn [map find] in *.
  destruct (Nat.eqb (cp_number x) k) eqn:Ex; [now rewrite E, Nat.eqb_refl|]. rewrite Ex. now apply IH.
Qed.

(** Numbers of copies are fresh. *)
Definition counted (p : cprogram) : Prop := forall c, In c (cp_copies p) -> cp_number c < cp_next p.

(** A method called on a copy just taken ends as it would on the argument itself, and
    afterwards the copy shows what the argument would show. *)
Theorem C75_effect_partial : forall p n a m s' r, reach (cp_args p) -> counted p -> getArgument (cp_args p) n = Ok a ->
  (getDefaults a = [] \/ exists v, m = MDefaults v) ->
  match m with MAction act => plain_action (getAction a) /\ plain_action act | MNargs _ => plain_action (getAction a) | MDest _ => False | _ => True end ->
  step (OpUpdate n [m]) (cp_args p) = (s', r) ->
  exists a' p' c, getArgument s' n = Ok a' /\ ccalls [CCopy n; CMeth (cp_next p) m] p = (p', [Ok tt; r]) /\
    find_copy (cp_next p) (cp_copies p') = Some c /\ same_view a' (cp_arg c).
Proof.
  intros p n a m s' r R CN G H N E. destruct (reach_wf _ R) as [W L]. destruct (getArgument_inv _ _ _ W G) as [Ia [_ As]].
  assert (D : forall d, m <> MDest d) by (intros d ->; exact N).
  assert (NR : no_role m a /\ no_role m (copied a)).
  { destruct m; cbn [no_role] in *; try (split; exact Logic.I); [destruct N as [[N1 N2] [N3 N4]] | destruct N as [N1 N2]]; (split; repeat split; assumption). }
  assert (RM : run_meth (a_id a) m (cp_args p) = (s', r)).
  { cbn [step] in E. unfold bind at 1 in E. unfold updateArgument, bind at 1, find_name in E. rewrite As in E.
    unfold bind at 1 in E. rewrite deref_eq, (In_find_id _ a (wf_ids _ W) Ia) in E. unfold ret at 1 in E. cbn [run_meths] in E.
    unfold bind in E. destruct (run_meth (a_id a) m (cp_args p)) as [s1 r1]. destruct r1 as [u|e|o| |]; try (injection E as <- <-; reflexivity).
    destruct u. exact E. }
  rewrite (meth_eq m _ a W Ia) in RM. destruct (meth_listed m a _ W Ia (proj1 NR)) as [F SD].
  destruct (related_meth m a (cp_args p) H D) as [RL RE].
  assert (HN : c_names (a_cfg (copied a)) <> []).
  { pose proof (wf_name _ _ W Ia) as HN. unfold has_name in HN. change (c_names (a_cfg (copied a))) with (c_names (a_cfg a)). destruct (c_names (a_cfg a)); [discriminate | discriminate]. }
  pose proof (copy_meth_eq m (CopyOf (cp_next p) (copied a)) (cp_args p) (wf_ids _ W) (reach_numbered _ R) (reach_sorted_parser _ R) HN (proj2 NR) D) as CM.
  assert (Er : r = verdict_of (snd (meth_arg m a (cp_args p))) /\ s' = fst (meth_state m a (cp_args p))).
  { rewrite <- SD. destruct (meth_state m a (cp_args p)) as [s1 [e|]]; cbn [outcome] in RM; injection RM as <- <-; split; reflexivity. }
  destruct Er as [Er Es].
  assert (MP : exists l, s_map s' = s_map (cp_args p) ++ l).
  { rewrite Es. clear -N. destruct m; unfold meth_state; cbv zeta; try (exists []; now rewrite app_nil_r).
    - destruct (is_positional _); [exists []; cbn; now rewrite app_nil_r|]. destruct (validFormatFlag f); [exists []; cbn; now rewrite app_nil_r|].
      destruct (mem_key f _); [exists []; cbn; now rewrite app_nil_r|]. eexists. reflexivity.
    - destruct N as [N1 N2]. rewrite released_roleless by exact N1. rewrite declared_roleless by exact N2. exists []. now rewrite app_nil_r.
    - rewrite declared_roleless by exact N. exists []. now rewrite app_nil_r. }
  exists (fst (meth_arg m a (cp_args p))). eexists. exists (CopyOf (cp_next p) (fst (meth_arg m (copied a) (cp_args p)))).
  split; [|split; [|split]].
  - unfold getArgument. destruct MP as [l ->].
    assert (A2 : forall m1 m2 : list (str * nat), assoc n m1 = Some (a_id a) -> assoc n (m1 ++ m2) = Some (a_id a)).
    { clear. induction m1 as [|[k v] m1 IH]; intros m2 X; [discriminate|]. cbn in *. destruct (String.eqb n k); [exact X | now apply IH]. }
    rewrite (A2 _ _ As), Es, F. reflexivity.
  - cbn [ccalls cstep]. rewrite G. cbn [cp_copies cp_args cp_next].
    rewrite find_new by (exact CN || reflexivity). rewrite CM. cbn [cp_arg cp_number].
    rewrite RE, <- Er. rewrite Er. destruct (snd (meth_arg m a (cp_args p))); reflexivity.
  - cbn [cp_copies]. eapply find_changed; [apply find_new; [exact CN | reflexivity] | reflexivity].
  - cbn [cp_arg]. apply related_view. exact RL.
Qed.
Print Assumptions C75_effect_partial.

(** ** What it does to everything else *)
(** A method of one copy does not touch another copy. *)
Lemma meth_number : forall m c s s' c' r, copy_meth m c s = (s', c', r) -> cp_number c' = cp_number c.
Proof.
  intros m c s s' c' r E. destruct m; unfold copy_meth in E; cbv zeta in E.
  - destruct (is_positional _); [injection E as _ <- _; reflexivity|]. destruct (validFormatFlag f); [injection E as _ <- _; reflexivity|].
    destruct (mem_key f _); [injection E as _ <- _; reflexivity|]. destruct (sort_args _) as [s1 r1]. injection E as _ <- _. reflexivity.
  - unfold on_copy in E. destruct (action _ _ _) as [s1 r1]. destruct (s_args s1); injection E as _ <- _; reflexivity.
  - destruct (sort_args s) as [s1 r1]. injection E as _ <- _. reflexivity.
  - injection E as _ <- _. reflexivity.
  - injection E as _ <- _. reflexivity.
  - unfold on_copy in E. destruct (nargs _ _ _) as [s1 r1]. destruct (s_args s1); injection E as _ <- _; reflexivity.
  - unfold on_copy in E. destruct (defaults _ _ _) as [s1 r1]. destruct (s_args s1); injection E as _ <- _; reflexivity.
  - injection E as _ <- _. reflexivity.
  - injection E as _ <- _. reflexivity.
Qed.
Theorem C75_others : forall p k m p' r j, cstep (CMeth k m) p = (p', r) -> j <> k -> find_copy j (cp_copies p') = find_copy j (cp_copies p).
Proof.
  intros p k m p' r j E NE. cbn [cstep] in E. destruct (find_copy k (cp_copies p)) as [c|] eqn:F; [|injection E as <- _; reflexivity].
  destruct (copy_meth m c (cp_args p)) as [[s1 c'] r1] eqn:C. injection E as <- _. cbn [cp_copies].
  pose proof (meth_number _ _ _ _ _ _ C) as Nc. apply find_some in F. destruct F as [_ Fk]. apply Nat.eqb_eq in Fk.
  unfold find_copy. generalize (cp_copies p) as l. induction l as [|x l IH]; [reflexivity|]. cbn [map find].
  destruct (Nat.eqb (cp_number x) k) eqn:Ex.
  - apply Nat.eqb_eq in Ex. rewrite Nc, Fk, Ex. destruct (Nat.eqb k j) eqn:Ej; [apply Nat.eqb_eq in Ej; now elim NE|]. exact IH.
  - destruct (Nat.eqb (cp_number x) j); [reflexivity | exact IH].
Qed.
Print Assumptions C75_others.

(** the calls of methods of copies that do no harm *)
Definition harmless (o : cop) (p : cprogram) : Prop :=
  match o with
  | CMeth k m => forall c, find_copy k (cp_copies p) = Some c ->
      match m with
      | MFlag f => argumentExists (cp_args p) f = true
      | MAction act => plain_action (getAction (cp_arg c)) /\ plain_action act
      | MNargs _ => plain_action (getAction (cp_arg c))
      | MDest _ => False
      | _ => True
      end
  | _ => True
  end.
Fixpoint harmless_run (ops : list cop) (p : cprogram) : Prop :=
  match ops with
  | [] => True
  | o :: r => harmless o p /\ (completed (snd (cstep o p)) -> harmless_run r (fst (cstep o p)))
  end.
Definition ccalls_of (ops : list cop) : list op := flat_map (fun o => match o with CCall c => [c] | _ => [] end) ops.
(** the outcomes of the calls on the parser among all outcomes *)
Fixpoint coutcomes_of (ops : list cop) (l : list (res unit)) {struct l} : list (res unit) :=
  match l, ops with
  | x :: l, CCall _ :: ops => x :: coutcomes_of ops l
  | _ :: l, _ :: ops => coutcomes_of ops l
  | _, _ => []
  end.

Lemma named_meth : forall m a s, c_names (a_cfg a) <> [] -> (forall d, m <> MDest d) -> c_names (a_cfg (fst (meth_arg m a s))) <> [].
Proof.
  assert (DA : forall a, c_names (a_cfg (fst (defaults_arg a))) = c_names (a_cfg a)).
  { intros a. unfold defaults_arg. destruct (no_defaults _); [reflexivity|]. destruct (size_fits _ _); [|reflexivity]. cbn [fst]. unfold defaulted. destruct (c_type (a_cfg a)); reflexivity. }
  assert (RA : forall a, c_names (a_cfg (fst (redeclared a))) = c_names (a_cfg a)).
  { intros a. unfold redeclared. destruct (kind_of (a_cfg a)) as [[[t n] act]|]; [|reflexivity]. rewrite DA. reflexivity. }
  intros m a s HN D. destruct m; unfold meth_arg; cbv zeta; try exact HN.
  - destruct (is_positional _); [exact HN|]. destruct (validFormatFlag f); [exact HN|]. destruct (mem_key f _); [exact HN|].
    cbn [fst a_cfg arg_cfg c_names cfg_names]. intros Z. pose proof (Permutation_length (sort_perm compareFlag (c_names (a_cfg a) ++ [f]))) as L.
    unfold sort_flags in Z. rewrite Z, app_length in L. cbn in L. lia.
  - rewrite RA. exact HN.
  - rewrite RA. exact HN.
  - rewrite DA. exact HN.
Qed.
Definition named_copies (p : cprogram) : Prop := forall c, In c (cp_copies p) -> c_names (a_cfg (cp_arg c)) <> [].

Lemma harmless_left : forall m c s, (match m with MFlag f => mem_key f (s_map s) = true | MDest _ => False | _ => True end) -> same_parser (copy_left m c s) s.
Proof.
  intros m c s H. destruct m; try (split; reflexivity). unfold copy_left, meth_arg. cbv zeta.
  destruct (is_positional _); [split; reflexivity|]. destruct (validFormatFlag f); [split; reflexivity|]. rewrite H. split; reflexivity.
Qed.
Lemma harmless_unaffected : forall ops p s, same_parser (cp_args p) s -> reach s -> named_copies p -> harmless_run ops p ->
  coutcomes_of ops (snd (ccalls ops p)) = snd (calls (ccalls_of ops) s) /\ same_parser (cp_args (fst (ccalls ops p))) (fst (calls (ccalls_of ops) s)).
Proof.
  induction ops as [|o ops IH]; intros p s H R NC HR; [split; [reflexivity | exact H]|]. destruct HR as [H0 H1].
  pose proof (same_parser_args _ _ H) as [EA EM]. destruct (reach_wf s R) as [W _].
  destruct o as [o|n|k|k m]; cbn [ccalls ccalls_of flat_map]; cbn [cstep] in H1 |- *;
    change (flat_map (fun o => match o with CCall c => [c] | _ => [] end) ops) with (ccalls_of ops).
  - cbn [app calls]. destruct (same_parser_step o (cp_args p) s H) as [X Y]. destruct (step o (cp_args p)) as [t x] eqn:E1. destruct (step o s) as [u y] eqn:E2.
    cbn [fst snd] in X, Y, H1. subst y.
    assert (NEXT : completed x -> coutcomes_of ops (snd (ccalls ops (CProgram t (cp_copies p) (cp_next p)))) = snd (calls (ccalls_of ops) u) /\
       same_parser (cp_args (fst (ccalls ops (CProgram t (cp_copies p) (cp_next p))))) (fst (calls (ccalls_of ops) u))).
    { intros C. apply IH; [exact Y | exact (reach_step s o u x R E2 C) | exact NC | now apply H1]. }
    destruct x; cbn [completed] in NEXT; try (split; [reflexivity | exact Y]);
      destruct (NEXT Logic.I) as [N1 N2]; destruct (ccalls ops (CProgram t (cp_copies p) (cp_next p))) as [p2 l2]; destruct (calls (ccalls_of ops) u) as [u2 l3];
      cbn [fst snd] in *; (split; [rewrite <- N1; reflexivity | exact N2]).
  - cbn [app].
    assert (NUB : (exists a, getArgument (cp_args p) n = Ok a) \/ (exists e, getArgument (cp_args p) n = Throw e)).
    { rewrite (same_parser_lookup _ s n H). destruct (C01_lookup s n R) as [L1 L2]. destruct (argumentExists s n).
      - left. destruct (L1 eq_refl) as [a [G _]]. now exists a.
      - right. destruct (L2 eq_refl) as [G _]. eexists; exact G. }
    destruct NUB as [[a G]|[e G]]; rewrite G in *; cbn [fst snd] in H1.
    + destruct (IH (CProgram (cp_args p) (cp_copies p ++ [CopyOf (cp_next p) (copied a)]) (S (cp_next p))) s H R) as [I1 I2]; [|exact (H1 Logic.I)|].
      * intros c Ic. cbn [cp_copies] in Ic. apply in_app_or in Ic. destruct Ic as [Ic|[<-|[]]]; [now apply NC|]. cbn [cp_arg].
        change (c_names (a_cfg (copied a))) with (c_names (a_cfg a)). rewrite (same_parser_lookup _ s n H) in G.
        destruct (getArgument_inv _ _ _ W G) as [_ [In_ _]]. intros Z. rewrite Z in In_. exact In_.
      * destruct (ccalls ops _) as [p2 l2]. exact (conj I1 I2).
    + destruct (IH p s H R NC (H1 Logic.I)) as [I1 I2]. destruct (ccalls ops p) as [p2 l2]. exact (conj I1 I2).
  - cbn [app]. destruct (find_copy k (cp_copies p)) as [c|]; cbn [fst snd] in H1.
    + destruct (IH (CProgram (with_freed (cp_args p) (s_freed (cp_args p) ++ owned (a_cfg (cp_arg c)))) (filter (fun x => negb (Nat.eqb (cp_number x) k)) (cp_copies p)) (cp_next p)) s H R) as [I1 I2]; [|exact (H1 Logic.I)|].
      * intros x Ix. cbn [cp_copies] in Ix. apply filter_In in Ix. now apply NC.
      * destruct (ccalls ops _) as [p2 l2]. exact (conj I1 I2).
    + destruct (IH p s H R NC (H1 Logic.I)) as [I1 I2]. destruct (ccalls ops p) as [p2 l2]. exact (conj I1 I2).
  - cbn [app]. cbn [harmless] in H0. destruct (find_copy k (cp_copies p)) as [c|] eqn:F; cbn [fst snd] in H1.
    + specialize (H0 c eq_refl). apply find_some in F. destruct F as [Ic Fk]. apply Nat.eqb_eq in Fk.
      assert (NR : no_role m (cp_arg c)) by (destruct m; cbn [no_role]; try exact Logic.I; exact H0).
      assert (D : forall d, m <> MDest d) by (intros d ->; exact H0).
      assert (ND : NoDup (map a_id (s_args (cp_args p)))) by (rewrite EA; apply W).
      rewrite (copy_meth_eq m c (cp_args p) ND (numbered_like _ s EA (reach_numbered s R)) (sorted_like _ s EA (reach_sorted_parser s R)) (NC c Ic) NR D) in *.
      set (p1 := CProgram (copy_left m c (cp_args p)) (map (fun x => if Nat.eqb (cp_number x) k then CopyOf (cp_number c) (fst (meth_arg m (cp_arg c) (cp_args p))) else x) (cp_copies p)) (cp_next p)) in *.
      assert (CO : completed (verdict_of (snd (meth_arg m (cp_arg c) (cp_args p))))) by (destruct (snd (meth_arg m (cp_arg c) (cp_args p))); exact Logic.I).
      destruct (IH p1 s) as [I1 I2].
      * assert (L : same_parser (copy_left m c (cp_args p)) (cp_args p)) by (apply harmless_left; destruct m; try exact Logic.I; [exact H0 | exact H0]).
        destruct L as [L1 L2]. destruct H as [G1 G2]. split; [now rewrite <- G1 | now rewrite <- G2].
      * exact R.
      * intros x Ix. unfold p1 in Ix. cbn [cp_copies] in Ix. apply in_map_iff in Ix. destruct Ix as [y [<- Iy]].
        destruct (Nat.eqb (cp_number y) k); [|now apply NC]. cbn [cp_arg]. apply named_meth; [now apply NC | exact D].
      * exact (H1 CO).
      * destruct (snd (meth_arg m (cp_arg c) (cp_args p))); cbn [verdict_of]; destruct (ccalls ops p1) as [p2 l2]; exact (conj I1 I2).
    + destruct (IH p s H R NC (H1 Logic.I)) as [I1 I2]. destruct (ccalls ops p) as [p2 l2]. exact (conj I1 I2).
Qed.
(** Programs whose uses of copies are harmless: the parser behaves as if only the calls on
    the parser had been made.  (In particular required(), help(), metavar(), nargs(), ... on
    a copy are lost on the parser.) *)
Theorem C75_unaffected_partial : forall ops s, reach s -> harmless_run ops (CProgram s [] 0) ->
  let p := CProgram s [] 0 in
  coutcomes_of ops (snd (ccalls ops p)) = snd (calls (ccalls_of ops) s) /\ same_parser (cp_args (fst (ccalls ops p))) (fst (calls (ccalls_of ops) s)).
Proof. intros ops s R H p. apply harmless_unaffected; [split; reflexivity | exact R | intros c [] | exact H]. Qed.
Print Assumptions C75_unaffected_partial.

(** ** The harm *)
(** flag() on a copy: the parser now knows the flag, and knows the argument by it, but the
    argument does not list it; and removing it is undefined behaviour. *)
Theorem C75_flag_refuted : forall p n a f s', reach (cp_args p) -> counted p -> getArgument (cp_args p) n = Ok a ->
  ~ In f (getNameOrFlags a) -> step (OpUpdate n [MFlag f]) (cp_args p) = (s', Ok tt) ->
  exists p', ccalls [CCopy n; CMeth (cp_next p) (MFlag f)] p = (p', [Ok tt; Ok tt]) /\
    getArgument (cp_args p') f = Ok a /\ snd (step (OpRemove [f]) (cp_args p')) = UB.
Proof.
  intros p n a f s' R CN G NI E. destruct (reach_wf _ R) as [W L]. destruct (getArgument_inv _ _ _ W G) as [Ia [_ As]].
  cbn [step] in E. unfold bind at 1 in E. unfold updateArgument, bind at 1, find_name in E. rewrite As in E.
  unfold bind at 1 in E. rewrite deref_eq, (In_find_id _ a (wf_ids _ W) Ia) in E. unfold ret at 1 in E. cbn [run_meths] in E.
  unfold bind at 1 in E. rewrite (meth_eq _ _ a W Ia) in E. unfold meth_state in E. cbv zeta in E.
  cbn [ccalls cstep]. rewrite G. cbn [cp_copies cp_args cp_next]. rewrite find_new by (exact CN || reflexivity).
  unfold copy_meth. cbv zeta. cbn [cp_arg]. change (c_type (a_cfg (copied a))) with (c_type (a_cfg a)).
  destruct (is_positional (c_type (a_cfg a))); [discriminate|]. destruct (validFormatFlag f); [discriminate|].
  destruct (mem_key f (s_map (cp_args p))) eqn:M; [discriminate|]. clear E.
  assert (SP : sorted_parser (with_map (cp_args p) (s_map (cp_args p) ++ [(f, a_id (copied a))]))) by (apply (sorted_like _ (cp_args p) eq_refl), reach_sorted_parser, R).
  rewrite sort_args_same by exact SP. change (a_id (copied a)) with (a_id a).
  eexists. split; [reflexivity|]. cbn [cp_args].
  assert (AN : assoc f (s_map (cp_args p)) = None) by (unfold mem_key in M; destruct (assoc f (s_map (cp_args p))); [discriminate | reflexivity]).
  assert (AF : assoc f (s_map (cp_args p) ++ [(f, a_id a)]) = Some (a_id a)).
  { revert AN. clear. generalize (s_map (cp_args p)) as m. induction m as [|[k v] m IH]; intros X; cbn in *; [now rewrite String.eqb_refl|].
    destruct (String.eqb f k); [discriminate | now apply IH]. }
  split.
  - unfold getArgument. cbn [s_map with_map s_args]. rewrite AF. now rewrite (In_find_id _ a (wf_ids _ W) Ia).
  - cbn [step]. unfold removeArguments. unfold bind at 1, get. cbn [find s_map with_map].
    assert (MF : mem_key f (s_map (cp_args p) ++ [(f, a_id a)]) = true) by (unfold mem_key; now rewrite AF). rewrite MF. cbn [negb].
    cbn [remove_loop]. unfold bind at 1, bind at 1. unfold remove_one, bind at 1, find_name. cbn [s_map with_map]. rewrite AF.
    unfold bind at 1. rewrite deref_eq. cbn [s_args with_map]. rewrite (In_find_id _ a (wf_ids _ W) Ia).
    assert (MS : mem_str f (c_names (a_cfg a)) = false). { destruct (mem_str f (c_names (a_cfg a))) eqn:X; [|reflexivity]. elim NI. now apply mem_str_In. }
    rewrite MS. reflexivity.
Qed.
Print Assumptions C75_flag_refuted.

(** valid() on a copy deletes the validator the argument was given and still uses. *)
Theorem C75_validator_refuted : forall p n a v w d, reach (cp_args p) -> counted p -> getArgument (cp_args p) n = Ok a -> owns a v ->
  exists p', ccalls [CCopy n; CMeth (cp_next p) (MValid w d)] p = (p', [Ok tt; Ok tt]) /\
    In (v, true) (attached (cp_args p')) /\ In (v_id v) (s_freed (cp_args p')) /\ ~ NoDup (cdestroyed p').
Proof.
  intros p n a v w d R CN G [V D]. destruct (reach_wf _ R) as [W _]. cbn [ccalls cstep]. rewrite G. cbn [cp_copies cp_args cp_next].
  rewrite find_new by (exact CN || reflexivity). unfold copy_meth. cbv zeta. cbn [cp_arg].
  assert (O : owned (a_cfg (copied a)) = [v_id v]) by (unfold owned, copied; cbn; now rewrite V, D). rewrite O.
  eexists. split; [reflexivity|]. cbn [cp_args].
  destruct (getArgument_inv _ _ _ W G) as [Ia _].
  assert (AT : In (v, true) (attached (with_freed (cp_args p) (s_freed (cp_args p) ++ [v_id v])))).
  { apply in_flat_map. exists a. split; [exact Ia|]. unfold attachment. rewrite V, D. now left. }
  assert (FR : In (v_id v) (s_freed (cp_args p) ++ [v_id v])) by (apply in_or_app; right; now left).
  split; [exact AT|]. split; [exact FR|].
  intros ND. unfold cdestroyed, destroyed in ND. cbn [s_freed with_freed s_args cp_args] in ND. rewrite <- app_assoc in ND.
  assert (IO : In (v_id v) (all_owned (s_args (cp_args p)))).
  { apply in_flat_map. exists a. split; [exact Ia|]. unfold owned. rewrite V, D. now left. }
  revert FR ND. generalize (s_freed (cp_args p) ++ [v_id v]) as l. intros l FR ND.
  apply in_split in FR. destruct FR as [l1 [l2 ->]]. rewrite <- app_assoc in ND. cbn in ND. apply NoDup_remove_2 in ND. apply ND.
  apply in_or_app. right. apply in_or_app. right. apply in_or_app. now left.
Qed.
Print Assumptions C75_validator_refuted.

(** action() on a copy of the help option: the parser forgets its help option.  The next
    parse reads nothing at all, and does not fail. *)
Definition helped : cprogram := fst (ccalls [CCall (OpAdd ["-h"; "--help"] [MAction HELP]); CCall (OpAdd ["-n"] [])] cinit).
Theorem C75_role_refuted : exists p n p' s1 s2 a, reach (cp_args p) /\
  ccalls [CCopy n; CMeth 0 (MAction NONE)] p = (p', [Ok tt; Ok tt]) /\
  step (OpParse ["p"; "-n"; "5"]) (cp_args p) = (s1, Ok tt) /\ (exists b, getArgument s1 "-n" = Ok b /\ getString b = "5") /\
  step (OpParse ["p"; "-n"; "5"]) (cp_args p') = (s2, Ok tt) /\ getArgument s2 "-n" = Ok a /\ isExists a = false /\ getString a = "".
Proof.
  exists helped, "-h". eexists. eexists. eexists. eexists. split; [|split; [vm_compute; reflexivity|]].
  - apply (run_reach [OpAdd ["-h"; "--help"] [MAction HELP]; OpAdd ["-n"] []] init); [constructor | vm_compute; reflexivity].
  - split; [vm_compute; reflexivity|]. split; [eexists; split; [vm_compute; reflexivity | vm_compute; reflexivity]|].
    split; [vm_compute; reflexivity|]. split; [vm_compute; reflexivity|]. split; reflexivity.
Qed.
Print Assumptions C75_role_refuted.
(** action(HELP) on a copy makes the copy the parser's help option: once the copy is gone,
    parsing is undefined behaviour. *)
Definition plain_n : cprogram := fst (ccalls [CCall (OpAdd ["-n"] [])] cinit).
Theorem C75_dangling_refuted : exists p n p', reach (cp_args p) /\ snd (step (OpParse ["p"]) (cp_args p)) = Ok tt /\
  ccalls [CCopy n; CMeth 0 (MAction HELP); CDrop 0] p = (p', [Ok tt; Ok tt; Ok tt]) /\ snd (step (OpParse ["p"]) (cp_args p')) = UB.
Proof.
  exists plain_n, "-n". eexists. split; [|split; [vm_compute; reflexivity | split; [vm_compute; reflexivity | vm_compute; reflexivity]]].
  apply (run_reach [OpAdd ["-n"] []] init); [constructor | vm_compute; reflexivity].
Qed.
Print Assumptions C75_dangling_refuted.
(** nargs() on a copy of an argument with defaults: the copy accepts what the argument would
    refuse. *)
Definition with_default : cprogram := fst (ccalls [CCall (OpAdd ["-n"] [MDefaults ["1"]])] cinit).
Theorem C75_defaults_refuted : exists p n p' s' e, reach (cp_args p) /\
  step (OpUpdate n [MNargs 2]) (cp_args p) = (s', Throw e) /\ ccalls [CCopy n; CMeth 0 (MNargs 2)] p = (p', [Ok tt; Ok tt]).
Proof.
  exists with_default, "-n". eexists. eexists. eexists. split; [|split; vm_compute; reflexivity].
  apply (run_reach [OpAdd ["-n"] [MDefaults ["1"]]] init); [constructor | vm_compute; reflexivity].
Qed.
Print Assumptions C75_defaults_refuted.
(** dest() on a copy: undefined behaviour, where the same call on the argument is fine. *)
Theorem C75_dest_refuted : exists p n d p', reach (cp_args p) /\ snd (step (OpUpdate n [MDest d]) (cp_args p)) = Ok tt /\
  ccalls [CCopy n; CMeth 0 (MDest d)] p = (p', [Ok tt; UB]).
Proof.
  exists plain_n, "-n", (Dest 0 DScalar false TyValue). eexists. split; [|split; vm_compute; reflexivity].
  apply (run_reach [OpAdd ["-n"] []] init); [constructor | vm_compute; reflexivity].
Qed.
Print Assumptions C75_dest_refuted.

(** ** Examples: a program that takes copies instead of references *)
Definition forgetful : list cop :=
  [CCall (OpAdd ["-n"] []); CCopy "-n"; CMeth 0 (MRequired true); CMeth 0 (MNargs 2); CMeth 0 (MFlag "-n"); CMeth 0 (MDefaults ["a"]);
   CCall (OpParse ["p"; "-n"; "5"]); CDrop 0].
Example C75_harmless_example : harmless_run forgetful cinit /\
  coutcomes_of forgetful (snd (ccalls forgetful cinit)) = [Ok tt; Ok tt] /\
  map (fun r => match r with Throw _ => true | _ => false end) (snd (ccalls forgetful cinit)) = [false; false; false; false; true; true; false; false].
Proof.
  split; [|split; vm_compute; reflexivity].
  cbn [forgetful harmless_run harmless]. split; [exact Logic.I|]. intros _. split; [exact Logic.I|]. intros _.
  split; [intros c _; exact Logic.I|]. intros _. split; [intros c F; vm_compute in F; injection F as <-; split; discriminate|]. intros _.
  split; [intros c _; vm_compute; reflexivity|]. intros _. split; [intros c _; exact Logic.I|]. intros _. split; [exact Logic.I|]. intros _.
  split; [exact Logic.I|]. intros _. exact Logic.I.
Qed.
Example C75_flag_example : exists a s', reach (cp_args plain_n) /\ counted plain_n /\ getArgument (cp_args plain_n) "-n" = Ok a /\
  ~ In "--name" (getNameOrFlags a) /\ step (OpUpdate "-n" [MFlag "--name"]) (cp_args plain_n) = (s', Ok tt) /\ getDefaults a = [] /\ plain_action (getAction a).
Proof.
  eexists. eexists. split; [apply (run_reach [OpAdd ["-n"] []] init); [constructor | vm_compute; reflexivity]|]. split; [intros c []|].
  split; [vm_compute; reflexivity|]. split; [intros [Z|[]]; discriminate|]. split; [vm_compute; reflexivity|]. split; [reflexivity|]. split; discriminate.
Qed.
