(** Proofs_Term.v -- the loops of parseArguments: the iterations allowed do not change
    the result, and words plus arguments are enough. *)
From Coq Require Import Permutation Sorted.
From Verif Require Import Base Model_Utils Model_Number Model_Types Model_Argument Model_Usage Model_Args Model_Api
  Spec_Order Spec_Names Spec_Reading Spec_Parse Spec_Finish Spec_History Spec_Api Spec_Result
  Proofs_Base Proofs_Order Proofs_Frame Proofs_Inv Proofs_ReadFacts Proofs_Reading Proofs_Parse Proofs_Decl Proofs_Finish
  Proofs_Meth Proofs_History Proofs_Config Proofs_Central Proofs_Safe.

(* ------------------------------------------------------------------ *)
(** * more fuel gives the same result *)
Definition agree {A} (m m' : M A) : Prop := forall s, snd (m s) <> OutOfFuel -> m' s = m s.
Lemma agree_refl : forall {A} (m : M A), agree m m. Proof. intros A m s _; reflexivity. Qed.
Lemma agree_bind : forall {A B} (m m' : M A) (f f' : A -> M B), agree m m' -> (forall a, agree (f a) (f' a)) ->
  agree (bind m f) (bind m' f').
Proof.
  intros A B m m' f f' Hm Hf s H. unfold bind in *. specialize (Hm s).
  destruct (m s) as [s1 [a|e|o| |]]; simpl in *; try (rewrite Hm by discriminate; reflexivity).
  - rewrite Hm by discriminate. now apply Hf.
  - congruence.
Qed.
Lemma agree_fuel : forall {A} (m : M A), agree (fun s => (s, OutOfFuel)) m.
Proof. intros A m s H. simpl in H. congruence. Qed.

Ltac ag := repeat first
  [ apply agree_refl
  | apply agree_bind; [|intros ?]
  | match goal with |- agree (if ?b then _ else _) _ => destruct b end
  | match goal with |- agree (match ?x with _ => _ end) _ => destruct x end ].
Lemma agree_group : forall fuel fuel' id n argv e m i k err, fuel <= fuel' ->
  agree (group_loop fuel id n argv e m i k err) (group_loop fuel' id n argv e m i k err).
Proof.
  induction fuel as [|f IH]; intros fuel' id n argv e m i k err L; [apply agree_fuel|].
  destruct fuel' as [|f']; [lia|]. cbn [group_loop].
  destruct (Nat.ltb i m); [|apply agree_refl].
  apply agree_bind; [apply agree_refl | intros w]. apply agree_bind; [apply agree_refl | intros []]; [apply agree_refl|].
  cbv zeta. destruct (N.of_nat m <? szadd i n)%N; [apply agree_refl|].
  apply agree_bind; [apply agree_refl | intros ws]. apply agree_bind; [apply agree_refl | intros _]. apply IH; lia.
Qed.
Lemma agree_parseArgument : forall fuel fuel' m argv i h o x id, fuel <= fuel' ->
  agree (parseArgument fuel m argv i h o x id) (parseArgument fuel' m argv i h o x id).
Proof.
  intros fuel fuel' m argv i h o x id L. unfold parseArgument.
  apply agree_bind; [apply agree_refl | intros a]. apply agree_bind; [|intros; apply agree_refl].
  destruct h; [apply agree_refl|]. destruct (c_type (a_cfg a)); try apply agree_refl.
  apply agree_bind; [apply agree_refl | intros _]. apply agree_bind; [now apply agree_group | intros; apply agree_refl].
Qed.
Lemma agree_short_loop : forall cs fuel fuel' m argv i h x, fuel <= fuel' ->
  agree (short_loop fuel m argv i h x cs) (short_loop fuel' m argv i h x cs).
Proof.
  induction cs as [|c cs IH]; intros fuel fuel' m argv i h x L; cbn [short_loop].
  - apply agree_bind; [apply agree_refl | intros [id|]]; [now apply agree_parseArgument | apply agree_refl].
  - destruct cs as [|c' cs].
    + apply agree_bind; [apply agree_refl | intros [id|]]; [now apply agree_parseArgument | apply agree_refl].
    + apply agree_bind; [apply agree_refl | intros [id|]]; [|apply agree_refl].
      apply agree_bind; [apply agree_refl | intros a].
      destruct (negb h && takes_value (c_type (a_cfg a))).
      { apply agree_bind; [apply agree_refl | intros _]. now apply agree_parseArgument. }
      destruct (negb (is_bool_option (c_type (a_cfg a)))); [apply agree_refl|].
      apply agree_bind; [apply agree_refl | intros _]. now apply IH.
Qed.
Lemma agree_parseShort : forall fuel fuel' m argv i w, fuel <= fuel' ->
  agree (parseShort fuel m argv i w) (parseShort fuel' m argv i w).
Proof.
  intros fuel fuel' m argv i w L. unfold parseShort. destruct (takeArg w) as [[h o] x].
  apply agree_bind; [apply agree_refl | intros s].
  destruct (if m_alternative (s_modes s) then _ else None); [now apply agree_parseArgument | now apply agree_short_loop].
Qed.
Lemma agree_parseLong : forall fuel fuel' m argv i w, fuel <= fuel' ->
  agree (parseLong fuel m argv i w) (parseLong fuel' m argv i w).
Proof.
  intros fuel fuel' m argv i w L. unfold parseLong. destruct (takeArg w) as [[h o] x].
  apply agree_bind; [apply agree_refl | intros [id|]]; [now apply agree_parseArgument | apply agree_refl].
Qed.
Lemma agree_parsePositional : forall fuel fuel' m argv i e, fuel <= fuel' ->
  agree (parsePositional fuel m argv i e) (parsePositional fuel' m argv i e).
Proof.
  intros fuel fuel' m argv i e L. unfold parsePositional. apply agree_bind; [apply agree_refl | intros s].
  destruct (next_positional s) as [b|]; [|apply agree_refl].
  apply agree_bind; [|intros; apply agree_refl].
  destruct (c_type (a_cfg b)); try apply agree_refl.
  apply agree_bind; [now apply agree_group | intros; apply agree_refl].
Qed.
Lemma agree_end_loop : forall fuel fuel' g g' argv i, fuel <= fuel' -> g <= g' ->
  agree (end_loop fuel g argv i) (end_loop fuel' g' argv i).
Proof.
  induction fuel as [|f IH]; intros fuel' g g' argv i L Lg; [apply agree_fuel|].
  destruct fuel' as [|f']; [lia|]. cbn [end_loop]. destruct (Nat.ltb i (length argv)); [|apply agree_refl].
  apply agree_bind; [now apply agree_parsePositional | intros j]. apply IH; lia.
Qed.
Lemma agree_parse_loop : forall fuel fuel' g g' argv e i, fuel <= fuel' -> g <= g' ->
  agree (parse_loop fuel g argv e i) (parse_loop fuel' g' argv e i).
Proof.
  induction fuel as [|f IH]; intros fuel' g g' argv e i L Lg; [apply agree_fuel|].
  destruct fuel' as [|f']; [lia|]. cbn [parse_loop]. destruct (Nat.ltb i (length argv)); [|apply agree_refl].
  apply agree_bind; [apply agree_refl | intros w].
  destruct (isShortOption w); [apply agree_bind; [now apply agree_parseShort | intros j; apply IH; lia]|].
  destruct (isLongOption w); [apply agree_bind; [now apply agree_parseLong | intros j; apply IH; lia]|].
  destruct (isEndOption w); [apply agree_end_loop; lia|].
  apply agree_bind; [now apply agree_parsePositional | intros j; apply IH; lia].
Qed.
Theorem agree_parse_with : forall fuel fuel' argv, fuel <= fuel' -> agree (parse_with fuel argv) (parse_with fuel' argv).
Proof.
  intros fuel fuel' argv L. unfold parse_with. apply agree_bind; [apply agree_refl | intros _].
  apply agree_bind; [apply agree_refl | intros []]; [apply agree_refl|].
  apply agree_bind; [|intros _; apply agree_refl]. unfold scan.
  apply agree_bind; [apply agree_refl | intros _]. now apply agree_parse_loop.
Qed.

Lemma get_bind : forall {B} (f : state -> M B) s, bind get f s = f s s. Proof. reflexivity. Qed.
Lemma ret_bind : forall {A B} (a : A) (f : A -> M B) s, bind (ret a) f s = f a s. Proof. reflexivity. Qed.

(* ------------------------------------------------------------------ *)
(** * progress *)
Definition grow (a b : argument) : Prop := static b = static a /\ (d_exist (a_dyn a) = true -> d_exist (a_dyn b) = true).
Definition grows (s s' : state) : Prop := Forall2 grow (s_args s) (s_args s').
Lemma grow_refl : forall a, grow a a. Proof. split; auto. Qed.
Lemma grows_refl : forall s, grows s s. Proof. intros s. apply Forall2_refl, grow_refl. Qed.
Lemma grows_trans : forall a b c, grows a b -> grows b c -> grows a c.
Proof. intros a b c H K. eapply Forall2_trans; [|exact H|exact K]. intros x y z [E1 F1] [E2 F2]. split; [congruence | auto]. Qed.
Lemma grows_set_dyn : forall id f s, (forall d, d_exist d = true -> d_exist (f d) = true) -> grows s (fst (set_dyn id f s)).
Proof.
  intros id f s H. unfold grows. simpl. unfold upd_id. apply Forall2_map_r. intros a _.
  destruct (Nat.eqb (a_id a) id); (split; [reflexivity | simpl; auto]).
Qed.
(** the positional arguments that are not filled yet *)
Definition open_pos (a : argument) : bool := negb (d_exist (a_dyn a)) && is_positional (c_type (a_cfg a)).
Definition left_in (l : list argument) : nat := length (filter open_pos l).
Definition left (s : state) : nat := left_in (s_args s).
Lemma grow_open : forall a b, grow a b -> open_pos b = true -> open_pos a = true.
Proof.
  intros a b [E F] H. unfold open_pos in *. unfold static in E. injection E as _ _ E. rewrite E in H.
  destruct (d_exist (a_dyn a)); [rewrite F in H by reflexivity; exact H | exact (proj2 (proj1 (andb_true_iff _ _) H))].
Qed.
Lemma left_mono : forall l l', Forall2 grow l l' -> left_in l' <= left_in l.
Proof.
  intros l l' H. induction H as [|a b l l' G H IH]; [reflexivity|]. unfold left_in in *. cbn [filter].
  pose proof (grow_open a b G). destruct (open_pos b); [rewrite H0 by reflexivity; simpl; lia|].
  destruct (open_pos a); simpl; lia.
Qed.
Lemma left_strict : forall l l' a b, NoDup (map a_id l) -> Forall2 grow l l' -> In a l -> In b l' -> a_id a = a_id b ->
  open_pos a = true -> d_exist (a_dyn b) = true -> left_in l' < left_in l.
Proof.
  intros l l' a b ND H. revert a b ND. induction H as [|x y l l' G H IH]; intros a b ND Ia Ib E O D; [destruct Ia|].
  inversion ND as [|? ? N1 N2]; subst.
  assert (IDS : map a_id l' = map a_id l).
  { clear - H. induction H as [|? ? ? ? [E _] _ IH]; [reflexivity|]. simpl. rewrite IH. unfold static in E. now injection E as -> _ _. }
  assert (Exy : a_id y = a_id x) by (destruct G as [G _]; unfold static in G; now injection G).
  pose proof (left_mono _ _ H) as M. unfold left_in in *. cbn [filter].
  destruct Ia as [->|Ia]; destruct Ib as [->|Ib].
  - rewrite O. replace (open_pos b) with false by (unfold open_pos; now rewrite D). simpl; lia.
  - exfalso. apply N1. rewrite E, <- IDS. now apply in_map.
  - exfalso. apply N1. rewrite <- Exy, <- E. now apply in_map.
  - specialize (IH a b N2 Ia Ib E O D). pose proof (grow_open x y G).
    destruct (open_pos y); [rewrite H0 by reflexivity; simpl; lia|]. destruct (open_pos x); simpl; lia.
Qed.
Lemma left_le : forall l, left_in l <= length l.
Proof. intros l. unfold left_in. induction l as [|a l IH]; simpl; [lia|]. destruct (open_pos a); simpl; lia. Qed.

Section Term.
  Variable s0 : state.
  Variable argv : list str.
  Hypothesis W : wf0 s0.
  Hypothesis Sn : sane (length argv) s0.
  (** the computation ends, fills no positional argument less, and its result satisfies Q *)
  Definition ends {A} (Q : A -> Prop) (m : M A) : Prop := forall s, frame s0 s ->
    snd (m s) <> OutOfFuel /\ grows s (fst (m s)) /\ forall a, snd (m s) = Ok a -> Q a.
  Lemma ends_ret : forall {A} (Q : A -> Prop) a, Q a -> ends Q (ret a).
  Proof. intros A Q a H s _. repeat split; [discriminate | apply grows_refl |]. intros b E; injection E as <-; exact H. Qed.
  Lemma ends_throw : forall {A} (Q : A -> Prop) k x y, ends Q (throw k x y).
  Proof. intros A Q k x y s _. repeat split; [discriminate | apply grows_refl | discriminate]. Qed.
  Lemma ends_ub : forall {A} (Q : A -> Prop), ends Q ub.
  Proof. intros A Q s _. repeat split; [discriminate | apply grows_refl | discriminate]. Qed.
  Lemma ends_bind : forall {A B} (P : A -> Prop) (Q : B -> Prop) (m : M A) (f : A -> M B), ends P m -> keeps frame m ->
    (forall a, P a -> ends Q (f a)) -> ends Q (bind m f).
  Proof.
    intros A B P Q m f Hm K Hf s F. specialize (Hm s F). specialize (K s). unfold bind.
    destruct (m s) as [s1 [a|e|o| |]]; simpl in *; destruct Hm as [H1 [H2 H3]]; try (repeat split; [discriminate | exact H2 | discriminate]); [|congruence].
    destruct (Hf a (H3 a eq_refl) s1 (frame_trans _ _ _ F K)) as [G1 [G2 G3]].
    repeat split; [exact G1 | eapply grows_trans; eassumption | exact G3].
  Qed.
  Definition any {A} (_ : A) : Prop := True.
  Lemma ends_get : forall {B} (Q : B -> Prop) f, (forall s, frame s0 s -> ends Q (f s)) -> ends Q (bind get f).
  Proof. intros B Q f H s F. unfold bind, get. now apply H. Qed.
  Lemma ends_set_dyn : forall id f, (forall d, d_exist d = true -> d_exist (f d) = true) -> ends any (set_dyn id f).
  Proof. intros id f H s _. repeat split; [discriminate | now apply grows_set_dyn]. Qed.
  Lemma ends_find : forall n, ends any (find_name n).
  Proof. intros n s _. repeat split; [discriminate | apply grows_refl]. Qed.
  Lemma ends_deref : forall id, ends (fun a => exists b, In b (s_args s0) /\ a_cfg b = a_cfg a) (deref id).
  Proof.
    intros id s F. rewrite deref_eq. destruct (find_id id (s_args s)) as [a|] eqn:E; simpl.
    - repeat split; [discriminate | apply grows_refl |]. intros b Eb; injection Eb as <-.
      apply find_id_In in E. destruct E as [I _]. apply (in_map static) in I. rewrite (fr_args _ _ F) in I.
      apply in_map_iff in I. destruct I as [b [Eb Ib]]. exists b. split; [exact Ib|]. unfold static in Eb. now injection Eb.
    - repeat split; [discriminate | apply grows_refl | discriminate].
  Qed.
  Lemma ends_front : forall l, ends any (front l).
  Proof. intros [|x l]; [apply ends_ub | now apply ends_ret]. Qed.
  Lemma ends_at : forall i, ends any (argv_at argv i).
  Proof. intros i. unfold argv_at. destruct (nth_error argv i); [now apply ends_ret | apply ends_ub]. Qed.
  Lemma argv_range_length : forall n i l, argv_range argv i n = Some l -> length l = n.
  Proof.
    induction n as [|n IH]; intros i l H; cbn [argv_range] in H; [now injection H as <-|].
    destruct (nth_error argv i); [|discriminate]. destruct (argv_range argv (S i) n) eqn:E; [|discriminate].
    injection H as <-. simpl. now rewrite (IH _ _ E).
  Qed.
  Lemma ends_slice : forall i j, ends (fun l => length l = j - i) (argv_slice argv i j).
  Proof.
    intros i j. unfold argv_slice. destruct (argv_range argv i (j - i)) eqn:E; [|apply ends_ub].
    apply ends_ret. now apply argv_range_length in E.
  Qed.
  Ltac fr := solve [kp | auto with frame | kk].
  Ltac eb PP := refine (ends_bind PP _ _ _ _ _ _); [| fr | intros].
  Lemma ends_eoi_short : forall b cs, ends any (eoi_short b cs).
  Proof.
    intros b; induction cs as [|c cs IH]; cbn [eoi_short].
    - eb (@any (option nat)); [apply ends_find | now apply ends_ret].
    - destruct cs as [|c' cs].
      + eb (@any (option nat)); [apply ends_find | now apply ends_ret].
      + eb (@any (option nat)); [apply ends_find|]. destruct a as [id|]; [|now apply ends_ret].
        eapply ends_bind; [apply ends_deref | fr | intros a _].
        destruct (negb b && takes_value (c_type (a_cfg a))); [now apply ends_ret|].
        destruct (is_bool_option (c_type (a_cfg a))); [now apply ends_ret | exact IH].
  Qed.
  Lemma ends_eoi : forall w, ends any (endOfInfinite w).
  Proof.
    intros w. unfold endOfInfinite. destruct (isShortOption w).
    - destruct (takeArg w) as [[h o] x]. apply ends_get; intros s F.
      destruct (m_alternative _ && _); [now apply ends_ret | apply ends_eoi_short].
    - destruct (isLongOption w); [|now apply ends_ret]. destruct (takeArg w) as [[h o] x].
      eb (@any (option nat)); [apply ends_find | now apply ends_ret].
  Qed.
  Lemma ends_stop : forall (e : bool) w, ends any (if e then ret false else endOfInfinite w).
  Proof. intros [] w; [now apply ends_ret | apply ends_eoi]. Qed.
  Lemma frame_stop : forall (e : bool) w, keeps frame (if e then ret false else endOfInfinite w).
  Proof. intros [] w; [kp | auto with frame]. Qed.
  Lemma ends_run : forall n id e i k, ends any (run_loop id argv e n i k).
  Proof.
    induction n as [|n IH]; intros; cbn [run_loop]; [now apply ends_ret|].
    eb (@any str); [apply ends_at|].
    eapply ends_bind; [apply ends_stop | apply frame_stop | intros [] _]; [now apply ends_ret|].
    eb (@any unit); [now apply ends_set_dyn | apply IH].
  Qed.
  Lemma szadd_small : forall a b i, In b (s_args s0) -> a_cfg b = a_cfg a -> i <= length argv ->
    szadd i (c_nargs (a_cfg a)) = (N.of_nat i + c_nargs (a_cfg a))%N.
  Proof.
    intros a b i I E L. destruct (Sn b I) as [H _]. rewrite E in H. unfold szadd. apply N.mod_small. lia.
  Qed.
  Lemma ends_group : forall fuel id n e m i k err, (0 < n)%N -> (N.of_nat (length argv) + n < w64)%N -> m <= length argv ->
    m - i < fuel -> ends any err -> ends any (group_loop fuel id n argv e m i k err).
  Proof.
    induction fuel as [|f IH]; intros id n e m i k err Hn Hw Lm Lf He; [lia|]. cbn [group_loop].
    destruct (Nat.ltb_spec i m) as [L|L]; [|now apply ends_ret].
    eb (@any str); [apply ends_at|].
    eapply ends_bind; [apply ends_stop | apply frame_stop | intros [] _]; [now apply ends_ret|].
    cbv zeta. assert (Z : szadd i n = (N.of_nat i + n)%N) by (unfold szadd; apply N.mod_small; lia). rewrite Z.
    destruct (N.ltb_spec (N.of_nat m) (N.of_nat i + n)); [exact He|].
    eapply ends_bind; [apply ends_slice | fr | intros ws _].
    eb (@any unit); [now apply ends_set_dyn|]. apply IH; try assumption. lia.
  Qed.
  Lemma ends_parseArgument : forall fuel m i h o x id, i < length argv -> m <= length argv -> length argv < fuel + S i ->
    ends (fun j => i < j) (parseArgument fuel m argv i h o x id).
  Proof.
    intros fuel m i h o x id Li Lm Lf. unfold parseArgument.
    eapply ends_bind; [apply ends_deref | fr | intros a [b [Ib Eb]]].
    pose proof (fun i => szadd_small a b i Ib Eb) as Z. destruct (Sn b Ib) as [Sw [Sg _]]. rewrite Eb in Sw, Sg.
    apply ends_bind with (P := fun j => i < j);
      [| destruct h; destruct (c_type (a_cfg a)); kk | intros j Hj; eb (@any unit); [now apply ends_set_dyn | now apply ends_ret]].
    assert (PU : forall es, ends any (push_elems id es)) by (intros; now apply ends_set_dyn).
    assert (CL : ends any (clear_elems id)) by now apply ends_set_dyn.
    assert (CU : ends any (clear_unless_exists id)).
    { apply ends_set_dyn. intros d Hd. now rewrite Hd. }
    assert (NX : ends (fun j => i < j) (if Nat.leb m (i + 1) then bad_number o else
        do w <- argv_at argv (S i) ;; set_dyn id (fun d => dyn_arg d w) ;;; ret (S (S i)))).
    { destruct (Nat.leb m (i + 1)); [apply ends_throw|]. eb (@any str); [apply ends_at|].
      eb (@any unit); [now apply ends_set_dyn | apply ends_ret; lia]. }
    cbv zeta. rewrite (Z i) by lia. assert (Hnn : i <= N.to_nat (N.of_nat i + c_nargs (a_cfg a))) by lia.
    destruct h; destruct (c_type (a_cfg a)) eqn:Et; try (apply ends_throw); try (apply ends_ret; lia); try exact NX.
    all: first [ eb (@any unit); [solve [exact CU | exact CL]|] | idtac ].
    all: try solve [eb (@any unit); [solve [apply PU | now apply ends_set_dyn] | apply ends_ret; lia]].
    all: try solve [eapply ends_bind; [apply ends_run | fr | intros k _]; apply ends_ret; lia].
    all: try solve [destruct (_ <=? _)%N; [apply ends_throw|];
      eapply ends_bind; [apply ends_slice | fr | intros ws _]; eb (@any unit); [apply PU | apply ends_ret; lia]].
    all: try solve [destruct (Nat.leb m (i + 1)); [apply ends_throw|]; eb (@any str); [apply ends_at|];
      eb (@any unit); [apply PU | apply ends_ret; lia]].
    assert (0 < c_nargs (a_cfg a))%N.
    { specialize (Sg (N.to_nat (c_nargs (a_cfg a)))). unfold arity_of in Sg. rewrite Et in Sg. specialize (Sg eq_refl). lia. }
    eapply ends_bind; [apply ends_group; try assumption; [lia | apply ends_throw] | fr | intros k _]. apply ends_ret; lia.
  Qed.
  Lemma ends_short_loop : forall cs fuel m i h x, i < length argv -> m <= length argv -> length argv < fuel + S i ->
    ends (fun j => i < j) (short_loop fuel m argv i h x cs).
  Proof.
    induction cs as [|c cs IH]; intros fuel m i h x Li Lm Lf; cbn [short_loop].
    - eb (@any (option nat)); [apply ends_find|]. destruct a; [now apply ends_parseArgument | apply ends_throw].
    - destruct cs as [|c' cs].
      + eb (@any (option nat)); [apply ends_find|]. destruct a; [now apply ends_parseArgument | apply ends_throw].
      + eb (@any (option nat)); [apply ends_find|]. destruct a as [id|]; [|apply ends_throw].
        eapply ends_bind; [apply ends_deref | fr | intros a _].
        destruct (negb h && takes_value (c_type (a_cfg a))).
        { eb (@any unit); [now apply ends_set_dyn | now apply ends_parseArgument]. }
        destruct (negb (is_bool_option (c_type (a_cfg a)))); [apply ends_throw|].
        eb (@any unit); [now apply ends_set_dyn | now apply IH].
  Qed.
  Lemma ends_parseShort : forall fuel m i w, i < length argv -> m <= length argv -> length argv < fuel + S i ->
    ends (fun j => i < j) (parseShort fuel m argv i w).
  Proof.
    intros. unfold parseShort. destruct (takeArg w) as [[h o] x]. apply ends_get; intros s F.
    destruct (if m_alternative (s_modes s) then _ else None); [now apply ends_parseArgument | now apply ends_short_loop].
  Qed.
  Lemma ends_parseLong : forall fuel m i w, i < length argv -> m <= length argv -> length argv < fuel + S i ->
    ends (fun j => i < j) (parseLong fuel m argv i w).
  Proof.
    intros. unfold parseLong. destruct (takeArg w) as [[h o] x]. eb (@any (option nat)); [apply ends_find|].
    destruct a; [now apply ends_parseArgument | apply ends_throw].
  Qed.
  Lemma ends_parsePositional : forall fuel m i e, i < length argv -> m <= length argv -> length argv < fuel + i ->
    forall s, frame s0 s ->
    snd (parsePositional fuel m argv i e s) <> OutOfFuel /\
    forall s1 j, parsePositional fuel m argv i e s = (s1, Ok j) -> i <= j /\ left s1 <= left s /\ (i < j \/ left s1 < left s).
  Proof.
    intros fuel m i e Li Lm Lf s F. unfold parsePositional.
    rewrite !get_bind.
    destruct (next_positional s) as [b|] eqn:E.
    - apply find_some in E. destruct E as [Ib Ob].
      match goal with |- snd (bind ?m _ s) <> _ /\ _ => set (mm := m) end.
      assert (H : ends (fun j => i <= j) mm).
      { assert (Ib0 : exists c, In c (s_args s0) /\ a_cfg c = a_cfg b).
        { apply (in_map static) in Ib. rewrite (fr_args _ _ F) in Ib. apply in_map_iff in Ib. destruct Ib as [c [Ec Ic]].
          exists c. split; [exact Ic|]. unfold static in Ec. now injection Ec. }
        destruct Ib0 as [c [Ic Ec]]. pose proof (szadd_small b c i Ic Ec ltac:(lia)) as Z. destruct (Sn c Ic) as [Sw [Sg _]]. rewrite Ec in Sw, Sg.
        assert (ER : ends (@any nat) (do f <- front (c_names (a_cfg b)) ;; bad_number f)).
        { eb (@any str); [apply ends_front | apply ends_throw]. }
        unfold mm. clear mm. cbv zeta. rewrite Z. destruct (c_type (a_cfg b)) eqn:Et; try (apply ends_ret; lia).
        - eb (@any str); [apply ends_at|]. eb (@any unit); [now apply ends_set_dyn | apply ends_ret; lia].
        - destruct (_ <? _)%N; [eb (@any str); [apply ends_front | apply ends_throw]|].
          eapply ends_bind; [apply ends_slice | fr | intros ws _]. eb (@any unit); [now apply ends_set_dyn | apply ends_ret; lia].
        - eapply ends_bind; [apply ends_run | fr | intros k _]. apply ends_ret; lia.
        - assert (0 < c_nargs (a_cfg b))%N.
          { specialize (Sg (N.to_nat (c_nargs (a_cfg b)))). unfold arity_of in Sg. rewrite Et in Sg. specialize (Sg eq_refl). lia. }
          eapply ends_bind; [apply ends_group; try eassumption; lia | apply frame_group; kk | intros k _]. apply ends_ret; lia. }
      assert (K : keeps frame mm) by (unfold mm; destruct (c_type (a_cfg b)); kk; apply frame_group; kk).
      destruct (H s F) as [H1 [H2 H3]]. specialize (K s). clearbody mm. unfold bind at 1 3.
      destruct (mm s) as [s1 [j|x|o| |]] eqn:Em; simpl in H1, H2, H3, K; try (split; [discriminate | intros; discriminate]); [|congruence].
      change ((set_dyn (a_id b) (fun d => dyn_exist d true) ;;; ret j) s1) with (fst (set_dyn (a_id b) (fun d => dyn_exist d true) s1), @Ok nat j).
      split; [discriminate|]. intros s2 j' Eq. injection Eq as <- <-.
      split; [now apply H3|].
      assert (G : grows s (fst (set_dyn (a_id b) (fun d => dyn_exist d true) s1))).
      { eapply grows_trans; [exact H2|]. now apply grows_set_dyn. }
      split; [now apply left_mono|]. right.
      pose proof (frame_wf0 _ _ W F) as Ws.
      assert (Hb : exists b1, In b1 (s_args s1) /\ a_id b1 = a_id b).
      { pose proof (in_map static _ _ Ib) as Q. rewrite <- (fr_args _ _ K) in Q. apply in_map_iff in Q. destruct Q as [b1 [E1 I1]].
        exists b1. split; [exact I1|]. unfold static in E1. now injection E1. }
      destruct Hb as [b1 [I1 E1]].
      eapply left_strict with (a := b) (b := arg_dyn b1 (dyn_exist (a_dyn b1) true)); try eassumption.
      + exact (wf_ids _ Ws).
      + apply upd_id_In. exists b1. split; [exact I1|]. rewrite E1, Nat.eqb_refl. reflexivity.
      + simpl. now symmetry.
      + reflexivity.
    - pose proof (ends_at i s F) as [A1 [A2 _]]. unfold argv_at in *. destruct (nth_error argv i) as [w|].
      + rewrite !ret_bind. destruct (m_strict (s_modes s)).
        * split; [discriminate | intros; discriminate].
        * split; [discriminate|]. intros s1 j Eq. injection Eq as <- <-. unfold left; simpl. lia.
      + split; [discriminate | intros; discriminate].
  Qed.
  Lemma ends_end_loop : forall fuel g i s, frame s0 s -> length argv < g + i -> (length argv - i) + left s < fuel ->
    snd (end_loop fuel g argv i s) <> OutOfFuel.
  Proof.
    induction fuel as [|f IH]; intros g i s F Lg Lf; [lia|]. cbn [end_loop].
    destruct (Nat.ltb_spec i (length argv)) as [L|L]; [|discriminate].
    destruct (ends_parsePositional g (length argv) i true L (le_n _) Lg s F) as [H1 H2].
    pose proof (frame_parsePositional g (length argv) argv i true s) as K. unfold bind.
    destruct (parsePositional g (length argv) argv i true s) as [s1 [j|x|o| |]]; simpl in *; try discriminate; [|congruence].
    destruct (H2 s1 j eq_refl) as [A [B C]]. apply IH; [eapply frame_trans; eassumption | lia | lia].
  Qed.
  Lemma ends_parse_loop : forall fuel g e i s, e <= length argv -> frame s0 s -> length argv < g + i -> (length argv - i) + left s < fuel ->
    snd (parse_loop fuel g argv e i s) <> OutOfFuel.
  Proof.
    induction fuel as [|f IH]; intros g e i s Le F Lg Lf; [lia|]. cbn [parse_loop].
    destruct (Nat.ltb_spec i (length argv)) as [L|L]; [|discriminate].
    unfold argv_at. destruct (nth_error argv i) as [w|]; [|discriminate].
    rewrite !ret_bind.
    assert (STEP : forall m : M nat, keeps frame m -> ends (fun j => i < j) m ->
      snd (bind m (fun j => parse_loop f g argv e j) s) <> OutOfFuel).
    { intros m Km Hm. specialize (Km s). destruct (Hm s F) as [H1 [H2 H3]]. unfold bind.
      destruct (m s) as [s1 [j|x|o| |]]; simpl in *; try discriminate; [|congruence].
      specialize (H3 j eq_refl). apply left_mono in H2. fold (left s) in H2. fold (left s1) in H2.
      apply IH; [exact Le | eapply frame_trans; eassumption | lia | lia]. }
    destruct (isShortOption w); [apply STEP; [auto with frame | apply ends_parseShort; lia]|].
    destruct (isLongOption w); [apply STEP; [auto with frame | apply ends_parseLong; lia]|].
    destruct (isEndOption w); [apply ends_end_loop; [exact F | lia | lia]|].
    destruct (ends_parsePositional g e i false L Le Lg s F) as [H1 H2].
    pose proof (frame_parsePositional g e argv i false s) as K. unfold bind.
    destruct (parsePositional g e argv i false s) as [s1 [j|x|o| |]]; simpl in *; try discriminate; [|congruence].
    destruct (H2 s1 j eq_refl) as [A [B C]]. apply IH; [exact Le | eapply frame_trans; eassumption | lia | lia].
  Qed.
  Lemma ends_scan : forall fuel, length argv + left s0 < fuel -> snd (scan fuel argv s0) <> OutOfFuel.
  Proof.
    intros fuel L. unfold scan, bind at 1. pose proof (frame_set_binary argv s0) as F.
    assert (Q : snd (set_binary argv s0) <> OutOfFuel /\ left (fst (set_binary argv s0)) = left s0).
    { unfold set_binary, bind, get. destruct (s_bin s0); [|split; [discriminate | reflexivity]].
      unfold argv_at. destruct (nth_error argv 0); split; solve [discriminate | reflexivity]. }
    destruct Q as [Q1 Q2]. destruct (set_binary argv s0) as [s1 [u|x|o| |]]; simpl in *; try discriminate; [|congruence].
    apply ends_parse_loop; [apply endIndex_le | exact F | lia | lia].
  Qed.
End Term.

Lemma left_perm : forall l l', Permutation l l' -> left_in l = left_in l'.
Proof.
  intros l l' P. unfold left_in. induction P; simpl; try reflexivity.
  - destruct (open_pos x); simpl; congruence.
  - now destruct (open_pos x), (open_pos y).
  - congruence.
Qed.
Lemma left_app : forall l l', left_in (l ++ l') = left_in l + left_in l'.
Proof. intros. unfold left_in. induction l as [|a l IH]; simpl; [reflexivity|]. destruct (open_pos a); simpl; now rewrite IH. Qed.
Lemma left_prepared : forall s, left (prepared s) <= length (s_args s).
Proof.
  intros s. unfold left. assert (H : left_in (s_args (cleared s)) <= length (s_args s)).
  { etransitivity; [apply left_le|]. simpl. now rewrite map_length. }
  unfold prepared. destruct (s_help s); [exact H|]. destruct (free_help s) eqn:E; [exact H|].
  unfold with_auto_help, registered. cbn [s_args with_help with_args with_map].
  rewrite <- (left_perm _ _ (sort_perm arg_lt _)), left_app. unfold left_in at 2. simpl. simpl in H. lia.
Qed.

(** what follows the scan has no unbounded loop *)
Definition nof {A} (m : M A) : Prop := forall s, snd (m s) <> OutOfFuel.
Lemma nof_bind : forall {A B} (m : M A) (f : A -> M B), nof m -> (forall a, nof (f a)) -> nof (bind m f).
Proof.
  intros A B m f Hm Hf s. specialize (Hm s). unfold bind. destruct (m s) as [s1 [a|e|o| |]]; simpl in *; try discriminate; [apply Hf | congruence].
Qed.
Lemma nof_front : forall l, nof (front l). Proof. intros [|x l] s; discriminate. Qed.
Lemma nof_deref : forall id, nof (deref id). Proof. intros id s. rewrite deref_eq. now destruct (find_id id (s_args s)). Qed.
Lemma nof_after_scan : nof after_scan.
Proof.
  assert (T : forall A k x y, nof (@throw A k x y)) by (intros A k x y s; discriminate).
  assert (R : forall A (a : A), nof (ret a)) by (intros A a s; discriminate).
  assert (U : forall A, nof (@ub A)) by (intros A s; discriminate).
  assert (G : nof get) by (intros s; discriminate).
  assert (D : forall id f, nof (set_dyn id f)) by (intros id f s; discriminate).
  assert (Mo : forall f, nof (modify f)) by (intros f s; discriminate).
  assert (P : forall p b k t, nof (print_or_throw p b k t)).
  { intros p b k t. unfold print_or_throw. apply nof_bind; [exact G | intros s].
    destruct p as [p|]; [|apply R]. destruct (find_ptr p (s_args s)) as [a|]; [|apply U].
    destruct (d_exist (a_dyn a)); [|apply R]. destruct t; try apply U. destruct b; [apply T|].
    apply nof_bind; [apply Mo | intros _ s1; discriminate]. }
  unfold after_scan. apply nof_bind; [|intros _]; [unfold check_help; apply nof_bind; [exact G | intros; apply P]|].
  apply nof_bind; [|intros _]; [unfold check_version; apply nof_bind; [exact G | intros; apply P]|].
  apply nof_bind; [|intros _].
  - unfold check_required. apply nof_bind; [exact G | intros s]. destruct (find _ _); [|apply R].
    apply nof_bind; [apply nof_front | intros f]. destruct (c_type _); apply T.
  - apply nof_bind; [exact G | intros s]. generalize (map a_id (s_args s)). clear s. intros ids.
    induction ids as [|id ids IH]; [apply R|]. cbn [finish]. apply nof_bind; [|intros _; exact IH]. clear IH.
    unfold finish_one. apply nof_bind; [apply nof_deref | intros a].
    apply nof_bind; [|intros _; apply nof_bind; [unfold toNumber; apply nof_bind; [apply nof_deref | intros; apply D]|intros _]].
    + destruct (c_valid (a_cfg a)) as [v|]; [|apply R]. destruct (d_exist (a_dyn a)); [|apply R].
      assert (I : forall msg, nof (do f <- front (c_names (a_cfg a)) ;; @throw unit KValid f msg)).
      { intros msg. apply nof_bind; [apply nof_front | intros; apply T]. }
      unfold validate. destruct (v_fn v _) as [[] vs|msg|]; try apply T; try apply I.
      destruct (c_type (a_cfg a)); try apply I; try apply D; destruct vs; [apply R | apply D | apply R | apply D].
    + unfold toDest. apply nof_bind; [apply nof_deref | intros b]. destruct (c_dest (a_cfg b)) as [d|]; [|apply R].
      destruct (dest_events b d) as [evs o]. apply nof_bind; [apply Mo | intros _]. destruct o; [intros s; discriminate | apply R].
Qed.

Theorem parse_ends : forall fuel argv s, wf s -> opt_nargs s -> sensible s -> (N.of_nat (length argv) < 2 ^ 31)%N ->
  length argv + length (s_args s) < fuel -> snd (parse_with fuel argv s) <> OutOfFuel.
Proof.
  intros fuel argv s W O S L Lf. destruct (parse_with_eq fuel argv s (proj1 W)) as [E1 E2].
  destruct (interprets_dec s) as [I|I]; [rewrite E1 by exact I | rewrite E2 by exact I; discriminate].
  pose proof (proj1 (wf_prepared s W)) as Wp.
  assert (Sn : sane (length argv) (prepared s)).
  { apply sane_of; [now apply opt_nargs_prepared | now apply sensible_prepared | exact L]. }
  pose proof (left_prepared s) as Lp.
  assert (Sc : snd (scan fuel argv (prepared s)) <> OutOfFuel) by (apply ends_scan; [exact Wp | exact Sn | lia]).
  unfold bind. destruct (scan fuel argv (prepared s)) as [s1 [u|e|o| |]]; simpl in *; try discriminate; [|congruence].
  apply nof_after_scan.
Qed.
