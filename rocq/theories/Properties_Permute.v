(** Properties_Permute.v -- C55: the order of options on the command line does not matter. *)
From Coq Require Import Permutation Sorted.
From Verif Require Import Base Model_Utils Model_Number Model_Types Model_Argument Model_Usage Model_Args Model_Api
  Spec_Order Spec_Names Spec_Reading Spec_Parse Spec_Finish Spec_History Spec_Api Spec_Result
  Proofs_Base Proofs_Order Proofs_Frame Proofs_Inv Proofs_ReadFacts Proofs_Reading Proofs_Parse Proofs_Decl Proofs_Finish
  Proofs_Meth Proofs_History Proofs_Config Proofs_Names Proofs_Central Proofs_Dyn Proofs_Check Properties_Words Demo Properties_Parse Proofs_Swap
  Properties_Spell.

(** Two command lines that can be read, and give every option the same occurrences in the
    same order, every positional the same words and the program the same additional
    arguments, have the same outcome: nothing depends on how occurrences of different
    arguments are interleaved. *)
Theorem C55_readings : forall s a0 ws ws' pcs pcs', usable s -> interprets s ->
  command_line (a0 :: ws) ws -> command_line (a0 :: ws') ws' -> reads s ws pcs -> reads s ws' pcs' ->
  (forall a, In a (arguments (ready s)) -> occs_for (a_id a) pcs = occs_for (a_id a) pcs') ->
  given_of pcs = given_of pcs' -> additional_of pcs = additional_of pcs' ->
  same_outcome (parseArguments (a0 :: ws) s) (parseArguments (a0 :: ws') s).
Proof.
  intros s a0 ws ws' pcs pcs' U I C C' R R' HO HG HA. rewrite (parse_reads s _ _ _ U C I R), (parse_reads s _ _ _ U C' I R').
  assert (E : scanned (a0 :: ws) pcs s = scanned (a0 :: ws') pcs' s); [|rewrite E; split; reflexivity].
  pose proof (usable_ready_wf s U) as W.
  unfold scanned, named. cbn [hd]. rewrite HA. do 2 f_equal. apply map_ext_in. intros a Ia. destruct (isPositional a) eqn:P.
  - rewrite (read_positional_arg s ws pcs a W R Ia P), (read_positional_arg s ws' pcs' a W R' Ia P). unfold given. now rewrite HG.
  - rewrite (read_option_arg s ws pcs a W R Ia P), (read_option_arg s ws' pcs' a W R' Ia P). now rewrite (HO a Ia).
Qed.
Print Assumptions C55_readings.

(** A complete occurrence of an option: the option word with as many values as the option
    takes (none for flags, help and version, one, or nargs of them), or with a value
    attached by '=' if the option takes one value or any number of values. *)
Inductive occurrence (s : state) (a : argument) : list str -> Prop :=
| Oc_words : forall w vs, spells s a None w -> ~ In "--" vs ->
    match arity_of (a_cfg a) with ANone => length vs = 0 | AOne => length vs = 1 | AFixed n => length vs = n | _ => False end ->
    occurrence s a (w :: vs)
| Oc_attached : forall w v, spells s a (Some v) w -> arity_of (a_cfg a) = AOne \/ arity_of (a_cfg a) = ARun ->
    occurrence s a [w].

Lemma before_end_app : forall vs post, ~ In "--" vs -> before_end (vs ++ post) = vs ++ before_end post.
Proof.
  induction vs as [|v vs IH]; intros post H; [reflexivity|]. cbn [app before_end].
  assert (K : word_kind v <> WEnd).
  { intro K. apply H. left. unfold word_kind in K. destruct v as [|x [|y [|z r]]]; try discriminate K.
    - destruct (Ascii.eqb x "-"); discriminate K.
    - destruct (Ascii.eqb_spec x "-"); [|discriminate K]. destruct (Ascii.eqb_spec y "-"); [|discriminate K]. now subst.
    - destruct (Ascii.eqb x "-"); [|discriminate K]. destruct (Ascii.eqb y "-"); discriminate K. }
  rewrite IH by (intro; apply H; now right). destruct (word_kind v); congruence.
Qed.
Lemma skipn_all_app : forall {A} (l r : list A), skipn (length l) (l ++ r) = r.
Proof. intros A l r. rewrite skipn_app, skipn_all, Nat.sub_diag. reflexivity. Qed.
Lemma occurrence_part : forall s a m, usable s -> occurrence s a m ->
  (exists w t, m = w :: t /\ stops (setup s) w = true) /\
  exists w st vs used, forall left post, Reached (setup s) left (m ++ post) [PcOption w [Occ (a_id a) st vs] used] left post.
Proof.
  intros s a m U H. destruct H as [w vs Sp N L|w v Sp A].
  - destruct (spells_meaning s a None w U Sp) as [K [S [name M]]]. split; [eauto|]. exists w, Separate, vs, vs. intros left post.
    cbn [app]. eapply Rc_option; [exact K | | rewrite skipn_all_app; apply Rc_here].
    unfold read_option. rewrite M. unfold option_values. rewrite before_end_app by exact N.
    destruct (arity_of (a_cfg a)) as [| |n| |n]; cbn [take_words].
    + destruct vs; [reflexivity | discriminate L].
    + destruct vs as [|x [|y vs]]; try discriminate L. reflexivity.
    + rewrite app_length. destruct (Nat.ltb_spec (length vs + length (before_end post)) n) as [X|X]; [lia|].
      rewrite firstn_app, L, Nat.sub_diag, firstn_O, app_nil_r, <- L, firstn_all. reflexivity.
    + destruct L.
    + destruct L.
  - destruct (spells_meaning s a (Some v) w U Sp) as [K [S [name M]]]. split; [eauto|]. exists w, AfterEq, [v], []. intros left post.
    cbn [app]. eapply Rc_option; [exact K | | apply Rc_here].
    unfold read_option. rewrite M. unfold option_values. destruct A as [-> | ->]; reflexivity.
Qed.
Lemma occs_for_one : forall id w i st vs used, occs_for id [PcOption w [Occ i st vs] used] = if Nat.eqb i id then [Occ i st vs] else [].
Proof. intros. unfold occs_for, occs_of. cbn. destruct (Nat.eqb i id); reflexivity. Qed.
Lemma spelled_In : forall s a v w, usable s -> spells s a v w -> In a (arguments (ready s)).
Proof. intros s a v w U H. pose proof (usable_ready_wf s U) as W. destruct H as [n G _|c G _ _|n _ G _ _]; destruct (getArgument_inv _ _ _ W G) as [Ia _]; exact Ia. Qed.
Lemma occurrence_In : forall s a m, usable s -> occurrence s a m -> In a (arguments (ready s)).
Proof. intros s a m U H. destruct H as [w vs Sp _ _|w v Sp _]; eapply spelled_In; eauto. Qed.
Lemma inj_ids : forall l, NoDup (map a_id l) -> forall a b, In a l -> In b l -> a_id a = a_id b -> a = b.
Proof.
  intros l ND a b Ia Ib E. induction l as [|x l IH]; [destruct Ia|]. cbn [map] in ND. apply NoDup_cons_iff in ND. destruct ND as [NI ND].
  destruct Ia as [<-|Ia], Ib as [<-|Ib]; auto.
  - elim NI. rewrite E. now apply in_map.
  - elim NI. rewrite <- E. now apply in_map.
Qed.
Lemma distinct_ids : forall s a b, wf0 s -> In a (s_args s) -> In b (s_args s) -> a <> b -> a_id a <> a_id b.
Proof.
  intros s a b W Ia Ib N E. apply N. exact (inj_ids _ (wf_ids s W) a b Ia Ib E).
Qed.

(** Exchanging two neighbouring complete occurrences of different options changes nothing:
    neither the outcome (also if it is an error) nor the object after a normal return. *)
Theorem C55_options : forall s a0 pre post p left a b m1 m2, usable s -> interprets s ->
  occurrence s a m1 -> occurrence s b m2 -> a <> b ->
  command_line (a0 :: pre ++ m1 ++ m2 ++ post) (pre ++ m1 ++ m2 ++ post) -> command_line (a0 :: pre ++ m2 ++ m1 ++ post) (pre ++ m2 ++ m1 ++ post) ->
  reaches s (pre ++ m1 ++ m2 ++ post) p left (m1 ++ m2 ++ post) ->
  same_outcome (parseArguments (a0 :: pre ++ m1 ++ m2 ++ post) s) (parseArguments (a0 :: pre ++ m2 ++ m1 ++ post) s).
Proof.
  intros s a0 pre post p left a b m1 m2 U I O1 O2 N C1 C2 R.
  pose proof (distinct_ids (ready s) a b (usable_ready_wf s U) (occurrence_In _ _ _ U O1) (occurrence_In _ _ _ U O2) N) as Nid.
  destruct (occurrence_part s a m1 U O1) as [[w1 [t1 [E1 S1]]] (x1 & st1 & vs1 & u1 & P1)]. destruct (occurrence_part s b m2 U O2) as [[w2 [t2 [E2 S2]]] (x2 & st2 & vs2 & u2 & P2)].
  set (q1 := [PcOption x1 [Occ (a_id a) st1 vs1] u1]) in *. set (q2 := [PcOption x2 [Occ (a_id b) st2 vs2] u2]) in *.
  pose proof (app_assoc m1 m2 post) as A1. pose proof (app_assoc m2 m1 post) as A2. rewrite A1 in C1, R |- *. rewrite A2 in C2 |- *.
  apply (swap_outcome s a0 pre (m1 ++ m2) (m2 ++ m1) post p left (q1 ++ q2) (q2 ++ q1) U I C1 C2 R).
  - subst m1. eexists. eexists. split; [reflexivity | exact S1].
  - subst m2. eexists. eexists. split; [reflexivity | exact S2].
  - unfold reads_part. rewrite <- app_assoc. eapply Reached_app; [apply P1 | apply P2].
  - unfold reads_part. rewrite <- app_assoc. eapply Reached_app; [apply P2 | apply P1].
  - split; [reflexivity|]. intros c d _. unfold q1, q2, pieces_dyn. cbn [app fold_left piece_dyn o_id].
    destruct (Nat.eqb_spec (a_id a) (a_id c)), (Nat.eqb_spec (a_id b) (a_id c)); try reflexivity. congruence.
Qed.
Print Assumptions C55_options.

(** An option occurrence can also be moved across a plain word that is read on its own (as
    a positional with one value, or as an additional argument). *)
Theorem C55_positional : forall s a0 pre post p left a m v, usable s -> interprets s -> occurrence s a m -> word_kind v = WPlain ->
  (forall b, In b (arguments (ready s)) -> isPositional b = true -> getNargs b <> 0%N) ->
  match left with [] => True | (_, c) :: _ => arity_of c = AOne end ->
  command_line (a0 :: pre ++ v :: m ++ post) (pre ++ v :: m ++ post) -> command_line (a0 :: pre ++ m ++ v :: post) (pre ++ m ++ v :: post) ->
  reaches s (pre ++ v :: m ++ post) p left (v :: m ++ post) ->
  same_outcome (parseArguments (a0 :: pre ++ v :: m ++ post) s) (parseArguments (a0 :: pre ++ m ++ v :: post) s).
Proof.
  intros s a0 pre post p left a m v U I O V NZ ONE C1 C2 R. pose proof (usable_ready_wf s U) as W.
  destruct (occurrence_part s a m U O) as [[w [t [Em Sw]]] (x & st & vs & u & P)]. set (q := [PcOption x [Occ (a_id a) st vs] u]) in *.
  assert (R2 : reaches s (pre ++ m ++ v :: post) p left (m ++ v :: post)).
  { unfold reaches in *. rewrite Em in *. cbn [app] in *. eapply Reached_swap_plain; [exact R | | reflexivity | reflexivity | exact V | exact Sw].
    intros i c Hc. destruct (positionals_ids (ready s) W) as [_ Hp]. destruct (Hp i c Hc) as (b & Ib & _ & Hb & Pb). pose proof (NZ b Ib Pb) as Z. subst c.
    unfold isPositional in Pb. unfold arity_of. destruct (c_type (a_cfg b)); try discriminate Pb; split; try discriminate.
    intro X. injection X as X. apply Z. unfold Spec_Api.getNargs. lia. }
  (* the plain word *)
  assert (ST : (exists pc left', (forall post', word_kind v = WPlain -> Reached (setup s) left (v :: post') [pc] left' post') /\ occs_of [pc] = []) \/
               (forall post', Fails (setup s) left (v :: post') (parse_error v "invalid additional argument"))).
  { destruct left as [|[i c] left].
    - destruct (k_strict (setup s)) eqn:K.
      + right. intro post'. apply Fl_additional; [exact V | exact K].
      + left. exists (PcAdditional v), []. split; [|reflexivity]. intros post' _. apply Rc_additional; [exact V | exact K | apply Rc_here].
    - left. exists (PcPositional i [v]), left. split; [|reflexivity]. intros post' _. eapply Rc_positional; [exact V | | cbn [length skipn]; apply Rc_here].
      rewrite ONE. cbn [take_words before_end]. rewrite V. reflexivity. }
  destruct ST as [(pc & left' & ST & NO) | ST].
  - pose proof (ST (m ++ post) V) as T1. pose proof (ST post V) as T2.
    assert (Q1 : Reached (setup s) left (v :: m ++ post) ([pc] ++ q) left' post) by (eapply Reached_app; [exact T1 | apply P]).
    assert (Q2 : Reached (setup s) left (m ++ v :: post) (q ++ [pc]) left' post) by (eapply Reached_app; [apply P | exact T2]).
    destruct (read_or_reject s _ _ U C1 I) as [[pcs H]|[e H]].
    + destruct (Reached_Reading_inv _ _ _ _ _ _ R _ H) as [r1 [-> H1]]. destruct (Reached_Reading_inv _ _ _ _ _ _ Q1 _ H1) as [r [-> H2]].
      assert (H' : reads s (pre ++ m ++ v :: post) (p ++ (q ++ [pc]) ++ r)).
      { unfold reads. eapply Reached_Reading; [exact R2|]. eapply Reached_Reading; [exact Q2 | exact H2]. }
      apply (C55_readings s a0 _ _ _ _ U I C1 C2 H H').
      * intros b _. rewrite !occs_for_app. assert (X : occs_for (a_id b) [pc] = []) by (unfold occs_for; rewrite NO; reflexivity). rewrite X, app_nil_r. reflexivity.
      * rewrite !given_of_app. unfold q. cbn [given_of flat_map app]. rewrite app_nil_r. reflexivity.
      * rewrite !additional_of_app. unfold q. cbn [additional_of flat_map app]. rewrite app_nil_r. reflexivity.
    + assert (H' : rejects s (pre ++ m ++ v :: post) e).
      { apply (Reached_Fails_inv _ _ _ _ _ _ R) in H. apply (Reached_Fails_inv _ _ _ _ _ _ Q1) in H.
        eapply Reached_Fails; [exact R2|]. eapply Reached_Fails; [exact Q2 | exact H]. }
      destruct (parse_rejects s _ _ e U C1 I H) as [s1 [E1 _]]. destruct (parse_rejects s _ _ e U C2 I H') as [s2 [E2 _]].
      rewrite E1, E2. split; [reflexivity | discriminate].
  - assert (H : rejects s (pre ++ v :: m ++ post) (parse_error v "invalid additional argument")) by (eapply Reached_Fails; [exact R | apply ST]).
    assert (H' : rejects s (pre ++ m ++ v :: post) (parse_error v "invalid additional argument")).
    { eapply Reached_Fails; [exact R2|]. eapply Reached_Fails; [apply P | apply ST]. }
    destruct (parse_rejects s _ _ _ U C1 I H) as [s1 [E1 _]]. destruct (parse_rejects s _ _ _ U C2 I H') as [s2 [E2 _]].
    rewrite E1, E2. split; [reflexivity | discriminate].
Qed.
Print Assumptions C55_positional.

(** So any number of occurrences of options, all different, can be given in any order,
    anywhere on the command line. *)
Lemma parts_read : forall s os, usable s -> Forall (fun o => occurrence s (fst o) (snd o)) os ->
  exists qs, Forall2 (fun o q => exists w st vs used, q = PcOption w [Occ (a_id (fst o)) st vs] used /\ forall left post, Reached (setup s) left (snd o ++ post) [q] left post) os qs.
Proof.
  intros s os U H. induction H as [|[a m] os O H IH]; [exists []; constructor|]. destruct IH as [qs F].
  destruct (occurrence_part s a m U O) as [_ (w & st & vs & u & P)]. exists (PcOption w [Occ (a_id a) st vs] u :: qs). constructor; [|exact F].
  exists w, st, vs, u. split; [reflexivity | exact P].
Qed.
Lemma parts_reached : forall s os qs, Forall2 (fun o q => exists w st vs used, q = PcOption w [Occ (a_id (fst o)) st vs] used /\ forall left post, Reached (setup s) left (snd o ++ post) [q] left post) os qs ->
  forall left post, Reached (setup s) left (concat (map snd os) ++ post) qs left post.
Proof.
  intros s os qs F. induction F as [|o q os qs (w & st & vs & u & E & P) F IH]; intros left post; [apply Rc_here|].
  cbn [map concat]. rewrite <- app_assoc. change (q :: qs) with ([q] ++ qs). eapply Reached_app; [apply P | apply IH].
Qed.
Lemma Forall2_perm : forall {A B} (P : A -> B -> Prop) l l', Permutation l l' -> forall r, Forall2 P l r -> exists r', Permutation r r' /\ Forall2 P l' r'.
Proof.
  intros A B P l l' H. induction H; intros r F.
  - inversion F; subst. exists []. split; constructor.
  - inversion F as [|? y ? r0 Pxy F0]; subst. destruct (IHPermutation _ F0) as [r' [Pr Fr]]. exists (y :: r'). split; [now constructor | now constructor].
  - inversion F as [|? y1 ? r0 P1 F0]; subst. inversion F0 as [|? y2 ? r1 P2 F1]; subst. exists (y2 :: y1 :: r1). split; [constructor | repeat constructor; assumption].
  - destruct (IHPermutation1 _ F) as [r1 [P1 F1]]. destruct (IHPermutation2 _ F1) as [r2 [P2 F2]]. exists r2. split; [eapply perm_trans; eauto | exact F2].
Qed.
Definition piece_id (q : piece) : nat := match q with PcOption _ (o :: _) _ => o_id o | _ => 0 end.
Definition simple_piece (q : piece) : Prop := exists w i st vs used, q = PcOption w [Occ i st vs] used.
Lemma pieces_perm : forall qs qs', Permutation qs qs' -> Forall simple_piece qs -> NoDup (map piece_id qs) ->
  forall id c d, pieces_dyn id c qs d = pieces_dyn id c qs' d.
Proof.
  intros qs qs' H. induction H; intros S N id c d; try reflexivity.
  - inversion S; subst. cbn [map] in N. inversion N; subst. unfold pieces_dyn. cbn [fold_left]. now apply IHPermutation.
  - inversion S as [|? ? (w1 & i1 & st1 & vs1 & u1 & E1) S1]; subst. inversion S1 as [|? ? (w2 & i2 & st2 & vs2 & u2 & E2) S2]; subst.
    cbn [map piece_id o_id] in N. unfold pieces_dyn. cbn [fold_left piece_dyn o_id]. f_equal.
    apply NoDup_cons_iff in N. destruct N as [N _]. destruct (Nat.eqb_spec i1 id), (Nat.eqb_spec i2 id); try reflexivity. exfalso. apply N. left. congruence.
  - rewrite IHPermutation1 by assumption. apply IHPermutation2.
    + eapply Permutation_Forall; [eassumption | exact S].
    + eapply Permutation_NoDup; [apply Permutation_map; eassumption | exact N].
Qed.
Theorem C55_permutation : forall s a0 pre post p left (os os' : list (argument * list str)), usable s -> interprets s -> os <> [] ->
  Forall (fun o => occurrence s (fst o) (snd o)) os -> NoDup (map fst os) -> Permutation os os' ->
  let line := pre ++ concat (map snd os) ++ post in let line' := pre ++ concat (map snd os') ++ post in
  command_line (a0 :: line) line -> command_line (a0 :: line') line' ->
  reaches s line p left (concat (map snd os) ++ post) ->
  same_outcome (parseArguments (a0 :: line) s) (parseArguments (a0 :: line') s).
Proof.
  intros s a0 pre post p left os os' U I NE F ND PE line line' C1 C2 R. unfold line, line' in *.
  destruct (parts_read s os U F) as [qs Q]. destruct (Forall2_perm _ _ _ PE _ Q) as [qs' [PQ Q']].
  assert (F' : Forall (fun o => occurrence s (fst o) (snd o)) os') by (eapply Permutation_Forall; eassumption).
  assert (ST : forall l, l <> [] -> Forall (fun o => occurrence s (fst o) (snd o)) l -> exists w t, concat (map snd l) = w :: t /\ stops (setup s) w = true).
  { intros [|[a m] l] N Fl; [now elim N|]. inversion Fl as [|? ? O ?]; subst. cbn [fst snd] in O. destruct (occurrence_part s a m U O) as [[w [t [-> Sw]]] _].
    cbn. eexists. eexists. split; [reflexivity | exact Sw]. }
  assert (NE' : os' <> []) by (intros ->; apply NE, Permutation_nil, Permutation_sym, PE).
  apply (swap_outcome s a0 pre _ _ post p left qs qs' U I C1 C2 R (ST os NE F) (ST os' NE' F')).
  - unfold reads_part. exact (parts_reached s os qs Q left post).
  - unfold reads_part. exact (parts_reached s os' qs' Q' left post).
  - assert (SI : Forall simple_piece qs /\ map piece_id qs = map (fun o => a_id (fst o)) os).
    { clear - Q. induction Q as [|o q os qs (w & st & vs & u & E & _) Q IH]; [split; [constructor | reflexivity]|]. destruct IH as [I1 I2]. subst q.
      split; [constructor; [repeat eexists | exact I1] | cbn [map piece_id o_id]; now rewrite I2]. }
    destruct SI as [SI1 SI2]. split.
    + assert (X : forall l, Forall simple_piece l -> additional_of l = []).
      { intros l Fl. induction Fl as [|q l (w & i & st & vs & u & ->) Fl IH]; [reflexivity | exact IH]. }
      rewrite !X; [reflexivity | eapply Permutation_Forall; eassumption | exact SI1].
    + intros c d _. apply pieces_perm; [exact PQ | exact SI1 |]. rewrite SI2. pose proof (usable_ready_wf s U) as W.
      assert (Ins : forall o, In o os -> In (fst o) (s_args (ready s))) by (intros o Io; rewrite Forall_forall in F; exact (occurrence_In s _ _ U (F o Io))).
      clear - ND W Ins. induction os as [|o os IH]; [constructor|]. cbn [map] in ND |- *. apply NoDup_cons_iff in ND. destruct ND as [N ND]. constructor.
      * intro X. apply in_map_iff in X. destruct X as [o' [E Io']]. apply N. destruct (in_split o' os Io') as (l1 & l2 & ->).
        assert (EQ : fst o' = fst o) by (apply (inj_ids _ (wf_ids _ W)); [apply Ins; now right | apply Ins; now left | exact E]).
        rewrite <- EQ. apply in_map. exact Io'.
      * apply IH; [exact ND | intros; apply Ins; now right].
Qed.
Print Assumptions C55_permutation.

(** ** Examples *)
Definition shop_occs : list (argument * list str) :=
  [(pick "-n" (ready shop), ["--name"; "bob"]); (pick "-v" (ready shop), ["-v"]); (pick "-p" (ready shop), ["--point"; "1"; "2"]); (pick "-i" (ready shop), ["--items=k"])].
Lemma shop_occurrences : Forall (fun o => occurrence shop (fst o) (snd o)) shop_occs /\ NoDup (map fst shop_occs).
Proof.
  split.
  - unfold shop_occs. apply Forall_cons; [|apply Forall_cons; [|apply Forall_cons; [|apply Forall_cons; [|apply Forall_nil]]]]; cbn [fst snd].
    + apply (Oc_words shop _ "--name" ["bob"]); [apply (Sp_long shop _ None "name"); [vm_compute; reflexivity | cbn; intuition discriminate] | cbn; intuition discriminate | vm_compute; reflexivity].
    + apply (Oc_words shop _ "-v" []); [apply (Sp_short shop _ None "v"); [vm_compute; reflexivity | discriminate | vm_compute; discriminate] | cbn; tauto | vm_compute; reflexivity].
    + apply (Oc_words shop _ "--point" ["1"; "2"]); [apply (Sp_long shop _ None "point"); [vm_compute; reflexivity | cbn; intuition discriminate] | cbn; intuition discriminate | vm_compute; reflexivity].
    + apply (Oc_attached shop _ "--items=k" "k"); [apply (Sp_long shop _ (Some "k") "items"); [vm_compute; reflexivity | cbn; intuition discriminate] | right; vm_compute; reflexivity].
  - apply (NoDup_map_inv a_id). vm_compute. repeat constructor; cbn [In]; intuition discriminate.
Qed.
Example C55_example : let line := ["f"] ++ concat (map snd shop_occs) ++ ["g"] in
  command_line ("prog" :: line) line /\ (exists p left, reaches shop line p left (concat (map snd shop_occs) ++ ["g"])) /\
  snd (parseArguments ("prog" :: line) shop) = Ok tt /\
  line = ["f"; "--name"; "bob"; "-v"; "--point"; "1"; "2"; "--items=k"; "g"].
Proof.
  cbv zeta. split; [line|]. split; [|split; vm_compute; reflexivity].
  eexists. eexists. change (["f"] ++ concat (map snd shop_occs) ++ ["g"]) with ["f"; "--name"; "bob"; "-v"; "--point"; "1"; "2"; "--items=k"; "g"].
  change (concat (map snd shop_occs) ++ ["g"]) with ["--name"; "bob"; "-v"; "--point"; "1"; "2"; "--items=k"; "g"].
  unfold reaches. match goal with |- Reached _ ?ps _ _ _ _ => let q := eval vm_compute in ps in change ps with q end.
  eapply Rc_positional; [vm_compute; reflexivity | vm_compute; reflexivity | cbn [length skipn]; apply Rc_here].
Qed.
(** options that take the words up to the next option cannot be moved freely *)
Example C55_variable : to_vector (pick "-i" (fst (parseArguments ["prog"; "f"; "-i"; "1"; "-v"; "g"] shop))) = Ok ["1"] /\
  to_vector (pick "-i" (fst (parseArguments ["prog"; "f"; "-v"; "-i"; "1"; "g"] shop))) = Ok ["1"; "g"].
Proof. split; vm_compute; reflexivity. Qed.
