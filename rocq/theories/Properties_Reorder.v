(** Properties_Reorder.v -- C61 (the order of the declarations). *)
From Coq Require Import Permutation Sorted.
From Verif Require Import Base Model_Utils Model_Number Model_Types Model_Argument Model_Usage Model_Args Model_Api
  Spec_Order Spec_Names Spec_Reading Spec_Extend Spec_Reorder Spec_Parse Spec_Decl Spec_Finish Spec_History Spec_Api Spec_Result
  Proofs_Base Proofs_Inv Proofs_Central Proofs_Check Proofs_Reorder2 Properties_Extend Demo.

(* ------------------------------------------------------------------ *)
(** * C61: two neighbouring declarations change places *)
(** every call has the outcome that it has in the other order *)
Theorem C61_outcomes : forall s o1 o2 ops, reach s -> independent o1 o2 ->
  (forall n, In n (op_names o1) \/ In n (op_names o2) -> unused s n) -> Forall sets_up ops ->
  exists r1 r2 rs, snd (calls (o1 :: o2 :: ops) s) = r1 :: r2 :: rs /\ snd (calls (o2 :: o1 :: ops) s) = r2 :: r1 :: rs.
Proof.
  intros s o1 o2 ops R IND U FO. pose proof (reach_wf s R) as W.
  destruct (swap_any s o1 o2 W IND U) as [E1 [E2 [C1 [C2 [W12 [W21 AL]]]]]]. cbv zeta in *.
  destruct (calls_alike ops _ _ AL W12 W21 FO) as [EC _].
  cbn [calls]. destruct (step o1 s) as [s1 r1] eqn:S1, (step o2 s) as [s2 r2] eqn:S2. cbn [fst snd] in *.
  destruct (step o2 s1) as [s12 r12], (step o1 s2) as [s21 r21]. cbn [fst snd] in *. subst r12 r21.
  exists r1, r2, (snd (calls ops s12)).
  destruct r1 as [[]|e1|x1| |], r2 as [[]|e2|x2| |]; try contradiction;
    destruct (calls ops s12) as [u l], (calls ops s21) as [u' l']; cbn [snd] in *; subst l'; split; reflexivity.
Qed.
Print Assumptions C61_outcomes.
(** and the parsers that result can be exchanged for one another *)
Theorem C61_parsers : forall s o1 o2 ops t, reach s -> independent o1 o2 ->
  (forall n, In n (op_names o1) \/ In n (op_names o2) -> unused s n) -> Forall sets_up ops ->
  run (o1 :: o2 :: ops) s = Some t ->
  exists t', run (o2 :: o1 :: ops) s = Some t' /\ interchangeable t t' /\ answers_alike t t'.
Proof.
  intros s o1 o2 ops t R IND U FO RU. pose proof (reach_wf s R) as W.
  destruct (swap_any s o1 o2 W IND U) as [E1 [E2 [C1 [C2 [W12 [W21 AL]]]]]]. cbv zeta in *.
  destruct (calls_alike ops _ _ AL W12 W21 FO) as [_ B].
  assert (G : forall o o' s1, step o s = (s1, snd (step o s)) -> completed (snd (step o s)) -> completed (snd (step o' s1)) -> run (o :: o' :: ops) s = run ops (fst (step o' s1))).
  { intros o o' s1 S C C'. cbn [run]. destruct (step o s) as [x r]. cbn [snd] in *. injection S as ->. destruct (step o' s1) as [y r']. cbn [snd fst] in *. destruct r as [[]| | | |], r' as [[]| | | |]; try contradiction; reflexivity. }
  rewrite (G o1 o2 (fst (step o1 s))) in RU; [|now destruct (step o1 s) | exact C1 | now rewrite E2].
  destruct (B t RU) as [t' [RU' [AL' [Wt Wt']]]]. exists t'.
  assert (RT : run (o2 :: o1 :: ops) s = Some t'). { rewrite (G o2 o1 (fst (step o2 s))); [exact RU' | now destruct (step o2 s) | exact C2 | now rewrite E1]. }
  split; [exact RT|]. split; [apply alike_interchangeable; [exact AL' | apply Wt | apply Wt']|]. apply alike_answers; [exact AL' | exact (run_reach _ _ _ R RT)].
Qed.
Print Assumptions C61_parsers.

(* ------------------------------------------------------------------ *)
(** * C61: any number of exchanges *)
Lemma like_itself : forall s, wf0 s -> alike s s.
Proof. intros s W. exists (fun _ => false), (Proofs_LikeNew.twice s). split; [reflexivity|]. apply Proofs_LikeNew.like_self; [exact W | intros n []]. Qed.
Lemma interchangeable_trans : forall s s' s'', interchangeable s s' -> interchangeable s' s'' -> interchangeable s s''.
Proof.
  intros s s' s'' [A1 [A2 [A3 [A4 [A5 [A6 [A7 [A8 A9]]]]]]]] [B1 [B2 [B3 [B4 [B5 [B6 [B7 [B8 B9]]]]]]]].
  split; [|split; [|split; [|split; [|split; [|split; [|split; [|split]]]]]]]; try congruence.
  intros n. specialize (A1 n). specialize (B1 n). unfold same_argument in *.
  destruct (getArgument s n), (getArgument s' n); try contradiction; destruct (getArgument s'' n); try contradiction; try congruence.
  destruct A1, B1. split; congruence.
Qed.
Lemma answers_trans : forall s s' s'', answers_alike s s' -> answers_alike s' s'' -> answers_alike s s''.
Proof.
  intros s s' s'' A B U IN. destruct (A U IN) as [U' [IN' A1]]. destruct (B U' IN') as [U2 [IN2 B1]]. split; [exact U2|]. split; [exact IN2|].
  intros argv ws CL. destruct (A1 argv ws CL) as [E1 C1]. destruct (B1 argv ws CL) as [E2 C2]. split; [now rewrite E2|]. intros O. apply (interchangeable_trans _ (fst (parseArguments argv s'))); [now apply C1|]. apply C2. now rewrite E1.
Qed.
Lemma run_app : forall l r s, run (l ++ r) s = match run l s with Some u => run r u | None => None end.
Proof. induction l as [|o l IH]; intros r s; [reflexivity|]. cbn [run app]. destruct (step o s) as [s1 [[]| | | |]]; try reflexivity; apply IH. Qed.
(** Exchanging neighbouring independent declarations, any number of times, gives a parser
    that can be exchanged for the first one. *)
Theorem C61_reordered : forall l l' t, reordered l l' -> run l init = Some t ->
  exists t', run l' init = Some t' /\ interchangeable t t' /\ answers_alike t t'.
Proof.
  intros l l' t R. revert t. induction R as [l SU|l o1 o2 r IND NM SL SR|l l' l'' R1 IH1 R2 IH2]; intros t RU.
  - exists t. split; [exact RU|]. pose proof (run_reach _ _ _ reach_init RU) as RT. pose proof (proj1 (reach_wf t RT)) as W.
    split; [apply alike_interchangeable; [now apply like_itself | exact W | exact W] | apply alike_answers; [now apply like_itself | exact RT]].
  - rewrite run_app in *. destruct (run l init) as [u|] eqn:E; [|discriminate]. pose proof (run_reach _ _ _ reach_init E) as RT.
    apply (C61_parsers u o1 o2 r t RT IND); [|exact SR | exact RU]. intros n N. apply (run_unused n l init u (reach_wf _ reach_init)); [intros a [] | exact SL | | exact E].
    intros o I. exact (NM n o N I).
  - destruct (IH1 t RU) as [t1 [RU1 [I1 A1]]]. destruct (IH2 t1 RU1) as [t2 [RU2 [I2 A2]]]. exists t2. split; [exact RU2|].
    split; [exact (interchangeable_trans _ _ _ I1 I2) | exact (answers_trans _ _ _ A1 A2)].
Qed.
Print Assumptions C61_reordered.

(* ------------------------------------------------------------------ *)
(** * C61: a group of independent declarations in any order *)
Definition unmentioned_by (l : list op) (o : op) : Prop := forall n o', In n (op_names o) -> In o' l -> ~ In n (op_names o').
Lemma declares : forall o o', independent o o' -> sets_up o.
Proof. intros [] o'; cbn; try contradiction; intros _ argv; discriminate. Qed.
Lemma pairs_permuted : forall l l', Permutation l l' -> ForallOrdPairs independent l -> ForallOrdPairs independent l'.
Proof.
  intros l l' P. induction P as [|x l l' P IH|x y l|l l' l'' P1 IH1 P2 IH2]; intros F; [exact F| | |auto].
  - inversion_clear F as [|? ? F1 F2]. constructor; [|now apply IH]. rewrite Forall_forall in *. intros z I. apply F1. now apply (Permutation_in _ (Permutation_sym P)).
  - inversion_clear F as [|? ? F1 F2]. inversion_clear F2 as [|? ? F3 F4]. inversion_clear F1 as [|? ? F5 F6]. constructor; [constructor; [now apply independent_sym | exact F3] | now constructor].
Qed.
Lemma permuted : forall l l', Permutation l l' -> forall pre post, Forall sets_up pre -> Forall sets_up post -> Forall sets_up l ->
  Forall (unmentioned_by pre) l -> ForallOrdPairs independent l -> reordered (pre ++ l ++ post) (pre ++ l' ++ post).
Proof.
  intros l l' P. induction P as [|x l l' P IH|x y l|l l' l'' P1 IH1 P2 IH2]; intros pre post Sp Sq Sl U F.
  - apply re_same. apply Forall_app; split; [exact Sp | exact Sq].
  - inversion_clear Sl as [|? ? Sx Sl']. inversion_clear U as [|? ? Ux U']. inversion_clear F as [|? ? Fx F'].
    change (pre ++ (x :: l) ++ post) with (pre ++ [x] ++ (l ++ post)). change (pre ++ (x :: l') ++ post) with (pre ++ [x] ++ (l' ++ post)). rewrite !(app_assoc pre [x]).
    apply IH; try assumption.
    + apply Forall_app; split; [exact Sp | now constructor].
    + rewrite Forall_forall in *. intros o I n o' N J. apply in_app_or in J. destruct J as [J|[<-|[]]]; [exact (U' o I n o' N J)|].
      intros Q. specialize (Fx o I). destruct x, o; cbn in Fx; try contradiction. exact (proj1 Fx n Q N).
  - inversion_clear Sl as [|? ? Sy Sl']. inversion_clear Sl' as [|? ? Sx Sl2]. inversion_clear U as [|? ? Uy U']. inversion_clear U' as [|? ? Ux U2]. inversion_clear F as [|? ? Fy F']. inversion_clear Fy as [|? ? Fyx _].
    cbn [app]. apply re_swap; [exact Fyx | | exact Sp | apply Forall_app; split; assumption]. intros n o [N|N] I; [exact (Uy n o N I) | exact (Ux n o N I)].
  - apply (re_trans _ (pre ++ l' ++ post)); [now apply IH1|]. apply IH2; try assumption.
    + rewrite Forall_forall in *. intros o I. apply Sl. now apply (Permutation_in _ (Permutation_sym P1)).
    + rewrite Forall_forall in *. intros o I. apply U. now apply (Permutation_in _ (Permutation_sym P1)).
    + now apply (pairs_permuted l).
Qed.
(** [pre]: the calls before the group; they mention none of its names.  [l]: the group,
    pairwise independent; [l']: the same declarations in another order.  [post]: any
    calls that follow. *)
Theorem C61_permutation : forall pre l l' post t, Forall sets_up pre -> Forall sets_up l -> Forall sets_up post ->
  Forall (unmentioned_by pre) l -> ForallOrdPairs independent l -> Permutation l l' ->
  run (pre ++ l ++ post) init = Some t ->
  exists t', run (pre ++ l' ++ post) init = Some t' /\ interchangeable t t' /\ answers_alike t t'.
Proof.
  intros pre l l' post t Sp Sl Sq U F P RU. apply (C61_reordered (pre ++ l ++ post)); [now apply permuted | exact RU].
Qed.
Print Assumptions C61_permutation.

(** the demo parser: its eight options and its first positional argument in the opposite
    order, with settings before and the other positional argument and an updateArgument()
    behind them *)
Definition shop_pre : list op := [OpSetAlternative true; OpAdd ["-z"] []; OpSetDescription "a shop"].
Definition shop_post : list op := [OpAdd ["DST"] [MDefaults ["out"]]; OpUpdate "-n" [MHelp "the name"]].
Definition independentb (o1 o2 : op) : bool :=
  match o1, o2 with
  | OpAdd ns1 ms1, OpAdd ns2 ms2 =>
      forallb (fun n => negb (mem_str n (op_names o2))) (op_names o1) &&
      (let opt ns := match ns with [String c _] => Ascii.eqb c dash | [EmptyString] => false | _ => true end in opt ns1 || opt ns2) &&
      (let free ms := forallb (fun m => match m with MAction HELP | MAction VERSION => false | _ => true end) ms in free ms1 || free ms2) &&
      (let one ms := Nat.leb (length (filter (fun m => match m with MAction _ => true | _ => false end) ms)) 1 in one ms1 && one ms2)
  | _, _ => false
  end.
Lemma independentb_spec : forall o1 o2, independentb o1 o2 = true -> independent o1 o2.
Proof.
  intros [ns1 ms1| | | | | | | | | | | | | |] [ns2 ms2| | | | | | | | | | | | | |]; try discriminate. unfold independentb. rewrite !andb_true_iff, !orb_true_iff. intros [[[A B] C] [D1 D2]]. cbn [independent].
  assert (OPT : forall ns, match ns with [String c _] => Ascii.eqb c dash | [EmptyString] => false | _ => true end = true -> option_names ns).
  { intros [|[|c r] [|]] E; try exact Logic.I; try discriminate. apply Ascii.eqb_eq in E. subst c. now exists r. }
  assert (FREE : forall ms, forallb (fun m => match m with MAction HELP | MAction VERSION => false | _ => true end) ms = true -> Forall roleless ms).
  { intros ms E. rewrite forallb_forall in E. apply Forall_forall. intros m I. specialize (E m I). destruct m as [|[]| | | | | | |]; cbn; trivial; discriminate. }
  assert (NONE : forall ms, length (filter (fun m => match m with MAction _ => true | _ => false end) ms) = 0 -> Forall actionless ms).
  { induction ms as [|m ms IH]; [constructor|]. destruct m; cbn; try discriminate; intros E; (constructor; [exact Logic.I | now apply IH]). }
  assert (ONE : forall ms, Nat.leb (length (filter (fun m => match m with MAction _ => true | _ => false end) ms)) 1 = true -> one_role ms).
  { intros ms E. apply Nat.leb_le in E. induction ms as [|m ms IH]; [exact Logic.I|].
    destruct m as [|a| | | | | | |]; cbn in *; try (now apply IH). assert (Z : length (filter (fun m => match m with MAction _ => true | _ => false end) ms) = 0) by lia.
    pose proof (NONE ms Z). destruct a; cbn; try assumption; apply IH; lia. }
  split; [|split; [destruct B; auto | split; [destruct C; auto | auto]]]. intros n I J. rewrite forallb_forall in A. specialize (A n I). apply mem_str_In in J. now rewrite J in A.
Qed.
Fixpoint pairwiseb (l : list op) : bool := match l with [] => true | o :: r => forallb (independentb o) r && pairwiseb r end.
Lemma pairwise_spec : forall l, pairwiseb l = true -> ForallOrdPairs independent l.
Proof.
  induction l as [|o l IH]; cbn; [constructor|]. rewrite andb_true_iff, forallb_forall. intros [A B]. constructor; [|now apply IH]. apply Forall_forall. intros x I. now apply independentb_spec, A.
Qed.
Example C61_example : let group := firstn 9 shop_ops in
  Forall sets_up shop_pre /\ Forall sets_up group /\ Forall sets_up shop_post /\ Forall (unmentioned_by shop_pre) group /\
  ForallOrdPairs independent group /\ Permutation group (rev group) /\ rev group <> group /\
  exists t, run (shop_pre ++ group ++ shop_post) init = Some t /\ usable t /\ interprets t /\ length (arguments t) = 11 /\
    snd (parseArguments ["prog"; "-v"; "a"; "b"; "--name=x"; "-e"; "1"; "2"] t) = Ok tt.
Proof.
  cbv zeta. split; [repeat constructor; intros ? ?; discriminate|]. split; [repeat constructor; intros ? ?; discriminate|]. split; [repeat constructor; intros ? ?; discriminate|].
  split.
  { assert (C : forallb (fun o => forallb (fun o' => forallb (fun n => negb (mem_str n (op_names o'))) (op_names o)) shop_pre) (firstn 9 shop_ops) = true) by (vm_compute; reflexivity).
    apply Forall_forall. intros o I n o' N J K. rewrite forallb_forall in C. specialize (C o I). rewrite forallb_forall in C. specialize (C o' J). rewrite forallb_forall in C. specialize (C n N). apply mem_str_In in K. rewrite K in C. discriminate. }
  split; [apply pairwise_spec; vm_compute; reflexivity|]. split; [apply Permutation_rev|]. split; [discriminate|].
  exists (history (shop_pre ++ firstn 9 shop_ops ++ shop_post)). split; [vm_compute; reflexivity|].
  assert (CA : reach_with careful (history (shop_pre ++ firstn 9 shop_ops ++ shop_post))) by (apply careful_history; vm_compute; reflexivity).
  split; [now apply careful_usable|]. split; [right; vm_compute; discriminate|]. split; vm_compute; reflexivity.
Qed.
(** In general the order matters: for two positional arguments, *)
Example C61_positionals : 
  (exists t a, run [OpAdd ["A"] []; OpAdd ["B"] []; OpParse ["prog"; "x"]] init = Some t /\ getArgument t "A" = Ok a /\ isExists a = true) /\
  (exists t a, run [OpAdd ["B"] []; OpAdd ["A"] []; OpParse ["prog"; "x"]] init = Some t /\ getArgument t "A" = Ok a /\ isExists a = false).
Proof. split; eexists; eexists; (split; [vm_compute; reflexivity|]); split; vm_compute; reflexivity. Qed.
(** for two options that ask for the role of the help option, *)
Example C61_roles :
  snd (calls [OpAdd ["-x"] [MAction HELP]; OpAdd ["-y"] [MAction HELP]; OpSetHelpException true; OpParse ["prog"; "-x"]] init)
  <> snd (calls [OpAdd ["-y"] [MAction HELP]; OpAdd ["-x"] [MAction HELP]; OpSetHelpException true; OpParse ["prog"; "-x"]] init).
Proof. vm_compute. discriminate. Qed.
(** for declarations with a common name. *)
Example C61_names :
  snd (calls [OpAdd ["-x"] []; OpAdd ["-y"] [MFlag "-x"]] init) <> rev (snd (calls [OpAdd ["-y"] [MFlag "-x"]; OpAdd ["-x"] []] init)).
Proof. vm_compute. discriminate. Qed.
