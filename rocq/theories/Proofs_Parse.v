(** Proofs_Parse.v -- parseArguments as a whole: preparation (automatic help option),
    reading, checks, validation, conversion and destinations. *)
From Coq Require Import Permutation Sorted.
From Verif Require Import Base Model_Utils Model_Number Model_Types Model_Argument Model_Usage Model_Args Model_Api
  Spec_Order Spec_Names Spec_Reading Spec_Parse Proofs_Base Proofs_Order Proofs_Frame Proofs_Inv Proofs_Table Proofs_Reading.

(* ------------------------------------------------------------------ *)
(** * determinism of the reading *)
Ltac contra_kind := match goal with
  | H : word_kind ?w = WShort \/ word_kind ?w = WLong, K : word_kind ?w = _ |- _ => destruct H; congruence
  end.
Lemma ReadingEnd_det : forall K ps ws p1, ReadingEnd K ps ws p1 -> forall p2, ReadingEnd K ps ws p2 -> p1 = p2.
Proof.
  intros K ps ws p1 H; induction H; intros p2 H2; inversion H2; subst.
  - reflexivity.
  - match goal with A : take_words _ _ _ = Some ?x, B : take_words _ _ _ = Some ?y |- _ =>
      assert (x = y) by congruence; subst end. f_equal; auto.
  - f_equal; auto.
Qed.
Lemma Reading_det : forall K ps ws p1, Reading K ps ws p1 -> forall p2, Reading K ps ws p2 -> p1 = p2.
Proof.
  intros K ps ws p1 H; induction H; intros p2 H2; inversion H2; subst; try contra_kind; try congruence.
  - match goal with A : read_option _ _ _ = inr (?x, ?y), B : read_option _ _ _ = inr (?u, ?v) |- _ =>
      assert (x = u /\ y = v) as [-> ->] by (split; congruence) end. f_equal; auto.
  - f_equal. eapply ReadingEnd_det; eauto.
  - match goal with A : take_words _ _ _ = Some ?x, B : take_words _ _ _ = Some ?y |- _ =>
      assert (x = y) by congruence; subst end. f_equal; auto.
  - f_equal; auto.
Qed.
Lemma ReadingEnd_not_fails : forall K ps ws p, ReadingEnd K ps ws p -> forall e, ~ FailsEnd K ps ws e.
Proof.
  intros K ps ws p H; induction H; intros e F; inversion F; subst; try congruence.
  - match goal with A : take_words _ _ _ = Some ?x, B : take_words _ _ _ = Some ?y |- _ =>
      assert (x = y) by congruence; subst end. eapply IHReadingEnd; eauto.
  - eapply IHReadingEnd; eauto.
Qed.
Lemma Reading_not_fails : forall K ps ws p, Reading K ps ws p -> forall e, ~ Fails K ps ws e.
Proof.
  intros K ps ws p H; induction H; intros e F; inversion F; subst; try contra_kind; try congruence.
  - match goal with A : read_option _ _ _ = inr (?x, ?y), B : read_option _ _ _ = inr (?u, ?v) |- _ =>
      assert (x = u /\ y = v) as [-> ->] by (split; congruence) end. eapply IHReading; eauto.
  - eapply ReadingEnd_not_fails; eauto.
  - match goal with A : take_words _ _ _ = Some ?x, B : take_words _ _ _ = Some ?y |- _ =>
      assert (x = y) by congruence; subst end. eapply IHReading; eauto.
  - eapply IHReading; eauto.
Qed.
Lemma FailsEnd_det : forall K ps ws e1, FailsEnd K ps ws e1 -> forall e2, FailsEnd K ps ws e2 -> e1 = e2.
Proof.
  intros K ps ws p1 H; induction H; intros p2 H2; inversion H2; subst; try congruence; auto.
  match goal with A : take_words _ _ _ = Some ?x, B : take_words _ _ _ = Some ?y |- _ =>
      assert (x = y) by congruence; subst end. auto.
Qed.
Lemma Fails_det : forall K ps ws e1, Fails K ps ws e1 -> forall e2, Fails K ps ws e2 -> e1 = e2.
Proof.
  intros K ps ws p1 H; induction H; intros p2 H2; inversion H2; subst; try contra_kind; try congruence; auto.
  - match goal with A : read_option _ _ _ = inr (?x, ?y), B : read_option _ _ _ = inr (?u, ?v) |- _ =>
      assert (x = u /\ y = v) as [-> ->] by (split; congruence) end. auto.
  - eapply FailsEnd_det; eauto.
  - match goal with A : take_words _ _ _ = Some ?x, B : take_words _ _ _ = Some ?y |- _ =>
      assert (x = y) by congruence; subst end. auto.
Qed.

(* ------------------------------------------------------------------ *)
(** * the automatic help option *)
Lemma insert_map_in : forall {A} (lt : A -> A -> bool) (f : A -> A) x l,
  (forall y, In y l -> lt (f y) (f x) = lt y x) -> insert_by lt (f x) (map f l) = map f (insert_by lt x l).
Proof.
  intros A lt f x l. induction l as [|y l IH]; intros H; simpl; [reflexivity|].
  rewrite (H y (or_introl eq_refl)). destruct (lt y x); simpl; [|reflexivity]. f_equal. apply IH.
  intros z Hz; apply H; now right.
Qed.
Lemma sort_map_in : forall {A} (lt : A -> A -> bool) (f : A -> A) l,
  (forall x y, In x l -> In y l -> lt (f x) (f y) = lt x y) -> sort_by lt (map f l) = map f (sort_by lt l).
Proof.
  intros A lt f l. induction l as [|x l IH]; intros H; simpl; [reflexivity|].
  change (fold_right (insert_by lt) [] (map f l)) with (sort_by lt (map f l)).
  change (fold_right (insert_by lt) [] l) with (sort_by lt l). rewrite IH.
  - apply insert_map_in. intros y Hy. apply H; [|now left]. right.
    eapply Permutation_in; [symmetry; apply sort_perm | exact Hy].
  - intros a b Ha Hb. apply H; now right.
Qed.

Definition auto_help_text : str := "show this help message and exit".
Definition help_cfg (names : list str) : acfg :=
  ACfg names HELP_OPTION false 0 auto_help_text "" None true HELP [] "" None.
Definition with_auto_help (s : state) : state :=
  with_help (registered s (help_cfg (free_help s))) (Some (fresh_id s, 0)).

Lemma upd_registered : forall s c f,
  shape1 (Arg (fresh_id s) 0 c new_dyn) (f (Arg (fresh_id s) 0 c new_dyn)) ->
  a_id (f (Arg (fresh_id s) 0 c new_dyn)) = fresh_id s ->
  upd_id (fresh_id s) f (sort_by arg_lt (s_args s ++ [Arg (fresh_id s) 0 c new_dyn])) =
  sort_by arg_lt (s_args s ++ [f (Arg (fresh_id s) 0 c new_dyn)]).
Proof.
  intros s c f SH E. set (a := Arg (fresh_id s) 0 c new_dyn) in *.
  assert (EQ : s_args s ++ [f a] = upd_id (fresh_id s) f (s_args s ++ [a])).
  { unfold upd_id. rewrite map_app. simpl. rewrite Nat.eqb_refl. f_equal.
    change (s_args s = upd_id (fresh_id s) f (s_args s)). symmetry. apply upd_id_id.
    intros b Ib Eb. exfalso. apply (fresh_id_new s). rewrite <- Eb. now apply in_map. }
  rewrite EQ. unfold upd_id. symmetry. apply sort_map_in.
  assert (FA : forall x, In x (s_args s ++ [a]) -> shape1 x (if Nat.eqb (a_id x) (fresh_id s) then f x else x)).
  { intros x Ix. destruct (Nat.eqb_spec (a_id x) (fresh_id s)) as [Ex|Ex]; [|apply shape1_refl].
    apply in_app_or in Ix. destruct Ix as [Ix|[<-|[]]]; [|exact SH].
    exfalso. apply (fresh_id_new s). rewrite <- Ex. now apply in_map. }
  intros x y Ix Iy. symmetry. apply shape1_lt; auto.
Qed.

Lemma register_table : forall s c, table s -> c_names c <> [] -> register c s = (registered s c, Ok (fresh_id s)).
Proof.
  intros s c T N. unfold register, bind, get, modify. cbv beta iota zeta.
  match goal with |- context [s_map (with_args s ?l)] => change (s_map (with_args s l)) with (s_map s) end.
  unfold sort_args. match goal with |- context [forallb has_name ?l] => assert (H : forallb has_name l = true) end.
  { cbn [s_args with_map with_args]. rewrite forallb_app, (table_has_name s T). cbn [forallb]. unfold has_name. cbn [a_cfg]. destruct (c_names c); [contradiction | reflexivity]. }
  rewrite H. reflexivity.
Qed.
Lemma help_setup_table : forall s, table s ->
  help_setup s =
    match s_help s with
    | Some _ => (s, Ok false)
    | None => match free_help s with
              | [] => (s, Ok true)
              | _ :: _ => (with_auto_help s, Ok false)
              end
    end.
Proof.
  intros s W. unfold help_setup. assert (G : get s = (s, Ok s)) by reflexivity. rewrite (bind_ok _ _ _ _ _ G).
  destruct (s_help s) as [p|] eqn:SH; [reflexivity|].
  set (names := (if mem_key "-h" (s_map s) then [] else ["-h"]) ++ (if mem_key "--help" (s_map s) then [] else ["--help"])).
  assert (FH : free_help s = names) by reflexivity.
  assert (REG : names <> [] -> mem_key "-h" (s_map s) && mem_key "--help" (s_map s) = false ->
     addArgument names s = (registered s (option_cfg names), Ok (fresh_id s)) /\ option_cfg names = cfg_names new_cfg names).
  { intros NE _. assert (X : sort_flags names = names /\ (exists n, In n names /\ mem_key n (s_map s) = false) /\
        Forall (fun g => validFormatFlag g = None) names /\ StronglySorted (le_by compareFlag) names /\
        addArgument names s = register (option_cfg names) s).
    { unfold names in *. destruct (mem_key "-h" (s_map s)) eqn:H1, (mem_key "--help" (s_map s)) eqn:H2; [exfalso; apply NE; reflexivity| | |]; simpl app;
        (split; [reflexivity|]; split; [eexists; split; [left; reflexivity | assumption]|]; split; [repeat constructor|]; split; [repeat constructor|];
         unfold addArgument, bind, get; simpl; rewrite ?H1, ?H2; reflexivity). }
    destruct X as [X1 [X2 [X3 [X4 X5]]]]. rewrite X5.
    assert (OC : option_cfg names = cfg_names new_cfg names) by (unfold option_cfg; now rewrite X1).
    split; [|exact OC]. apply register_table; [exact W|]. rewrite OC. exact NE. }
  rewrite FH.
  destruct (mem_key "-h" (s_map s) && mem_key "--help" (s_map s)) eqn:B.
  { apply andb_true_iff in B. destruct B as [B1 B2]. unfold names. rewrite B1, B2. reflexivity. }
  assert (NE : names <> []).
  { unfold names. destruct (mem_key "-h" (s_map s)), (mem_key "--help" (s_map s)); discriminate. }
  destruct (REG NE eq_refl) as [ADD OC]. rewrite OC in *. clear REG.
  rewrite (bind_ok _ _ _ _ _ ADD).
  destruct names as [|n0 nr] eqn:EN; [congruence|]. rewrite <- EN in *. clear NE.
  set (id := fresh_id s) in *. set (c0 := cfg_names new_cfg names) in *.
  set (s1 := registered s c0) in *.
  assert (ARGS1 : s_args s1 = sort_by arg_lt (s_args s ++ [Arg id 0 c0 new_dyn])) by reflexivity.
  assert (U : forall f c, c_names (a_cfg (f (Arg id 0 c new_dyn))) = c_names c ->
     is_positional (c_type (a_cfg (f (Arg id 0 c new_dyn)))) = is_positional (c_type c) ->
     c_required (a_cfg (f (Arg id 0 c new_dyn))) = c_required c ->
     a_id (f (Arg id 0 c new_dyn)) = id ->
     upd_id id f (sort_by arg_lt (s_args s ++ [Arg id 0 c new_dyn])) = sort_by arg_lt (s_args s ++ [f (Arg id 0 c new_dyn)])).
  { intros f c E1 E2 E3 E4. apply upd_registered; [|exact E4]. repeat split; simpl; auto. }
  assert (FI : forall c, find_id id (sort_by arg_lt (s_args s ++ [Arg id 0 c new_dyn])) = Some (Arg id 0 c new_dyn)).
  { intros c. assert (ND : NoDup (map a_id (sort_by arg_lt (s_args s ++ [Arg id 0 c new_dyn])))).
    { eapply Permutation_NoDup; [apply Permutation_map, sort_perm|]. rewrite map_app. simpl.
      apply (Permutation_NoDup (l := id :: map a_id (s_args s))); [apply Permutation_cons_append|].
      constructor; [apply fresh_id_new | apply (t_ids s W)]. }
    apply (In_find_id _ (Arg id 0 c new_dyn) ND). eapply Permutation_in; [apply sort_perm|]. apply in_or_app. right. now left. }
  assert (D1 : deref id s1 = (s1, Ok (Arg id 0 c0 new_dyn))) by (rewrite deref_eq, ARGS1, FI; reflexivity).
  set (c1 := cfg_action c0 HELP). set (c2 := cfg_type (cfg_nargs c1 0) HELP_OPTION).
  set (s2 := with_args s1 (sort_by arg_lt (s_args s ++ [Arg id 0 c1 new_dyn]))).
  assert (SC1 : set_cfg id (fun c => cfg_action c HELP) s1 = (s2, Ok tt)).
  { unfold set_cfg, modify. rewrite ARGS1. rewrite U by reflexivity. reflexivity. }
  set (s3 := with_help s2 (Some (id, 0))).
  set (s4 := with_args s3 (sort_by arg_lt (s_args s ++ [Arg id 0 c2 new_dyn]))).
  assert (TC : typeConstructor id s2 = (s4, Ok tt)).
  { unfold typeConstructor. assert (D2 : deref id s2 = (s2, Ok (Arg id 0 c1 new_dyn))) by (rewrite deref_eq; cbn [s2 with_args s_args]; rewrite FI; reflexivity).
    rewrite (bind_ok _ _ _ _ _ D2). cbn [a_cfg c_nargs c_action c1 c0 cfg_action cfg_names new_cfg c_type is_positional action_eqb N.eqb orb Pos.eqb].
    unfold bind at 1, get. change (s_help s2) with (s_help s). rewrite SH. unfold modify, bind, get.
    change (with_help s2 (Some (ptr_of (Arg id 0 c1 new_dyn)))) with s3.
    assert (OE : optr_eqb (s_help s3) (ptr_of (Arg id 0 c1 new_dyn)) = true).
    { change (ptr_eqb (id, 0) (id, 0) = true). unfold ptr_eqb. simpl. now rewrite Nat.eqb_refl. }
    rewrite OE.
    unfold set_cfg, modify. change (s_args s3) with (sort_by arg_lt (s_args s ++ [Arg id 0 c1 new_dyn])).
    rewrite (U (fun a => arg_cfg a _)) by reflexivity. reflexivity. }
  assert (DC : defaultsConstructor id s4 = (s4, Ok tt)).
  { unfold defaultsConstructor. assert (D4 : deref id s4 = (s4, Ok (Arg id 0 c2 new_dyn))) by (rewrite deref_eq; cbn [s4 with_args s_args]; rewrite FI; reflexivity).
    rewrite (bind_ok _ _ _ _ _ D4). reflexivity. }
  assert (AC : action id HELP s1 = (s4, Ok tt)).
  { unfold action. rewrite (bind_ok _ _ _ _ _ D1). cbn [a_cfg c_action c0 cfg_names new_cfg action_eqb].
    unfold bind, ret. rewrite SC1, TC. exact DC. }
  rewrite (bind_ok _ _ _ _ _ AC).
  assert (HP : help id auto_help_text s4 = (with_auto_help s, Ok tt)).
  { unfold help. assert (D4 : deref id s4 = (s4, Ok (Arg id 0 c2 new_dyn))) by (rewrite deref_eq; cbn [s4 with_args s_args]; rewrite FI; reflexivity).
    rewrite (bind_ok _ _ _ _ _ D4). unfold set_cfg, modify.
    change (s_args s4) with (sort_by arg_lt (s_args s ++ [Arg id 0 c2 new_dyn])). rewrite U by reflexivity.
    unfold with_auto_help. rewrite FH. reflexivity. }
  rewrite (bind_ok _ _ _ _ _ HP). reflexivity.
Qed.
Lemma help_setup_eq : forall s, wf0 s ->
  help_setup s =
    match s_help s with
    | Some _ => (s, Ok false)
    | None => match free_help s with
              | [] => (s, Ok true)
              | _ :: _ => (with_auto_help s, Ok false)
              end
    end.
Proof. intros s W. exact (help_setup_table s (wf0_table s W)). Qed.

(* ------------------------------------------------------------------ *)
(** * preparation *)
Definition cleared (s : state) : state := with_args s (map clear_arg (s_args s)).
Definition prepared (s : state) : state :=
  match s_help s with
  | Some _ => cleared s
  | None => match free_help s with [] => cleared s | _ :: _ => with_auto_help (cleared s) end
  end.
Lemma wf0_cleared : forall s, wf0 s -> wf0 (cleared s).
Proof. intros s W. eapply frame_wf0; [exact W | apply frame_clear_args]. Qed.
Lemma wf_cleared : forall s, wf s -> wf (cleared s).
Proof. intros s W. eapply frame_wf; [exact W | apply frame_clear_args]. Qed.

Lemma interprets_dec : forall s, {interprets s} + {~ interprets s}.
Proof.
  intros s. unfold interprets. destruct (s_help s) as [p|]; [left; left; discriminate|].
  destruct (free_help s) as [|x l]; [right; intros [H|H]; congruence | left; right; discriminate].
Qed.
Lemma table_cleared : forall s, table s -> table (cleared s).
Proof. intros s W. eapply table_frame; [exact W | apply frame_clear_args]. Qed.
Lemma parse_with_table : forall fuel argv s, table s ->
  (interprets s -> parse_with fuel argv s = (scan fuel argv ;;; after_scan) (prepared s)) /\ (~ interprets s -> parse_with fuel argv s = (cleared s, Ok tt)).
Proof.
  intros fuel argv s W. unfold parse_with.
  assert (E : forall f : unit -> M unit, bind (modify (fun s => with_args s (map clear_arg (s_args s)))) f s = f tt (cleared s)) by reflexivity.
  rewrite E. clear E.
  assert (E : forall f : bool -> M unit, bind help_setup f (cleared s) =
     match help_setup (cleared s) with (s1, Ok b) => f b s1 | (s1, Throw e) => (s1, Throw e) | (s1, Exit o) => (s1, Exit o)
       | (s1, UB) => (s1, UB) | (s1, OutOfFuel) => (s1, OutOfFuel) end).
  { intros f. unfold bind. destruct (help_setup (cleared s)) as [s1 []]; reflexivity. }
  rewrite E, (help_setup_table (cleared s) (table_cleared s W)).
  change (s_help (cleared s)) with (s_help s). change (free_help (cleared s)) with (free_help s).
  unfold interprets, prepared. destruct (s_help s) as [p|].
  - split; [reflexivity | intros H; exfalso; apply H; left; discriminate].
  - destruct (free_help s) as [|x l].
    + split; [intros [H|H]; congruence | reflexivity].
    + split; [reflexivity | intros H; exfalso; apply H; right; discriminate].
Qed.
Lemma parse_with_eq : forall fuel argv s, wf0 s ->
  (interprets s -> parse_with fuel argv s = (scan fuel argv ;;; after_scan) (prepared s)) /\ (~ interprets s -> parse_with fuel argv s = (cleared s, Ok tt)).
Proof. intros fuel argv s W. exact (parse_with_table fuel argv s (wf0_table s W)). Qed.

Lemma wf_with_auto_help : forall s, wf s -> s_help s = None -> free_help s <> [] -> wf (with_auto_help s).
Proof.
  intros s W H F. pose proof (wf_help_setup s W) as W1. rewrite (help_setup_eq s (proj1 W)), H in W1.
  destruct (free_help s); [congruence|]. exact W1.
Qed.
Lemma wf_prepared : forall s, wf s -> wf (prepared s).
Proof.
  intros s W. unfold prepared. pose proof (wf_cleared s W) as Wc. destruct (s_help s) eqn:H; [exact Wc|].
  destruct (free_help s) eqn:F; [exact Wc|]. apply wf_with_auto_help; [exact Wc | exact H |].
  change (free_help (cleared s)) with (free_help s). rewrite F. discriminate.
Qed.
(** the arguments of the prepared state: the cleared ones, and possibly the new help option *)
Lemma prepared_args : forall s a, In a (s_args (prepared s)) ->
  In a (s_args (cleared s)) \/ (s_help s = None /\ a = Arg (fresh_id (cleared s)) 0 (help_cfg (free_help s)) new_dyn).
Proof.
  intros s a I. unfold prepared in I. destruct (s_help s) eqn:H; [now left|].
  destruct (free_help s) eqn:F; [now left|]. unfold with_auto_help, registered in I. simpl in I.
  apply Permutation_in with (l' := s_args (cleared s) ++ [Arg (fresh_id (cleared s)) 0 (help_cfg (free_help (cleared s))) new_dyn]) in I;
    [|symmetry; apply sort_perm].
  apply in_app_or in I. destruct I as [I|[<-|[]]]; [now left|]. right. split; [reflexivity|].
  change (free_help (cleared s)) with (free_help s). now rewrite F.
Qed.
Lemma prepared_absent : forall s a, In a (s_args (prepared s)) -> d_exist (a_dyn a) = false /\ d_count (a_dyn a) = 0.
Proof.
  intros s a I. destruct (prepared_args s a I) as [I'|[_ ->]]; [|split; reflexivity].
  simpl in I'. apply in_map_iff in I'. destruct I' as [b [<- _]]. split; reflexivity.
Qed.
Lemma pos_left_prepared : forall s, pos_left (prepared s) = positionals (conf_of (prepared s)).
Proof.
  intros s. unfold pos_left, positionals, conf_of; simpl.
  assert (G : forall l, (forall a, In a l -> d_exist (a_dyn a) = false) ->
    map (fun a => (a_id a, a_cfg a)) (filter left_over l) =
    filter (fun p => is_positional (c_type (snd p))) (map (fun a => (a_id a, a_cfg a)) l)).
  { induction l as [|a l IH]; intros H; [reflexivity|]. simpl. unfold left_over at 1.
    rewrite (H a (or_introl eq_refl)), andb_true_r. simpl.
    destruct (is_positional (c_type (a_cfg a))); simpl; rewrite IH; auto; intros b Ib; apply H; now right. }
  apply G. intros a I. now apply prepared_absent in I.
Qed.

(** options without values have nargs 0, the other options have not *)
Definition opt_nargs (s : state) : Prop := forall a, In a (s_args s) ->
  is_positional (c_type (a_cfg a)) = false -> c_nargs (a_cfg a) = 0%N -> arity_of (a_cfg a) = ANone.
Lemma sane_of : forall s len, opt_nargs s -> sensible s -> (N.of_nat len < 2 ^ 31)%N -> sane len s.
Proof.
  intros s len O S L a I. destruct (S a I) as [S1 S2].
  split; [|split].
  - unfold w64. change (2 ^ 64)%N with (2 ^ 63 + 2 ^ 63)%N. change (2 ^ 31)%N with 2147483648%N in L.
    change (2 ^ 63)%N with 9223372036854775808%N in *. lia.
  - intros n An. destruct (N.eq_dec (c_nargs (a_cfg a)) 0) as [Z|NZ].
    + destruct (is_positional (c_type (a_cfg a))) eqn:P.
      * exfalso. apply (S2); [|exact Z]. unfold arity_of in An. destruct (c_type (a_cfg a)); try discriminate; reflexivity.
      * rewrite (O a I P Z) in An. discriminate.
    + unfold arity_of in An. destruct (c_type (a_cfg a)); try discriminate; injection An as <-; lia.
  - intros T. destruct (N.eq_dec (c_nargs (a_cfg a)) 0) as [Z|NZ]; [|lia].
    assert (P : is_positional (c_type (a_cfg a)) = false) by (now rewrite T).
    pose proof (O a I P Z) as A. unfold arity_of in A. rewrite T in A. discriminate.
Qed.
Lemma prepared_lift : forall (P : acfg -> Prop) s, (forall a, In a (s_args s) -> P (a_cfg a)) ->
  (forall names, P (help_cfg names)) -> forall a, In a (s_args (prepared s)) -> P (a_cfg a).
Proof.
  intros P s H HH a I. destruct (prepared_args s a I) as [I'|[_ ->]]; [|apply HH].
  simpl in I'. apply in_map_iff in I'. destruct I' as [b [<- Ib]]. simpl. auto.
Qed.
Lemma sensible_prepared : forall s, sensible s -> sensible (prepared s).
Proof.
  intros s H. red. apply (prepared_lift (fun c => (c_nargs c < 2 ^ 63)%N /\ (c_type c = INFINITE_NUMBER_POSITIONAL_ARGUMENT -> c_nargs c <> 0%N))).
  - exact H.
  - intros names; split; [reflexivity | discriminate].
Qed.
Lemma opt_nargs_prepared : forall s, opt_nargs s -> opt_nargs (prepared s).
Proof.
  intros s H. red. apply (prepared_lift (fun c => is_positional (c_type c) = false -> c_nargs c = 0%N -> arity_of c = ANone)).
  - exact H.
  - reflexivity.
Qed.

(* ------------------------------------------------------------------ *)
(** * the scan *)
(** the state when the words have been read *)
Definition after_reading (s : state) (argv : list str) (pcs : list piece) : state :=
  apply_pieces (match s_bin s with "" => with_bin s (hd "" argv) | _ => s end) pcs.

Lemma scan_eq : forall s argv ws fuel, wf s -> opt_nargs s -> sensible s -> command_line argv ws ->
  length argv + length (s_args s) + 1 < fuel ->
  (forall a, In a (s_args s) -> d_exist (a_dyn a) = false) ->
  pos_left s = positionals (conf_of s) ->
  (exists pcs, Reading (conf_of s) (positionals (conf_of s)) ws pcs /\
     scan fuel argv s = (after_reading s argv pcs, Ok tt)) \/
  (exists e s', Fails (conf_of s) (positionals (conf_of s)) ws e /\ frame s s' /\ scan fuel argv s = (s', Throw e)).
Proof.
  intros s argv ws fuel W O S [[a0 [-> N0]] [C L]] Hf Hex PL.
  set (s1 := match s_bin s with "" => with_bin s a0 | _ => s end).
  assert (B : set_binary (a0 :: ws) s = (s1, Ok tt)).
  { unfold set_binary, bind, get, s1. destruct (s_bin s); reflexivity. }
  assert (F : frame s s1) by (unfold s1; destruct (s_bin s); [constructor; reflexivity | apply frame_refl]).
  assert (EA : s_args s1 = s_args s) by (unfold s1; destruct (s_bin s); reflexivity).
  unfold scan. rewrite (bind_ok _ _ _ _ _ B).
  assert (PL1 : pos_left s1 = positionals (conf_of s)) by (rewrite <- PL; unfold pos_left; now rewrite EA).
  assert (K1 : conf_of s1 = conf_of s) by (apply conf_frame, F).
  assert (E1 : 1 <= endOptionIndex (a0 :: ws)).
  { simpl. inversion C; subst. destruct (kind_spec a0 ltac:(assumption)) as [_ [_ KE]]. destruct (isEndOption a0); [|lia].
    exfalso. apply N0, kind_end. destruct (word_kind a0); congruence. }
  destruct (parse_loop_eq fuel fuel (a0 :: ws) 1 s1) as [[pcs [R E]]|[e [s' [R [Fs E]]]]].
  - eapply frame_wf0; [apply W | exact F].
  - exact C.
  - eapply sane_frame; [|exact F]. apply sane_of; auto.
  - pose proof (pos_left_len s1). rewrite EA in H. simpl length in *. lia.
  - simpl length in *. lia.
  - exact E1.
  - left. exists pcs. rewrite PL1, K1 in R. split; [exact R|]. rewrite E. reflexivity.
  - right. exists e, s'. rewrite PL1, K1 in R. split; [exact R|]. split; [eapply frame_trans; eauto | exact E].
Qed.

(** parseArguments up to the end of the scan *)
Theorem parse_cases : forall s argv ws, wf s -> opt_nargs s -> sensible s -> command_line argv ws -> interprets s ->
  let K := conf_of (prepared s) in
  (exists pcs, Reading K (positionals K) ws pcs /\
     parseArguments argv s = after_scan (after_reading (prepared s) argv pcs)) \/
  (exists e s', Fails K (positionals K) ws e /\ frame (prepared s) s' /\ parseArguments argv s = (s', Throw e)).
Proof.
  intros s argv ws W O S CL IN K. unfold parseArguments.
  rewrite (proj1 (parse_with_eq (parse_fuel argv s) argv s (proj1 W)) IN).
  destruct (scan_eq (prepared s) argv ws (parse_fuel argv s) (wf_prepared s W) (opt_nargs_prepared s O) (sensible_prepared s S) CL)
    as [[pcs [R E]]|[e [s' [R [F E]]]]].
  - unfold parse_fuel.
    assert (length (s_args (prepared s)) <= length (s_args s) + 1); [|lia].
    unfold prepared. destruct (s_help s); [simpl; rewrite map_length; lia|]. destruct (free_help s); [simpl; rewrite map_length; lia|].
    unfold with_auto_help, registered; simpl. rewrite <- (Permutation_length (sort_perm arg_lt _)), app_length, map_length; simpl; lia.
  - intros a I. now apply prepared_absent in I.
  - apply pos_left_prepared.
  - left. exists pcs. split; [exact R|]. rewrite (bind_ok _ _ _ _ _ E). reflexivity.
  - right. exists e, s'. split; [exact R|]. split; [exact F|]. apply bind_throw. exact E.
Qed.
