(** Properties_Unsafe.v -- C11: exactly when parseArguments has undefined behaviour. *)
From Coq Require Import Permutation Sorted.
From Verif Require Import Base Model_Utils Model_Number Model_Types Model_Argument Model_Usage Model_Args Model_Api
  Spec_Order Spec_Names Spec_Reading Spec_Parse Spec_Finish Spec_History Spec_Api Spec_Result
  Proofs_Base Proofs_Order Proofs_Frame Proofs_Inv Proofs_Table Proofs_ReadFacts Proofs_Reading Proofs_Parse Proofs_Decl Proofs_Finish
  Proofs_Meth Proofs_History Proofs_Config Proofs_Names Proofs_Central Proofs_Check Proofs_Safe Proofs_Term Properties_Names Demo Properties_Words Properties_Parse Properties_Safe.

(** the parser's pointer to its help (version) option points to a deleted object *)
Definition dead (p : option (nat * nat)) (s : state) : Prop := ~ live_ptr p s.
Lemma dead_find : forall p s, dead p s <-> exists q, p = Some q /\ find_ptr q (s_args s) = None.
Proof.
  intros [q|] s; unfold dead, live_ptr; split.
  - intros H. exists q. split; [reflexivity|]. destruct (find_ptr q (s_args s)) as [a|]; [exfalso; apply H; now exists a | reflexivity].
  - intros [q' [[= <-] E]] [a X]. congruence.
  - intros H. exfalso. now apply H.
  - intros [q [X _]]. discriminate X.
Qed.
Lemma live_dec : forall p s, {live_ptr p s} + {dead p s}.
Proof.
  intros [q|] s; unfold dead, live_ptr.
  - destruct (find_ptr q (s_args s)) as [a|] eqn:E; [left; now exists a | right; intros [a X]; discriminate X].
  - left. exact Logic.I.
Qed.
Lemma find_ptr_map : forall (f : argument -> argument) q l, (forall a, a_id (f a) = a_id a /\ a_gen (f a) = a_gen a) ->
  find_ptr q (map f l) = option_map f (find_ptr q l).
Proof.
  intros f q l H. unfold find_ptr. induction l as [|a l IH]; [reflexivity|]. cbn [map find]. destruct (H a) as [-> ->].
  destruct (Nat.eqb (a_id a) (fst q) && Nat.eqb (a_gen a) (snd q)); [reflexivity | exact IH].
Qed.
Lemma find_ptr_none : forall q l, find_ptr q l = None <-> (forall a, In a l -> ptr_of a <> q).
Proof.
  intros q l. unfold find_ptr, ptr_of. split.
  - intros H a Ia E. pose proof (find_none _ _ H a Ia) as X. subst q. cbn in X. now rewrite !Nat.eqb_refl in X.
  - intros H. destruct (find _ l) as [a|] eqn:F; [|reflexivity]. exfalso. apply find_some in F. destruct F as [Ia E].
    apply andb_true_iff in E. destruct E as [E1 E2]. apply Nat.eqb_eq in E1, E2. apply (H a Ia). destruct q. cbn in *. congruence.
Qed.
Lemma dead_ready_version : forall s, wf0 s -> (dead (s_version (ready s)) (ready s) <-> dead (s_version s) s).
Proof.
  intros s W. destruct (ready_cases s W) as [[-> _]|[-> [H F]]]; [reflexivity|].
  rewrite !dead_find. change (s_version (with_auto_help s)) with (s_version s). split; intros [q [E N]]; exists q; (split; [exact E|]);
    rewrite find_ptr_none in *; intros a Ia.
  - apply N. change (In a (s_args (registered s (help_cfg (free_help s))))). apply (registered_In s (help_cfg (free_help s))). now right.
  - change (In a (s_args (registered s (help_cfg (free_help s))))) in Ia. apply (registered_In s (help_cfg (free_help s))) in Ia. destruct Ia as [->|Ia]; [|now apply N].
    unfold ptr_of. cbn [a_id a_gen]. intros X. assert (L : opt_id (s_version s) < fresh_id s).
    { unfold fresh_id. assert (forall l n m, m <= n -> m <= fold_right Nat.max n l) as Q.
      { induction l as [|x l IH]; intros n m L; [exact L|]. cbn. specialize (IH n m L). lia. }
      apply Nat.lt_succ_r. apply Q. lia. }
    rewrite E in L. subst q. cbn in L. lia.
Qed.
Lemma dead_help_ready : forall s, dead (s_help s) s -> ready s = s.
Proof. intros s D. apply dead_find in D. destruct D as [q [E _]]. unfold ready. now rewrite E. Qed.
Lemma help_ready_live : forall s, wf0 s -> live_ptr (s_help s) s -> live_ptr (s_help (ready s)) (ready s).
Proof.
  intros s W L. destruct (ready_cases s W) as [[-> _]|[-> [H F]]]; [exact L|]. cbn [with_auto_help s_help with_help live_ptr].
  destruct (find_ptr (fresh_id s, 0) (s_args (with_auto_help s))) as [a|] eqn:X; [now exists a|]. exfalso. rewrite find_ptr_none in X.
  apply (X (Arg (fresh_id s) 0 (help_cfg (free_help s)) new_dyn)); [|reflexivity].
  change (In (Arg (fresh_id s) 0 (help_cfg (free_help s)) new_dyn) (s_args (registered s (help_cfg (free_help s))))). apply (registered_In s (help_cfg (free_help s))). now left.
Qed.
Lemma scanned_ptr : forall s argv pcs q, find_ptr q (s_args (scanned argv pcs s)) = option_map (read_arg pcs) (find_ptr q (s_args (ready s))).
Proof. intros s argv pcs q. unfold scanned. cbn [s_args with_additional with_args]. apply find_ptr_map. intros a. split; reflexivity. Qed.
(** the reading does not use these pointers *)
Lemma parse_total0 : forall s argv ws, reach s -> sensible s -> command_line argv ws -> interprets s ->
  (exists pcs, reads s ws pcs /\ parseArguments argv s = after_scan (scanned argv pcs s)) \/
  (exists e s', rejects s ws e /\ parseArguments argv s = (s', Throw e)).
Proof.
  intros s argv ws R S C I. pose proof (reach_wf s R) as W.
  pose proof (parse_cases s argv ws W (reach_opt_nargs s R) S C I) as H. cbv zeta in H.
  rewrite setup_prepared in H by apply W. rewrite prepared_ready in H by apply W.
  destruct H as [[pcs [H E]]|[e [s' [H [F E]]]]].
  - left. exists pcs. split; [exact H|]. now rewrite after_reading_scanned in E.
  - right. exists e, s'. split; [exact H | exact E].
Qed.

(* ------------------------------------------------------------------ *)
(** * C11 *)
(** For every parser (with sensible nargs) and every command line that parseArguments looks
    at: the call has undefined behaviour if and only if the words can be read and either the
    help option of the parser is a deleted object, or the version option is and no help was
    asked for. *)
Theorem C11_exactly : forall s argv ws, reach s -> sensible s -> command_line argv ws -> interprets s ->
  (snd (parseArguments argv s) = UB <->
   exists pcs, reads s ws pcs /\
     (dead (s_help s) s \/ (dead (s_version s) s /\ forall h, is_help (ready s) h -> on_line (a_id h) pcs = false))).
Proof.
  intros s argv ws R S C I. pose proof (proj1 (reach_wf s R)) as W. pose proof (proj1 (reach_wf _ (ready_reach s R))) as W1.
  assert (Main : forall pcs, reads s ws pcs -> parseArguments argv s = after_scan (scanned argv pcs s) ->
    (snd (parseArguments argv s) = UB <-> (dead (s_help s) s \/ (dead (s_version s) s /\ forall h, is_help (ready s) h -> on_line (a_id h) pcs = false)))).
  { intros pcs RD E. rewrite E. set (t := scanned argv pcs s). assert (Wt : wf0 t) by (eapply frame_wf0; [exact W1 | apply frame_scanned]).
    destruct (usage_ok t Wt) as [u Hu].
    assert (HT : s_help t = s_help (ready s)) by apply scanned_help. assert (VT : s_version t = s_version (ready s)) by apply scanned_version.
    destruct (live_dec (s_help s) s) as [LH|DH].
    - pose proof (help_ready_live s W LH) as LR.
      assert (CH : check_help t = if met (s_help t) t then (if m_helpex (s_modes t) then (t, Throw (Exn KHelp "" u)) else (fst (clear t), Exit (u ^^ nl))) else (t, Ok tt)).
      { unfold check_help, bind at 1, get. unfold print_or_throw, bind at 1, get. rewrite Hu. unfold met. rewrite HT. unfold live_ptr in LR.
        destruct (s_help (ready s)) as [q|]; [|reflexivity]. destruct LR as [a Fa]. unfold t. rewrite scanned_ptr, Fa. cbn [option_map].
        destruct (d_exist (a_dyn (read_arg pcs a))); [|reflexivity]. destruct (m_helpex (s_modes (scanned argv pcs s))); reflexivity. }
      destruct (met (s_help t) t) eqn:M.
      + assert (NU : snd (after_scan t) <> UB) by (unfold after_scan, bind at 1; rewrite CH; destruct (m_helpex (s_modes t)); cbn; discriminate).
        split; [intros X; contradiction|]. intros [D|[_ D]]; [contradiction|]. exfalso.
        rewrite HT in M. unfold t in M. apply (met_iff s argv ws pcs _ W1 RD) in M. destruct M as [h [Ih [Ph O]]].
        rewrite (D h (conj Ih Ph)) in O. discriminate O.
      + assert (AS : after_scan t = (check_version ;;; check_required ;;; do s0 <- get ;; finish (map a_id (s_args s0))) t) by (unfold after_scan; unfold bind at 1; rewrite CH; reflexivity).
        destruct (live_dec (s_version s) s) as [LV|DV].
        * assert (P : pointers_ok s) by (split; assumption).
          assert (U : usable s) by (split; [exact R | split; [exact S | exact P]]).
          destruct (usable_scanned s argv pcs U) as [_ Pt]. destruct (after_scan_nice t (wf0_table t Wt) Pt) as [NU _].
          split; [intros X; contradiction|]. intros [D|[D _]]; contradiction.
        * split; [|intros _].
          { intros _. right. split; [exact DV|]. intros h [Ih Ph]. destruct (on_line (a_id h) pcs) eqn:O; [|reflexivity]. exfalso.
            assert (X : met (s_help t) t = true). { rewrite HT. unfold t. apply (met_iff s argv ws pcs _ W1 RD). exists h. auto. } congruence. }
          rewrite AS. apply (dead_ready_version s W) in DV. apply dead_find in DV. destruct DV as [q [EQ N]].
          unfold bind at 1. unfold check_version, bind at 1, get. rewrite VT, EQ. unfold print_or_throw, bind at 1, get. unfold t. rewrite scanned_ptr, N. reflexivity.
    - split; [intros _; now left|]. intros _. apply dead_find in DH. destruct DH as [q [EQ N]].
      assert (RS : ready s = s) by (unfold ready; now rewrite EQ).
      unfold after_scan, bind at 1. unfold check_help, bind at 1, get. rewrite HT, RS, EQ. unfold print_or_throw, bind at 1, get. unfold t. rewrite scanned_ptr, RS, N. reflexivity. }
  destruct (parse_total0 s argv ws R S C I) as [[pcs [RD E]]|[e [s' [RJ E]]]].
  - rewrite (Main pcs RD E). split.
    + intros H. exists pcs. auto.
    + intros [p [Rp H]]. now rewrite (Reading_det _ _ _ _ RD _ Rp).
  - rewrite E. split; [discriminate|]. intros [p [Rp _]]. exfalso. exact (Reading_not_fails _ _ _ _ Rp _ RJ).
Qed.
Print Assumptions C11_exactly.
(** Every dest() on the help option or on the version option makes it so: the call returns
    normally, and the parser keeps its pointer to the replaced object. *)
Theorem C11_dest : forall s a d s' r, reach s -> In a (arguments s) -> run_meth (a_id a) (MDest d) s = (s', r) ->
  r = Ok tt /\ s_help s' = s_help s /\ s_version s' = s_version s /\
  (is_help s a -> dead (s_help s') s') /\ (is_version s a -> dead (s_version s') s').
Proof.
  intros s a d s' r R Ia E. pose proof (proj1 (reach_wf s R)) as W. rewrite (meth_eq (MDest d) s a W Ia) in E. cbn [meth_state] in E.
  injection E as E <-.
  assert (A : s_help s' = s_help s /\ s_version s' = s_version s) by (rewrite <- E; split; reflexivity). destruct A as [A1 A2].
  split; [reflexivity|]. split; [exact A1|]. split; [exact A2|].
  assert (N : find_ptr (ptr_of a) (s_args s') = None).
  { rewrite find_ptr_none. intros b Ib X. rewrite <- E in Ib. apply put_In in Ib. destruct Ib as [->|[Ib NE]].
    - injection X as X. lia.
    - cbn [a_id] in NE. apply NE. now injection X. }
  split; intros [_ H]; apply dead_find; exists (ptr_of a); [rewrite A1 | rewrite A2]; auto.
Qed.
Print Assumptions C11_dest.
(** a parser with a version option that got a destination: -h still works, and so does every
    refusal; everything else is undefined behaviour *)
Definition dead_version : state := history [OpAdd ["-V"] [MAction VERSION; MDest (Dest 7 DScalar false TyValue)]; OpSetStrict true].
Example C11_exactly_example : reach dead_version /\ sensible dead_version /\ interprets dead_version /\ dead (s_version dead_version) dead_version /\
  live_ptr (s_help dead_version) dead_version /\ command_line ["p"; "-V"] ["-V"] /\
  snd (parseArguments ["p"; "-V"] dead_version) = UB /\ snd (parseArguments ["p"] dead_version) = UB /\
  (exists t, snd (parseArguments ["p"; "-h"; "-V"] dead_version) = Exit t) /\
  snd (parseArguments ["p"; "-z"] dead_version) = Throw (parse_error "z" "invalid option").
Proof.
  split. { unfold dead_version, history. apply (run_reach [OpAdd ["-V"] [MAction VERSION; MDest (Dest 7 DScalar false TyValue)]; OpSetStrict true] init); [constructor | vm_compute; reflexivity]. }
  split. { intros a Ia. vm_compute in Ia. destruct Ia as [<-|[]]. vm_compute. split; intros; try discriminate; reflexivity. }
  split; [right; vm_compute; discriminate|]. split. { apply dead_find. eexists. split; vm_compute; reflexivity. }
  split; [exact Logic.I|]. split; [line|]. split; [vm_compute; reflexivity|]. split; [vm_compute; reflexivity|].
  split; [eexists; vm_compute; reflexivity | vm_compute; reflexivity].
Qed.
