(** Properties_Bare.v -- C87: a program started without arguments. *)
From Coq Require Import Permutation Sorted.
From Verif Require Import Base Model_Utils Model_Number Model_Types Model_Argument Model_Usage Model_Args Model_Api
  Spec_Order Spec_Names Spec_Reading Spec_Parse Spec_Decl Spec_Finish Spec_History Spec_Api Spec_Result
  Proofs_Base Proofs_Order Proofs_Frame Proofs_Inv Proofs_ReadFacts Proofs_Reading Proofs_Parse Proofs_Decl Proofs_Finish
  Proofs_Meth Proofs_History Proofs_Config Proofs_Check Proofs_Names Proofs_Central Proofs_Dyn Properties_Words Demo Properties_Parse Proofs_Swap Proofs_Kind
  Proofs_Values Properties_Defaults Properties_Required Proofs_Like Proofs_Extend Proofs_Redecl Proofs_Quiet Properties_Repeat Properties_Final Properties_Offending Proofs_Fresh.

Lemma find_head : forall {A} (f : A -> bool) l, find f l = match filter f l with x :: _ => Some x | [] => None end.
Proof. intros A f l. induction l as [|x l IH]; [reflexivity|]. cbn [find filter]. destruct (f x); [reflexivity | exact IH]. Qed.
Definition needed (a : argument) : bool := isRequired a.
(** the help option that parseArguments adds is not required *)
Lemma ready_required : forall s, usable s -> filter needed (arguments (ready s)) = filter needed (arguments s).
Proof.
  intros s U. destruct (ready_cases s (usable_wf0 s U)) as [[-> _]|[-> _]]; [reflexivity|].
  unfold with_auto_help, registered. cbn [s_args with_help with_args with_map]. rewrite sort_filter, filter_app. cbn [filter needed a_cfg c_required help_cfg].
  rewrite app_nil_r, <- sort_filter. f_equal. apply sorted_same. apply (usable_wf s U).
Qed.
Lemma reads_bare : forall s, reads s [] [].
Proof. intros s. unfold reads. apply Rd_nil. Qed.
Lemma split_find : forall {A} (f : A -> bool) l x, find f l = Some x -> exists l1 l2, l = l1 ++ x :: l2 /\ f x = true /\ (forall y, In y l1 -> f y = true -> False).
Proof.
  intros A f l x. induction l as [|y l IH]; [discriminate|]. cbn [find]. destruct (f y) eqn:F.
  - intros H. injection H as <-. exists [], l. split; [reflexivity|]. split; [exact F | intros z []].
  - intros H. destruct (IH H) as [l1 [l2 [-> [Fx N]]]]. exists (y :: l1), l2. split; [reflexivity|]. split; [exact Fx|].
    intros z [<-|Z] Fz; [congruence | exact (N z Z Fz)].
Qed.
(** Started without arguments, the parse reports the first required argument in listing
    order -- default values do not help --, before any validator is asked or any
    destination written. *)
Theorem C87_required : forall s a0 a, usable s -> interprets s -> command_line [a0] [] ->
  find needed (arguments s) = Some a -> exists s', parseArguments [a0] s = (s', Throw (required_error a)).
Proof.
  intros s a0 a U I C F. rewrite find_head, <- (ready_required s U), <- find_head in F. destruct (split_find _ _ _ F) as [l1 [l2 [E [Ra N]]]].
  apply (C17_missing s [a0] [] [] l1 a l2 U C I (reads_bare s)); [reflexivity | exact E | | exact Ra | reflexivity].
  intros b Ib Rb. exfalso. exact (N b Ib Rb).
Qed.
(** Without required arguments nothing but the conversion of a default value for a
    destination can fail: no validator is asked; all arguments are absent and no additional
    word is collected. *)
Theorem C87_accepted : forall s a0, usable s -> interprets s -> command_line [a0] [] ->
  find needed (arguments s) = None -> (forall a, In a (arguments s) -> c_dest (a_cfg a) = None) ->
  exists s', parseArguments [a0] s = (s', Ok tt) /\ (forall a, In a (arguments s') -> isExists a = false /\ count a = 0) /\
    getAdditionalArguments s' = getAdditionalArguments s.
Proof.
  intros s a0 U I C F D. pose proof (usable_ready_wf s U) as W. pose proof (reads_bare s) as R.
  assert (M : missing (scanned [a0] [] s) = []).
  { rewrite (missing_scanned s [a0] [] [] W R). rewrite find_head in F. 
    replace (filter (fun a => isRequired a && negb (on_line (a_id a) [])) (arguments (ready s))) with (filter needed (arguments (ready s))).
    - rewrite (ready_required s U). destruct (filter needed (arguments s)); [reflexivity | discriminate].
    - apply filter_ext. intros b. change (on_line (a_id b) []) with false. now rewrite andb_true_r. }
  assert (NM : forall p, met p (scanned [a0] [] s) = false).
  { intros p. destruct (met p _) eqn:X; [|reflexivity]. apply (proj1 (met_iff s [a0] [] [] _ W R)) in X. destruct X as [h [_ [_ O]]]. discriminate O. }
  assert (T : flat_map (fun a => match trouble a with Some e => [e] | None => [] end) (s_args (scanned [a0] [] s)) = []).
  { apply no_trouble. change (s_args (scanned [a0] [] s)) with (map (read_arg []) (s_args (ready s))). apply Forall_forall. intros b Ib.
    apply in_map_iff in Ib. destruct Ib as [b0 [<- Ib]]. rewrite (read_absent s [] [] b0 W R Ib eq_refl). unfold trouble, refusal.
    change (d_exist (a_dyn (clear_arg b0))) with false. unfold arg_events. rewrite (finished_cfg (clear_arg b0)). change (a_cfg (clear_arg b0)) with (a_cfg b0).
    assert (N : c_dest (a_cfg b0) = None).
    { destruct (ready_cases s (usable_wf0 s U)) as [[E _]|[E _]]; rewrite E in Ib; [exact (D b0 Ib)|].
      unfold with_auto_help in Ib. cbn [s_args with_help] in Ib. unfold registered in Ib. apply (proj1 (resorted_In _ _)) in Ib. cbn in Ib.
      apply in_app_or in Ib. destruct Ib as [Ib|[<-|[]]]; [exact (D b0 Ib) | reflexivity]. }
    rewrite N. destruct (c_valid (a_cfg b0)); reflexivity. }
  pose proof (parse_finish s [a0] [] [] U C I R) as H. apply Finish_verdict in H. destruct H as [H1 H2].
  unfold verdict in H1. rewrite !NM, M, T in H1. specialize (H2 H1). destruct (parseArguments [a0] s) as [s' r] eqn:E. cbn [fst snd] in *. subst r.
  exists s'. split; [reflexivity|]. split.
  - intros a Ia. destruct (result_with s [a0] [] s' a [] U C I E Ia R) as [b [_ [_ [_ [_ [_ [EX CT]]]]]]]. split; [exact EX | exact CT].
  - subst s'. unfold completion, scanned. cbn [s_additional with_dlog with_args with_additional additional_of flat_map]. rewrite app_nil_r.
    destruct (ready_cases s (usable_wf0 s U)) as [[-> _]|[-> _]]; reflexivity.
Qed.
(** ... and so for parsers without destinations: the program may be started without arguments
    exactly when no argument is required. *)
Theorem C87_exactly : forall s a0, usable s -> interprets s -> command_line [a0] [] ->
  (forall a, In a (arguments s) -> c_dest (a_cfg a) = None) ->
  (snd (parseArguments [a0] s) = Ok tt <-> forall a, In a (arguments s) -> isRequired a = false).
Proof.
  intros s a0 U I C D. split.
  - intros H a Ia. destruct (isRequired a) eqn:Ra; [|reflexivity]. exfalso. destruct (find needed (arguments s)) as [b|] eqn:F.
    + destruct (C87_required s a0 b U I C F) as [s' E]. rewrite E in H. discriminate H.
    + pose proof (find_none _ _ F a Ia) as X. cbv beta delta [needed] in X. rewrite Ra in X. discriminate X.
  - intros H. destruct (find needed (arguments s)) as [b|] eqn:F.
    + apply find_some in F as [Ib Rb]. unfold needed in Rb. rewrite (H b Ib) in Rb. discriminate Rb.
    + destruct (C87_accepted s a0 U I C F D) as [s' [E _]]. now rewrite E.
Qed.
(** With destinations, and nothing required: the parse returns, or throws because the values
    that some argument has by default cannot be converted for its destination. *)
Theorem C87_destinations : forall s a0, usable s -> interprets s -> command_line [a0] [] ->
  find needed (arguments s) = None ->
  snd (parseArguments [a0] s) = Ok tt \/
  exists a d e, In a (arguments s) /\ c_dest (a_cfg a) = Some d /\ snd (dest_events (finished (clear_arg a)) d) = Some e /\
    snd (parseArguments [a0] s) = Throw e.
Proof.
  intros s a0 U I C F. pose proof (usable_ready_wf s U) as W. pose proof (reads_bare s) as R.
  assert (M : missing (scanned [a0] [] s) = []).
  { rewrite (missing_scanned s [a0] [] [] W R). rewrite find_head in F.
    replace (filter (fun a => isRequired a && negb (on_line (a_id a) [])) (arguments (ready s))) with (filter needed (arguments (ready s))).
    - rewrite (ready_required s U). destruct (filter needed (arguments s)); [reflexivity | discriminate].
    - apply filter_ext. intros b. change (on_line (a_id b) []) with false. now rewrite andb_true_r. }
  assert (NM : forall p, met p (scanned [a0] [] s) = false).
  { intros p. destruct (met p _) eqn:X; [|reflexivity]. apply (proj1 (met_iff s [a0] [] [] _ W R)) in X. destruct X as [h [_ [_ O]]]. discriminate O. }
  pose proof (parse_finish s [a0] [] [] U C I R) as H. apply Finish_verdict in H. destruct H as [H1 _].
  unfold verdict in H1. rewrite !NM, M in H1. rewrite H1.
  destruct (flat_map (fun a => match trouble a with Some e => [e] | None => [] end) (s_args (scanned [a0] [] s))) as [|e es] eqn:T; [left; reflexivity | right].
  assert (Ie : In e (flat_map (fun a => match trouble a with Some e => [e] | None => [] end) (s_args (scanned [a0] [] s)))) by (rewrite T; now left).
  apply in_flat_map in Ie. destruct Ie as [b [Ib E]]. change (s_args (scanned [a0] [] s)) with (map (read_arg []) (s_args (ready s))) in Ib.
  apply in_map_iff in Ib. destruct Ib as [b0 [<- Ib]]. rewrite (read_absent s [] [] b0 W R Ib eq_refl) in E.
  assert (TR : trouble (clear_arg b0) = snd (arg_events (finished (clear_arg b0)))).
  { unfold trouble, refusal. change (d_exist (a_dyn (clear_arg b0))) with false. destruct (c_valid (a_cfg (clear_arg b0))); reflexivity. }
  rewrite TR in E. unfold arg_events in E. rewrite (finished_cfg (clear_arg b0)) in E. change (a_cfg (clear_arg b0)) with (a_cfg b0) in E.
  destruct (c_dest (a_cfg b0)) as [d|] eqn:D; [|destruct E].
  destruct (snd (dest_events (finished (clear_arg b0)) d)) as [x|] eqn:X; [|destruct E]. destruct E as [<-|[]].
  exists b0, d, x. split; [|split; [exact D | split; [exact X | reflexivity]]].
  destruct (ready_cases s (usable_wf0 s U)) as [[E _]|[E _]]; rewrite E in Ib; [exact Ib|].
  unfold with_auto_help in Ib. cbn [s_args with_help] in Ib. unfold registered in Ib. apply (proj1 (resorted_In _ _)) in Ib. cbn in Ib.
  apply in_app_or in Ib. destruct Ib as [Ib|[<-|[]]]; [exact Ib | discriminate D].
Qed.
Definition optional_shop : state := history
  [OpAdd ["-v"; "--verbose"] [MAction STORE_TRUE]; OpAdd ["-n"; "--name"] [MDefaults ["anon"]; MValid (Some (Validator 7 (fun _ => VOk false []))) true]; OpAdd ["DST"] [MRequired false; MDefaults ["out"]]].
Example C87_example : usable optional_shop /\ interprets optional_shop /\ command_line ["prog"] [] /\ find needed (arguments optional_shop) = None /\
  forallb (fun a => match c_dest (a_cfg a) with None => true | _ => false end) (arguments optional_shop) = true /\
  existsb (fun a => match c_valid (a_cfg a) with None => false | _ => true end) (arguments optional_shop) = true /\
  option_map (fun a => getNameOrFlags a) (find needed (arguments shop)) = Some ["SRC"].
Proof.
  split; [apply careful_usable, careful_history; vm_compute; reflexivity|]. split; [right; vm_compute; discriminate|]. split; [line|].
  split; [vm_compute; reflexivity|]. split; [vm_compute; reflexivity|]. split; vm_compute; reflexivity.
Qed.
Print Assumptions C87_required.
Print Assumptions C87_accepted.
Print Assumptions C87_exactly.
Print Assumptions C87_destinations.
