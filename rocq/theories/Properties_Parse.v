(** Properties_Parse.v -- C08, C09, C12 to C19, C29: parseArguments as a whole. *)
From Coq Require Import Permutation Sorted.
From Verif Require Import Base Model_Utils Model_Number Model_Types Model_Argument Model_Usage Model_Args Model_Api
  Spec_Order Spec_Names Spec_Reading Spec_Parse Spec_Finish Spec_History Spec_Api Spec_Result
  Proofs_Base Proofs_Order Proofs_Frame Proofs_Inv Proofs_ReadFacts Proofs_Reading Proofs_Parse Proofs_Decl Proofs_Finish
  Proofs_Meth Proofs_History Proofs_Config Proofs_Names Proofs_Central Proofs_Dyn Proofs_Check Properties_Words Demo.

(* ------------------------------------------------------------------ *)
(** * C08 and C29: what parseArguments does to the configuration *)
Lemma parse_frame : forall s argv s' r, wf0 s -> parseArguments argv s = (s', r) -> completed r -> frame (ready s) s'.
Proof.
  intros s argv s' r W E C. unfold parseArguments in E. destruct (parse_with_eq (parse_fuel argv s) argv s W) as [Hi Hn].
  destruct (interprets_dec s) as [I|I].
  - rewrite (Hi I) in E. rewrite prepared_ready in E by exact W.
    assert (F : frame (cleared (ready s)) s').
    { eapply (keepsC_bind frame frame_trans); [apply keepsC_of, frame_scan | intros; apply frame_after_scan | exact E | exact C]. }
    eapply frame_trans; [apply frame_clear_args | exact F].
  - rewrite (Hn I) in E. injection E as <- <-. destruct (ready_cases s W) as [[-> _]|[_ [_ F]]]; [apply frame_clear_args|].
    exfalso. apply I. now right.
Qed.
Lemma frame_arg : forall s s' a, frame s s' -> In a (arguments s) -> exists a', In a' (arguments s') /\ a_id a' = a_id a /\ a_gen a' = a_gen a /\ a_cfg a' = a_cfg a.
Proof.
  intros s s' a F I. apply (in_map static) in I. rewrite <- (fr_args _ _ F) in I. apply in_map_iff in I. destruct I as [b [E I]].
  exists b. unfold static in E. injection E as E1 E2 E3. auto.
Qed.
Lemma frame_get : forall s s' n a, wf0 s -> frame s s' -> getArgument s n = Ok a -> exists a', getArgument s' n = Ok a' /\ a_id a' = a_id a /\ a_cfg a' = a_cfg a.
Proof.
  intros s s' n a W F E. destruct (getArgument_inv s n a W E) as [Ia [_ As]]. pose proof (frame_wf0 s s' W F) as W'.
  destruct (frame_arg s s' a F Ia) as [b [Ib [E1 [E2 E3]]]]. exists b. split; [|auto].
  apply getArgument_by; auto. rewrite (fr_map _ _ F), E1. exact As.
Qed.

(** of -h and --help, one that is not in use *)
Definition free_name (s : state) (n : str) : Prop := (n = "-h" \/ n = "--help") /\ argumentExists s n = false.
Lemma free_help_In : forall s n, In n (free_help s) <-> free_name s n.
Proof.
  intros s n. unfold free_help, free_name, argumentExists. rewrite in_app_iff.
  destruct (mem_key "-h" (s_map s)) eqn:A, (mem_key "--help" (s_map s)) eqn:B; simpl.
  - split; [intros [[]|[]] | intros [[-> | ->] X]; congruence].
  - split; [intros [[]|[X|[]]]; subst; auto | intros [[-> | ->] X]; [congruence | auto]].
  - split; [intros [[X|[]]|[]]; subst; auto | intros [[-> | ->] X]; [auto | congruence]].
  - split; [intros [[X|[]]|[X|[]]]; subst; auto | intros [[-> | ->] X]; auto].
Qed.
Lemma no_help_none : forall s, reach s -> pointers_ok s -> (forall a, In a (arguments s) -> getAction a <> HELP) -> s_help s = None.
Proof.
  intros s R P H. destruct (s_help s) as [[i g]|] eqn:E; [|reflexivity]. exfalso. apply ok_pointing in P. destruct P as [P _].
  rewrite E in P. destruct P as [a [Ia Ea]]. destruct (reach_roles s R) as [Q _]. rewrite E in Q. unfold ptr_of in Ea. injection Ea as <- <-.
  destruct (Q a Ia eq_refl) as [_ X]. apply (H a Ia). now apply X.
Qed.

(** If no argument has the help action, and -h or --help is free, then after any call of
    parseArguments that completes there is one more argument, the help option, whose
    flags are exactly the free ones of -h and --help. *)
Theorem C08_supplied : forall s argv s' r, reach s -> pointers_ok s ->
  (forall a, In a (arguments s) -> getAction a <> HELP) -> (exists n, free_name s n) ->
  parseArguments argv s = (s', r) -> completed r ->
  exists h, is_help s' h /\ getAction h = HELP /\ isRequired h = false /\
    (forall n, In n (getNameOrFlags h) <-> free_name s n) /\
    (forall n, free_name s n -> getArgument s' n = Ok h) /\
    length (arguments s') = S (length (arguments s)).
Proof.
  intros s argv s' r R P H [n0 F0] E C. destruct (reach_wf s R) as [W _]. pose proof (no_help_none s R P H) as N.
  apply free_help_In in F0. destruct (ready_cases s W) as [[_ [X|X]]|[EQ [_ F]]]; [congruence | rewrite X in F0; contradiction|].
  pose proof (parse_frame s argv s' r W E C) as FR. rewrite EQ in FR.
  assert (Ih : In (Arg (fresh_id s) 0 (help_cfg (free_help s)) new_dyn) (s_args (with_auto_help s))).
  { apply (registered_In s (help_cfg (free_help s))). now left. }
  destruct (frame_arg _ _ _ FR Ih) as [h [Hh [E1 [E2 E3]]]]. cbn [a_id a_gen a_cfg] in E1, E2, E3. exists h.
  assert (W' : wf0 s'). { eapply frame_wf0; [|exact FR]. rewrite <- EQ. eapply reach_wf, ready_reach, R. }
  split; [split; [exact Hh|]|].
  { rewrite (fr_help _ _ FR). unfold with_auto_help, ptr_of. cbn [s_help with_help]. now rewrite E1, E2. }
  rewrite E3. split; [reflexivity|]. split; [reflexivity|]. split; [intros n; apply free_help_In|]. split.
  - intros n Fn. apply getArgument_by; [exact W' | exact Hh|]. rewrite (fr_map _ _ FR), E1. 
    change (s_map (with_auto_help s)) with (s_map (registered s (help_cfg (free_help s)))). rewrite registered_assoc. 
    destruct Fn as [Fn1 Fn2]. unfold argumentExists in Fn2. apply mem_key_false in Fn2. rewrite Fn2. cbn [c_names help_cfg].
    assert (M : mem_str n (free_help s) = true) by (apply mem_str_In, free_help_In; split; [exact Fn1 | now apply mem_key_false]). now rewrite M.
  - rewrite <- (map_length static), (fr_args _ _ FR), map_length. unfold with_auto_help, registered. cbn [s_args with_help with_args with_map].
    rewrite <- (Permutation_length (sort_perm arg_lt _)), app_length. simpl. lia.
Qed.
Print Assumptions C08_supplied.

(** In any case every existing name still designates its argument, with its declaration
    unchanged; names appear only as above. *)
Theorem C08_existing : forall s argv s' r n a, reach s -> parseArguments argv s = (s', r) -> completed r ->
  getArgument s n = Ok a -> exists a', getArgument s' n = Ok a' /\ a_id a' = a_id a /\ a_cfg a' = a_cfg a.
Proof.
  intros s argv s' r n a R E C G. destruct (reach_wf s R) as [W _]. pose proof (parse_frame s argv s' r W E C) as FR.
  assert (W1 : wf0 (ready s)) by (eapply reach_wf, ready_reach, R).
  eapply frame_get; [exact W1 | exact FR|]. destruct (ready_cases s W) as [[-> _]|[EQ _]]; [exact G|]. rewrite EQ in *.
  destruct (getArgument_inv s n a W G) as [Ia [_ As]]. apply getArgument_by; [exact W1| |].
  - apply (registered_In s (help_cfg (free_help s))). now right.
  - change (s_map (with_auto_help s)) with (s_map (registered s (help_cfg (free_help s)))). rewrite registered_assoc. now rewrite As.
Qed.
Print Assumptions C08_existing.
Theorem C08_no_other_name : forall s argv s' r n, reach s -> parseArguments argv s = (s', r) -> completed r ->
  argumentExists s' n = true -> argumentExists s n = true \/ (s_help s = None /\ free_name s n).
Proof.
  intros s argv s' r n R E C G. destruct (reach_wf s R) as [W _]. pose proof (parse_frame s argv s' r W E C) as FR.
  unfold argumentExists in *. rewrite (fr_map _ _ FR) in G. destruct (ready_cases s W) as [[EQ _]|[EQ [N _]]]; rewrite EQ in G; [now left|].
  change (s_map (with_auto_help s)) with (s_map (registered s (help_cfg (free_help s)))) in G. apply mem_key_true in G. destruct G as [v G].
  rewrite registered_assoc in G. destruct (assoc n (s_map s)) as [x|] eqn:As; [left; apply mem_key_true; eauto|]. right. split; [exact N|].
  apply free_help_In. apply mem_str_In. cbn [c_names help_cfg] in G. destruct (mem_str n (free_help s)); [reflexivity|discriminate].
Qed.
Print Assumptions C08_no_other_name.
Example C08_example : (exists n, free_name shop n) /\ (forall a, In a (arguments shop) -> getAction a <> HELP) /\
  exists s', parseArguments ["prog"; "file"] shop = (s', Ok tt) /\ argumentExists s' "-h" = true.
Proof.
  split; [exists "-h"; split; [now left | vm_compute; reflexivity]|]. split.
  - apply forall_arguments with (p := fun a => negb (action_eqb (getAction a) HELP)); [vm_compute; reflexivity|].
    intros a H X. rewrite X in H. discriminate.
  - eexists. split; [vm_compute; reflexivity | vm_compute; reflexivity].
Qed.

(** * C29 *)
(** the declaration of an argument: all that its declaration methods set *)
Definition same_declaration (a a' : argument) : Prop :=
  a_id a' = a_id a /\ getNameOrFlags a' = getNameOrFlags a /\ getNargs a' = getNargs a /\ getAction a' = getAction a /\
  isRequired a' = isRequired a /\ c_help (a_cfg a') = c_help (a_cfg a) /\ c_metavar (a_cfg a') = c_metavar (a_cfg a) /\
  c_defaults (a_cfg a') = c_defaults (a_cfg a) /\ c_default (a_cfg a') = c_default (a_cfg a) /\ c_type (a_cfg a') = c_type (a_cfg a) /\
  c_valid (a_cfg a') = c_valid (a_cfg a) /\ c_valid_del (a_cfg a') = c_valid_del (a_cfg a) /\ c_dest (a_cfg a') = c_dest (a_cfg a).
Lemma same_cfg : forall a a', a_id a' = a_id a -> a_cfg a' = a_cfg a -> same_declaration a a'.
Proof. intros a a' E1 E2. unfold same_declaration. rewrite E1, E2. repeat split. Qed.

(** Whatever the command line and whether the call returns or throws (at any point):
    the arguments, with their declarations, are the same as before, except that the
    automatic help option may be there; names still designate them; the modes, the
    version, the usage texts are unchanged; no validator has been deleted. *)
Theorem C29_configuration : forall s argv s' r, reach s -> parseArguments argv s = (s', r) -> completed r ->
  (forall a, In a (arguments s) -> exists a', In a' (arguments s') /\ same_declaration a a') /\
  (forall a', In a' (arguments s') -> (exists a, In a (arguments s) /\ same_declaration a a') \/
       (s_help s = None /\ is_help s' a' /\ forall n, In n (getNameOrFlags a') -> free_name s n)) /\
  (forall n a, getArgument s n = Ok a -> exists a', getArgument s' n = Ok a' /\ same_declaration a a') /\
  s_modes s' = s_modes s /\ s_verstr s' = s_verstr s /\ s_usage s' = s_usage s /\ s_freed s' = s_freed s /\
  s_version s' = s_version s /\ (s_help s <> None -> s_help s' = s_help s).
Proof.
  intros s argv s' r R E C. destruct (reach_wf s R) as [W _]. pose proof (parse_frame s argv s' r W E C) as FR.
  assert (RC := ready_cases s W).
  assert (B : forall a, In a (arguments s) -> In a (arguments (ready s))).
  { intros a Ia. destruct RC as [[-> _]|[-> _]]; [exact Ia|]. apply (registered_In s (help_cfg (free_help s))). now right. }
  split; [|split; [|split]].
  - intros a Ia. destruct (frame_arg _ _ a FR (B a Ia)) as [a' [I' [E1 [_ E2]]]]. exists a'. split; [exact I' | now apply same_cfg].
  - intros a' I'. destruct (frame_arg _ _ a' (frame_sym _ _ FR) I') as [b [Ib [E1 [E2 E3]]]].
    destruct RC as [[EQ _]|[EQ [N _]]]; rewrite EQ in *; [left; exists b; split; [exact Ib | now apply same_cfg]|].
    apply (registered_In s (help_cfg (free_help s))) in Ib. destruct Ib as [Eb|Ib]; [right | left; exists b; split; [exact Ib | now apply same_cfg]].
    split; [exact N|]. subst b. cbn [a_id a_gen a_cfg] in *. split.
    + split; [exact I'|]. rewrite (fr_help _ _ FR). unfold with_auto_help, ptr_of. cbn [s_help with_help]. now rewrite E1, E2.
    + intros n Hn. rewrite <- E3 in Hn. now apply free_help_In.
  - intros n a G. destruct (C08_existing s argv s' r n a R E C G) as [a' [G' [E1 E2]]]. exists a'. split; [exact G' | now apply same_cfg].
  - rewrite (fr_modes _ _ FR), (fr_verstr _ _ FR), (fr_usage _ _ FR), (fr_freed _ _ FR), (fr_version _ _ FR), (fr_help _ _ FR).
    destruct RC as [[-> _]|[-> [N _]]]; repeat split; auto; try contradiction.
Qed.
Print Assumptions C29_configuration.
(** in particular when it throws: here in the middle of the scan, after some options *)
Example C29_example : exists s' e, parseArguments ["prog"; "-v"; "-p"; "1"; "--"; "2"] shop = (s', Throw e) /\ x_kind e = KParse /\
  length (arguments s') = S (length (arguments shop)).
Proof. eexists. eexists. split; [vm_compute; reflexivity | vm_compute; auto]. Qed.

(* ------------------------------------------------------------------ *)
(** * what the outcome says about the words *)
Lemma usable_ready_wf : forall s, usable s -> wf0 (ready s).
Proof. intros s U. apply usable_wf0, usable_ready, U. Qed.
Lemma find_ptr_read : forall pcs p l, find_ptr p (map (read_arg pcs) l) = option_map (read_arg pcs) (find_ptr p l).
Proof.
  intros pcs p. unfold find_ptr. induction l as [|a l IH]; [reflexivity|]. cbn [map find]. unfold read_arg at 1 2. cbn [a_id a_gen].
  destruct (Nat.eqb (a_id a) (fst p) && Nat.eqb (a_gen a) (snd p)); [reflexivity | exact IH].
Qed.
Lemma find_ptr_self : forall s a, wf0 s -> In a (s_args s) -> find_ptr (ptr_of a) (s_args s) = Some a.
Proof.
  intros s a W I. destruct (find_ptr (ptr_of a) (s_args s)) as [b|] eqn:F.
  - apply find_ptr_In in F. destruct F as [Ib Eb]. f_equal. apply (wf_unique s b a W Ib I). unfold ptr_of in Eb. congruence.
  - exfalso. unfold find_ptr in F. apply (find_none _ _ F) in I. unfold ptr_of in I. simpl in I. now rewrite !Nat.eqb_refl in I.
Qed.
Lemma met_scanned : forall s argv ws pcs p, wf0 (ready s) -> reads s ws pcs ->
  met p (scanned argv pcs s) = match p with None => false | Some q => match find_ptr q (s_args (ready s)) with Some a => on_line (a_id a) pcs | None => false end end.
Proof.
  intros s argv ws pcs [q|] W H; [|reflexivity]. unfold met. change (s_args (scanned argv pcs s)) with (map (read_arg pcs) (s_args (ready s))).
  rewrite find_ptr_read. destruct (find_ptr q (s_args (ready s))) as [a|] eqn:F; [|reflexivity]. simpl option_map. cbv iota.
  eapply read_exist; [exact W | exact H | apply find_ptr_In in F; apply F].
Qed.
Lemma met_iff : forall s argv ws pcs p, wf0 (ready s) -> reads s ws pcs ->
  (met p (scanned argv pcs s) = true <-> exists h, In h (arguments (ready s)) /\ p = Some (ptr_of h) /\ on_line (a_id h) pcs = true).
Proof.
  intros s argv ws pcs p W H. rewrite (met_scanned s argv ws pcs p W H). split.
  - destruct p as [q|]; [|discriminate]. destruct (find_ptr q _) as [a|] eqn:F; [|discriminate]. intros O. exists a.
    apply find_ptr_In in F. destruct F as [F <-]. auto.
  - intros [h [I [-> O]]]. now rewrite (find_ptr_self _ h W I).
Qed.
Lemma scanned_help : forall s argv pcs, s_help (scanned argv pcs s) = s_help (ready s).
Proof. intros. apply (fr_help _ _ (frame_scanned s argv pcs)). Qed.
Lemma scanned_version : forall s argv pcs, s_version (scanned argv pcs s) = s_version (ready s).
Proof. intros. apply (fr_version _ _ (frame_scanned s argv pcs)). Qed.
Lemma missing_scanned : forall s argv ws pcs, wf0 (ready s) -> reads s ws pcs ->
  missing (scanned argv pcs s) = map (read_arg pcs) (filter (fun a => isRequired a && negb (on_line (a_id a) pcs)) (arguments (ready s))).
Proof.
  intros s argv ws pcs W H. unfold missing. change (s_args (scanned argv pcs s)) with (map (read_arg pcs) (s_args (ready s))).
  assert (Q : forall l, incl l (s_args (ready s)) -> filter (fun a => c_required (a_cfg a) && negb (d_exist (a_dyn a))) (map (read_arg pcs) l) =
     map (read_arg pcs) (filter (fun a => isRequired a && negb (on_line (a_id a) pcs)) l)).
  { induction l as [|a l IH]; intros IL; [reflexivity|]. cbn [map filter]. rewrite (read_exist s ws pcs a W H) by (apply IL; now left).
    change (a_cfg (read_arg pcs a)) with (a_cfg a). rewrite IH by (intros x Hx; apply IL; now right).
    destruct (isRequired a && negb (on_line (a_id a) pcs)); reflexivity. }
  apply Q. intros x Hx. exact Hx.
Qed.
(** a successful parse *)
Lemma parse_ok_args : forall s argv ws s', usable s -> command_line argv ws -> interprets s -> parseArguments argv s = (s', Ok tt) ->
  exists pcs, reads s ws pcs /\ arguments s' = map (fun a => finished (read_arg pcs a)) (arguments (ready s)) /\
    getAdditionalArguments s' = getAdditionalArguments s ++ additional_of pcs /\
    (forall a, In a (arguments (ready s)) -> trouble (read_arg pcs a) = None) /\
    (forall a, In a (arguments (ready s)) -> isRequired a = true -> on_line (a_id a) pcs = true) /\
    (forall h, is_help (ready s) h -> on_line (a_id h) pcs = false) /\ (forall h, is_version (ready s) h -> on_line (a_id h) pcs = false).
Proof.
  intros s argv ws s' U C I E. destruct (parse_ok s argv ws s' U C I E) as [pcs [H [-> [[M1 M2] [Q T]]]]]. exists pcs.
  pose proof (usable_ready_wf s U) as W. split; [exact H|]. split; [|split; [|split; [|split; [|split]]]].
  - cbn [s_args with_dlog with_args]. unfold scanned. cbn [s_args with_additional with_args]. now rewrite map_map.
  - cbn [s_additional with_dlog with_args]. unfold scanned. cbn [s_additional with_additional with_args].
    f_equal. destruct (ready_cases s (usable_wf0 s U)) as [[-> _]|[-> _]]; reflexivity.
  - intros a Ia. rewrite Forall_forall in T. apply T. unfold scanned. cbn [s_args with_additional with_args]. now apply in_map.
  - intros a Ia Ra. rewrite (missing_scanned s argv ws pcs W H) in Q. apply map_eq_nil in Q.
    destruct (on_line (a_id a) pcs) eqn:O; [reflexivity|]. exfalso.
    assert (X : In a (filter (fun a => isRequired a && negb (on_line (a_id a) pcs)) (arguments (ready s)))) by (apply filter_In; rewrite Ra, O; auto).
    rewrite Q in X. contradiction.
  - intros h [Ih Eh]. destruct (on_line (a_id h) pcs) eqn:O; [|reflexivity]. rewrite scanned_help in M1.
    rewrite <- M1. symmetry. apply (met_iff s argv ws pcs _ W H). now exists h.
  - intros h [Ih Eh]. destruct (on_line (a_id h) pcs) eqn:O; [|reflexivity]. rewrite scanned_version in M2.
    rewrite <- M2. symmetry. apply (met_iff s argv ws pcs _ W H). now exists h.
Qed.

(* ------------------------------------------------------------------ *)
(** * C09 *)

(** It is not true in general: with -h and --help both used for other purposes,
    parseArguments returns at once, so that an unknown option and a missing required
    argument go unnoticed. *)
Theorem C09_refuted : ~ (forall s argv s', reach s -> parseArguments argv s = (s', Ok tt) ->
  forall a, In a (arguments s') -> isRequired a = true -> isExists a = true).
Proof.
  intros H.
  pose (ops := [OpAdd ["-h"] []; OpAdd ["--help"] []; OpAdd ["FILE"] [MRequired true]]).
  assert (E : exists s', parseArguments ["prog"; "--unknown"] (history ops) = (s', Ok tt) /\
     existsb (fun a => isRequired a && negb (isExists a)) (arguments s') = true) by (eexists; split; vm_compute; reflexivity).
  destruct E as [s' [E B]]. apply existsb_exists in B. destruct B as [a [Ia B]]. apply andb_true_iff in B. destruct B as [B1 B2].
  rewrite (H _ _ _ (history_reach ops) E a Ia B1) in B2. discriminate.
Qed.
Print Assumptions C09_refuted.
(** It holds whenever there is a help option or one of -h, --help is free: a normal
    return means that all the words could be read (else the exception of the reading is
    thrown) and that no required argument is absent.  Missing for the full property: the
    configurations of C09_refuted. *)
Theorem C09_partial : forall s argv ws s' r, usable s -> command_line argv ws -> interprets s -> parseArguments argv s = (s', r) ->
  (forall e, rejects s ws e -> r = Throw e) /\
  (r = Ok tt -> (exists pcs, reads s ws pcs) /\ forall a, In a (arguments s') -> isRequired a = true -> isExists a = true).
Proof.
  intros s argv ws s' r U C I E. split.
  - intros e H. destruct (parse_rejects s argv ws e U C I H) as [t [X _]]. congruence.
  - intros ->. destruct (parse_ok_args s argv ws s' U C I E) as [pcs [H [A [_ [_ [Q _]]]]]]. split; [eauto|].
    intros a Ia Ra. rewrite A in Ia. apply in_map_iff in Ia. destruct Ia as [b [<- Ib]]. rewrite finished_cfg in Ra.
    destruct (finished_exist (read_arg pcs b)) as [-> _]. rewrite (read_exist s ws pcs b (usable_ready_wf s U) H Ib). now apply Q.
Qed.
Print Assumptions C09_partial.
Example C09_example : usable shop /\ interprets shop /\ command_line ["prog"; "x"; "-v"] ["x"; "-v"] /\
  snd (parseArguments ["prog"; "x"; "-v"] shop) = Ok tt /\
  snd (parseArguments ["prog"; "x"; "--bogus"] shop) = Throw (parse_error "bogus" "invalid option").
Proof. split; [apply shop_usable|]. split; [apply shop_interprets|]. split; [line|]. split; vm_compute; reflexivity. Qed.

(* ------------------------------------------------------------------ *)
(** * C17 *)
Theorem C17_return : forall s argv ws s', usable s -> command_line argv ws -> interprets s ->
  parseArguments argv s = (s', Ok tt) -> forall a, In a (arguments s') -> isRequired a = true -> isExists a = true.
Proof. intros s argv ws s' U C I E. now apply (C09_partial s argv ws s' (Ok tt) U C I E). Qed.
Print Assumptions C17_return.
(** The words can be read, neither the help nor the version option is among them, and [a]
    is the first required argument in listing order that is absent. *)
Theorem C17_missing : forall s argv ws pcs l1 a l2, usable s -> command_line argv ws -> interprets s -> reads s ws pcs ->
  (forall h, is_help (ready s) h \/ is_version (ready s) h -> on_line (a_id h) pcs = false) ->
  arguments (ready s) = l1 ++ a :: l2 ->
  (forall b, In b l1 -> isRequired b = true -> on_line (a_id b) pcs = true) ->
  isRequired a = true -> on_line (a_id a) pcs = false ->
  exists s', parseArguments argv s = (s', Throw (required_error a)).
Proof.
  intros s argv ws pcs l1 a l2 U C I H NH EQ L1 RA OA. pose proof (usable_ready_wf s U) as W.
  pose proof (parse_finish s argv ws pcs U C I H) as F. 
  assert (MH : met (s_help (scanned argv pcs s)) (scanned argv pcs s) = false).
  { destruct (met _ _) eqn:M; [|reflexivity]. apply (proj1 (met_iff s argv ws pcs _ W H)) in M. destruct M as [h [Ih [Eh O]]].
    rewrite scanned_help in Eh. rewrite NH in O; [discriminate|]. left. now split. }
  assert (MV : met (s_version (scanned argv pcs s)) (scanned argv pcs s) = false).
  { destruct (met (s_version _) _) eqn:M; [|reflexivity]. apply (proj1 (met_iff s argv ws pcs _ W H)) in M. destruct M as [h [Ih [Eh O]]].
    rewrite scanned_version in Eh. rewrite NH in O; [discriminate|]. right. now split. }
  assert (MI : exists l, missing (scanned argv pcs s) = read_arg pcs a :: l).
  { rewrite (missing_scanned s argv ws pcs W H), EQ, filter_app. cbn [filter]. rewrite RA, OA. simpl.
    replace (filter (fun b => isRequired b && negb (on_line (a_id b) pcs)) l1) with (@nil argument); [simpl; eauto|].
    symmetry. clear EQ. induction l1 as [|b l1 IH]; [reflexivity|]. simpl. rewrite IH by (intros; apply L1; [now right | assumption]).
    destruct (isRequired b) eqn:Rb; [|reflexivity]. rewrite (L1 b (or_introl eq_refl) Rb). reflexivity. }
  destruct MI as [l MI]. destruct (parseArguments argv s) as [s' r]. exists s'. simpl in F. f_equal.
  inversion F; subst; try congruence. rewrite MI in *. match goal with K : _ :: _ = _ :: _ |- _ => injection K as <- <- end. reflexivity.
Qed.
Print Assumptions C17_missing.
Example C17_example : exists s', parseArguments ["prog"; "-v"] shop = (s', Throw (Exn KRequired "SRC" "argument is required")).
Proof. eexists. vm_compute. reflexivity. Qed.

(* ------------------------------------------------------------------ *)
(** * C18, C19 *)
Lemma usage_frame : forall s s', frame s s' -> s_bin s' = s_bin s -> getUsage s' = getUsage s.
Proof.
  intros s s' F B. unfold getUsage. rewrite (fr_usage _ _ F).
  assert (M : map a_cfg (s_args s') = map a_cfg (s_args s)).
  { pose proof (f_equal (map snd) (fr_args _ _ F)) as X. unfold static in X. now rewrite !map_map in X. }
  assert (OP : forall l l', map a_cfg l' = map a_cfg l -> options_of l' = options_of l /\ positionals_of l' = positionals_of l /\ forallb usage_defined l' = forallb usage_defined l).
  { unfold options_of, positionals_of, is_pos_arg, usage_defined, has_name, is_pos_arg. induction l as [|a l IH]; intros [|a' l'] X; try discriminate; [auto|].
    cbn [map] in X. injection X as X1 X2. destruct (IH l' X2) as [Y1 [Y2 Y3]]. cbn [filter map forallb]. rewrite X1, Y3.
    destruct (is_positional (c_type (a_cfg a))); cbn [negb map]; rewrite ?Y1, ?Y2, ?X1; auto. }
  destruct (OP _ _ M) as [O1 [O2 O3]]. unfold usage_text, synopsis. rewrite B, (fr_usage _ _ F), O1, O2, O3. reflexivity.
Qed.
Lemma scanned_usage : forall s argv pcs, getUsage (scanned argv pcs s) = getUsage (named argv (ready s)).
Proof.
  intros s argv pcs. apply usage_frame.
  - eapply frame_trans; [|apply frame_scanned]. unfold named. split; now destruct (s_bin (ready s)).
  - reflexivity.
Qed.
Lemma ready_modes : forall s, wf0 s -> s_modes (ready s) = s_modes s /\ s_verstr (ready s) = s_verstr s.
Proof. intros s W. destruct (ready_cases s W) as [[-> _]|[-> _]]; split; reflexivity. Qed.
Lemma scanned_modes : forall s argv pcs, wf0 s -> s_modes (scanned argv pcs s) = s_modes s /\ s_verstr (scanned argv pcs s) = s_verstr s.
Proof.
  intros s argv pcs W. rewrite (fr_modes _ _ (frame_scanned s argv pcs)), (fr_verstr _ _ (frame_scanned s argv pcs)). now apply ready_modes.
Qed.
Lemma scanned_text : forall s argv pcs, usable s -> getUsage (scanned argv pcs s) = Ok (usage_of (scanned argv pcs s)).
Proof.
  intros s argv pcs U. destruct (usable_scanned s argv pcs U) as [[W _] _]. destruct (usage_ok _ W) as [t E]. unfold usage_of. now rewrite E.
Qed.
Lemma visible_clear : forall s, visible (fst (clear s)) = init.
Proof. reflexivity. Qed.

(** The words can be read and the help option is among them: whatever else is on the
    command line, required, or validated. *)
Theorem C18_help : forall s argv ws pcs h, usable s -> command_line argv ws -> interprets s -> reads s ws pcs ->
  is_help (ready s) h -> on_line (a_id h) pcs = true ->
  exists t s', getUsage (named argv (ready s)) = Ok t /\
    (if m_helpex (s_modes s)
     then parseArguments argv s = (s', Throw (Exn KHelp "" t)) /\ getUsage s' = Ok t
     else parseArguments argv s = (s', Exit (t ^^ nl)) /\ visible s' = init).
Proof.
  intros s argv ws pcs h U C I H [Ih Eh] O. pose proof (usable_ready_wf s U) as W.
  pose proof (parse_finish s argv ws pcs U C I H) as F.
  assert (M : met (s_help (scanned argv pcs s)) (scanned argv pcs s) = true).
  { apply (proj2 (met_iff s argv ws pcs _ W H)). exists h. rewrite scanned_help. auto. }
  pose proof (scanned_text s argv pcs U) as T. destruct (scanned_modes s argv pcs (usable_wf0 s U)) as [Md _].
  destruct (parseArguments argv s) as [s' r]. cbn [fst snd] in F.
  exists (usage_of (scanned argv pcs s)), s'. split; [now rewrite <- (scanned_usage s argv pcs)|].
  rewrite <- Md. inversion F; subst; try congruence. destruct (m_helpex (s_modes (scanned argv pcs s))); auto.
Qed.
Print Assumptions C18_help.

Lemma before_end_kind : forall K c name value avail e, option_values K c name value avail = inl e -> x_kind e = KParse.
Proof.
  intros K c name value avail e. unfold option_values. destruct value; [destruct (arity_of c); intros E; now inversion E|].
  destruct (take_words _ _ _); intros E; now inversion E.
Qed.
Lemma bundle_kind : forall K value cs bools e, bundle K value bools cs = MeansError e -> x_kind e = KParse.
Proof.
  intros K value. induction cs as [|c r IH]; intros bools e; cbn [bundle]; [now intros [= <-]|].
  destruct (k_find K (one_char c)) as [[i cf]|]; [|now intros [= <-]]. destruct r; [discriminate|].
  destruct value; [destruct (is_flag_type _); [apply IH | now intros [= <-]]|].
  destruct (glues cf); [discriminate|]. destruct (is_flag_type _); [apply IH | now intros [= <-]].
Qed.
Lemma read_option_kind : forall K w avail e, read_option K w avail = inl e -> x_kind e = KParse.
Proof.
  intros K w avail e. unfold read_option. destruct (word_meaning K w) as [e'|bools id c name st value] eqn:M.
  - intros [= <-]. revert M. unfold word_meaning. destruct (cut_eq w) as [name value].
    assert (A : match (if k_alt K then k_find K (String "-" name) else None) with
                | Some (id, c) => MeansOption [] id c (after1 name) (style_of value) value | None => bundle K value [] (after1 name) end = MeansError e' -> x_kind e' = KParse).
    { destruct (if k_alt K then _ else _) as [[? ?]|]; [discriminate | apply bundle_kind]. }
    destruct (word_kind w); auto. destruct (k_find K name) as [[? ?]|]; [discriminate|]. now intros [= <-].
  - destruct (option_values _ _ _ _ _) eqn:V; [|discriminate]. intros [= <-]. now apply before_end_kind in V.
Qed.
Lemma FailsEnd_kind : forall K ps ws e, FailsEnd K ps ws e -> x_kind e = KParse.
Proof. intros K ps ws e H. induction H; auto. Qed.
(** all exceptions of the reading are ParseArgumentException *)
Lemma rejects_kind : forall s ws e, rejects s ws e -> x_kind e = KParse.
Proof.
  intros s ws e. unfold rejects. generalize (positionals (setup s)) (setup s). intros ps K H. induction H; auto.
  - now apply read_option_kind in H0.
  - now apply FailsEnd_kind in H0.
Qed.
Lemma ev_of_kind : forall r f e, snd (ev_of r f) = Some e -> r = Throw e.
Proof. intros [?|?|?| |] f e0; cbn; try discriminate. now intros [= <-]. Qed.
Lemma str_to_kind : forall ty b w e, str_to ty b w = Throw e -> x_kind e = KParse.
Proof. intros [] b w e; cbn; try discriminate. now intros [= <-]. Qed.
Lemma single_to_kind : forall ty a e, single_to ty a = Throw e -> x_kind e = KParse.
Proof.
  intros ty a e. unfold single_to. destruct (c_type (a_cfg a)); try apply str_to_kind; unfold bool_to; destruct ty; try discriminate; now intros [= <-].
Qed.
Lemma ev_seq_kind : forall l e, (forall x, In x l -> forall e, snd x = Some e -> x_kind e = KParse) -> snd (ev_seq l) = Some e -> x_kind e = KParse.
Proof.
  induction l as [|[es [x|]] l IH]; intros e H; cbn [ev_seq]; [discriminate| |].
  - intros E. apply (H _ (or_introl eq_refl)). exact E.
  - destruct (ev_seq l) as [es' o]. cbn [snd] in *. intros E. apply IH; [|exact E]. intros y Iy. apply H. now right.
Qed.
Lemma res_all_kind : forall ty ws e, snd (res_all (map (str_to ty true) ws)) = Some e -> x_kind e = KParse.
Proof.
  induction ws as [|w ws IH]; intros e; cbn [map res_all]; [discriminate|]. destruct (str_to ty true w) eqn:S; cbn [snd].
  - destruct (res_all _) as [vs o]. cbn [snd] in *. apply IH.
  - intros [= <-]. now apply str_to_kind in S.
  - apply IH. - apply IH. - apply IH.
Qed.
Lemma events_kind : forall a e, snd (arg_events a) = Some e -> x_kind e = KParse.
Proof.
  intros a e. unfold arg_events. destruct (c_dest (a_cfg a)) as [d|]; [|discriminate]. unfold dest_events.
  destruct (d_kind d); (destruct (d_custom d); [discriminate|]); try (intros E; apply ev_of_kind in E; now apply single_to_kind in E).
  - destruct (d_elems (a_dyn a)); [intros E; apply ev_of_kind in E; now apply single_to_kind in E|]. apply ev_seq_kind.
    intros x Ix e' E. apply in_map_iff in Ix. destruct Ix as [w [<- _]]. apply ev_of_kind in E. now apply str_to_kind in E.
  - destruct (d_elems (a_dyn a)); [intros E; apply ev_of_kind in E; now apply single_to_kind in E|]. apply ev_seq_kind.
    intros x Ix e' E. apply in_map_iff in Ix. destruct Ix as [w [<- _]].
    pose proof (res_all_kind (d_ty d) (elem_strings w)) as R. destruct (res_all _) as [vs [y|]]; cbn [snd] in *; [|discriminate]. apply R. exact E.
Qed.
Lemma trouble_kind : forall a e, trouble a = Some e -> x_kind e = KForeign \/ x_kind e = KValid \/ x_kind e = KParse.
Proof.
  intros a e. unfold trouble. destruct (refusal a) as [x|] eqn:R.
  - intros [= <-]. revert R. unfold refusal. destruct (c_valid (a_cfg a)) as [v|]; [|discriminate]. destruct (d_exist _); [|discriminate].
    destruct (v_fn _ _) as [[] ?| |]; [destruct (has_values _); [discriminate|] | | |]; intros [= <-]; auto.
  - intros E. right. right. eapply events_kind; eauto.
Qed.

(** Never otherwise: HelpException only if the help option was met; exit only if the help
    or the version option was met. *)
Theorem C18_only : forall s argv ws s' r, usable s -> command_line argv ws -> interprets s -> parseArguments argv s = (s', r) ->
  (forall e, r = Throw e -> x_kind e = KHelp ->
     exists pcs h, reads s ws pcs /\ is_help (ready s) h /\ on_line (a_id h) pcs = true) /\
  (forall out, r = Exit out ->
     exists pcs h, reads s ws pcs /\ on_line (a_id h) pcs = true /\
       (is_help (ready s) h \/ (is_version (ready s) h /\ out = s_verstr s ^^ nl))).
Proof.
  intros s argv ws s' r U C I E. pose proof (usable_ready_wf s U) as W.
  destruct (read_or_reject s argv ws U C I) as [[pcs H]|[e H]].
  2:{ destruct (parse_rejects s argv ws e U C I H) as [s1 [E1 _]]. rewrite E in E1. injection E1 as <- ->. pose proof (rejects_kind s ws e H) as K.
      split; [intros x [= <-] X; congruence | discriminate]. }
  pose proof (parse_finish s argv ws pcs U C I H) as F. rewrite E in F. cbn [fst snd] in F.
  destruct (scanned_modes s argv pcs (usable_wf0 s U)) as [_ Vs].
  assert (MH : met (s_help (scanned argv pcs s)) (scanned argv pcs s) = true -> exists h, is_help (ready s) h /\ on_line (a_id h) pcs = true).
  { intros M. apply (proj1 (met_iff s argv ws pcs _ W H)) in M. destruct M as [h [Ih [Eh O]]]. exists h. rewrite scanned_help in Eh. now repeat split. }
  assert (MV : met (s_version (scanned argv pcs s)) (scanned argv pcs s) = true -> exists h, is_version (ready s) h /\ on_line (a_id h) pcs = true).
  { intros M. apply (proj1 (met_iff s argv ws pcs _ W H)) in M. destruct M as [h [Ih [Eh O]]]. exists h. rewrite scanned_version in Eh. now repeat split. }
  inversion F; subst.
  - destruct MH as [h [Ih O]]; [assumption|]. split; intros; exists pcs, h; repeat split; auto; apply Ih.
  - destruct MV as [h [Ih O]]; [assumption|]. split.
    + intros x X K. destruct (m_verex _); inversion X; subst; discriminate.
    + intros out X. exists pcs, h. repeat split; auto. right. split; [exact Ih|]. destruct (m_verex _); [discriminate|]. injection X as <-. rewrite <- Vs. reflexivity.
  - split; [|discriminate]. intros x [= <-]. discriminate.
  - split; [|discriminate]. intros x [= <-] K. match goal with T : trouble _ = Some _ |- _ => apply trouble_kind in T; destruct T as [T|[T|T]]; congruence end.
  - split; intros; discriminate.
Qed.
Print Assumptions C18_only.
Example C18_example : exists pcs h, reads shop ["-V"; "--help"; "-p"; "1"; "2"] pcs /\ is_help (ready shop) h /\ on_line (a_id h) pcs = true /\
  exists t, snd (parseArguments ["prog"; "-V"; "--help"; "-p"; "1"; "2"] shop) = Exit t.
Proof.
  eexists. exists (pick "-h" (ready shop)).
  split; [reading|]. split; [split; [apply pick_In; vm_compute; reflexivity | vm_compute; reflexivity]|].
  split; [vm_compute; reflexivity|]. eexists. vm_compute. reflexivity.
Qed.

(** Version: after help, before everything else. *)
Theorem C19_version : forall s argv ws pcs v, usable s -> command_line argv ws -> interprets s -> reads s ws pcs ->
  (forall h, is_help (ready s) h -> on_line (a_id h) pcs = false) ->
  is_version (ready s) v -> on_line (a_id v) pcs = true ->
  exists s', if m_verex (s_modes s)
     then parseArguments argv s = (s', Throw (Exn KVersion "" (s_verstr s)))
     else parseArguments argv s = (s', Exit (s_verstr s ^^ nl)) /\ visible s' = init.
Proof.
  intros s argv ws pcs h U C I H NH [Ih Eh] O. pose proof (usable_ready_wf s U) as W.
  pose proof (parse_finish s argv ws pcs U C I H) as F.
  assert (M : met (s_version (scanned argv pcs s)) (scanned argv pcs s) = true).
  { apply (proj2 (met_iff s argv ws pcs _ W H)). exists h. rewrite scanned_version. auto. }
  assert (MH : met (s_help (scanned argv pcs s)) (scanned argv pcs s) = false).
  { destruct (met (s_help _) _) eqn:X; [|reflexivity]. apply (proj1 (met_iff s argv ws pcs _ W H)) in X. destruct X as [k [Ik [Ek Ok]]].
    rewrite scanned_help in Ek. rewrite NH in Ok; [discriminate|]. now split. }
  destruct (scanned_modes s argv pcs (usable_wf0 s U)) as [Md Vs].
  destruct (parseArguments argv s) as [s' r]. cbn [fst snd] in F. exists s'. rewrite <- Md, <- Vs.
  inversion F; subst; try congruence. destruct (m_verex (s_modes (scanned argv pcs s))); auto.
Qed.
Print Assumptions C19_version.
(** never otherwise *)
Theorem C19_only : forall s argv ws s' e, usable s -> command_line argv ws -> interprets s -> parseArguments argv s = (s', Throw e) ->
  x_kind e = KVersion -> exists pcs v, reads s ws pcs /\ is_version (ready s) v /\ on_line (a_id v) pcs = true /\
    forall h, is_help (ready s) h -> on_line (a_id h) pcs = false.
Proof.
  intros s argv ws s' e U C I E K. pose proof (usable_ready_wf s U) as W.
  destruct (read_or_reject s argv ws U C I) as [[pcs H]|[e' H]].
  2:{ destruct (parse_rejects s argv ws e' U C I H) as [s1 [E1 _]]. rewrite E in E1. injection E1 as <- ->. pose proof (rejects_kind s ws e' H). congruence. }
  pose proof (parse_finish s argv ws pcs U C I H) as F. rewrite E in F. cbn [fst snd] in F. inversion F; subst.
  - destruct (m_helpex _); match goal with X : _ = Throw e |- _ => inversion X; subst; discriminate end.
  - match goal with M : met (s_version _) _ = true |- _ => apply (proj1 (met_iff s argv ws pcs _ W H)) in M; destruct M as [h [Ih [Eh O]]] end.
    rewrite scanned_version in Eh. exists pcs, h. repeat split; auto. intros k [Ik Ek]. destruct (on_line (a_id k) pcs) eqn:Ok; [|reflexivity].
    enough (met (s_help (scanned argv pcs s)) (scanned argv pcs s) = true) by congruence.
    apply (proj2 (met_iff s argv ws pcs _ W H)). exists k. rewrite scanned_help. auto.
  - discriminate.
  - match goal with T : trouble _ = Some _ |- _ => apply trouble_kind in T; destruct T as [T|[T|T]]; congruence end.
Qed.
Print Assumptions C19_only.
Example C19_example : exists pcs v, reads shop ["--version"; "-p"; "1"; "2"] pcs /\ is_version (ready shop) v /\ on_line (a_id v) pcs = true /\
  exists t, snd (parseArguments ["prog"; "--version"; "-p"; "1"; "2"] shop) = Exit t.
Proof.
  eexists. exists (pick "-V" (ready shop)).
  split; [reading|]. split; [split; [apply pick_In; vm_compute; reflexivity | vm_compute; reflexivity]|].
  split; [vm_compute; reflexivity|]. eexists. vm_compute. reflexivity.
Qed.

(* ------------------------------------------------------------------ *)
(** * C14 *)
(** If parseArguments returns, the words after argv[0] are, in order, the words of the
    pieces: an option word with the following words it uses, the words given to a
    positional, an additional word, the separator.  (The same for any command line whose
    scan completes: [reads].) *)
Theorem C14_accounted : forall s argv ws s', usable s -> command_line argv ws -> interprets s -> parseArguments argv s = (s', Ok tt) ->
  exists pcs, reads s ws pcs /\ flat_map piece_words pcs = ws.
Proof.
  intros s argv ws s' U C I E. destruct (parse_ok_args s argv ws s' U C I E) as [pcs [H _]]. exists pcs. split; [exact H|].
  exact (Reading_words _ _ _ _ H).
Qed.
Print Assumptions C14_accounted.
(** also when it ends by help, version, a missing required argument, a validator or a destination *)
Theorem C14_scan : forall s ws pcs, reads s ws pcs ->
  flat_map piece_words pcs = ws /\
  (forall w occs used, In (PcOption w occs used) pcs -> word_kind w = WShort \/ word_kind w = WLong).
Proof.
  intros s ws pcs H. split; [exact (Reading_words _ _ _ _ H)|]. intros w occs used Ip. now apply (Reading_option _ _ _ _ H) in Ip.
Qed.
Print Assumptions C14_scan.
(** there is only one such division of the words, and the words are either read or rejected *)
Theorem C14_unique : forall s argv ws, usable s -> command_line argv ws -> interprets s ->
  (forall p q, reads s ws p -> reads s ws q -> p = q) /\ (forall p e, reads s ws p -> ~ rejects s ws e) /\
  ((exists pcs, reads s ws pcs) \/ (exists e, rejects s ws e)).
Proof.
  intros s argv ws U C I. split; [|split].
  - intros p q H H'. exact (Reading_det _ _ _ _ H _ H').
  - intros p e H. exact (Reading_not_fails _ _ _ _ H e).
  - exact (read_or_reject s argv ws U C I).
Qed.
Print Assumptions C14_unique.
Example C14_example : exists pcs, reads shop ["-v"; "a"; "--name=x"; "-p"; "1"; "2"; "--"; "-q"; "rest"] pcs /\
  map piece_words pcs = [["-v"]; ["a"]; ["--name=x"]; ["-p"; "1"; "2"]; ["--"]; ["-q"]; ["rest"]].
Proof. eexists. split; [reading | reflexivity]. Qed.

(* ------------------------------------------------------------------ *)
(** * C12, C13 *)
Lemma before_end_cut : forall w ws post, word_kind w <> WEnd -> ~ In "--" (w :: ws) -> before_end ((w :: ws) ++ "--" :: post) = before_end (w :: ws).
Proof. intros w ws post _ N. now rewrite before_end_app, before_end_none. Qed.
Lemma take_len : forall stop ar l vs, take_words stop ar l = Some vs -> length vs <= length l.
Proof. intros stop ar l vs H. apply take_prefix in H. rewrite H, firstn_length. lia. Qed.
Lemma skipn_app_le : forall {A} n (l m : list A), n <= length l -> skipn n (l ++ m) = skipn n l ++ m.
Proof. intros A n l m H. rewrite skipn_app. replace (n - length l) with 0 by lia. reflexivity. Qed.
Lemma In_skipn : forall {A} n (l : list A) x, In x (skipn n l) -> In x l.
Proof. intros A n l x H. rewrite <- (firstn_skipn n l). apply in_or_app. now right. Qed.
(** the words before "--" are read as if the command line ended there *)
Lemma Reading_before : forall K ps pre p1, Reading K ps pre p1 -> ~ In "--" pre -> forall post, exists left, Reached K ps (pre ++ "--" :: post) p1 left ("--" :: post).
Proof.
  intros K ps pre p1 H. induction H; intros N post.
  - exists ps. apply Rc_here.
  - assert (N1 : ~ In "--" ws) by (intros X; apply N; now right).
    assert (L : length used <= length ws). { apply read_option_used in H0. rewrite H0, firstn_length, (before_end_none ws N1). lia. }
    destruct (IHReading (fun X => N1 (In_skipn _ _ _ X)) post) as [left R]. exists left. cbn [app]. econstructor; [exact H | |].
    + rewrite before_end_app by exact N1. rewrite before_end_none in H0 by exact N1. exact H0.
    + rewrite skipn_app_le by exact L. exact R.
  - exfalso. apply N. left. now apply kind_end'.
  - assert (L : length vs <= length (w :: ws)). { apply take_len in H0. rewrite before_end_none in H0 by exact N. exact H0. }
    destruct (IHReading (fun X => N (In_skipn _ _ _ X)) post) as [left R]. exists left. rewrite <- app_comm_cons. econstructor; [exact H | |].
    + rewrite app_comm_cons, before_end_app by exact N. rewrite before_end_none in H0 by exact N. exact H0.
    + rewrite app_comm_cons, skipn_app_le by exact L. exact R.
  - destruct (IHReading (fun X => N (or_intror X)) post) as [left R]. exists left. cbn [app]. now econstructor.
Qed.
Lemma Fails_before : forall K ps pre e, Fails K ps pre e -> ~ In "--" pre -> forall post, Fails K ps (pre ++ "--" :: post) e.
Proof.
  intros K ps pre e H. induction H; intros N post.
  - assert (N1 : ~ In "--" ws) by (intros X; apply N; now right). apply Fl_option; [exact H|].
    rewrite before_end_app by exact N1. rewrite before_end_none in H0 by exact N1. exact H0.
  - rewrite <- app_comm_cons. apply Fl_positional; [exact H|]. rewrite app_comm_cons, before_end_app by exact N. rewrite before_end_none in H0 by exact N. exact H0.
  - apply Fl_additional; assumption.
  - assert (N1 : ~ In "--" ws) by (intros X; apply N; now right).
    assert (L : length used <= length ws). { apply read_option_used in H0. rewrite H0, firstn_length, (before_end_none ws N1). lia. }
    cbn [app]. eapply Fl_option_next; [exact H | |].
    + rewrite before_end_app by exact N1. rewrite before_end_none in H0 by exact N1. exact H0.
    + rewrite skipn_app_le by exact L. apply IHFails. intros X. exact (N1 (In_skipn _ _ _ X)).
  - exfalso. apply N. left. now apply kind_end'.
  - assert (L : length vs <= length (w :: ws)). { apply take_len in H0. rewrite before_end_none in H0 by exact N. exact H0. }
    rewrite <- app_comm_cons. eapply Fl_positional_next; [exact H | |].
    + rewrite app_comm_cons, before_end_app by exact N. rewrite before_end_none in H0 by exact N. exact H0.
    + rewrite app_comm_cons, skipn_app_le by exact L. apply IHFails. intros X. exact (N (In_skipn _ _ _ X)).
  - cbn [app]. apply Fl_additional_next; auto. apply IHFails. intros X. apply N. now right.
Qed.
(** The words after the first "--" are, in order, the words of the last pieces, and these
    are words given to positionals or additional words. *)
Theorem C12_after_end : forall s ws pcs pre post, reads s ws pcs -> ws = pre ++ "--" :: post -> ~ In "--" pre ->
  exists p1 p2, pcs = p1 ++ PcEnd :: p2 /\ flat_map piece_words p1 = pre /\ flat_map piece_words p2 = post /\
    forall p, In p p2 -> (exists i vs, p = PcPositional i vs) \/ (exists w, p = PcAdditional w).
Proof.
  intros s ws pcs pre post H -> N. destruct (Reading_split _ _ _ _ H) as [[_ X]|[p1 [p2 [ps [-> [N1 [R [B [Q [E F]]]]]]]]]].
  - exfalso. apply X. apply in_or_app. right. now left.
  - exists p1, p2. rewrite before_end_app in B by exact N. change (words_of p1 = pre) in B. split; [reflexivity|]. split; [exact B|]. split.
    + rewrite B in Q. apply app_inv_head in Q. injection Q as Q. exact (eq_sym Q).
    + intros p Ip. rewrite Forall_forall in F. specialize (F p Ip). destruct p; try contradiction; eauto.
Qed.
Print Assumptions C12_after_end.
Lemma end_occs : forall p, Forall end_piece p -> occs_of p = [].
Proof. intros p F. unfold occs_of. induction F as [|x p E F IH]; [reflexivity|]. cbn [flat_map]. rewrite IH. destruct x; now try contradiction. Qed.
(** The words before "--" decide everything about the options: two command lines that
    differ only after the "--", both accepted, leave the options in the same state
    (presence, count, values, number); words before "--" that are rejected are rejected
    whatever follows. *)
Theorem C12_options : forall s a0 pre post post' s1 s2 a, usable s -> interprets s -> ~ In "--" pre ->
  command_line (a0 :: pre ++ "--" :: post) (pre ++ "--" :: post) -> command_line (a0 :: pre ++ "--" :: post') (pre ++ "--" :: post') ->
  parseArguments (a0 :: pre ++ "--" :: post) s = (s1, Ok tt) -> parseArguments (a0 :: pre ++ "--" :: post') s = (s2, Ok tt) ->
  In a (arguments s1) -> isPositional a = false -> In a (arguments s2).
Proof.
  intros s a0 pre post post' s1 s2 a U I N C1 C2 E1 E2 Ia Pa. pose proof (usable_ready_wf s U) as W.
  destruct (parse_ok_args _ _ _ _ U C1 I E1) as [p [H1 [A1 _]]]. destruct (parse_ok_args _ _ _ _ U C2 I E2) as [q [H2 [A2 _]]].
  assert (SP : forall po pcs, reads s (pre ++ "--" :: po) pcs -> exists p1 p2 ps, pcs = p1 ++ PcEnd :: p2 /\ ~ In PcEnd p1 /\
     Reached (setup s) (positionals (setup s)) (pre ++ "--" :: po) p1 ps ("--" :: po) /\ occs_of pcs = occs_of p1).
  { intros po pcs R. destruct (Reading_split _ _ _ _ R) as [[_ X]|[p1 [p2 [ps [-> [N1 [Rc [B [Q [E F]]]]]]]]]].
    - exfalso. apply X. apply in_or_app. right. now left.
    - exists p1, p2, ps. rewrite before_end_app in B by exact N. rewrite B in Q. apply app_inv_head in Q. injection Q as Q. rewrite <- Q in Rc. split; [reflexivity|]. split; [exact N1|]. split; [exact Rc|].
      change (p1 ++ PcEnd :: p2) with (p1 ++ [PcEnd] ++ p2). rewrite !occs_of_app, (end_occs p2 F). now rewrite app_nil_r. }
  destruct (SP _ _ H1) as [p1 [p2 [ps [-> [Np [R1 O1]]]]]]. destruct (SP _ _ H2) as [q1 [q2 [qs [-> [Nq [R2 O2]]]]]].
  assert (Q : q1 = p1).
  { assert (X : forall p1 ps ws rest, Reached (setup s) ps ws p1 rest ("--" :: post) -> forall pre, ws = pre ++ "--" :: post -> ~ In "--" pre -> Reading (setup s) ps pre p1).
    { clear. intros p1 ps ws rest R. remember ("--" :: post) as tl eqn:Et. induction R; intros pre Ew N; rewrite Et in *; clear Et; cbn [app] in Ew.
      - subst. assert (pre = []) by (apply (f_equal (@length str)) in Ew; rewrite app_length in Ew; destruct pre; [reflexivity | simpl in Ew; lia]). subst. constructor.
      - destruct pre as [|x pre]; [injection Ew as -> ->; destruct H; discriminate|]. injection Ew as <- ->.
        assert (N1 : ~ In "--" pre) by (intros X; apply N; now right).
        rewrite before_end_app in H0 by exact N1. assert (L : length used <= length pre). { apply read_option_used in H0. rewrite H0, firstn_length. lia. }
        econstructor; [exact H | now rewrite before_end_none |]. apply IHR; auto; [now rewrite skipn_app_le|]. intros X. exact (N1 (In_skipn _ _ _ X)).
      - destruct pre as [|x pre]; [injection Ew as -> ->; discriminate|]. injection Ew as <- ->.
        rewrite app_comm_cons, before_end_app in H0 by exact N. assert (L : length vs <= length (w :: pre)) by now apply take_len in H0.
        econstructor; [exact H | now rewrite before_end_none |]. apply IHR; auto; [now rewrite app_comm_cons, skipn_app_le|]. intros X. exact (N (In_skipn _ _ _ X)).
      - destruct pre as [|x pre]; [injection Ew as -> ->; discriminate|]. injection Ew as <- ->. econstructor; auto. apply IHR; auto. intros X. apply N. now right. }
    assert (Y := X _ _ _ _ R1 pre eq_refl N). destruct (Reading_before _ _ _ _ Y N post') as [left R3].
    destruct (Reached_Reading_inv _ _ _ _ _ _ R3 _ H2) as [r [E3 R4]]. clear - E3 Np Nq R4.
    assert (Er : exists r', r = PcEnd :: r') by (inversion R4; subst; try discriminate; [match goal with K : word_kind "--" = _ \/ _ |- _ => destruct K; discriminate end | eauto]).
    destruct Er as [r' ->]. clear R4. revert q1 Nq E3. induction p1 as [|x p1 IH]; intros [|y q1] Nq E; cbn [app] in E; [reflexivity | | |].
    + injection E as -> _. exfalso. apply Nq. now left.
    + injection E as <- _. exfalso. apply Np. now left.
    + injection E as Exy E. subst y. f_equal. apply (IH (fun X => Np (or_intror X))); [intros X; apply Nq; now right | exact E]. }
  subst q1. rewrite A1 in Ia. apply in_map_iff in Ia. destruct Ia as [b [<- Ib]]. rewrite A2. apply in_map_iff. exists b. split; [|exact Ib].
  assert (Pb : isPositional b = false) by (rewrite finished_cfg in Pa; exact Pa).
  rewrite (read_option_arg s _ _ b W H1 Ib Pb), (read_option_arg s _ _ b W H2 Ib Pb). unfold occs_for. now rewrite O1, O2.
Qed.
Print Assumptions C12_options.
Theorem C12_rejected_before : forall s argv pre post e, usable s -> interprets s -> ~ In "--" pre ->
  command_line argv (pre ++ "--" :: post) -> rejects s pre e -> exists s', parseArguments argv s = (s', Throw e).
Proof.
  intros s argv pre post e U I N C R. pose proof (Fails_before _ _ _ _ R N post) as F.
  destruct (parse_rejects s argv _ e U C I F) as [s' [E _]]. now exists s'.
Qed.
Print Assumptions C12_rejected_before.
Example C12_example : exists pcs, reads shop ["-v"; "--"; "-n"; "--name=x"; "-z"] pcs /\
  map piece_words pcs = [["-v"]; ["--"]; ["-n"]; ["--name=x"]; ["-z"]] /\
  snd (parseArguments ["prog"; "-v"; "--"; "-n"; "--name=x"; "-z"] shop) = Ok tt /\
  snd (parseArguments ["prog"; "-v"; "--"; "x"] shop) = Ok tt.
Proof. eexists. split; [reading|]. split; [reflexivity|]. split; vm_compute; reflexivity. Qed.

(** Every value of an option comes from the words before the first "--": it is such a
    word, or the last part of such a word (-nv, -n=v, --name=v). *)
Lemma value_suffix : forall K w bools id c name st v, word_meaning K w = MeansOption bools id c name st (Some v) -> exists p, w = p ^^ v.
Proof.
  assert (CE : forall w n v, cut_eq w = (n, Some v) -> exists p, w = p ^^ v).
  { induction w as [|c w IH]; intros n v; cbn [cut_eq]; [discriminate|]. destruct (Ascii.eqb c "=") eqn:Ec.
    - intros [= <- <-]. exists (str1 c). reflexivity.
    - destruct (cut_eq w) as [n' o]; intros [= <- ->]. destruct (IH _ _ eq_refl) as [p ->]. now exists (String c p). }
  assert (CN : forall w n, cut_eq w = (n, None) -> n = w).
  { induction w as [|c w IH]; intros n; cbn [cut_eq]; [now intros [= <-]|]. destruct (Ascii.eqb c "="); [discriminate|].
    destruct (cut_eq w) as [n' o]; intros [= <- ->]. f_equal. now apply IH. }
  assert (BU : forall K value cs bools bools' id c name st v, bundle K value bools cs = MeansOption bools' id c name st (Some v) -> value = Some v \/ (value = None /\ exists p, cs = p ^^ v)).
  { intros K value. induction cs as [|x r IH]; intros bools bools' id c name st v; cbn [bundle]; [discriminate|].
    destruct (k_find K (one_char x)) as [[i cf]|]; [|discriminate]. destruct r as [|y r]; [intros [= <- <- <- <- <- ->]; now left|].
    destruct value as [u|].
    - destruct (is_flag_type _); [|discriminate]. intros E. apply IH in E. destruct E as [E|[E _]]; [now left | discriminate].
    - destruct (glues cf); [intros [= <- <- <- <- <- <-]; right; split; [reflexivity | now exists (str1 x)]|].
      destruct (is_flag_type _); [|discriminate]. intros E. apply IH in E. destruct E as [E|[_ [p ->]]]; [discriminate|]. right. split; [reflexivity|]. now exists (String x p). }
  intros K w bools id c name st v. unfold word_meaning. destruct (cut_eq w) as [n o] eqn:E.
  assert (A : match (if k_alt K then k_find K (String "-" n) else None) with
              | Some (id, c) => MeansOption [] id c (after1 n) (style_of o) o | None => bundle K o [] (after1 n) end = MeansOption bools id c name st (Some v) -> exists p, w = p ^^ v).
  { destruct (if k_alt K then _ else _) as [[? ?]|].
    - intros [= <- <- <- <- <- ->]. eapply CE; eauto.
    - intros B. apply BU in B. destruct B as [->|[-> [p P]]]; [eapply CE; eauto|]. apply CN in E. subst n. destruct w as [|x w]; cbn [after1] in P.
      + exists p. exact P.
      + exists (String x p). cbn. now f_equal. }
  destruct (word_kind w); auto. destruct (k_find K n) as [[? ?]|]; [|discriminate]. intros [= <- <- <- <- <- ->]. eapply CE; eauto.
Qed.
Lemma Reading_before_words : forall K ps ws pcs, Reading K ps ws pcs -> forall w occs used, In (PcOption w occs used) pcs ->
  In w (before_end ws) /\ incl used (before_end ws).
Proof.
  intros K ps ws pcs H w occs used Ip. destruct (Reading_split _ _ _ _ H) as [[_ N]|[p1 [p2 [ps' [-> [N1 [R [B [Q [E F]]]]]]]]]].
  - rewrite before_end_none by exact N. assert (incl (piece_words (PcOption w occs used)) ws).
    { intros x Ix. rewrite <- (Reading_words _ _ _ _ H). apply in_flat_map. eauto. }
    split; [apply H0; now left | intros x Ix; apply H0; now right].
  - apply in_app_or in Ip. destruct Ip as [Ip|[Ip|Ip]]; [| discriminate |].
    + rewrite <- B. assert (incl (piece_words (PcOption w occs used)) (words_of p1)) by (intros x Ix; apply in_flat_map; eauto).
      split; [apply H0; now left | intros x Ix; apply H0; now right].
    + rewrite Forall_forall in F. specialize (F _ Ip). contradiction.
Qed.
Theorem C13_values : forall s ws pcs o v, reads s ws pcs -> In o (occs_of pcs) -> In v (o_vals o) ->
  In v (before_end ws) \/ exists w p, In w (before_end ws) /\ w = p ^^ v.
Proof.
  intros s ws pcs o v H Io Iv. apply occs_In in Io. destruct Io as [w [occs [used [Ip Io]]]].
  destruct (Reading_before_words _ _ _ _ H _ _ _ Ip) as [Iw Iu]. destruct (Reading_option _ _ _ _ H _ _ _ Ip) as [_ [rest [R _]]].
  revert R. unfold read_option. destruct (word_meaning _ w) as [e|bools id c name st value] eqn:M; [discriminate|].
  destruct (option_values _ c name value (before_end rest)) as [e|vs] eqn:V; [discriminate|]. intros [= <- <-].
  apply in_app_or in Io. destruct Io as [Io|[<-|[]]].
  - apply in_map_iff in Io. destruct Io as [i [<- _]]. destruct Iv.
  - cbn [o_vals] in Iv. destruct value as [u|].
    + right. exists w. destruct (value_suffix _ _ _ _ _ _ _ _ M) as [p E]. exists p. split; [exact Iw|]. rewrite E. f_equal.
      revert V. unfold option_values. destruct (arity_of c); intros [= <-]; destruct Iv as [<-|[]]; reflexivity.
    + left. now apply Iu.
Qed.
Print Assumptions C13_values.
(** too few words before the next "--" (or the end of the command line) for the option *)
Definition lacks (K : conf) (c : acfg) (ws : list str) : Prop :=
  match arity_of c with
  | AOne => before_end ws = []
  | AFixed n => length (before_end ws) < n
  | AGroups n => exists k g r, before_end ws = g ++ r /\ length g = k * n /\ 0 < length r < n /\
       (forall i, i <= k -> stops K (nth (i * n) (before_end ws) "") = false)
  | ANone | ARun => False
  end.
Lemma nth_skipn' : forall {A} m k (l : list A) d, nth k (skipn m l) d = nth (m + k) l d.
Proof. intros A. induction m as [|m IH]; intros k [|x l] d; cbn [skipn]; [reflexivity | reflexivity | now destruct k | apply IH]. Qed.
Lemma groups_lack : forall stop n k g r, 0 < n -> length g = k * n -> 0 < length r < n ->
  (forall i, i <= k -> stop (nth (i * n) (g ++ r) "") = false) -> groups_from stop n 0 (g ++ r) = None.
Proof.
  intros stop n k. assert (IN : forall j l r, length l = j -> groups_from stop n j (l ++ r) = option_map (app l) (groups_from stop n 0 r)).
  { induction j as [|j IH]; intros [|x l] r E; try discriminate; cbn [app].
    - destruct (groups_from stop n 0 r); reflexivity.
    - cbn [groups_from]. rewrite (IH l r) by (simpl in E; lia). destruct (groups_from stop n 0 r); reflexivity. }
  assert (SH : forall j l, length l < j -> groups_from stop n j l = None).
  { induction j as [|j IH]; intros [|x l] E; cbn in *; try lia; [reflexivity|]. now rewrite IH by lia. }
  induction k as [|k IH]; intros g r n0 Lg Lr S.
  - destruct g; [|discriminate]. cbn [app] in *. destruct r as [|x r]; [simpl in Lr; lia|]. cbn [groups_from]. specialize (S 0 (le_n _)). cbn [Nat.mul nth] in S. rewrite S.
    rewrite SH; [reflexivity | simpl in Lr; lia].
  - destruct g as [|x g]; [simpl in Lg; lia|]. cbn [app groups_from]. pose proof (S 0 (Nat.le_0_l _)) as S0. cbn [Nat.mul app nth] in S0. rewrite S0.
    rewrite <- (firstn_skipn (n - 1) g), <- app_assoc, IN by (rewrite firstn_length; simpl in Lg; lia).
    rewrite IH; [reflexivity | exact n0 | rewrite skipn_length; simpl in Lg; lia | exact Lr |].
    intros i Hi. specialize (S (Datatypes.S i) (le_n_S _ _ Hi)). rewrite <- S. f_equal.
    replace (Datatypes.S i * n) with (Datatypes.S (n - 1 + i * n)) by lia. cbn [app nth].
    rewrite <- skipn_app_le by (simpl in Lg; lia). apply nth_skipn'.
Qed.
Lemma lacks_take : forall K c ws, (forall n, arity_of c = AGroups n -> 0 < n) -> lacks K c ws -> take_words (stops K) (arity_of c) (before_end ws) = None.
Proof.
  intros K c ws P. unfold lacks, take_words. destruct (arity_of c) as [| |n| |n]; intros L; try contradiction.
  - now rewrite L.
  - apply Nat.ltb_lt in L. now rewrite L.
  - destruct L as [k [g [r [E [Lg [Lr S]]]]]]. rewrite E in *. eapply groups_lack; eauto.
Qed.
Theorem C13_lacking : forall s argv ws pcs left w rest bools id c name st, usable s -> command_line argv ws -> interprets s ->
  reaches s ws pcs left (w :: rest) -> word_kind w = WShort \/ word_kind w = WLong ->
  word_meaning (setup s) w = MeansOption bools id c name st None -> lacks (setup s) c rest ->
  exists s', parseArguments argv s = (s', Throw (parse_error name "bad number of argument")).
Proof.
  intros s argv ws pcs left w rest bools id c name st U C I R K M L.
  assert (P : forall n, arity_of c = AGroups n -> 0 < n).
  { intros n A. unfold lacks in L. rewrite A in L. destruct L as [k [g [r [_ [_ [X _]]]]]]. lia. }
  assert (F : Fails (setup s) left (w :: rest) (parse_error name "bad number of argument")).
  { apply Fl_option; [exact K|]. unfold read_option. rewrite M. unfold option_values. now rewrite (lacks_take _ _ _ P L). }
  pose proof (Reached_Fails _ _ _ _ _ _ R _ F) as F'. destruct (parse_rejects s argv ws _ U C I F') as [s' [E _]]. now exists s'.
Qed.
Print Assumptions C13_lacking.
Example C13_example : snd (parseArguments ["prog"; "a"; "-p"; "1"; "--"; "2"] shop) = Throw (parse_error "p" "bad number of argument").
Proof. vm_compute. reflexivity. Qed.

(* ------------------------------------------------------------------ *)
(** * C15 *)
(** a word name or name=value *)
Definition attach (name : str) (value : option str) : str :=
  match value with None => name | Some v => name ^^ "=" ^^ v end.
Lemma cut_attach : forall name value, ~ has_char "=" name -> cut_eq (attach name value) = (name, value).
Proof.
  induction name as [|c n IH]; intros value H; cbn [has_char] in H.
  - destruct value; reflexivity.
  - assert (Q : Ascii.eqb c "=" = false) by (apply Ascii.eqb_neq; intros X; apply H; now left).
    assert (A : attach (String c n) value = String c (attach n value)) by (destruct value; reflexivity).
    rewrite A. cbn [cut_eq]. rewrite Q, IH; [reflexivity|]. intros X. apply H. now right.
Qed.
Lemma attach_app : forall a b v, attach (a ^^ b) v = a ^^ attach b v.
Proof. intros a b [v|]; [|reflexivity]. cbn [attach]. induction a as [|x a IH]; [reflexivity|]. cbn. now f_equal. Qed.
Lemma setup_none : forall s n, wf0 (ready s) -> argumentExists (ready s) n = false -> k_find (setup s) n = None.
Proof.
  intros s n W E. unfold setup. destruct (lookup_cases (ready s) n W) as [[_ X]|[a [_ [X _]]]]; [exact X|].
  unfold argumentExists, mem_key in E. rewrite X in E. discriminate.
Qed.
Lemma setup_some : forall s n id c, wf0 (ready s) -> k_find (setup s) n = Some (id, c) ->
  exists a, getArgument (ready s) n = Ok a /\ a_id a = id /\ a_cfg a = c.
Proof.
  intros s n id c W E. apply (k_find_arg _ _ _ _ W) in E. destruct E as [E [a [F [<- [N I]]]]].
  assert (X : a_id a = id) by (apply find_some in F; destruct F as [_ F]; now apply Nat.eqb_eq in F).
  exists a. split; [|auto]. apply (getArgument_by _ _ _ W I). now rewrite X.
Qed.
Lemma setup_get : forall s n a, wf0 (ready s) -> getArgument (ready s) n = Ok a -> k_find (setup s) n = Some (a_id a, a_cfg a).
Proof.
  intros s n a W E. apply (getArgument_inv _ _ _ W) in E. destruct E as [I [N E]]. unfold setup.
  destruct (lookup_cases (ready s) n W) as [[X _]|[b [Ib [X [_ [Y _]]]]]]; [congruence|]. rewrite Y.
  rewrite E in X. injection X as X. now rewrite (wf_unique _ _ _ W Ib I (eq_sym X)).
Qed.
(** the character is the flag of a STORE_TRUE / STORE_FALSE option *)
Definition bool_flag (s : state) (c : ascii) : Prop :=
  exists a, getArgument (ready s) (one_char c) = Ok a /\ is_flag_type (c_type (a_cfg a)) = true.
Fixpoint all_chars (P : ascii -> Prop) (cs : str) : Prop :=
  match cs with EmptyString => True | String c r => P c /\ all_chars P r end.

Theorem C15_long : forall s argv ws pcs left w rest name value, usable s -> command_line argv ws -> interprets s ->
  reaches s ws pcs left (w :: rest) -> w = attach ("--" ^^ name) value -> w <> "--" -> ~ has_char "=" name ->
  argumentExists (ready s) ("--" ^^ name) = false ->
  exists s', parseArguments argv s = (s', Throw (parse_error name "invalid option")).
Proof.
  intros s argv ws pcs left w rest name value U C I R Ew Nw Q A. pose proof (usable_ready_wf s U) as W.
  assert (WK : word_kind w = WLong).
  { rewrite Ew in Nw |- *. rewrite attach_app in Nw |- *. cbn in Nw |- *. destruct (attach name value) eqn:X; [now cbn in Nw|]. reflexivity. }
  assert (F : Fails (setup s) left (w :: rest) (parse_error name "invalid option")).
  { apply Fl_option; [now right|]. unfold read_option, word_meaning. rewrite WK, Ew, cut_attach; [|cbn; intros [X|[X|X]]; [discriminate | discriminate | now apply Q]].
    now rewrite (setup_none s _ W A). }
  pose proof (Reached_Fails _ _ _ _ _ _ R _ F) as F'. destruct (parse_rejects s argv ws _ U C I F') as [s' [E _]]. now exists s'.
Qed.
Print Assumptions C15_long.
Lemma bundle_unknown : forall s value p c r bools, wf0 (ready s) -> all_chars (bool_flag s) p -> argumentExists (ready s) (one_char c) = false ->
  bundle (setup s) value bools (p ^^ String c r) = MeansError (parse_error (str1 c) "invalid option").
Proof.
  intros s value p c r bools W. revert bools. induction p as [|x p IH]; intros bools B A; cbn [all_chars] in B.
  - cbn [String.append bundle]. now rewrite (setup_none s _ W A).
  - destruct B as [[a [G T]] B]. cbn [String.append bundle]. rewrite (setup_get s _ a W G).
    assert (X : exists y z, p ^^ String c r = String y z) by (destruct p; cbn; eauto). destruct X as [y [z X]]. rewrite X, T.
    replace (glues (a_cfg a)) with false by (unfold glues; destruct (c_type (a_cfg a)); now try discriminate). rewrite <- X, IH by assumption.
    now destruct value.
Qed.
(** boolean flags, then an unknown flag *)
Theorem C15_short : forall s argv ws pcs left w rest p c r value, usable s -> command_line argv ws -> interprets s ->
  reaches s ws pcs left (w :: rest) -> w = attach ("-" ^^ p ^^ String c r) value -> word_kind w = WShort -> ~ has_char "=" (p ^^ String c r) ->
  (m_alternative (s_modes s) = true -> argumentExists (ready s) ("--" ^^ p ^^ String c r) = false) ->
  all_chars (bool_flag s) p -> argumentExists (ready s) (one_char c) = false ->
  exists s', parseArguments argv s = (s', Throw (parse_error (str1 c) "invalid option")).
Proof.
  intros s argv ws pcs left w rest p c r value U C I R Ew WK Q Alt B A. pose proof (usable_ready_wf s U) as W.
  assert (F : Fails (setup s) left (w :: rest) (parse_error (str1 c) "invalid option")).
  { apply Fl_option; [now left|]. unfold read_option, word_meaning. rewrite WK, Ew, cut_attach; [|cbn; intros [X|X]; [discriminate | now apply Q]].
    cbn [String.append after1]. destruct (k_alt (setup s)) eqn:Ka.
    - unfold setup in Ka. cbn [conf_of k_alt] in Ka. destruct (ready_modes s (usable_wf0 s U)) as [Md _]. rewrite Md in Ka. specialize (Alt Ka). cbn [String.append] in Alt.
      rewrite (setup_none s _ W Alt). now rewrite (bundle_unknown s value p c r [] W B A).
    - now rewrite (bundle_unknown s value p c r [] W B A). }
  pose proof (Reached_Fails _ _ _ _ _ _ R _ F) as F'. destruct (parse_rejects s argv ws _ U C I F') as [s' [E _]]. now exists s'.
Qed.
Print Assumptions C15_short.
(** Conversely, an option word that parseArguments accepts consists of known flags only:
    a registered long flag (or, in alternative mode, its short form), or boolean flags
    followed by one registered flag, followed by nothing or by the value of that flag. *)
Theorem C15_accepted : forall s ws pcs w occs used name value, usable s -> reads s ws pcs -> In (PcOption w occs used) pcs ->
  w = attach name value -> ~ has_char "=" name ->
  (word_kind w = WLong /\ argumentExists (ready s) name = true) \/
  (word_kind w = WShort /\ m_alternative (s_modes s) = true /\ argumentExists (ready s) (String "-" name) = true) \/
  (word_kind w = WShort /\ exists p c r, name = "-" ^^ p ^^ String c r /\ all_chars (bool_flag s) p /\
     exists a, getArgument (ready s) (one_char c) = Ok a /\
       (r = "" \/ (value = None /\ glues (a_cfg a) = true /\ exists o, In o occs /\ o_id o = a_id a /\ o_vals o = [r]))).
Proof.
  intros s ws pcs w occs used name value U H Ip Ew Q. pose proof (usable_ready_wf s U) as W.
  destruct (Reading_option _ _ _ _ H _ _ _ Ip) as [WK [rest [R _]]].
  assert (EX : forall n p, k_find (setup s) n = Some p -> argumentExists (ready s) n = true).
  { intros n [id c] K. destruct (argumentExists (ready s) n) eqn:X; [reflexivity|]. rewrite (setup_none s n W X) in K. discriminate. }
  revert R. unfold read_option, word_meaning. assert (CA := cut_attach name value Q). rewrite <- Ew in CA. rewrite CA.
  destruct WK as [WK|WK]; rewrite WK.
  2:{ destruct (k_find (setup s) name) as [[id c]|] eqn:K; [|discriminate]. intros _. left. split; [reflexivity | eauto]. }
  destruct (k_alt (setup s)) eqn:Ka; [destruct (k_find (setup s) (String "-" name)) as [[id c]|] eqn:K|].
  1:{ intros _. right. left. unfold setup in Ka. cbn [conf_of k_alt] in Ka. destruct (ready_modes s (usable_wf0 s U)) as [Md _]. rewrite Md in Ka. repeat split; eauto. }
  all: intros R; right; right; (split; [reflexivity|]).
  all: destruct (kind_short_form w WK) as [c0 [r0 [E0 _]]].
  all: assert (N0 : exists cs, name = String "-" cs)
    by (destruct name as [|n0 ns]; [destruct value; cbn in Ew; rewrite Ew in E0; discriminate | exists ns; f_equal; destruct value; cbn in Ew; rewrite Ew in E0; now injection E0]).
  all: destruct N0 as [cs ->]; cbn [after1] in R.
  all: assert (BB : forall cs bools, match bundle (setup s) value bools cs with
        | MeansError e => inl e
        | MeansOption bools id c name st value =>
            match option_values (setup s) c name value (before_end rest) with
            | inl e => inl e
            | inr vs => inr (map flag_occ bools ++ [Occ id st vs], match value with Some _ => [] | None => vs end)
            end
        end = inr (occs, used) -> exists p c r, cs = p ^^ String c r /\ all_chars (bool_flag s) p /\
     exists a, getArgument (ready s) (one_char c) = Ok a /\
       (r = "" \/ (value = None /\ glues (a_cfg a) = true /\ exists o, In o occs /\ o_id o = a_id a /\ o_vals o = [r])))
   by (clear - W; induction cs as [|c cs IH]; intros bools; cbn [bundle]; [discriminate|];
       destruct (k_find (setup s) (one_char c)) as [[id cf]|] eqn:K; [|discriminate]; destruct (setup_some s _ _ _ W K) as [a [G [<- <-]]];
       destruct cs as [|d cs]; [intros _; exists "", c, ""; repeat split; exists a; auto|];
       assert (FL : is_flag_type (c_type (a_cfg a)) = true -> (exists p c0 r, String d cs = p ^^ String c0 r /\ all_chars (bool_flag s) p /\
     exists a, getArgument (ready s) (one_char c0) = Ok a /\
       (r = "" \/ (value = None /\ glues (a_cfg a) = true /\ exists o, In o occs /\ o_id o = a_id a /\ o_vals o = [r]))) ->
        exists p c0 r, String c (String d cs) = p ^^ String c0 r /\ all_chars (bool_flag s) p /\
     exists a, getArgument (ready s) (one_char c0) = Ok a /\
       (r = "" \/ (value = None /\ glues (a_cfg a) = true /\ exists o, In o occs /\ o_id o = a_id a /\ o_vals o = [r])))
        by (intros T [p [c1 [r [E [B D]]]]]; exists (String c p), c1, r; split; [cbn; now f_equal|]; split; [split; [now exists a | exact B] | exact D]);
       destruct value as [v|];
       [ destruct (is_flag_type (c_type (a_cfg a))) eqn:T; [|discriminate]; intros R; apply FL; [reflexivity|]; eapply IH; exact R
       | destruct (glues (a_cfg a)) eqn:Gl;
         [ intros R; exists "", c, (String d cs); split; [reflexivity|]; split; [exact I|]; exists a; split; [exact G|]; right; split; [reflexivity|]; split; [exact Gl|];
           destruct (option_values (setup s) (a_cfg a) (str1 c) (Some (String d cs)) (before_end rest)) as [e|vs] eqn:V; [discriminate|]; injection R as <- _;
           exists (Occ (a_id a) Glued vs); split; [apply in_or_app; right; now left|]; split; [reflexivity|]; cbn [o_vals];
           revert V; unfold option_values; destruct (arity_of (a_cfg a)); intros [= <-]; reflexivity
         | destruct (is_flag_type (c_type (a_cfg a))) eqn:T; [|discriminate]; intros R; apply FL; [reflexivity|]; eapply IH; exact R ]]).
  all: destruct (BB cs [] R) as [p [c [r [-> D]]]]; exists p, c, r; split; [reflexivity | exact D].
Qed.
Print Assumptions C15_accepted.
Example C15_example : snd (parseArguments ["prog"; "a"; "-vqz"] shop) = Throw (parse_error "z" "invalid option") /\
  snd (parseArguments ["prog"; "a"; "--bogus=1"] shop) = Throw (parse_error "bogus" "invalid option") /\
  bool_flag shop "v" /\ bool_flag shop "q" /\ argumentExists (ready shop) "-z" = false.
Proof.
  split; [vm_compute; reflexivity|]. split; [vm_compute; reflexivity|].
  repeat split; try (vm_compute; reflexivity); eexists; (split; [vm_compute; reflexivity | reflexivity]).
Qed.

(* ------------------------------------------------------------------ *)
(** * C16 *)
(** Strict mode: nothing is added.  *)
Lemma Reading_strict : forall K ps ws pcs, Reading K ps ws pcs -> k_strict K = true -> additional_of pcs = [].
Proof.
  assert (E : forall K ps ws pcs, ReadingEnd K ps ws pcs -> k_strict K = true -> additional_of pcs = []).
  { intros K ps ws pcs H S. induction H; [reflexivity | exact IHReadingEnd | congruence]. }
  intros K ps ws pcs H S. induction H; [reflexivity | exact IHReading | exact (E _ _ _ _ H0 S) | exact IHReading | congruence].
Qed.
Theorem C16_strict : forall s argv ws s', usable s -> command_line argv ws -> interprets s -> m_strict (s_modes s) = true ->
  parseArguments argv s = (s', Ok tt) -> getAdditionalArguments s' = getAdditionalArguments s.
Proof.
  intros s argv ws s' U C I S E. destruct (parse_ok_args s argv ws s' U C I E) as [pcs [H [_ [A _]]]]. rewrite A.
  rewrite (Reading_strict _ _ _ _ H); [apply app_nil_r|]. unfold setup. cbn [conf_of k_strict]. destruct (ready_modes s (usable_wf0 s U)) as [-> _]. exact S.
Qed.
Print Assumptions C16_strict.
(** Non-strict mode: the words added are the additional pieces in order; a piece is
    additional only if all positionals had been given words before it and it is not an
    option word (unless it follows the "--"). *)
Theorem C16_collected : forall s argv ws s', usable s -> command_line argv ws -> interprets s -> parseArguments argv s = (s', Ok tt) ->
  exists pcs, reads s ws pcs /\ getAdditionalArguments s' = getAdditionalArguments s ++ additional_of pcs /\
    forall p1 w p2, pcs = p1 ++ PcAdditional w :: p2 ->
      (forall a, In a (arguments (ready s)) -> isPositional a = true -> exists vs, In (PcPositional (a_id a) vs) p1) /\
      (In PcEnd p1 \/ plain_word w).
Proof.
  intros s argv ws s' U C I E. destruct (parse_ok_args s argv ws s' U C I E) as [pcs [H [_ [A _]]]]. exists pcs. split; [exact H|]. split; [exact A|].
  intros p1 w p2 Ep. destruct (Reading_additional _ _ _ _ H p1 w p2 Ep) as [_ [G K]]. split.
  - intros a Ia Pa. assert (X : In (a_id a) (map fst (positionals (setup s)))).
    { apply in_map_iff. exists (a_id a, a_cfg a). split; [reflexivity|]. apply filter_In. split; [|exact Pa]. apply in_map_iff. now exists a. }
    rewrite <- G in X. apply in_map_iff in X. destruct X as [[i vs] [Ei Ig]]. cbn [fst] in Ei. subst i. exists vs. now apply given_In.
  - destruct K as [K|K]; [now left | right]. unfold plain_word. revert K. destruct w as [|c [|d r]]; [now left | |].
    + destruct (Ascii.eqb c "-") eqn:Q; cbn [word_kind]; rewrite Q; [apply Ascii.eqb_eq in Q; subst; right; now left|]. intros _. right. right. exists c, "". split; [reflexivity|]. now apply Ascii.eqb_neq.
    + cbn [word_kind]. destruct (Ascii.eqb c "-") eqn:Q; [destruct (Ascii.eqb d "-"); [destruct r|]; discriminate|]. intros _. right. right. exists c, (String d r). split; [reflexivity|]. now apply Ascii.eqb_neq.
Qed.
Print Assumptions C16_collected.
(** and every non-option word met when no positional is left is added *)
Theorem C16_all : forall s ws pcs p w rest, reads s ws pcs -> reaches s ws p [] (w :: rest) -> plain_word w ->
  m_strict (s_modes (ready s)) = false /\ exists p2, pcs = p ++ PcAdditional w :: p2.
Proof.
  intros s ws pcs p w rest H R P. destruct (Reached_Reading_inv _ _ _ _ _ _ R _ H) as [p2 [-> H2]].
  assert (K : word_kind w = WPlain).
  { unfold plain_word in P. destruct P as [->|[->|[c [r [-> N]]]]]; try reflexivity. cbn. apply Ascii.eqb_neq in N. now rewrite N. }
  inversion H2; subst; try congruence; [match goal with X : _ \/ _ |- _ => destruct X; congruence end|]. split; [assumption | eauto].
Qed.
Print Assumptions C16_all.
(** in strict mode such a word is refused *)
Theorem C16_refused : forall s argv ws p w rest, usable s -> command_line argv ws -> interprets s ->
  m_strict (s_modes s) = true -> reaches s ws p [] (w :: rest) -> plain_word w ->
  exists s', parseArguments argv s = (s', Throw (parse_error w "invalid additional argument")).
Proof.
  intros s argv ws p w rest U C I S R P.
  assert (K : word_kind w = WPlain).
  { unfold plain_word in P. destruct P as [->|[->|[c [r [-> N]]]]]; try reflexivity. cbn. apply Ascii.eqb_neq in N. now rewrite N. }
  assert (F : Fails (setup s) [] (w :: rest) (parse_error w "invalid additional argument")).
  { apply Fl_additional; [exact K|]. unfold setup. cbn [conf_of k_strict]. destruct (ready_modes s (usable_wf0 s U)) as [-> _]. exact S. }
  pose proof (Reached_Fails _ _ _ _ _ _ R _ F) as F'. destruct (parse_rejects s argv ws _ U C I F') as [s' [E _]]. now exists s'.
Qed.
Print Assumptions C16_refused.
Example C16_example : getAdditionalArguments (fst (parseArguments ["prog"; "a"; "-v"; "b"; "c"; "--"; "-d"] shop)) = ["c"; "-d"] /\
  exists p left, reaches shop ["a"; "-v"; "b"; "c"; "--"; "-d"] p left ["c"; "--"; "-d"] /\ left = [] /\ length p = 3.
Proof.
  split; [vm_compute; reflexivity|]. eexists. eexists. split; [|split].
  - unfold reaches. match goal with |- Reached _ ?ps _ _ _ _ => let p := eval vm_compute in ps in change ps with p end.
    eapply Rc_positional; [vm_compute; reflexivity | vm_compute; reflexivity | cbn [length skipn]].
    eapply Rc_option; [kind | vm_compute; reflexivity | cbn [length skipn]].
    eapply Rc_positional; [vm_compute; reflexivity | vm_compute; reflexivity | cbn [length skipn]]. apply Rc_here.
  - reflexivity.
  - reflexivity.
Qed.
