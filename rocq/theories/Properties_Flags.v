(** Properties_Flags.v -- C40: the registered flags on the command line. *)
From Coq Require Import Permutation Sorted.
From Verif Require Import Base Model_Utils Model_Number Model_Types Model_Argument Model_Usage Model_Args Model_Api
  Spec_Order Spec_Names Spec_Reading Spec_Parse Spec_Finish Spec_History Spec_Api Spec_Result
  Proofs_Base Proofs_Order Proofs_Frame Proofs_Inv Proofs_ReadFacts Proofs_Reading Proofs_Parse Proofs_Decl Proofs_Finish
  Proofs_Meth Proofs_History Proofs_Config Proofs_Names Proofs_Central Proofs_Dyn Proofs_Check Properties_Words Demo Properties_Parse Proofs_Swap Proofs_Values Properties_Spell.

(** Not true in general.
    (1) A flag with '=' in it is accepted by addArgument, but the word is cut at the '='.
    (2) In alternative mode the short flag -c is hidden by a long flag --c. *)
Definition eq_flag : state := history [OpAdd ["--a=b"] [MAction STORE_TRUE]].
Definition eq_short : state := history [OpAdd ["-="] [MAction STORE_TRUE]].
Definition hidden : state := history [OpAdd ["-c"] [MAction STORE_TRUE]; OpAdd ["--c"] [MAction STORE_TRUE]; OpSetAlternative true].
Theorem C40_refuted :
  ~ (forall s f a0 a s' e, reach_with careful s -> getArgument s f = Ok a -> isPositional a = false ->
       command_line [a0; f] [f] -> parseArguments [a0; f] s = (s', Throw e) -> x_msg e <> "invalid option") /\
  ~ (forall s f a0 a s', reach_with careful s -> getArgument s f = Ok a -> isPositional a = false ->
       command_line [a0; f] [f] -> parseArguments [a0; f] s = (s', Ok tt) ->
       exists a', getArgument s' f = Ok a' /\ isExists a' = true).
Proof.
  split; intro H.
  - refine (H eq_flag "--a=b" "p" _ _ _ _ _ _ _ _ _).
    + apply careful_history. vm_compute. reflexivity.
    + vm_compute. reflexivity.
    + reflexivity.
    + line.
    + vm_compute. reflexivity.
    + reflexivity.
  - destruct (H hidden "-c" "p" (pick "-c" hidden) (fst (parseArguments ["p"; "-c"] hidden))) as [a' [G D]].
    + apply careful_history. vm_compute. reflexivity.
    + vm_compute. reflexivity.
    + reflexivity.
    + line.
    + vm_compute. reflexivity.
    + revert G. vm_compute. intro G. injection G as <-. discriminate D.
Qed.
Print Assumptions C40_refuted.
(** the same for a short flag *)
Theorem C40_refuted_short : exists s a, reach_with careful s /\ getArgument s "-=" = Ok a /\ isPositional a = false /\
  snd (parseArguments ["p"; "-="] s) = Throw (parse_error "-" "invalid option").
Proof.
  exists eq_short. eexists. split; [apply careful_history; vm_compute; reflexivity|]. split; [vm_compute; reflexivity|].
  split; [reflexivity | vm_compute; reflexivity].
Qed.
Print Assumptions C40_refuted_short.

Lemma ready_keeps : forall s n a, wf0 s -> wf0 (ready s) -> getArgument s n = Ok a -> getArgument (ready s) n = Ok a.
Proof.
  intros s n a W W1 G. destruct (ready_cases s W) as [[-> _]|[EQ _]]; [exact G|]. rewrite EQ in *.
  destruct (getArgument_inv s n a W G) as [Ia [_ As]]. apply getArgument_by; [exact W1| |].
  - apply (registered_In s (help_cfg (free_help s))). now right.
  - change (s_map (with_auto_help s)) with (s_map (registered s (help_cfg (free_help s)))). rewrite registered_assoc. now rewrite As.
Qed.

(** the flag has no '=', and is not, in alternative mode, the short form of a long flag of
    another argument *)
Definition plain_spelling (s : state) (f : str) (a : argument) : Prop :=
  ~ has_char "=" f /\ (m_alternative (s_modes s) = true -> short_form f -> forall b, getArgument (ready s) (String "-" f) = Ok b -> b = a).

Lemma flag_spells : forall s f a, usable s -> getArgument (ready s) f = Ok a -> well_formed_flag f -> plain_spelling s f a -> spells s a None f.
Proof.
  intros s f a U G [[c [-> N]]|[c [r ->]]] [Q A].
  - assert (CE : c <> "="%char) by (intro E; apply Q; cbn [has_char]; right; now left).
    destruct (m_alternative (s_modes s)) eqn:M; [|apply (Sp_short s a None c); [exact G | exact CE | intros X; congruence]].
    destruct (argumentExists (ready s) (String "-" (one_char c))) eqn:X.
    + destruct (getArgument_some _ _ (usable_ready_wf s U) X) as [b [GB _]].
      assert (b = a) by (apply (A eq_refl); [exists c; split; [reflexivity | exact N] | exact GB]). subst b.
        apply (Sp_alternative s a None (String c "")); [exact M | exact GB | | exists c, ""; split; [reflexivity | exact N]].
        cbn [has_char]. intros [Y|[]]. now apply CE.
    + apply (Sp_short s a None c); [exact G | exact CE | intros _; exact X].
  - apply (Sp_long s a None (String c r)); [exact G|]. intro H. apply Q. cbn [has_char]. right. right. exact H.
Qed.

(** A flag of an option, at a place of the command line where a new word is read, stands
    for that option.  Missing for the full property: the flags of C40_refuted. *)
Theorem C40_partial : forall s argv ws f a p left rest, usable s -> interprets s -> command_line argv ws ->
  getArgument s f = Ok a -> isPositional a = false -> plain_spelling s f a ->
  reaches s ws p left (f :: rest) ->
  (* whenever the command line can be read, this word is an occurrence of the option ... *)
  (forall pcs, reads s ws pcs -> exists vs q, pcs = p ++ PcOption f [Occ (a_id a) Separate vs] vs :: q) /\
  (* ... so that the option is present after a successful parse ... *)
  (forall s', parseArguments argv s = (s', Ok tt) -> exists a', getArgument s' f = Ok a' /\ a_id a' = a_id a /\ isExists a' = true) /\
  (* ... the only reason to refuse the flag itself: too few words for its values; otherwise the scan gets past it *)
  (take_words (stops (setup s)) (arity_of (a_cfg a)) (before_end rest) = None /\
     (exists name, snd (parseArguments argv s) = Throw (parse_error name "bad number of argument")) \/
   exists vs q, rest = vs ++ q /\ reaches s ws (p ++ [PcOption f [Occ (a_id a) Separate vs] vs]) left q).
Proof.
  intros s argv ws f a p left rest U I C G NP PS R.
  pose proof (usable_wf0 s U) as W. pose proof (usable_ready_wf s U) as W1.
  pose proof (ready_keeps s f a W W1 G) as GR. destruct (getArgument_inv _ f a W1 GR) as [Ia [Fa _]].
  assert (WF : well_formed_flag f).
  { destruct (wf_opt _ W1 a Ia NP) as [F _]. rewrite Forall_forall in F. apply validFlag_form; [|exact (F f Fa)].
    destruct C as [[a0 [-> _]] [CS _]]. rewrite Forall_forall in CS. apply CS. right. rewrite (Reached_words _ _ _ _ _ _ R). apply in_or_app. right. now left. }
  destruct (spells_meaning s a None f U (flag_spells s f a U GR WF PS)) as [K [_ [name M]]].
  assert (RO : read_option (setup s) f (before_end rest) =
     match take_words (stops (setup s)) (arity_of (a_cfg a)) (before_end rest) with
     | Some vs => inr ([Occ (a_id a) Separate vs], vs) | None => inl (parse_error name "bad number of argument") end).
  { unfold read_option. rewrite M. unfold option_values. cbn [style_of]. now destruct (take_words _ _ _). }
  assert (A1 : forall pcs, reads s ws pcs -> exists vs q, pcs = p ++ PcOption f [Occ (a_id a) Separate vs] vs :: q).
  { intros pcs RD. destruct (Reached_Reading_inv _ _ _ _ _ _ R pcs RD) as [p2 [-> R2]].
    inversion R2; subst; try (match goal with H : word_kind f = _ |- _ => destruct K as [K|K]; rewrite K in H; discriminate H end).
    rewrite RO in *. destruct (take_words _ _ _) as [vs|]; [|discriminate]. match goal with H : inr _ = inr _ |- _ => injection H as <- <- end. eauto. }
  split; [exact A1|]. split.
  - intros s' E. destruct (parse_ok_args s argv ws s' U C I E) as [pcs [RD [EA _]]].
    destruct (A1 pcs RD) as [vs [q EP]].
    assert (FR : frame (ready s) s') by (eapply parse_frame; [exact W | exact E | exact Logic.I]).
    destruct (frame_get _ _ f a W1 FR GR) as [a' [G' [EI _]]]. exists a'. split; [exact G'|]. split; [exact EI|].
    assert (W' : wf0 s') by (eapply frame_wf0; [exact W1 | exact FR]).
    destruct (getArgument_inv _ f a' W' G') as [I' _].
    assert (a' = finished (read_arg pcs a)).
    { apply (wf_unique s' a' _ W' I'). { rewrite EA. apply (in_map (fun x => finished (read_arg pcs x))). exact Ia. }
      rewrite EI. symmetry. exact (finished_id (read_arg pcs a)). }
    subst a'. destruct (finished_exist (read_arg pcs a)) as [-> _]. rewrite (read_exist s ws pcs a W1 RD Ia).
    rewrite on_line_eq. apply orb_true_iff. left. rewrite EP. unfold occs_for.
    match goal with |- match ?l with _ => _ end = true => assert (X : In (Occ (a_id a) Separate vs) l) end.
    { apply filter_In. split; [|apply Nat.eqb_refl]. unfold occs_of. rewrite flat_map_app. apply in_or_app. right. now left. }
    destruct (filter _ _); [destruct X | reflexivity].
  - destruct (take_words (stops (setup s)) (arity_of (a_cfg a)) (before_end rest)) as [vs|] eqn:T.
    + right. exists vs, (skipn (length vs) rest). split.
      * exact (take_before _ _ _ _ T).
      * unfold reaches. eapply Reached_app; [exact R|]. eapply Rc_option; [exact K | exact RO | apply Rc_here].
    + left. split; [reflexivity|]. exists name.
      assert (F : Fails (setup s) left (f :: rest) (parse_error name "bad number of argument")) by (apply Fl_option; [exact K | exact RO]).
      pose proof (Reached_Fails _ _ _ _ _ _ R _ F) as F'. destruct (parse_rejects s argv ws _ U C I F') as [s' [E _]]. now rewrite E.
Qed.
Print Assumptions C40_partial.
(** The condition is exact: if anywhere, in any command line, the flag is read as an
    occurrence of the option that stands for itself, then it has a plain spelling.  So a flag
    with '=', and one hidden by a long flag of another argument, can never be given. *)
Lemma cut_has : forall w, has_char "=" w -> exists v, snd (cut_eq w) = Some v.
Proof.
  induction w as [|c w IH]; intros H; [destruct H|]. cbn [cut_eq]. destruct (Ascii.eqb_spec c "=") as [->|N]; [now exists w|].
  destruct H as [H|H]; [congruence|]. destruct (IH H) as [v E]. destruct (cut_eq w) as [n x]. now exists v.
Qed.
Lemma bundle_attached : forall K v cs bools b id c name st x, bundle K (Some v) bools cs = MeansOption b id c name st x -> st = style_of (Some v).
Proof.
  intros K v cs. induction cs as [|ch cs IH]; intros bools b id c name st x H; cbn [bundle] in H; [discriminate|].
  destruct (k_find K (one_char ch)) as [[i cf]|]; [|discriminate]. destruct cs as [|ch2 cs2].
  - now injection H.
  - destruct (is_flag_type (c_type cf)); [|discriminate]. exact (IH _ _ _ _ _ _ _ H).
Qed.
Theorem C40_exactly : forall s argv ws f a p vs used q, usable s -> command_line argv ws ->
  getArgument s f = Ok a -> isPositional a = false -> reads s ws (p ++ PcOption f [Occ (a_id a) Separate vs] used :: q) -> plain_spelling s f a.
Proof.
  intros s argv ws f a p vs used q U C G NP R.
  pose proof (usable_wf0 s U) as W. pose proof (usable_ready_wf s U) as W1. pose proof (ready_keeps s f a W W1 G) as GR.
  destruct (Reading_at _ _ _ _ R p f _ used q eq_refl) as [K [RO _]]. unfold read_option in RO.
  destruct (word_meaning (setup s) f) as [e|bools id c name st value] eqn:M; [discriminate|].
  destruct (option_values (setup s) c name value (before_end (used ++ words_of q))) as [e|vs'] eqn:OV; [discriminate|].
  injection RO as RO RU. destruct bools as [|x bools]; [|destruct bools; discriminate RO]. cbn [map app] in RO. injection RO as RI RS RV. subst id st vs'.
  unfold word_meaning in M. destruct (cut_eq f) as [nm vl] eqn:CF. split.
  - intro H. destruct (cut_has f H) as [v E]. rewrite CF in E. cbn in E. subst vl.
    assert (X : style_of (Some v) = Separate); [|discriminate X].
    destruct (word_kind f) eqn:KF;
      try (destruct (if k_alt (setup s) then k_find (setup s) (String "-" nm) else None) as [[i cf]|]; [injection M as _ _ _ ST _; exact ST | symmetry; exact (bundle_attached _ _ _ _ _ _ _ _ _ _ M)]).
    destruct (k_find (setup s) nm) as [[i cf]|]; [injection M as _ _ _ ST _; exact ST | discriminate].
  - intros Alt [ch [-> NC]] b GB. assert (KS : word_kind (String "-" (String ch "")) = WShort) by (cbn; apply Ascii.eqb_neq in NC; now rewrite NC).
    rewrite KS in M. rewrite (setup_alt s W), Alt in M. destruct (getArgument_inv _ _ _ W1 GR) as [Ia _]. destruct (getArgument_inv _ _ _ W1 GB) as [Ib _].
    assert (nm = String "-" (String ch "")) as ->.
    { cbn in CF. destruct (Ascii.eqb_spec ch "=") as [->|]; [|congruence]. injection CF as <- <-. exfalso.
      destruct (k_find (setup s) "--") as [[i cf]|] eqn:X.
      - injection M as _ _ _ ST _. discriminate ST.
      - cbn in M. discriminate M. }
    rewrite (setup_get s _ b W1 GB) in M. injection M as EI _ _ _ _. exact (wf_unique (ready s) b a W1 Ib Ia EI).
Qed.
Print Assumptions C40_exactly.
Example C40_example : getArgument shop "--items" = Ok (pick "--items" shop) /\ plain_spelling shop "--items" (pick "--items" shop) /\
  (exists p left, reaches shop ["a"; "-v"; "--items"; "1"; "2"] p left ["--items"; "1"; "2"] /\ length p = 2) /\
  snd (parseArguments ["prog"; "a"; "-v"; "--items"; "1"; "2"] shop) = Ok tt.
Proof.
  split; [vm_compute; reflexivity|]. split; [split; [cbn; intuition discriminate | intro M; vm_compute in M; discriminate M]|].
  split; [eexists; eexists; split; [reaching | reflexivity] | vm_compute; reflexivity].
Qed.
(** a short and a long flag of the same name, of one argument, in alternative mode *)
Definition both : state := history [OpAdd ["-c"; "--c"] [MAction STORE_TRUE]; OpSetAlternative true].
Example C40_example_both : usable both /\ getArgument both "-c" = Ok (pick "-c" both) /\ plain_spelling both "-c" (pick "-c" both) /\
  isExists (pick "-c" (fst (parseArguments ["p"; "-c"] both))) = true /\ ~ plain_spelling hidden "-c" (pick "-c" hidden).
Proof.
  split; [apply careful_usable, careful_history; vm_compute; reflexivity|]. split; [vm_compute; reflexivity|]. split; [|split; [vm_compute; reflexivity|]].
  - split; [cbn; intuition discriminate|]. intros _ _ b G.
    assert (X : getArgument (ready both) "--c" = Ok (pick "-c" both)) by (vm_compute; reflexivity).
    change (String "-" "-c") with "--c" in G. rewrite X in G. injection G as <-. reflexivity.
  - intros [_ H]. assert (X : pick "--c" hidden = pick "-c" hidden).
    { apply H; [vm_compute; reflexivity | exists "c"%char; split; [reflexivity | discriminate] | vm_compute; reflexivity]. }
    assert (Y : a_id (pick "--c" hidden) = a_id (pick "-c" hidden)) by now rewrite X. vm_compute in Y. discriminate Y.
Qed.
