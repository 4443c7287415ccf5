(** Properties_Bundled.v -- C86 (boolean flags bundled in front of any option). *)
From Coq Require Import Permutation Sorted.
From Verif Require Import Base Model_Utils Model_Number Model_Types Model_Argument Model_Usage Model_Args Model_Api
  Spec_Order Spec_Names Spec_Reading Spec_Parse Spec_Finish Spec_History Spec_Api Spec_Result Spec_Usage
  Proofs_Base Proofs_Order Proofs_Frame Proofs_Inv Proofs_ReadFacts Proofs_Reading Proofs_Parse Proofs_Decl Proofs_Finish
  Proofs_Meth Proofs_History Proofs_Config Proofs_Names Proofs_Central Proofs_Dyn Properties_Words Demo Properties_Parse Proofs_Swap Properties_Spell Properties_Permute.

Lemma bundle_prefix : forall K v r b b', bundle K v (b ++ b') r =
  match bundle K v b' r with MeansError e => MeansError e | MeansOption ids id c name st val => MeansOption (b ++ ids) id c name st val end.
Proof.
  intros K v r. induction r as [|x r IH]; intros b b'; [reflexivity|]. cbn [bundle]. destruct (k_find K (one_char x)) as [[i c]|]; [|reflexivity].
  destruct r as [|y r]; [reflexivity|]. destruct v as [v|].
  - destruct (is_flag_type (c_type c)); [|reflexivity]. rewrite <- app_assoc. apply IH.
  - destruct (glues c); [reflexivity|]. destruct (is_flag_type (c_type c)); [|reflexivity]. rewrite <- app_assoc. apply IH.
Qed.
Lemma bundle_flags : forall s v cs tail bools, wf0 (ready s) -> all_chars (bool_flag s) cs -> tail <> "" ->
  exists ids, Forall2 (fun x i => exists a, getArgument (ready s) (one_char x) = Ok a /\ a_id a = i /\ is_flag_type (c_type (a_cfg a)) = true) (list_ascii_of_string cs) ids /\
    bundle (setup s) v bools (cs ^^ tail) = bundle (setup s) v (bools ++ ids) tail.
Proof.
  intros s v cs tail bools W. revert bools. induction cs as [|x cs IH]; intros bools B N.
  - exists []. split; [constructor|]. now rewrite app_nil_r.
  - destruct B as [[a [G T]] B]. destruct (IH (bools ++ [a_id a]) B N) as [ids [F E]]. exists (a_id a :: ids). split; [constructor; [now exists a | exact F]|].
    rewrite <- app_assoc in E. cbn [app] in E. rewrite <- E. cbn [String.append bundle]. rewrite (setup_get s _ a W G).
    destruct (cs ^^ tail) as [|y l] eqn:Q; [exfalso; destruct cs; [now apply N | discriminate]|].
    replace (glues (a_cfg a)) with false by (unfold glues; destruct (c_type (a_cfg a)); now try discriminate). rewrite T. destruct v; reflexivity.
Qed.
Lemma cut_after : forall p q, ~ has_char "=" p -> cut_eq (p ^^ q) = (p ^^ fst (cut_eq q), snd (cut_eq q)).
Proof.
  induction p as [|x p IH]; intros q N; [cbn; now destruct (cut_eq q)|]. cbn [String.append cut_eq]. destruct (Ascii.eqb_spec x "=") as [->|Nx]; [exfalso; apply N; now left|].
  rewrite IH; [reflexivity|]. intros Q. apply N. now right.
Qed.
(** one word: the flags [cs] in front of [tail] *)
Lemma read_bundled : forall s cs c r avail, wf0 s -> wf0 (ready s) -> cs <> "" -> all_chars (plain_flag s) cs -> ~ has_char "=" cs -> c <> "="%char -> c <> "-"%char ->
  (m_alternative (s_modes s) = true -> argumentExists (ready s) ("--" ^^ cs ^^ fst (cut_eq (String c r))) = false /\ argumentExists (ready s) ("--" ^^ fst (cut_eq (String c r))) = false) ->
  exists ids, Forall2 (fun x i => exists a, getArgument (ready s) (one_char x) = Ok a /\ a_id a = i /\ is_flag_type (c_type (a_cfg a)) = true) (list_ascii_of_string cs) ids /\
    word_kind ("-" ^^ cs ^^ String c r) = WShort /\ word_kind ("-" ^^ String c r) = WShort /\ stops (setup s) ("-" ^^ cs ^^ String c r) = true /\
    read_option (setup s) ("-" ^^ cs ^^ String c r) avail =
      match read_option (setup s) ("-" ^^ String c r) avail with inl e => inl e | inr (occs, used) => inr (map flag_occ ids ++ occs, used) end.
Proof.
  intros s cs c r avail W0 W N B Q Ne Nd Alt. set (tail := String c r) in *.
  assert (BF : all_chars (bool_flag s) cs). { clear - B. induction cs as [|x cs IH]; [exact Logic.I|]. destruct B as [[B _] B']. split; [exact B | now apply IH]. }
  assert (TN : fst (cut_eq tail) <> ""). { unfold tail. cbn [cut_eq]. apply Ascii.eqb_neq in Ne. rewrite Ne. destruct (cut_eq r). discriminate. }
  destruct (bundle_flags s (snd (cut_eq tail)) cs (fst (cut_eq tail)) [] W BF TN) as [ids [F E]]. exists ids. split; [exact F|]. cbn [app] in E.
  assert (WK : word_kind ("-" ^^ cs ^^ tail) = WShort).
  { destruct cs as [|x cs]; [congruence|]. apply short_kind. exists x, (cs ^^ tail). split; [reflexivity|]. destruct B as [[[a [G _]] _] _]. intros ->. eapply not_dashdash; eauto. }
  assert (WK2 : word_kind ("-" ^^ tail) = WShort) by (apply short_kind; exists c, r; now split).
  split; [exact WK|]. split; [exact WK2|].
  assert (CA : cut_eq ("-" ^^ cs ^^ tail) = ("-" ^^ cs ^^ fst (cut_eq tail), snd (cut_eq tail))).
  { change ("-" ^^ cs ^^ tail) with (("-" ^^ cs) ^^ tail). rewrite cut_after; [reflexivity|]. cbn. intros [X|X]; [discriminate | now apply Q]. }
  assert (CA2 : cut_eq ("-" ^^ tail) = ("-" ^^ fst (cut_eq tail), snd (cut_eq tail))).
  { apply (cut_after "-" tail). cbn. intros [X|[]]. discriminate. }
  split.
  - unfold stops. rewrite CA, WK. cbn [String.append after1]. destruct cs as [|x cs]; [congruence|]. destruct BF as [[a [G T]] _]. cbn [String.append stops_bundle].
    rewrite (setup_get s _ a W G). destruct (cs ^^ fst (cut_eq tail)); [apply orb_true_r|]. rewrite T, !orb_true_r. reflexivity.
  - assert (M : word_meaning (setup s) ("-" ^^ cs ^^ tail) = match word_meaning (setup s) ("-" ^^ tail) with MeansError e => MeansError e | MeansOption b id c name st val => MeansOption (ids ++ b) id c name st val end).
    { unfold word_meaning. rewrite CA, CA2, WK, WK2, (setup_alt s W0). cbn [String.append after1] in *.
      assert (R : bundle (setup s) (snd (cut_eq tail)) [] (cs ^^ fst (cut_eq tail)) = match bundle (setup s) (snd (cut_eq tail)) [] (fst (cut_eq tail)) with MeansError e => MeansError e | MeansOption b id c name st val => MeansOption (ids ++ b) id c name st val end).
      { rewrite E. rewrite <- (app_nil_r ids) at 1. apply bundle_prefix. }
      destruct (m_alternative (s_modes s)); [|exact R]. destruct (Alt eq_refl) as [A1 A2]. rewrite (setup_none s _ W A1), (setup_none s _ W A2). exact R. }
    unfold read_option. rewrite M. destruct (word_meaning (setup s) ("-" ^^ tail)) as [e|b id cf name st val]; [reflexivity|].
    destruct (option_values (setup s) cf name val avail); [reflexivity|]. rewrite map_app, app_assoc. reflexivity.
Qed.
(** the letters as words of their own *)
Lemma letters_read : forall s cs left ids, usable s -> all_chars (plain_flag s) cs -> ~ has_char "=" cs ->
  Forall2 (fun x i => exists a, getArgument (ready s) (one_char x) = Ok a /\ a_id a = i /\ is_flag_type (c_type (a_cfg a)) = true) (list_ascii_of_string cs) ids ->
  forall rest, exists q, Reached (setup s) left (letters cs ++ rest) q left rest /\ occs_of q = map flag_occ ids /\ given_of q = [] /\ additional_of q = [].
Proof.
  intros s cs left ids U B Q F rest. unfold letters. revert B Q F. revert ids. induction cs as [|x cs IH]; intros ids B Q F; cbn [list_ascii_of_string] in F.
  - inversion F; subst. exists []. split; [apply Rc_here|]. repeat split.
  - inversion F as [|? i ? is [a [G [Ei T]]] F']; subst. destruct B as [B B']. destruct (IH is B' (fun X => Q (or_intror X)) F') as [q [R [O [Gq A]]]].
    exists (PcOption (one_char x) [flag_occ (a_id a)] [] :: q). split; [|split; [|split; [exact Gq | exact A]]].
    + cbn [list_ascii_of_string map app]. eapply letter_step; eauto. intros ->. apply Q. now left.
    + unfold occs_of in *. cbn [flat_map map app]. now rewrite O.
Qed.
(** [-abX...] is [-a -b -X...], whatever X... is: an option, with or without a value in the
    same word or in the words that follow, more flags, or an error *)
Theorem C86_bundle : forall s a0 pre post p left cs c r, usable s -> interprets s -> cs <> "" ->
  all_chars (plain_flag s) cs -> ~ has_char "=" cs -> c <> "="%char -> c <> "-"%char ->
  let tail := String c r in
  (m_alternative (s_modes s) = true -> argumentExists (ready s) ("--" ^^ cs ^^ fst (cut_eq tail)) = false /\ argumentExists (ready s) ("--" ^^ fst (cut_eq tail)) = false) ->
  let line := pre ++ ("-" ^^ cs ^^ tail) :: post in let line' := pre ++ letters cs ++ ("-" ^^ tail) :: post in
  command_line (a0 :: line) line -> command_line (a0 :: line') line' ->
  reaches s line p left (("-" ^^ cs ^^ tail) :: post) ->
  same_outcome (parseArguments (a0 :: line) s) (parseArguments (a0 :: line') s).
Proof.
  intros s a0 pre post p left cs c r U I N B Q Ne Nd tail Alt line line' C C' R. pose proof (usable_ready_wf s U) as W. pose proof (usable_wf0 s U) as W0.
  destruct (read_bundled s cs c r (before_end post) W0 W N B Q Ne Nd Alt) as [ids [F [K [K2 [SW RO]]]]]. fold tail in K, K2, SW, RO.
  subst line line'.
  set (w := "-" ^^ cs ^^ tail) in *. set (w2 := "-" ^^ tail) in *. clearbody w w2.
  destruct (letters_read s cs left ids U B Q F (w2 :: post)) as [q [RL [Oq [Gq Aq]]]].
  assert (R' : reaches s (pre ++ letters cs ++ w2 :: post) p left (letters cs ++ w2 :: post)).
  { unfold reaches in *. destruct cs as [|x cs]; [congruence|]. cbn [letters list_ascii_of_string map app] in *.
    eapply (Reached_swap _ _ _ _ _ _ R); [reflexivity | reflexivity | exact SW|]. destruct B as [[[a [G T]] Al] _].
    apply (spells_meaning s a None (one_char x) U (Sp_short s a None x G (fun X => Q (or_introl X)) Al)). }
  destruct (read_or_reject s _ _ U C I) as [[pcs RD]|[e RD]].
  - destruct (Reached_Reading_inv _ _ _ _ _ _ R _ RD) as [p2 [-> R2]]. inversion R2 as [|? ? ? occs used q2 KW RO1 R3 E1 E2 E3|? ? ? ? KW|? ? ? ? ? ? ? KW|? ? ? KW]; subst; try (rewrite K in KW; discriminate).
    rewrite RO in RO1. destruct (read_option (setup s) w2 (before_end post)) as [e|[occs' used']] eqn:RO2; [discriminate|]. injection RO1 as <- <-.
    assert (RD' : reads s (pre ++ letters cs ++ w2 :: post) (p ++ q ++ PcOption w2 occs' used' :: q2)).
    { unfold reads. eapply Reached_Reading; [exact R'|]. eapply Reached_Reading; [exact RL|]. eapply Rd_option; [now left | exact RO2 | exact R3]. }
    apply (C55_readings s a0 _ _ _ _ U I C C' RD RD').
    + intros a _. rewrite !occs_for_app. f_equal. unfold occs_for. rewrite Oq. unfold occs_of. cbn [flat_map]. rewrite !filter_app, app_assoc. reflexivity.
    + rewrite !given_of_app, Gq. reflexivity.
    + rewrite !additional_of_app, Aq. reflexivity.
  - pose proof (Reached_Fails_inv _ _ _ _ _ _ R _ RD) as FD.
    assert (FD' : Fails (setup s) left (w2 :: post) e).
    { inversion FD as [? ? ? ? KW RO1|? ? ? ? ? KW|? ? KW|? ? ? occs used ? KW RO1 FR|? ? ? ? KW|? ? ? ? ? ? ? KW|? ? ? KW]; subst; try (rewrite K in KW; discriminate).
      - rewrite RO in RO1. destruct (read_option (setup s) w2 (before_end post)) as [e'|[occs' used']] eqn:RO2; [|discriminate]. injection RO1 as ->. apply Fl_option; [now left | exact RO2].
      - rewrite RO in RO1. destruct (read_option (setup s) w2 (before_end post)) as [e'|[occs' used']] eqn:RO2; [discriminate|]. injection RO1 as <- <-. eapply Fl_option_next; [now left | exact RO2 | exact FR]. }
    assert (RD' : rejects s (pre ++ letters cs ++ w2 :: post) e) by (unfold rejects; eapply Reached_Fails; [exact R'|]; eapply Reached_Fails; [exact RL | exact FD']).
    destruct (parse_rejects s _ _ e U C I RD) as [t [P _]]. destruct (parse_rejects s _ _ e U C' I RD') as [t' [P' _]].
    split; [rewrite P, P'; reflexivity|]. rewrite P. discriminate.
Qed.
(** flags in front of an option with two values, of an option whose value follows in the
    word, of more flags, and of an error *)
Example C86_example : all_chars (plain_flag shop) "vq" /\ ~ has_char "=" "vq" /\ m_alternative (s_modes shop) = false /\
  (exists p left, reaches shop ["x"; "-vqp"; "1"; "2"] p left ["-vqp"; "1"; "2"] /\ length p = 1) /\
  snd (parseArguments ["prog"; "x"; "-vqp"; "1"; "2"] shop) = Ok tt /\
  parseArguments ["prog"; "x"; "-vqp"; "1"; "2"] shop = parseArguments ["prog"; "x"; "-v"; "-q"; "-p"; "1"; "2"] shop /\
  snd (parseArguments ["prog"; "x"; "-vqn=bob"] shop) = Ok tt /\
  parseArguments ["prog"; "x"; "-vqn=bob"] shop = parseArguments ["prog"; "x"; "-v"; "-q"; "-n=bob"] shop /\
  parseArguments ["prog"; "x"; "-vqnbob"] shop = parseArguments ["prog"; "x"; "-v"; "-q"; "-nbob"] shop /\
  snd (parseArguments ["prog"; "x"; "-vqp"; "1"] shop) = snd (parseArguments ["prog"; "x"; "-v"; "-q"; "-p"; "1"] shop) /\
  snd (parseArguments ["prog"; "x"; "-vqp"; "1"] shop) <> Ok tt /\
  snd (parseArguments ["prog"; "x"; "-vq?"] shop) = snd (parseArguments ["prog"; "x"; "-v"; "-q"; "-?"] shop) /\
  snd (parseArguments ["prog"; "x"; "-vq?"] shop) <> Ok tt.
Proof.
  split; [|split; [|split; [|split]]].
  - repeat split; try (eexists; split; [vm_compute; reflexivity | reflexivity]); vm_compute; discriminate.
  - cbn. intuition discriminate.
  - reflexivity.
  - eexists. eexists. split.
    + unfold reaches. match goal with |- Reached _ ?ps _ _ _ _ => let p := eval vm_compute in ps in change ps with p end.
      eapply Rc_positional; [vm_compute; reflexivity | vm_compute; reflexivity | cbn [length skipn]]. apply Rc_here.
    + reflexivity.
  - do 6 (split; [vm_compute; reflexivity|]). split; [vm_compute; discriminate|].
    split; [vm_compute; reflexivity|]. vm_compute; discriminate.
Qed.
Print Assumptions C86_bundle.
