(** Properties_Spell.v -- C20, C36, C37: different spellings of the same options. *)
From Coq Require Import Permutation Sorted.
From Verif Require Import Base Model_Utils Model_Number Model_Types Model_Argument Model_Usage Model_Args Model_Api
  Spec_Order Spec_Names Spec_Reading Spec_Parse Spec_Finish Spec_History Spec_Api Spec_Result
  Proofs_Base Proofs_Order Proofs_Frame Proofs_Inv Proofs_ReadFacts Proofs_Reading Proofs_Parse Proofs_Decl Proofs_Finish
  Proofs_Meth Proofs_History Proofs_Config Proofs_Names Proofs_Central Proofs_Dyn Proofs_Check Properties_Words Demo Properties_Parse Proofs_Swap.

(** [spells s w a value]: the option word [w] stands for the argument [a], without value
    or with the value given after '='.  Short flags and, in alternative mode, long flags
    with one dash; in alternative mode a long flag has precedence over short ones. *)
Inductive spells (s : state) (a : argument) (value : option str) : str -> Prop :=
| Sp_long : forall name, getArgument (ready s) ("--" ^^ name) = Ok a -> ~ has_char "=" name ->
    spells s a value (attach ("--" ^^ name) value)
| Sp_short : forall c, getArgument (ready s) (one_char c) = Ok a -> c <> "="%char ->
    (m_alternative (s_modes s) = true -> argumentExists (ready s) (String "-" (one_char c)) = false) ->
    spells s a value (attach (one_char c) value)
| Sp_alternative : forall name, m_alternative (s_modes s) = true ->
    getArgument (ready s) ("--" ^^ name) = Ok a -> ~ has_char "=" name -> short_word (attach ("-" ^^ name) value) ->
    spells s a value (attach ("-" ^^ name) value).

Lemma short_kind : forall w, short_word w -> word_kind w = WShort.
Proof. intros w [c [r [-> N]]]. cbn. apply Ascii.eqb_neq in N. now rewrite N. Qed.
Lemma get_exists : forall s n a, getArgument s n = Ok a -> argumentExists s n = true.
Proof. intros s n a E. destruct (argumentExists s n) eqn:X; [reflexivity|]. apply getArgument_none in X. destruct X as [X _]. congruence. Qed.
Lemma not_dashdash : forall s a, wf0 s -> getArgument s "--" <> Ok a.
Proof. intros s a W E. apply get_exists in E. unfold argumentExists, mem_key in E. now rewrite (no_dashdash s W) in E. Qed.
Lemma setup_alt : forall s, wf0 s -> k_alt (setup s) = m_alternative (s_modes s).
Proof. intros s W. unfold setup. cbn [conf_of k_alt]. now destruct (ready_modes s W) as [-> _]. Qed.
Lemma spells_meaning : forall s a value w, usable s -> spells s a value w ->
  (word_kind w = WShort \/ word_kind w = WLong) /\ stops (setup s) w = true /\
  exists name, word_meaning (setup s) w = MeansOption [] (a_id a) (a_cfg a) name (style_of value) value.
Proof.
  intros s a value w U H. pose proof (usable_ready_wf s U) as W. pose proof (setup_alt s (usable_wf0 s U)) as KA. destruct H as [name G Q|c G Q Alt|name Alt G Q SW].
  - assert (WK : word_kind (attach ("--" ^^ name) value) = WLong).
    { rewrite attach_app. cbn. destruct (attach name value) eqn:X; [|reflexivity]. exfalso. destruct name; [|destruct value; discriminate]. cbn in G. eapply not_dashdash; eauto. }
    assert (CA : cut_eq (attach ("--" ^^ name) value) = ("--" ^^ name, value)). { apply cut_attach. cbn. intros [X|[X|X]]; [discriminate | discriminate | now apply Q]. }
    split; [now right|]. split.
    + unfold stops. rewrite CA, WK. unfold k_has. now rewrite (setup_get s _ a W G).
    + unfold word_meaning. rewrite CA, WK, (setup_get s _ a W G). eauto.
  - assert (ND : c <> "-"%char) by (intros ->; eapply not_dashdash; eauto).
    assert (WK : word_kind (attach (one_char c) value) = WShort). { apply short_kind. exists c, (attach "" value). split; [destruct value; reflexivity | exact ND]. }
    assert (CA : cut_eq (attach (one_char c) value) = (one_char c, value)). { apply cut_attach. cbn. intros [X|[X|X]]; [discriminate | now apply Q | contradiction]. }
    split; [now left|]. split.
    + unfold stops. rewrite CA, WK. unfold one_char at 2. cbn [after1 stops_bundle]. rewrite (setup_get s _ a W G). now rewrite orb_true_r.
    + unfold word_meaning. rewrite CA, WK, KA. replace (if m_alternative (s_modes s) then k_find (setup s) (String "-" (one_char c)) else None) with (@None (nat * acfg)).
      * unfold one_char at 1. cbn [after1 bundle]. rewrite (setup_get s _ a W G). eauto.
      * destruct (m_alternative (s_modes s)); [|reflexivity]. now rewrite (setup_none s _ W (Alt eq_refl)).
  - assert (WK := short_kind _ SW).
    assert (CA : cut_eq (attach ("-" ^^ name) value) = ("-" ^^ name, value)). { apply cut_attach. cbn. intros [X|X]; [discriminate | now apply Q]. }
    split; [now left|]. split.
    + unfold stops. rewrite CA, WK, KA, Alt. unfold k_has. cbn [String.append] in *. now rewrite (setup_get s _ a W G).
    + unfold word_meaning. rewrite CA, WK, KA, Alt. cbn [String.append] in *. rewrite (setup_get s _ a W G). eauto.
Qed.

(* ------------------------------------------------------------------ *)
(** * C37 *)
(** The words -X (or -X=v) and --X (or --X=v) in place of one another, for an option of
    any kind, at a place where an option word is read: the same outcome and the same
    object.  (This includes their role as terminators of variable-length values: the
    context [pre] may end with a variable-length option or positional.) *)
Lemma same_meaning_outcome : forall s a0 pre w1 w2 post p left, usable s -> interprets s ->
  command_line (a0 :: pre ++ w1 :: post) (pre ++ w1 :: post) -> command_line (a0 :: pre ++ w2 :: post) (pre ++ w2 :: post) ->
  reaches s (pre ++ w1 :: post) p left (w1 :: post) ->
  stops (setup s) w1 = true -> stops (setup s) w2 = true ->
  (word_kind w1 = WShort \/ word_kind w1 = WLong) -> (word_kind w2 = WShort \/ word_kind w2 = WLong) ->
  word_meaning (setup s) w1 = word_meaning (setup s) w2 ->
  same_outcome (parseArguments (a0 :: pre ++ w1 :: post) s) (parseArguments (a0 :: pre ++ w2 :: post) s).
Proof.
  intros s a0 pre w1 w2 post p left U I C1 C2 R S1 S2 K1 K2 M.
  assert (R2 : reaches s (pre ++ w2 :: post) p left (w2 :: post)) by (unfold reaches in *; eapply Reached_swap; eauto).
  assert (RO : forall av, read_option (setup s) w1 av = read_option (setup s) w2 av) by (intros av; unfold read_option; now rewrite M).
  destruct (read_or_reject s _ _ U C1 I) as [[pcs H]|[e H]].
  - destruct (Reached_Reading_inv _ _ _ _ _ _ R _ H) as [r1 [-> H1]]. inversion H1; subst; try (destruct K1; congruence).
    rewrite RO in *. assert (H2 : reads s (pre ++ w2 :: post) (p ++ PcOption w2 occs used :: pcs)).
    { unfold reads. eapply Reached_Reading; [exact R2|]. econstructor; eauto. }
    rewrite (parse_reads s _ _ _ U C1 I H), (parse_reads s _ _ _ U C2 I H2).
    assert (SS : scanned (a0 :: pre ++ w1 :: post) (p ++ PcOption w1 occs used :: pcs) s = scanned (a0 :: pre ++ w2 :: post) (p ++ PcOption w2 occs used :: pcs) s).
    { apply (same_scanned s (a0 :: pre ++ w1 :: post) (a0 :: pre ++ w2 :: post) p [PcOption w1 occs used] [PcOption w2 occs used] pcs); [split; reflexivity | reflexivity]. }
    rewrite SS. split; reflexivity.
  - destruct (parse_rejects s _ _ e U C1 I H) as [s1 [E1 _]]. apply (Reached_Fails_inv _ _ _ _ _ _ R) in H.
    assert (H2 : rejects s (pre ++ w2 :: post) e).
    { unfold rejects. eapply Reached_Fails; [exact R2|]. inversion H; subst; try (destruct K1; congruence); rewrite RO in *; [eapply Fl_option | eapply Fl_option_next]; eauto. }
    destruct (parse_rejects s _ _ e U C2 I H2) as [s2 [E2 _]]. rewrite E1, E2. split; [reflexivity | discriminate].
Qed.
Theorem C37_alternative : forall s a0 pre post p left name value, usable s -> interprets s ->
  m_alternative (s_modes s) = true -> argumentExists (ready s) ("--" ^^ name) = true ->
  ~ has_char "=" name -> short_word (attach ("-" ^^ name) value) ->
  let w1 := attach ("--" ^^ name) value in let w2 := attach ("-" ^^ name) value in
  command_line (a0 :: pre ++ w1 :: post) (pre ++ w1 :: post) -> command_line (a0 :: pre ++ w2 :: post) (pre ++ w2 :: post) ->
  reaches s (pre ++ w1 :: post) p left (w1 :: post) \/ reaches s (pre ++ w2 :: post) p left (w2 :: post) ->
  same_outcome (parseArguments (a0 :: pre ++ w1 :: post) s) (parseArguments (a0 :: pre ++ w2 :: post) s).
Proof.
  intros s a0 pre post p left name value U I Alt Ex Q SW w1 w2 C1 C2 R. pose proof (usable_ready_wf s U) as W.
  destruct (getArgument_some _ _ W Ex) as [a [G _]].
  destruct (spells_meaning s a value w1 U (Sp_long s a value name G Q)) as [K1 [S1 _]].
  destruct (spells_meaning s a value w2 U (Sp_alternative s a value name Alt G Q SW)) as [K2 [S2 _]].
  assert (M : word_meaning (setup s) w1 = word_meaning (setup s) w2).
  { assert (WK1 : word_kind w1 = WLong).
    { unfold w1. rewrite attach_app. cbn. destruct (attach name value) eqn:X; [|reflexivity]. exfalso. destruct name; [|destruct value; discriminate]. cbn in G. eapply not_dashdash; eauto. }
    unfold word_meaning. unfold w1 at 1, w2 at 1. rewrite WK1, (short_kind w2 SW), (setup_alt s (usable_wf0 s U)), Alt.
    rewrite !cut_attach; [| cbn; intros [X|X]; [discriminate | now apply Q] | cbn; intros [X|[X|X]]; [discriminate | discriminate | now apply Q]].
    cbn [String.append after1 after2] in *. rewrite (setup_get s _ a W G). reflexivity. }
  destruct R as [R|R].
  - exact (same_meaning_outcome s a0 pre w1 w2 post p left U I C1 C2 R S1 S2 K1 K2 M).
  - assert (SO : same_outcome (parseArguments (a0 :: pre ++ w2 :: post) s) (parseArguments (a0 :: pre ++ w1 :: post) s))
      by exact (same_meaning_outcome s a0 pre w2 w1 post p left U I C2 C1 R S2 S1 K2 K1 (eq_sym M)).
    destruct SO as [X Y]. split; [now symmetry|]. intros Z. rewrite <- X in Z. symmetry. now apply Y.
Qed.
Print Assumptions C37_alternative.
(** Without alternative mode the word -X... is read as boolean short flags, one short
    flag, and nothing or the value of that flag. *)
Theorem C37_no_alternative : forall s ws pcs w occs used name value, usable s -> reads s ws pcs -> m_alternative (s_modes s) = false ->
  In (PcOption w occs used) pcs -> short_word w -> w = attach name value -> ~ has_char "=" name ->
  exists p c r, name = "-" ^^ p ^^ String c r /\ all_chars (bool_flag s) p /\
     exists a, getArgument (ready s) (one_char c) = Ok a /\
       (r = "" \/ (value = None /\ glues (a_cfg a) = true /\ exists o, In o occs /\ o_id o = a_id a /\ o_vals o = [r])).
Proof.
  intros s ws pcs w occs used name value U H Alt Ip SW Ew Q. destruct (C15_accepted s ws pcs w occs used name value U H Ip Ew Q) as [[K _]|[[_ [A _]]|[_ X]]].
  - rewrite (short_kind w SW) in K. discriminate.
  - congruence.
  - exact X.
Qed.
Print Assumptions C37_no_alternative.
(** the demonstration parser in alternative mode *)
Definition alt_shop : state := history (shop_ops ++ [OpSetAlternative true]).
Lemma alt_usable : usable alt_shop.
Proof. apply careful_usable, careful_history. vm_compute. reflexivity. Qed.
Lemma alt_interprets : interprets alt_shop.
Proof. right. vm_compute. discriminate. Qed.
Ltac rc := first
  [ apply Rc_here
  | eapply Rc_option; [kind | vm_compute; reflexivity | cbn [length skipn]; rc]
  | eapply Rc_positional; [vm_compute; reflexivity | vm_compute; reflexivity | cbn [length skipn]; rc]
  | eapply Rc_additional; [vm_compute; reflexivity | vm_compute; reflexivity | rc] ].
Ltac reaching := unfold reaches;
  match goal with |- Reached _ ?ps _ _ _ _ => let p := eval vm_compute in ps in change ps with p end; rc.
Example C37_example : argumentExists (ready alt_shop) "--name" = true /\
  (exists p left, reaches alt_shop ["f"; "-items"; "1"; "2"; "-name=bob"] p left ["-name=bob"] /\ length p = 2) /\
  snd (parseArguments ["prog"; "f"; "-items"; "1"; "2"; "-name=bob"] alt_shop) = Ok tt.
Proof.
  split; [vm_compute; reflexivity|]. split; [|vm_compute; reflexivity]. eexists. eexists. split.
  - unfold reaches. match goal with |- Reached _ ?ps _ _ _ _ => let p := eval vm_compute in ps in change ps with p end.
    eapply Rc_positional; [vm_compute; reflexivity | vm_compute; reflexivity | cbn [length skipn]].
    eapply Rc_option; [kind | vm_compute; reflexivity | cbn [length skipn]]. apply Rc_here.
  - reflexivity.
Qed.

(* ------------------------------------------------------------------ *)
(** * C36 *)
Definition letters (cs : str) : list str := map one_char (list_ascii_of_string cs).
(** the argument of a boolean flag, and the conditions on alternative mode *)
Definition plain_flag (s : state) (c : ascii) : Prop :=
  bool_flag s c /\ (m_alternative (s_modes s) = true -> argumentExists (ready s) (String "-" (one_char c)) = false).
Lemma bundle_bools : forall s cs bools, wf0 (ready s) -> cs <> "" -> all_chars (bool_flag s) cs ->
  exists ids id c name, bundle (setup s) None bools cs = MeansOption (bools ++ ids) id c name Separate None /\ arity_of c = ANone /\
    (exists cf, Forall2 (fun x i => exists a, getArgument (ready s) (one_char x) = Ok a /\ a_id a = i /\ is_flag_type (c_type (a_cfg a)) = true) (list_ascii_of_string cs) (ids ++ [id]) /\ cf = c).
Proof.
  intros s cs bools W. revert bools. induction cs as [|x cs IH]; intros bools N B; [congruence|]. destruct B as [[a [G T]] B]. cbn [bundle list_ascii_of_string].
  rewrite (setup_get s _ a W G). destruct cs as [|y cs].
  - exists [], (a_id a), (a_cfg a), (str1 x). rewrite app_nil_r. split; [reflexivity|]. split.
    + unfold arity_of. destruct (c_type (a_cfg a)); now try discriminate.
    + eexists. split; [|reflexivity]. constructor; [now exists a | constructor].
  - replace (glues (a_cfg a)) with false by (unfold glues; destruct (c_type (a_cfg a)); now try discriminate). rewrite T.
    destruct (IH (bools ++ [a_id a]) ltac:(discriminate) B) as [ids [id [c [name [E [A [cf [F Ec]]]]]]]]. exists (a_id a :: ids), id, c, name. split.
    + rewrite E. now rewrite <- app_assoc.
    + split; [exact A|]. exists cf. split; [|exact Ec]. constructor; [now exists a | exact F].
Qed.
Lemma stops_bools : forall s cs, wf0 (ready s) -> cs <> "" -> all_chars (bool_flag s) cs -> stops_bundle (setup s) false cs = true.
Proof.
  intros s cs W. induction cs as [|x cs IH]; intros N B; [congruence|]. destruct B as [[a [G T]] B]. cbn [stops_bundle].
  rewrite (setup_get s _ a W G). destruct cs as [|y cs]; [reflexivity|]. rewrite T. now rewrite orb_true_r.
Qed.
Lemma letter_step : forall s x a left t, usable s -> plain_flag s x -> x <> "="%char -> getArgument (ready s) (one_char x) = Ok a -> is_flag_type (c_type (a_cfg a)) = true ->
  forall q left' r, Reached (setup s) left t q left' r -> Reached (setup s) left (one_char x :: t) (PcOption (one_char x) [flag_occ (a_id a)] [] :: q) left' r.
Proof.
  intros s x a left t U [_ Alt] Nx G T q left' r H. destruct (spells_meaning s a None (one_char x) U (Sp_short s a None x G Nx Alt)) as [K [_ [name M]]].
  eapply Rc_option; [exact K | | exact H]. unfold read_option. rewrite M. unfold option_values.
  replace (arity_of (a_cfg a)) with ANone by (unfold arity_of; destruct (c_type (a_cfg a)); now try discriminate). reflexivity.
Qed.
Theorem C36_bundle : forall s a0 pre post p left cs, usable s -> interprets s -> cs <> "" ->
  all_chars (plain_flag s) cs -> ~ has_char "=" cs -> (m_alternative (s_modes s) = true -> argumentExists (ready s) ("--" ^^ cs) = false) ->
  command_line (a0 :: pre ++ ["-" ^^ cs] ++ post) (pre ++ ["-" ^^ cs] ++ post) -> command_line (a0 :: pre ++ letters cs ++ post) (pre ++ letters cs ++ post) ->
  reaches s (pre ++ ["-" ^^ cs] ++ post) p left (["-" ^^ cs] ++ post) ->
  same_outcome (parseArguments (a0 :: pre ++ ["-" ^^ cs] ++ post) s) (parseArguments (a0 :: pre ++ letters cs ++ post) s).
Proof.
  intros s a0 pre post p left cs U I N B Q Alt C1 C2 R. pose proof (usable_ready_wf s U) as W.
  assert (BF : all_chars (bool_flag s) cs). { clear - B. induction cs as [|x cs IH]; [exact Logic.I|]. destruct B as [[B _] B']. split; [exact B | now apply IH]. }
  destruct (bundle_bools s cs [] W N BF) as [ids [id [c [name [E [A [cf [F Ec]]]]]]]]. cbn [app] in E.
  assert (WK : word_kind ("-" ^^ cs) = WShort).
  { destruct cs as [|x cs]; [congruence|]. apply short_kind. exists x, cs. split; [reflexivity|]. destruct B as [[[a [G _]] _] _]. intros ->. eapply not_dashdash; eauto. }
  assert (CA : cut_eq ("-" ^^ cs) = ("-" ^^ cs, None)). { apply (cut_attach ("-" ^^ cs) None). cbn. intros [X|X]; [discriminate | now apply Q]. }
  assert (M : word_meaning (setup s) ("-" ^^ cs) = MeansOption ids id c name Separate None).
  { unfold word_meaning. rewrite CA, WK, (setup_alt s (usable_wf0 s U)). cbn [String.append after1] in *.
    destruct (m_alternative (s_modes s)); [rewrite (setup_none s _ W (Alt eq_refl))|]; exact E. }
  assert (CH : forall x l, l = list_ascii_of_string cs -> In x l -> plain_flag s x /\ x <> "="%char).
  { clear - B Q. intros x l ->. induction cs as [|y cs IH]; [intros []|]. cbn [list_ascii_of_string has_char all_chars] in *. destruct B as [B B'].
    intros [<-|Ix]; [split; [exact B | intros ->; apply Q; now left]|]. apply IH; auto. }
  assert (P2 : exists q2, reads_part s left (letters cs) post q2 /\ additional_of q2 = [] /\ occs_of q2 = map flag_occ (ids ++ [id]) /\ given_of q2 = []).
  { unfold reads_part, letters. revert CH F. generalize (ids ++ [id]) (list_ascii_of_string cs). intros is xs CH F. specialize (fun x => CH x _ (eq_refl _)). clear - U CH F.
    rename CH into CH'. induction F as [|x i xs is [a [G [<- T]]] F IH].
    - exists []. repeat split. apply Rc_here.
    - destruct IH as [q [Rq [Aq [Oq Gq]]]]; [intros y Iy; apply CH'; now right|]. destruct (CH' x (or_introl eq_refl)) as [PF Nx].
      exists (PcOption (one_char x) [flag_occ (a_id a)] [] :: q). repeat split.
      + cbn [map app]. eapply letter_step; eauto.
      + exact Aq.
      + cbn [map]. rewrite <- Oq. reflexivity.
      + exact Gq. }
  destruct P2 as [q2 [P2 [A2 [O2 G2]]]].
  assert (RO : read_option (setup s) ("-" ^^ cs) (before_end post) = inr (map flag_occ (ids ++ [id]), [])).
  { unfold read_option. rewrite M. unfold option_values. rewrite A. cbn [take_words]. now rewrite map_app. }
  eapply (swap_outcome s a0 pre ["-" ^^ cs] (letters cs) post p left [PcOption ("-" ^^ cs) (map flag_occ (ids ++ [id])) []] q2); auto.
  - exists ("-" ^^ cs), []. split; [reflexivity|]. unfold stops. rewrite CA, WK. cbn [String.append after1]. rewrite (stops_bools s cs W N BF). apply orb_true_r.
  - destruct cs as [|x cs]; [congruence|]. exists (one_char x), (letters cs). split; [reflexivity|]. destruct B as [[[a [G T]] Al] _].
    apply (spells_meaning s a None (one_char x) U (Sp_short s a None x G (fun X => Q (or_introl X)) Al)).
  - unfold reads_part. cbn [app]. eapply Rc_option; [now left | exact RO | apply Rc_here].
  - split; [rewrite A2; reflexivity|]. intros a d Ia.
    assert (PD : forall q, given_of q = [] -> forall d, pieces_dyn (a_id a) (a_cfg a) q d = occs_dyn (a_cfg a) (occs_for (a_id a) q) d).
    { intros q Gq d'. apply option_dyn. intros vs Iv. apply given_In in Iv. rewrite Gq in Iv. destruct Iv. }
    rewrite (PD q2 G2). rewrite PD by reflexivity. unfold occs_for. rewrite O2. unfold occs_of. cbn [flat_map]. now rewrite app_nil_r.
Qed.
Print Assumptions C36_bundle.
Example C36_example : all_chars (plain_flag shop) "vqv" /\
  (exists p left, reaches shop ["x"; "-vqv"; "y"] p left ["-vqv"; "y"] /\ length p = 1) /\
  snd (parseArguments ["prog"; "x"; "-vqv"; "y"] shop) = Ok tt /\
  parseArguments ["prog"; "x"; "-vqv"; "y"] shop = parseArguments ["prog"; "x"; "-v"; "-q"; "-v"; "y"] shop.
Proof.
  split; [|split; [|split; vm_compute; reflexivity]].
  - repeat split; try (eexists; split; [vm_compute; reflexivity | reflexivity]); vm_compute; discriminate.
  - eexists. eexists. split.
    + unfold reaches. match goal with |- Reached _ ?ps _ _ _ _ => let p := eval vm_compute in ps in change ps with p end.
      eapply Rc_positional; [vm_compute; reflexivity | vm_compute; reflexivity | cbn [length skipn]]. apply Rc_here.
    + reflexivity.
Qed.

(* ------------------------------------------------------------------ *)
(** * C20 *)
(** the ways to write an option with one value: the flag and the value as two words, or
    with '=' (short flag, long flag, long flag with one dash in alternative mode) *)
Inductive written (s : state) (a : argument) (v : str) : list str -> Prop :=
| Wr_two : forall w, spells s a None w -> v <> "--" -> written s a v [w; v]
| Wr_equal : forall w, spells s a (Some v) w -> written s a v [w].
(** short flag and value in one word *)
Inductive written_glued (s : state) (a : argument) (v : str) : list str -> Prop :=
| Wr_glued : forall c, getArgument (ready s) (one_char c) = Ok a -> c <> "="%char -> v <> "" -> ~ has_char "=" v ->
    (m_alternative (s_modes s) = true -> argumentExists (ready s) (String "-" (one_char c ^^ v)) = false) ->
    written_glued s a v [one_char c ^^ v].
(** the option takes one value: action NONE with nargs 1, or APPEND with nargs 1 *)
Definition one_value (a : argument) : Prop := c_type (a_cfg a) = SIMPLE_OPTION \/ c_type (a_cfg a) = MULTI_OPTION.

Lemma one_value_arity : forall a, one_value a -> arity_of (a_cfg a) = AOne /\ glues (a_cfg a) = true.
Proof. intros a [T|T]; unfold arity_of, glues; now rewrite T. Qed.
Lemma before_end_word : forall v post, v <> "--" -> exists r, before_end (v :: post) = v :: r.
Proof.
  intros v post N. cbn [before_end]. destruct (word_kind v) eqn:K; eauto. apply kind_end in K. contradiction.
Qed.
Lemma written_part : forall s a v m, usable s -> one_value a -> written s a v m ->
  (exists w t, m = w :: t /\ stops (setup s) w = true) /\
  forall left post, exists w st used, reads_part s left m post [PcOption w [Occ (a_id a) st [v]] used] /\ st <> Glued.
Proof.
  intros s a v m U O Wr. destruct (one_value_arity a O) as [A _]. destruct Wr as [w Sp Nv|w Sp].
  - destruct (spells_meaning s a None w U Sp) as [K [S [name M]]]. split; [eauto|]. intros left post. exists w, Separate, [v]. split; [|discriminate].
    unfold reads_part. cbn [app]. eapply Rc_option; [exact K | | apply Rc_here].
    unfold read_option. rewrite M. unfold option_values. rewrite A. destruct (before_end_word v post Nv) as [r ->]. reflexivity.
  - destruct (spells_meaning s a (Some v) w U Sp) as [K [S [name M]]]. split; [eauto|]. intros left post. exists w, AfterEq, []. split; [|discriminate].
    unfold reads_part. cbn [app]. eapply Rc_option; [exact K | | apply Rc_here].
    unfold read_option. rewrite M. unfold option_values. now rewrite A.
Qed.
Lemma glued_part : forall s a v m, usable s -> one_value a -> written_glued s a v m ->
  (exists w t, m = w :: t /\ stops (setup s) w = true) /\
  forall left post, exists w used, reads_part s left m post [PcOption w [Occ (a_id a) Glued [v]] used].
Proof.
  intros s a v m U O Wr. pose proof (usable_ready_wf s U) as W. destruct (one_value_arity a O) as [A G]. destruct Wr as [c Gc Nc Nv Qv Alt].
  destruct v as [|x v]; [congruence|]. set (w := one_char c ^^ String x v).
  assert (ND : c <> "-"%char) by (intros ->; eapply not_dashdash; eauto).
  assert (WK : word_kind w = WShort). { apply short_kind. exists c, (String x v). split; [reflexivity | exact ND]. }
  assert (CA : cut_eq w = (w, None)). { apply (cut_attach w None). cbn. intros [X|[X|X]]; [discriminate | now apply Nc | now apply Qv]. }
  split.
  - exists w, []. split; [reflexivity|]. unfold stops. rewrite CA, WK. unfold w, one_char. cbn [String.append after1 stops_bundle].
    change (String "-" (String c "")) with (one_char c). rewrite (setup_get s _ a W Gc), G. cbn. now rewrite orb_true_r.
  - intros left post. exists w, []. unfold reads_part. cbn [app]. eapply Rc_option; [now left | | apply Rc_here].
    unfold read_option, word_meaning. rewrite CA, WK, (setup_alt s (usable_wf0 s U)).
    replace (if m_alternative (s_modes s) then k_find (setup s) (String "-" w) else None) with (@None (nat * acfg)).
    + unfold w, one_char. cbn [String.append after1 bundle]. change (String "-" (String c "")) with (one_char c). rewrite (setup_get s _ a W Gc), G.
      unfold option_values. now rewrite A.
    + destruct (m_alternative (s_modes s)); [|reflexivity]. symmetry. exact (setup_none s _ W (Alt eq_refl)).
Qed.

(** Full property: all spellings, including the glued one, lead to the same observable
    result.  Proved here for the spellings with two words or '='; the glued spelling is
    C20_glued_partial (same result but for count(), when no defaults can survive); it is
    really different, see C20_refuted. *)
Theorem C20_partial : forall s a0 pre post p left a v m1 m2, usable s -> interprets s -> one_value a ->
  written s a v m1 -> written s a v m2 ->
  command_line (a0 :: pre ++ m1 ++ post) (pre ++ m1 ++ post) -> command_line (a0 :: pre ++ m2 ++ post) (pre ++ m2 ++ post) ->
  reaches s (pre ++ m1 ++ post) p left (m1 ++ post) ->
  same_outcome (parseArguments (a0 :: pre ++ m1 ++ post) s) (parseArguments (a0 :: pre ++ m2 ++ post) s).
Proof.
  intros s a0 pre post p left a v m1 m2 U I O W1 W2 C1 C2 R.
  destruct (written_part s a v m1 U O W1) as [S1 P1]. destruct (written_part s a v m2 U O W2) as [S2 P2].
  destruct (P1 left post) as [w1 [st1 [u1 [Q1 N1]]]]. destruct (P2 left post) as [w2 [st2 [u2 [Q2 N2]]]].
  apply (swap_outcome s a0 pre m1 m2 post p left _ _ U I C1 C2 R S1 S2 Q1 Q2). split; [reflexivity|].
  intros b d _. unfold pieces_dyn. cbn [fold_left piece_dyn]. destruct (Nat.eqb _ _); [|reflexivity].
  unfold occ_dyn. cbn [o_style o_vals]. destruct st1; try congruence; destruct st2; congruence.
Qed.
Print Assumptions C20_partial.

(** the object, but for the count() of one argument *)
Definition but_count_arg (id : nat) (a : argument) : argument :=
  if Nat.eqb (a_id a) id then arg_dyn a (ADyn (d_exist (a_dyn a)) 0 (d_arg (a_dyn a)) (d_num (a_dyn a)) (d_elems (a_dyn a))) else a.
Definition but_count (id : nat) (s : state) : state := with_args s (map (but_count_arg id) (s_args s)).
Definition zc (d : adyn) : adyn := ADyn (d_exist d) 0 (d_arg d) (d_num d) (d_elems d).
Lemma bc_cfg : forall id a, a_cfg (but_count_arg id a) = a_cfg a /\ a_id (but_count_arg id a) = a_id a /\ a_gen (but_count_arg id a) = a_gen a /\ d_exist (a_dyn (but_count_arg id a)) = d_exist (a_dyn a).
Proof. intros id a. unfold but_count_arg. destruct (Nat.eqb _ _); repeat split. Qed.
Lemma bc_plain : forall id a, plain_values (but_count_arg id a) = plain_values a.
Proof. intros id a. unfold but_count_arg. destruct (Nat.eqb _ _); reflexivity. Qed.
Lemma bc_refusal : forall id a, refusal (but_count_arg id a) = refusal a.
Proof. intros id a. unfold refusal, invalid. rewrite bc_plain. destruct (bc_cfg id a) as [-> [_ [_ ->]]]. reflexivity. Qed.
Lemma bc_finished : forall id a, finished (but_count_arg id a) = but_count_arg id (finished a).
Proof.
  intros id a. unfold but_count_arg at 2. rewrite finished_id. destruct (Nat.eqb (a_id a) id) eqn:E.
  - unfold but_count_arg. rewrite E. destruct a as [i g c [ex ct ar nu es]]. unfold finished, checked, plain_values, stored, num_dyn, arg_dyn, dyn_arg, dyn_elems. cbn [a_cfg a_dyn a_id a_gen d_exist d_count d_arg d_num d_elems].
    destruct (c_valid c) as [vl|]; [destruct ex|]; cbn [a_cfg a_dyn a_id a_gen d_exist d_count d_arg d_num d_elems].
    all: destruct (c_type c) eqn:T; cbn [a_cfg a_dyn a_id a_gen d_exist d_count d_arg d_num d_elems].
    all: repeat match goal with |- context [match v_fn ?x ?y with _ => _ end] => destruct (v_fn x y) as [[] vs| |] end.
    all: cbn [a_cfg a_dyn a_id a_gen d_exist d_count d_arg d_num d_elems]; rewrite ?T.
    all: try reflexivity.
    all: try (destruct es; reflexivity).
    all: try (destruct vs; cbn [a_cfg a_dyn a_id a_gen d_exist d_count d_arg d_num d_elems]; rewrite ?T; destruct es; reflexivity).
    all: try (destruct (store_elems es vs); reflexivity).
    all: try (destruct (store_groups es vs); reflexivity).
  - unfold but_count_arg. now rewrite E.
Qed.
Lemma bc_events : forall id a, arg_events (but_count_arg id a) = arg_events a.
Proof. intros id a. unfold but_count_arg. destruct (Nat.eqb _ _); reflexivity. Qed.
Lemma bc_trouble : forall id a, trouble (but_count_arg id a) = trouble a.
Proof. intros id a. unfold trouble. now rewrite bc_refusal, bc_finished, bc_events. Qed.
Lemma bc_find_ptr : forall id p l, find_ptr p (map (but_count_arg id) l) = option_map (but_count_arg id) (find_ptr p l).
Proof.
  intros id p l. unfold find_ptr. induction l as [|a l IH]; [reflexivity|]. cbn [map find]. destruct (bc_cfg id a) as [_ [-> [-> _]]].
  destruct (_ && _); [reflexivity | exact IH].
Qed.
Lemma bc_met : forall id p t, met p (but_count id t) = met p t.
Proof.
  intros id [q|] t; [|reflexivity]. unfold met, but_count. cbn [with_args s_args]. rewrite bc_find_ptr. destruct (find_ptr q (s_args t)) as [a|]; [|reflexivity].
  cbn [option_map]. apply bc_cfg.
Qed.
Lemma bc_frame : forall id t, frame t (but_count id t).
Proof.
  intros id t. split; try reflexivity. unfold but_count. cbn [with_args s_args]. unfold static. rewrite map_map. apply map_ext. intros a.
  destruct (bc_cfg id a) as [A [B [C _]]]. now rewrite A, B, C.
Qed.
Lemma bc_verdict : forall id t, verdict (but_count id t) = verdict t.
Proof.
  intros id t. unfold verdict. rewrite !bc_met. unfold usage_of. rewrite (usage_frame _ _ (bc_frame id t) eq_refl).
  change (s_help (but_count id t)) with (s_help t). change (s_version (but_count id t)) with (s_version t). change (s_modes (but_count id t)) with (s_modes t). change (s_verstr (but_count id t)) with (s_verstr t).
  assert (MI : missing (but_count id t) = map (but_count_arg id) (missing t)).
  { unfold missing, but_count. cbn [with_args s_args]. induction (s_args t) as [|a l IH]; [reflexivity|]. cbn [map filter]. destruct (bc_cfg id a) as [-> [_ [_ ->]]].
    destruct (_ && _); cbn [map]; now rewrite IH. }
  rewrite MI. assert (TR : flat_map (fun a => match trouble a with Some e => [e] | None => [] end) (s_args (but_count id t)) = flat_map (fun a => match trouble a with Some e => [e] | None => [] end) (s_args t)).
  { unfold but_count. cbn [with_args s_args]. induction (s_args t) as [|a l IH]; [reflexivity|]. cbn [map flat_map]. now rewrite IH, bc_trouble. }
  rewrite TR. destruct (missing t) as [|a l]; [reflexivity|]. cbn [map]. unfold required_error. now destruct (bc_cfg id a) as [-> _].
Qed.
Lemma bc_completion : forall id t, completion (but_count id t) = but_count id (completion t).
Proof.
  intros id t. unfold completion, but_count. cbn [with_args with_dlog s_args s_dlog]. unfold with_dlog, with_args. cbn.
  f_equal.
  - rewrite !map_map. apply map_ext. intros a. apply bc_finished.
  - f_equal. unfold all_events. induction (s_args t) as [|a l IH]; [reflexivity|]. cbn [map flat_map]. now rewrite IH, bc_finished, bc_events.
Qed.
Lemma zc_occ : forall c o d, zc (occ_dyn c o d) = zc (occ_dyn c o (zc d)).
Proof. intros c o [ex ct ar nu es]. unfold occ_dyn, zc, seen, set_arg, set_elems. cbn. destruct (o_style o); cbn; destruct (c_type c); reflexivity. Qed.
Lemma zc_piece : forall id c p d, zc (piece_dyn id c d p) = zc (piece_dyn id c (zc d) p).
Proof.
  intros id c p d. destruct p as [w os u|i vs|w|]; cbn [piece_dyn].
  - revert d. assert (G : forall xs d d', zc d = zc d' -> zc (fold_left (fun d o => if Nat.eqb (o_id o) id then occ_dyn c o d else d) xs d) = zc (fold_left (fun d o => if Nat.eqb (o_id o) id then occ_dyn c o d else d) xs d')).
    { induction xs as [|o l IH]; intros d d' E; [exact E|]. cbn [fold_left]. apply IH. destruct (Nat.eqb _ _); [|exact E]. rewrite zc_occ, E. symmetry. apply zc_occ. }
    intros d. apply G. now destruct d.
  - destruct (Nat.eqb i id); [|now destruct d]. destruct d as [ex ct ar nu es]. unfold pos_dyn, zc, set_arg, set_elems. cbn. destruct (c_type c); reflexivity.
  - now destruct d.
  - now destruct d.
Qed.
Lemma zc_pieces : forall id c q d d', zc d = zc d' -> zc (pieces_dyn id c q d) = zc (pieces_dyn id c q d').
Proof.
  intros id c. unfold pieces_dyn. induction q as [|p q IH]; intros d d' E; [exact E|]. cbn [fold_left]. apply IH. rewrite zc_piece, E. symmetry. apply zc_piece.
Qed.
Lemma kept_pieces : forall id c q d, d_exist d = true \/ d_elems d = [] -> d_exist (pieces_dyn id c q d) = true \/ d_elems (pieces_dyn id c q d) = [].
Proof.
  intros id c. unfold pieces_dyn. induction q as [|p q IH]; intros d H; [exact H|]. cbn [fold_left]. apply IH. destruct p as [w os u|i vs|w|]; cbn [piece_dyn]; auto.
  - revert d H. induction os as [|o os IHo]; intros d H; [exact H|]. cbn [fold_left]. apply IHo. destruct (Nat.eqb _ _); [left; apply occ_exist | exact H].
  - destruct (Nat.eqb i id); [left; apply pos_exist | exact H].
Qed.

(** The glued spelling -nv against the others: the same outcome, and the same object but
    for count(), provided that the option is a plain one-value option, or an APPEND
    option that has no values (no defaults, nothing left from an earlier parse). *)
Theorem C20_glued_partial : forall s a0 pre post p left a v m1 m2, usable s -> interprets s ->
  c_type (a_cfg a) = SIMPLE_OPTION \/ (c_type (a_cfg a) = MULTI_OPTION /\ to_vector a = Ok []) ->
  written_glued s a v m1 -> written s a v m2 ->
  command_line (a0 :: pre ++ m1 ++ post) (pre ++ m1 ++ post) -> command_line (a0 :: pre ++ m2 ++ post) (pre ++ m2 ++ post) ->
  reaches s (pre ++ m1 ++ post) p left (m1 ++ post) ->
  let r1 := parseArguments (a0 :: pre ++ m1 ++ post) s in let r2 := parseArguments (a0 :: pre ++ m2 ++ post) s in
  snd r1 = snd r2 /\ (snd r1 = Ok tt -> but_count (a_id a) (fst r1) = but_count (a_id a) (fst r2)).
Proof.
  intros s a0 pre post p left a v m1 m2 U I Ty W1 W2 C1 C2 R r1 r2. pose proof (usable_ready_wf s U) as W.
  assert (O : one_value a) by (destruct Ty as [T|[T _]]; [now left | now right]).
  destruct (glued_part s a v m1 U O W1) as [S1 P1]. destruct (written_part s a v m2 U O W2) as [S2 P2].
  destruct (P1 left post) as [w1 [u1 Q1]]. destruct (P2 left post) as [w2 [st2 [u2 [Q2 N2]]]].
  destruct (swap_reads s pre m1 m2 post p left _ _ R S1 S2 Q1 Q2) as [HR HF].
  destruct (read_or_reject s _ _ U C1 I) as [[pcs H]|[e H]].
  2:{ destruct (parse_rejects s _ _ e U C1 I H) as [s1 [E1 _]]. destruct (parse_rejects s _ _ e U C2 I (HF e H)) as [s2 [E2 _]].
      unfold r1, r2. rewrite E1, E2. split; [reflexivity | discriminate]. }
  destruct (HR _ H) as [r [-> H2]].
  destruct (parse_verdict s _ _ _ U C1 I H) as [V1 F1]. destruct (parse_verdict s _ _ _ U C2 I H2) as [V2 F2]. fold r1 in V1, F1. fold r2 in V2, F2.
  assert (Ia : In a (arguments (ready s))) by (destruct W1 as [c G _ _ _ _]; now apply (getArgument_inv _ _ _ W) in G).
  assert (SC : but_count (a_id a) (scanned (a0 :: pre ++ m1 ++ post) (p ++ [PcOption w1 [Occ (a_id a) Glued [v]] u1] ++ r) s) =
               but_count (a_id a) (scanned (a0 :: pre ++ m2 ++ post) (p ++ [PcOption w2 [Occ (a_id a) st2 [v]] u2] ++ r) s)).
  { unfold scanned, named, but_count. cbn [hd]. rewrite !additional_of_app. cbn [additional_of flat_map app]. unfold with_args, with_additional, with_bin. cbn.
    f_equal. rewrite !map_map. apply map_ext_in. intros b Ib. unfold but_count_arg, read_arg, arg_dyn. cbn [a_id a_gen a_cfg a_dyn].
    destruct (Nat.eqb (a_id b) (a_id a)) eqn:E.
    - apply Nat.eqb_eq in E. assert (b = a) by exact (wf_unique _ _ _ W Ib Ia E). subst b. f_equal.
      change (PcOption w1 [Occ (a_id a) Glued [v]] u1 :: r) with ([PcOption w1 [Occ (a_id a) Glued [v]] u1] ++ r).
      change (PcOption w2 [Occ (a_id a) st2 [v]] u2 :: r) with ([PcOption w2 [Occ (a_id a) st2 [v]] u2] ++ r).
      rewrite !pieces_dyn_app.
      apply (zc_pieces (a_id a) (a_cfg a) r).
      assert (KP : c_type (a_cfg a) = MULTI_OPTION -> let d := pieces_dyn (a_id a) (a_cfg a) p (a_dyn (clear_arg a)) in d_exist d = true \/ d_elems d = []).
      { intros T. apply kept_pieces. right. destruct Ty as [T'|[_ Tv]]; [congruence|]. rewrite to_vector_eq in Tv. unfold has_values, arity_of, plain_values in Tv. rewrite T in Tv.
        injection Tv as Tv. unfold clear_arg, arg_dyn. cbn [a_dyn d_elems]. destruct (d_elems (a_dyn a)); [reflexivity | discriminate]. }
      unfold pieces_dyn at 1 3. cbn [fold_left piece_dyn o_id]. rewrite Nat.eqb_refl.
      set (d := pieces_dyn (a_id a) (a_cfg a) p (a_dyn (clear_arg a))) in *. clearbody d. unfold occ_dyn. cbn [o_style o_vals].
      destruct O as [T|T]; rewrite T.
      + destruct st2; try congruence; reflexivity.
      + specialize (KP T). destruct d as [ex ct ar nu es]. cbn [d_exist d_elems seen] in *. unfold seen, set_elems. cbn.
        destruct st2; try congruence; (destruct KP as [->| ->]; [reflexivity | destruct ex; reflexivity]).
    - f_equal. change (PcOption w1 [Occ (a_id a) Glued [v]] u1 :: r) with ([PcOption w1 [Occ (a_id a) Glued [v]] u1] ++ r).
      change (PcOption w2 [Occ (a_id a) st2 [v]] u2 :: r) with ([PcOption w2 [Occ (a_id a) st2 [v]] u2] ++ r).
      rewrite !pieces_dyn_app. f_equal. unfold pieces_dyn at 1 3. cbn [fold_left piece_dyn o_id]. rewrite Nat.eqb_sym, E. reflexivity. }
  split.
  - rewrite V1, V2, <- (bc_verdict (a_id a)), SC. apply bc_verdict.
  - intros OK. rewrite (F1 OK), F2; [|rewrite V2, <- (bc_verdict (a_id a)), <- SC, bc_verdict, <- V1; exact OK].
    rewrite <- !bc_completion. now rewrite SC.
Qed.
Print Assumptions C20_glued_partial.
(** -nbob and -n bob differ in count(); for an APPEND option with defaults they differ in
    the values. *)
Theorem C20_refuted : exists s a0 m1 m2 a v, usable s /\ interprets s /\ one_value a /\ written_glued s a v m1 /\ written s a v m2 /\
  command_line (a0 :: m1) m1 /\ command_line (a0 :: m2) m2 /\
  snd (parseArguments (a0 :: m1) s) = Ok tt /\ snd (parseArguments (a0 :: m2) s) = Ok tt /\
  to_vector (pick "-a" (fst (parseArguments (a0 :: m1) s))) = Ok ["d1"; "x"] /\ to_vector (pick "-a" (fst (parseArguments (a0 :: m2) s))) = Ok ["x"] /\
  count (pick "-a" (fst (parseArguments (a0 :: m1) s))) = 2 /\ count (pick "-a" (fst (parseArguments (a0 :: m2) s))) = 1.
Proof.
  set (ops := [OpAdd ["-a"] [MAction APPEND; MDefaults ["d1"]]]).
  assert (U : usable (history ops)) by (apply careful_usable, careful_history; vm_compute; reflexivity).
  exists (history ops), "prog", ["-ax"], ["-a"; "x"], (pick "-a" (ready (history ops))), "x".
  split; [exact U|]. split; [right; vm_compute; discriminate|]. split; [right; vm_compute; reflexivity|].
  split. { apply (Wr_glued (history ops) (pick "-a" (ready (history ops))) "x" "a"); [vm_compute; reflexivity | discriminate | discriminate | cbn; intuition discriminate | vm_compute; discriminate]. }
  split. { apply Wr_two; [|discriminate]. apply (Sp_short (history ops) (pick "-a" (ready (history ops))) None "a"); [vm_compute; reflexivity | discriminate | vm_compute; discriminate]. }
  split; [line|]. split; [line|]. repeat split; vm_compute; reflexivity.
Qed.
Print Assumptions C20_refuted.
Example C20_example : one_value (pick "-n" (ready alt_shop)) /\
  written alt_shop (pick "-n" (ready alt_shop)) "bob" ["-n"; "bob"] /\ written alt_shop (pick "-n" (ready alt_shop)) "bob" ["-n=bob"] /\
  written alt_shop (pick "-n" (ready alt_shop)) "bob" ["--name"; "bob"] /\ written alt_shop (pick "-n" (ready alt_shop)) "bob" ["--name=bob"] /\
  written alt_shop (pick "-n" (ready alt_shop)) "bob" ["-name"; "bob"] /\ written alt_shop (pick "-n" (ready alt_shop)) "bob" ["-name=bob"] /\
  written_glued alt_shop (pick "-n" (ready alt_shop)) "bob" ["-nbob"].
Proof.
  assert (Q : ~ has_char "=" "name") by (cbn; intuition discriminate).
  assert (S : forall v, spells alt_shop (pick "-n" (ready alt_shop)) v (attach "-n" v)).
  { intros v. apply (Sp_short alt_shop _ v "n"); [vm_compute; reflexivity | discriminate | intros _; vm_compute; reflexivity]. }
  assert (L : forall v, spells alt_shop (pick "-n" (ready alt_shop)) v (attach "--name" v)).
  { intros v. apply (Sp_long alt_shop _ v "name"); [vm_compute; reflexivity | exact Q]. }
  assert (A : forall v, spells alt_shop (pick "-n" (ready alt_shop)) v (attach "-name" v)).
  { intros v. apply (Sp_alternative alt_shop _ v "name"); [vm_compute; reflexivity | vm_compute; reflexivity | exact Q |].
    exists "n"%char, (attach "ame" v). split; [destruct v; reflexivity | discriminate]. }
  split; [left; vm_compute; reflexivity|].
  split; [exact (Wr_two _ _ "bob" _ (S None) ltac:(discriminate))|]. split; [exact (Wr_equal _ _ "bob" _ (S (Some "bob")))|].
  split; [exact (Wr_two _ _ "bob" _ (L None) ltac:(discriminate))|]. split; [exact (Wr_equal _ _ "bob" _ (L (Some "bob")))|].
  split; [exact (Wr_two _ _ "bob" _ (A None) ltac:(discriminate))|]. split; [exact (Wr_equal _ _ "bob" _ (A (Some "bob")))|].
  apply (Wr_glued alt_shop _ "bob" "n"); [vm_compute; reflexivity | discriminate | discriminate | cbn; intuition discriminate | intros _; vm_compute; reflexivity].
Qed.
