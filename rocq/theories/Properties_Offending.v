(** Properties_Offending.v -- C69: what follows the offending word plays no role. *)
From Coq Require Import Permutation Sorted.
From Verif Require Import Base Model_Utils Model_Number Model_Types Model_Argument Model_Usage Model_Args Model_Api
  Spec_Order Spec_Names Spec_Reading Spec_Parse Spec_Finish Spec_History Spec_Api Spec_Result
  Proofs_Base Proofs_Order Proofs_Frame Proofs_Inv Proofs_ReadFacts Proofs_Reading Proofs_Parse Proofs_Decl Proofs_Finish
  Proofs_Meth Proofs_History Proofs_Config Proofs_Names Proofs_Central Proofs_Dyn Proofs_Swap
  Properties_Words Properties_Parse Proofs_Check Properties_Errors Demo.

(** what is taken from a list depends on a word further only *)
Lemma run_prefix : forall stop p t t', length (run_of stop (p ++ t)) < length p -> run_of stop (p ++ t') = run_of stop (p ++ t).
Proof.
  intros stop p t t'. induction p as [|w p IH]; cbn [app run_of length]; [lia|]. destruct (stop w); [reflexivity|]. cbn [length]. intros H. rewrite IH by lia. reflexivity.
Qed.
Lemma groups_prefix : forall stop n p t t' k vs, groups_from stop n k (p ++ t) = Some vs -> length vs < length p -> groups_from stop n k (p ++ t') = Some vs.
Proof.
  intros stop n p t t'. induction p as [|w p IH]; cbn [app length]; [lia|]. intros [|k] vs; cbn [groups_from].
  - destruct (stop w); [auto|]. destruct (groups_from stop n (n - 1) (p ++ t)) as [vs'|] eqn:G; [|discriminate]. intros H L. injection H as <-. cbn [length] in L. rewrite (IH _ vs' G) by lia. reflexivity.
  - destruct (groups_from stop n k (p ++ t)) as [vs'|] eqn:G; [|discriminate]. intros H L. injection H as <-. cbn [length] in L. rewrite (IH _ vs' G) by lia. reflexivity.
Qed.
Lemma take_prefix : forall stop ar p t t' vs, take_words stop ar (p ++ t) = Some vs -> length vs < length p -> take_words stop ar (p ++ t') = Some vs.
Proof.
  intros stop ar p t t' vs. destruct ar as [| |n| |n]; cbn [take_words].
  - auto.
  - destruct p as [|w p]; cbn [length app]; [lia | auto].
  - destruct (Nat.ltb_spec (length (p ++ t)) n) as [H|H]; [discriminate|]. intros E L. injection E as <-. rewrite firstn_length_le in L by lia.
    destruct (Nat.ltb_spec (length (p ++ t')) n) as [H'|H']; [rewrite app_length in H'; lia|]. rewrite !firstn_app. replace (n - length p) with 0 by lia. reflexivity.
  - intros E L. injection E as <-. f_equal. now apply run_prefix.
  - intros E L. eapply groups_prefix; eassumption.
Qed.
Lemma before_end_prefix : forall p, (forall t t', before_end (p ++ t) = before_end (p ++ t')) \/ (forall t, before_end (p ++ t) = p ++ before_end t).
Proof.
  induction p as [|w p [IH|IH]]; [now right| |]; cbn [app before_end]; destruct (word_kind w); try (left; intros t t'; f_equal; apply IH); try (left; reflexivity); right; intros t; f_equal; apply IH.
Qed.
Lemma take_before : forall stop ar p t t' vs, take_words stop ar (before_end (p ++ t)) = Some vs -> length vs < length p -> take_words stop ar (before_end (p ++ t')) = Some vs.
Proof.
  intros stop ar p t t' vs H L. destruct (before_end_prefix p) as [B|B]; [now rewrite (B t' t)|]. rewrite B in *. eapply take_prefix; eassumption.
Qed.
Definition counting : str := "bad number of argument".
Section Offending.
Variable K : conf.
Lemma read_prefix : forall w p t t' occs used, read_option K w (before_end (p ++ t)) = inr (occs, used) -> length used < length p -> read_option K w (before_end (p ++ t')) = inr (occs, used).
Proof.
  intros w p t t' occs used. unfold read_option. destruct (word_meaning K w) as [e|bools id c name st value]; [discriminate|]. unfold option_values.
  destruct value as [v|]; [auto|]. destruct (take_words (stops K) (arity_of c) (before_end (p ++ t))) as [vs|] eqn:T; [|discriminate]. intros H L. injection H as <- <-.
  now rewrite (take_before _ _ p t t' vs T L).
Qed.
Lemma read_error : forall w l l' e, read_option K w l = inl e -> x_msg e <> counting -> read_option K w l' = inl e.
Proof.
  intros w l l' e. unfold read_option. destruct (word_meaning K w) as [e'|bools id c name st value]; [auto|]. unfold option_values.
  destruct value as [v|]; [destruct (arity_of c); auto|]. destruct (take_words (stops K) (arity_of c) l) as [vs|]; [discriminate|]. intros H N. injection H as <-. now elim N.
Qed.
Lemma skipn_split : forall {A} n (l p : list A) w x, skipn n l = p ++ w :: x -> exists u, l = u ++ p ++ w :: x /\ length u = n.
Proof.
  intros A n l p w x E. exists (firstn n l). split; [rewrite <- E; symmetry; apply firstn_skipn|]. apply firstn_length_le. destruct (Nat.le_gt_cases n (length l)) as [H|H]; [exact H|].
  rewrite skipn_all2 in E by lia. destruct p; discriminate E.
Qed.
Lemma offending_end : forall ps ws e, FailsEnd K ps ws e -> x_msg e <> counting -> exists p w x, ws = p ++ w :: x /\ forall y, FailsEnd K ps (p ++ w :: y) e.
Proof.
  intros ps ws e F. induction F as [id c ps w ws T|w ws ST|id c ps w ws vs e T F IH|w ws e ST F IH]; intros N.
  - now elim N.
  - exists [], w, ws. split; [reflexivity|]. intros y. now apply Fe_additional.
  - destruct (IH N) as [p [w' [x [E H]]]]. destruct (skipn_split _ _ _ _ _ E) as [u [E2 L]].
    assert (T' : forall y, take_words no_stop (arity_of c) (u ++ p ++ w' :: y) = Some vs).
    { intros y. rewrite E2 in T. change (w' :: x) with ([w'] ++ x) in T. rewrite !app_assoc in T. change (w' :: y) with ([w'] ++ y). rewrite !app_assoc. eapply take_prefix; [exact T|]. rewrite !app_length. cbn. lia. }
    exists (u ++ p), w', x. split; [rewrite <- app_assoc; exact E2|]. intros y. rewrite <- app_assoc. specialize (T' y). specialize (H y).
    destruct (u ++ p ++ w' :: y) as [|w0 l0] eqn:Q; [destruct u; [destruct p|]; discriminate Q|]. eapply Fe_positional_next; [exact T'|]. rewrite <- Q, <- L. rewrite skipn_app, Nat.sub_diag, skipn_all. exact H.
  - destruct (IH N) as [p [w' [x [-> H]]]]. exists (w :: p), w', x. split; [reflexivity|]. intros y. now apply Fe_additional_next.
Qed.
Lemma offending : forall ps ws e, Fails K ps ws e -> x_msg e <> counting -> exists p w x, ws = p ++ w :: x /\ forall y, Fails K ps (p ++ w :: y) e.
Proof.
  intros ps ws e F. induction F as [ps w ws e H H0|id c ps w ws H H0|w ws H H0|ps w ws occs used e H H0 F IH|ps w ws e H H0|id c ps w ws vs e H H0 F IH|w ws e H H0 F IH]; intros N.
  - exists [], w, ws. split; [reflexivity|]. intros y. apply Fl_option; [exact H|]. eapply read_error; eassumption.
  - now elim N.
  - exists [], w, ws. split; [reflexivity|]. intros y. now apply Fl_additional.
  - destruct (IH N) as [p [w' [x [E G]]]]. destruct (skipn_split _ _ _ _ _ E) as [u [-> L]].
    exists (w :: u ++ p), w', x. split; [cbn; now rewrite <- app_assoc|]. intros y. cbn [app]. rewrite <- app_assoc. eapply Fl_option_next; [exact H| |rewrite <- L, skipn_app, Nat.sub_diag, skipn_all; exact (G y)].
    change (w' :: x) with ([w'] ++ x) in H0. change (w' :: y) with ([w'] ++ y). rewrite !app_assoc in *. eapply read_prefix; [exact H0|]. rewrite !app_length. cbn. lia.
  - destruct (offending_end _ _ _ H0 N) as [p [w' [x [-> G]]]]. exists (w :: p), w', x. split; [reflexivity|]. intros y. now apply Fl_end.
  - destruct (IH N) as [p [w' [x [E G]]]]. destruct (skipn_split _ _ _ _ _ E) as [u [E2 L]].
    assert (K1 : forall y, take_words (stops K) (arity_of c) (before_end (u ++ p ++ w' :: y)) = Some vs).
    { intros y. rewrite E2 in H0. change (w' :: x) with ([w'] ++ x) in H0. change (w' :: y) with ([w'] ++ y). rewrite !app_assoc in *. eapply take_before; [exact H0|]. rewrite !app_length. cbn. lia. }
    exists (u ++ p), w', x. split; [rewrite <- app_assoc; exact E2|]. intros y. rewrite <- app_assoc. specialize (K1 y). specialize (G y).
    assert (HD : exists l0, u ++ p ++ w' :: y = w :: l0).
    { destruct u as [|u0 u]; [destruct p as [|p0 p]|]; cbn [app] in E2 |- *; injection E2 as <- _; eexists; reflexivity. }
    destruct HD as [l0 Q]. rewrite Q in *. eapply Fl_positional_next; [exact H | exact K1|]. rewrite <- Q, <- L. rewrite skipn_app, Nat.sub_diag, skipn_all. exact G.
  - destruct (IH N) as [p [w' [x [-> G]]]]. exists (w :: p), w', x. split; [reflexivity|]. intros y. now apply Fl_additional_next.
Qed.
End Offending.

Lemma parse_error_rejects : forall s argv ws t name msg, usable s -> interprets s -> command_line argv ws ->
  parseArguments argv s = (t, Throw (Exn KParse name msg)) -> msg <> "destination method not found for this type" -> rejects s ws (Exn KParse name msg).
Proof.
  intros s argv ws t name msg U I C P ND. destruct (parse_total s argv ws U C I) as [[pcs [R _]]|[e [s' [He [F Q]]]]]; [|congruence].
  exfalso. destruct (parse_verdict s argv ws pcs U C I R) as [V _]. rewrite P in V. cbn [snd] in V. symmetry in V. unfold verdict in V.
  destruct (met (s_help _) _); [destruct (m_helpex _); discriminate V|]. destruct (met (s_version _) _); [destruct (m_verex _); discriminate V|].
  destruct (missing _) as [|b l]; [|discriminate V]. destruct (flat_map _ (s_args _)) as [|e l] eqn:F; [discriminate V|]. injection V as V.
  assert (J : In e (flat_map (fun a => match trouble a with Some e => [e] | None => [] end) (s_args (scanned argv pcs s)))) by (rewrite F; now left).
  apply in_flat_map in J. destruct J as [x [_ J]]. destruct (trouble x) as [e'|] eqn:T; [|destruct J]. destruct J as [->|[]].
  destruct (trouble_error _ _ T) as [[v [_ [[K _]|[K _]]]]|[d [_ [_ K]]]]; subst e; try discriminate K. unfold no_conversion in K. injection K as _ K. now elim ND.
Qed.
(** parseArguments throws a ParseArgumentException other than "bad number of argument" (and
    than that of a destination without conversion, which is not about the line):
    there is an offending word on the line such that every command line that is the same up
    to that word, and goes on in any way, is refused with the same exception. *)
Theorem C69_offending : forall s argv ws t name msg, usable s -> interprets s -> command_line argv ws ->
  parseArguments argv s = (t, Throw (Exn KParse name msg)) -> msg <> "bad number of argument" -> msg <> "destination method not found for this type" ->
  exists before w after, ws = before ++ w :: after /\
    forall a0 after', command_line (a0 :: before ++ w :: after') (before ++ w :: after') ->
      exists t', parseArguments (a0 :: before ++ w :: after') s = (t', Throw (Exn KParse name msg)).
Proof.
  intros s argv ws t name msg U I C P N ND. pose proof (parse_error_rejects s argv ws t name msg U I C P ND) as R.
  destruct (offending _ _ _ _ R N) as [p [w [x [E H]]]]. exists p, w, x. split; [exact E|]. intros a0 y C'.
  destruct (parse_rejects s _ _ _ U C' I (H y)) as [t' [Q _]]. now exists t'.
Qed.
Print Assumptions C69_offending.
(** In particular words appended to the line do not help. *)
Theorem C69_appended : forall s argv ws more t name msg, usable s -> interprets s -> command_line (argv ++ more) (ws ++ more) ->
  parseArguments argv s = (t, Throw (Exn KParse name msg)) -> command_line argv ws -> msg <> "bad number of argument" -> msg <> "destination method not found for this type" ->
  exists t', parseArguments (argv ++ more) s = (t', Throw (Exn KParse name msg)).
Proof.
  intros s argv ws more t name msg U I C' P C N ND. destruct (C69_offending s argv ws t name msg U I C P N ND) as [p [w [x [E H]]]].
  destruct C as [[a0 [-> _]] _]. subst ws. specialize (H a0 (x ++ more)). rewrite <- app_assoc in C'. cbn [app] in *. rewrite <- app_assoc in *. exact (H C').
Qed.
Print Assumptions C69_appended.
(** an unknown option; and why the number of values is different: "-p 1" lacks a value,
    "-p 1 2 src" does not *)
Example C69_example : (exists t, parseArguments ["prog"; "-n"; "x"; "--nope"; "src"] shop = (t, Throw (Exn KParse "nope" "invalid option"))) /\
  (exists t, parseArguments ["prog"; "-n"; "x"; "--nope"; "--name=y"] shop = (t, Throw (Exn KParse "nope" "invalid option"))).
Proof. split; eexists; vm_compute; reflexivity. Qed.
Example C69_counting_example : (exists t, parseArguments ["prog"; "-p"; "1"] shop = (t, Throw (Exn KParse "p" "bad number of argument"))) /\
  (exists t, parseArguments ["prog"; "-p"; "1"; "2"; "src"] shop = (t, Ok tt)).
Proof. split; eexists; vm_compute; reflexivity. Qed.
