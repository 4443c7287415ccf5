(** Proofs_Values.v -- the values of one argument after a successful parse: preparations. *)
From Coq Require Import Permutation Sorted.
From Verif Require Import Base Model_Utils Model_Number Model_Types Model_Argument Model_Usage Model_Args Model_Api
  Spec_Order Spec_Names Spec_Reading Spec_Parse Spec_Decl Spec_Finish Spec_History Spec_Api Spec_Result
  Proofs_Base Proofs_Order Proofs_Frame Proofs_Inv Proofs_ReadFacts Proofs_Reading Proofs_Parse Proofs_Decl Proofs_Finish
  Proofs_Meth Proofs_History Proofs_Config Proofs_Names Proofs_Central Proofs_Dyn Properties_Words Properties_Parse Proofs_Kind.

(** an argument after a successful parse *)
Lemma result : forall s argv ws s' a, usable s -> command_line argv ws -> interprets s -> parseArguments argv s = (s', Ok tt) ->
  In a (arguments s') -> exists pcs b, reads s ws pcs /\ In b (arguments (ready s)) /\ a = finished (read_arg pcs b) /\
    trouble (read_arg pcs b) = None /\ a_cfg a = a_cfg b /\ a_id a = a_id b /\
    isExists a = on_line (a_id b) pcs /\ count a = list_sum (map weight (occs_for (a_id b) pcs)).
Proof.
  intros s argv ws s' a U C I E Ia. destruct (parse_ok_args s argv ws s' U C I E) as [pcs [R [A [_ [T _]]]]].
  rewrite A in Ia. apply in_map_iff in Ia. destruct Ia as [b [<- Ib]]. exists pcs, b.
  pose proof (usable_ready_wf s U) as W.
  split; [exact R|]. split; [exact Ib|]. split; [reflexivity|]. split; [now apply T|].
  split; [now rewrite finished_cfg|]. split; [now rewrite finished_id|].
  destruct (finished_exist (read_arg pcs b)) as [X Y]. rewrite X, Y. split; [eapply read_exist; eassumption | eapply read_count; eassumption].
Qed.
(** readings are unique, so that any reading of the words will do *)
Lemma result_with : forall s argv ws s' a pcs, usable s -> command_line argv ws -> interprets s -> parseArguments argv s = (s', Ok tt) ->
  In a (arguments s') -> reads s ws pcs -> exists b, In b (arguments (ready s)) /\ a = finished (read_arg pcs b) /\
    trouble (read_arg pcs b) = None /\ a_cfg a = a_cfg b /\ a_id a = a_id b /\
    isExists a = on_line (a_id b) pcs /\ count a = list_sum (map weight (occs_for (a_id b) pcs)).
Proof.
  intros s argv ws s' a pcs U C I E Ia R. destruct (result s argv ws s' a U C I E Ia) as [q [b [R' H]]].
  destruct (C14_unique s argv ws U C I) as [X _]. rewrite (X _ _ R R'). exists b. apply H.
Qed.

(** a reading at an option word *)
Lemma Reading_at : forall K ps ws pcs, Reading K ps ws pcs -> forall p1 w occs used p2, pcs = p1 ++ PcOption w occs used :: p2 ->
  (word_kind w = WShort \/ word_kind w = WLong) /\ read_option K w (before_end (used ++ words_of p2)) = inr (occs, used) /\ ws = words_of p1 ++ w :: used ++ words_of p2.
Proof.
  intros K ps ws pcs H. induction H as [ps|ps w ws occs used pcs Kd RO R IH|ps w ws pcs Kd RE|id c ps w ws vs pcs Kd T R IH|w ws pcs Kd St R IH];
    intros p1 w0 occs0 used0 p2 E.
  - destruct p1; discriminate.
  - destruct p1 as [|q p1]; injection E as E1 E2.
    + intros; subst. split; [exact Kd|]. rewrite (Reading_words _ _ _ _ R). pose proof (read_option_rest _ _ _ _ _ RO) as X.
      rewrite <- X. auto.
    + destruct (IH p1 w0 occs0 used0 p2 E2) as [A [B C]]. split; [exact A|]. split; [exact B|]. subst q.
      pose proof (read_option_rest _ _ _ _ _ RO) as X. rewrite X, C. unfold words_of. cbn [flat_map piece_words app]. now rewrite <- app_assoc.
  - destruct p1 as [|q p1]; injection E as E1 E2; [discriminate|]. exfalso.
    pose proof (ReadingEnd_pieces _ _ _ _ RE) as F. rewrite E2 in F. rewrite Forall_forall in F.
    apply (F (PcOption w0 occs0 used0)). apply in_elt.
  - destruct p1 as [|q p1]; injection E as E1 E2; [discriminate|]. destruct (IH p1 w0 occs0 used0 p2 E2) as [A [B C]].
    split; [exact A|]. split; [exact B|]. subst q. pose proof (take_before _ _ _ _ T) as X. rewrite X, C. unfold words_of. cbn [flat_map piece_words]. now rewrite <- app_assoc.
  - destruct p1 as [|q p1]; injection E as E1 E2; [discriminate|]. destruct (IH p1 w0 occs0 used0 p2 E2) as [A [B C]].
    split; [exact A|]. split; [exact B|]. subst q. rewrite C. reflexivity.
Qed.
Lemma occs_for_option : forall id w occs used, occs_for id [PcOption w occs used] = filter (fun o => Nat.eqb (o_id o) id) occs.
Proof. intros. unfold occs_for, occs_of. cbn [flat_map]. now rewrite app_nil_r. Qed.
(** an option with values at a piece of the reading: it is the last one of the word *)
Lemma value_piece : forall s ws p1 w occs used p2 b, usable s -> reads s ws (p1 ++ PcOption w occs used :: p2) ->
  In b (arguments (ready s)) -> has_values (a_cfg b) = true -> occs_for (a_id b) [PcOption w occs used] <> [] ->
  exists o, occs_for (a_id b) [PcOption w occs used] = [o] /\ In o occs /\ o_id o = a_id b /\
    ((o_style o = Separate /\ o_vals o = used /\ take_words (stops (setup s)) (arity_of (a_cfg b)) (before_end (used ++ words_of p2)) = Some used) \/
     (o_style o <> Separate /\ used = [] /\ (exists v, o_vals o = [v] /\ exists p, w = p ^^ v) /\ (arity_of (a_cfg b) = AOne \/ arity_of (a_cfg b) = ARun))).
Proof.
  intros s ws p1 w occs used p2 b U R Ib HV NE. pose proof (usable_ready_wf s U) as W.
  destruct (Reading_at _ _ _ _ R p1 w occs used p2 eq_refl) as [Kd [RO _]].
  unfold read_option in RO. destruct (word_meaning (setup s) w) as [e|bools id c name st value] eqn:M; [discriminate|].
  destruct (option_values (setup s) c name value (before_end (used ++ words_of p2))) as [e|vs] eqn:V; [discriminate|].
  injection RO as EO EU. destruct (meaning_flags _ _ _ _ _ _ _ _ Kd M) as [FL [[n F] ST]].
  rewrite occs_for_option in *. subst occs. rewrite filter_app in *.
  assert (Z : filter (fun o => Nat.eqb (o_id o) (a_id b)) (map flag_occ bools) = []).
  { clear - FL W Ib HV. induction bools as [|i bools IH]; [reflexivity|]. inversion FL as [|x l [m [cf [Fi T]]] FL']; subst.
    cbn [map filter flag_occ o_id]. destruct (Nat.eqb_spec i (a_id b)) as [E|_]; [|now apply IH]. exfalso.
    destruct (k_find_arg _ _ _ _ W Fi) as [_ [a [Fa [<- [_ Ia]]]]]. apply find_id_In in Fa.
    assert (a = b) by (eapply wf_unique; [exact W | exact Ia | exact Ib | destruct Fa; congruence]). subst a.
    unfold has_values, arity_of in HV. destruct (c_type (a_cfg b)); try discriminate T; discriminate HV. }
  rewrite Z in *. cbn [app filter o_id] in NE |- *. destruct (Nat.eqb_spec id (a_id b)) as [->|_]; [|now contradiction NE].
  destruct (k_find_arg _ _ _ _ W F) as [_ [a [Fa [<- [_ Ia]]]]]. apply find_id_In in Fa.
  assert (a = b) by (eapply wf_unique; [exact W | exact Ia | exact Ib | destruct Fa; congruence]). subst a.
  exists (Occ (a_id b) st vs). split; [reflexivity|]. split; [apply in_or_app; right; now left|]. split; [reflexivity|]. cbn [o_style o_vals].
  unfold option_values in V. destruct value as [v|].
  - right. split; [|split; [now symmetry|]].
    + destruct ST as [[-> _]|[-> _]]; discriminate.
    + unfold has_values in HV. destruct (arity_of (a_cfg b)); try discriminate; injection V as <-; split; auto; exists v; split; auto; eapply value_suffix; eassumption.
  - left. destruct ST as [[_ [_ [x Hx]]]|[-> _]]; [discriminate|]. cbn [style_of].
    destruct (take_words (stops (setup s)) (arity_of (a_cfg b)) (before_end (used ++ words_of p2))) as [vs'|] eqn:T; [|discriminate]. injection V as ->.
    subst used. auto.
Qed.

(** the last occurrence *)
Lemma last_occurrence : forall id pcs, occs_for id pcs <> [] ->
  exists p1 w occs used p2, pcs = p1 ++ PcOption w occs used :: p2 /\ occs_for id [PcOption w occs used] <> [] /\ occs_for id p2 = [].
Proof.
  intros id pcs. induction pcs as [|p pcs IH]; intros H; [now contradiction H|].
  destruct (occs_for id pcs) as [|o os] eqn:E.
  - change (p :: pcs) with ([p] ++ pcs) in H. rewrite occs_for_app, E, app_nil_r in H.
    destruct p as [w occs used|i vs|w|]; try (now contradiction H). exists [], w, occs, used, pcs. auto.
  - destruct IH as [p1 [w [occs [used [p2 [A B]]]]]]; [discriminate|]. exists (p :: p1), w, occs, used, p2. subst pcs. auto.
Qed.
Lemma exists_option : forall s ws pcs b, wf0 (ready s) -> reads s ws pcs -> In b (arguments (ready s)) -> isPositional b = false ->
  on_line (a_id b) pcs = true -> occs_for (a_id b) pcs <> [].
Proof.
  intros s ws pcs b W R Ib P H. rewrite on_line_eq, (given_option_none s ws pcs b W R Ib P) in H. destruct (occs_for (a_id b) pcs); [discriminate H | discriminate].
Qed.
Lemma ready_option : forall s b act n, usable s -> In b (arguments (ready s)) -> isPositional b = false -> getAction b = act -> getNargs b = n ->
  n <> 0%N -> act <> HELP -> act <> VERSION -> (c_type (a_cfg b), getNargs b, getAction b) = option_kind act n.
Proof. intros s b act n U Ib. apply (option_type (ready s)); [apply ready_reach, U | exact Ib]. Qed.
Lemma ready_positional : forall s b act n, usable s -> In b (arguments (ready s)) -> isPositional b = true -> getAction b = act -> getNargs b = n ->
  n <> 0%N -> act = NONE \/ act = INFINITE -> positional_kind act n = Some (c_type (a_cfg b), getNargs b, getAction b).
Proof. intros s b act n U Ib. apply (positional_type (ready s)); [apply ready_reach, U | exact Ib]. Qed.
Lemma elem_word_value : forall l, map elem_value (map elem_word l) = l.
Proof. intros l. rewrite map_map. rewrite <- (map_id l) at 2. apply map_ext. reflexivity. Qed.
Lemma elem_group_values : forall l, map elem_values (map elem_group l) = l.
Proof.
  intros l. rewrite map_map. rewrite <- (map_id l) at 2. apply map_ext. intros g. unfold elem_values, elem_group. cbn [el_subs].
  rewrite map_map. rewrite <- (map_id g) at 2. apply map_ext. reflexivity.
Qed.
Lemma filter_nil : forall {A} (p : A -> bool) l, (forall x, In x l -> p x = false) -> filter p l = [].
Proof.
  intros A p. induction l as [|x l IH]; intros H; [reflexivity|]. cbn [filter]. rewrite (H x (or_introl eq_refl)). apply IH. intros y Hy. apply H. now right.
Qed.
Lemma chunks_mult : forall {A} n k (l : list A), 0 < n -> length l = k * n -> concat (chunks n l) = l /\ Forall (fun g => length g = n) (chunks n l).
Proof.
  intros A n k. induction k as [|k IH]; intros l Hn L.
  - destruct l; [|discriminate]. rewrite chunks_nil. split; constructor.
  - assert (E : l = firstn n l ++ skipn n l) by (symmetry; apply firstn_skipn).
    assert (L1 : length (firstn n l) = n) by (rewrite firstn_length; lia).
    rewrite E, (chunks_cons n _ _ Hn L1). destruct (IH (skipn n l) Hn) as [X Y]; [rewrite skipn_length; lia|].
    cbn [concat]. rewrite X. split; [reflexivity | constructor; assumption].
Qed.
