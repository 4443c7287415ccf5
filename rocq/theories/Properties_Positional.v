(** Properties_Positional.v -- C25, C26: positional arguments. *)
From Coq Require Import Permutation Sorted.
From Verif Require Import Base Model_Utils Model_Number Model_Types Model_Argument Model_Usage Model_Args Model_Api
  Spec_Order Spec_Names Spec_Reading Spec_Parse Spec_Decl Spec_Finish Spec_History Spec_Api Spec_Result
  Proofs_Base Proofs_Order Proofs_Frame Proofs_Inv Proofs_ReadFacts Proofs_Reading Proofs_Parse Proofs_Decl Proofs_Finish
  Proofs_Meth Proofs_History Proofs_Config Proofs_Names Proofs_Check Proofs_Central Proofs_Dyn Properties_Words Demo Properties_Parse Proofs_Kind Proofs_Values Properties_Values.

(* ------------------------------------------------------------------ *)
(** * C25 *)
Lemma ReadingEnd_at_positional : forall K ps ws pcs, ReadingEnd K ps ws pcs -> forall p1 i vs p2, pcs = p1 ++ PcPositional i vs :: p2 ->
  exists c, In (i, c) ps /\ take_words no_stop (arity_of c) (vs ++ words_of p2) = Some vs /\ vs ++ words_of p2 <> [] /\ ws = words_of p1 ++ vs ++ words_of p2.
Proof.
  intros K ps ws pcs H. induction H as [ps|id c ps w ws vs pcs T R IH|w ws pcs St R IH]; intros p1 i vs0 p2 E.
  - destruct p1; discriminate.
  - destruct p1 as [|q p1]; injection E as E1 E2.
    + intros; subst. exists c. split; [now left|]. rewrite (ReadingEnd_words _ _ _ _ R), <- (take_all _ _ _ _ T). split; [exact T|]. split; [discriminate | reflexivity].
    + destruct (IH p1 i vs0 p2 E2) as [c' [A [B [N C]]]]. exists c'. split; [now right|]. split; [exact B|]. split; [exact N|]. subst q.
      rewrite (take_all _ _ _ _ T), C. unfold words_of. cbn [flat_map piece_words]. now rewrite <- app_assoc.
  - destruct p1 as [|q p1]; injection E as E1 E2; [discriminate|]. destruct (IH p1 i vs0 p2 E2) as [c' [[] _]].
Qed.
Lemma Reading_at_positional : forall K ps ws pcs, Reading K ps ws pcs -> forall p1 i vs p2, pcs = p1 ++ PcPositional i vs :: p2 ->
  exists c, In (i, c) ps /\ ws = words_of p1 ++ vs ++ words_of p2 /\
    ((~ In PcEnd p1 /\ take_words (stops K) (arity_of c) (before_end (vs ++ words_of p2)) = Some vs /\ exists w r, vs ++ words_of p2 = w :: r /\ word_kind w = WPlain) \/
     (In PcEnd p1 /\ take_words no_stop (arity_of c) (vs ++ words_of p2) = Some vs /\ vs ++ words_of p2 <> [])).
Proof.
  intros K ps ws pcs H. induction H as [ps|ps w ws occs used pcs Kd RO R IH|ps w ws pcs Kd RE|id c ps w ws vs pcs Kd T R IH|w ws pcs Kd St R IH];
    intros p1 i vs0 p2 E.
  - destruct p1; discriminate.
  - destruct p1 as [|q p1]; injection E as E1 E2; [discriminate|].
    destruct (IH p1 i vs0 p2 E2) as [c' [A [B C]]]. exists c'. split; [exact A|]. subst q. split.
    + rewrite (read_option_rest _ _ _ _ _ RO), B. unfold words_of. cbn [flat_map piece_words app]. now rewrite <- app_assoc.
    + destruct C as [[C1 C2]|[C1 C2]]; [left | right]; (split; [|exact C2]); [intros [X|X]; [discriminate | contradiction] | now right].
  - destruct p1 as [|q p1]; injection E as E1 E2; [discriminate|]. subst q. destruct (ReadingEnd_at_positional _ _ _ _ RE p1 i vs0 p2 E2) as [c' [A [B [N C]]]].
    exists c'. split; [exact A|]. split; [rewrite C; rewrite (kind_end' _ Kd); reflexivity|]. right. split; [now left | auto].
  - destruct p1 as [|q p1]; injection E as E1 E2.
    + intros; subst. exists c. split; [now left|]. rewrite (Reading_words _ _ _ _ R), <- (take_before _ _ _ _ T). split; [reflexivity|].
      left. split; [intros []|]. split; [exact T | eauto].
    + destruct (IH p1 i vs0 p2 E2) as [c' [A [B C]]]. exists c'. split; [now right|]. subst q. split.
      * rewrite (take_before _ _ _ _ T), B. unfold words_of. cbn [flat_map piece_words]. now rewrite <- app_assoc.
      * destruct C as [[C1 C2]|[C1 C2]]; [left | right]; (split; [|exact C2]); [intros [X|X]; [discriminate | contradiction] | now right].
  - destruct p1 as [|q p1]; injection E as E1 E2; [discriminate|]. destruct (IH p1 i vs0 p2 E2) as [c' [[] _]].
Qed.
(** as many groups as possible *)
Lemma groups_max : forall stop n l k vs, 0 < n -> groups_from stop n k l = Some vs ->
  exists rest, l = vs ++ rest /\ match rest with [] => True | w :: _ => stop w = true end.
Proof.
  intros stop n. induction l as [|w l IH]; intros k vs Hn H.
  - exists []. destruct k; [injection H as <-; auto | discriminate].
  - destruct k as [|k]; cbn [groups_from] in H.
    + destruct (stop w) eqn:S; [injection H as <-; exists (w :: l); auto|].
      destruct (groups_from stop n (n - 1) l) as [r|] eqn:G; [|discriminate]. injection H as <-.
      destruct (IH _ _ Hn G) as [rest [-> X]]. exists rest. auto.
    + destruct (groups_from stop n k l) as [r|] eqn:G; [|discriminate]. injection H as <-.
      destruct (IH _ _ Hn G) as [rest [-> X]]. exists rest. auto.
Qed.
Lemma plain_no_stop : forall K w, word_kind w = WPlain -> stops K w = false.
Proof. intros K w H. unfold stops. destruct (cut_eq w). now rewrite H. Qed.
Lemma before_end_skip : forall vs r, (forall w, In w vs -> w <> "--") -> before_end (vs ++ r) = vs ++ before_end r.
Proof.
  induction vs as [|v vs IH]; intros r H; [reflexivity|]. cbn [app before_end]. destruct (word_kind v) eqn:Kd.
  3: { exfalso. apply (H v); [now left | now apply kind_end']. }
  all: rewrite IH; [reflexivity | intros w Hw; apply H; now right].
Qed.
(** The arguments that are positional, in listing order. *)
Definition positional_args (s : state) : list argument := filter (fun a => isPositional a) (arguments s).
Lemma positionals_args : forall s, map fst (positionals (setup s)) = map a_id (positional_args (ready s)).
Proof.
  intros s. unfold positionals, setup, conf_of, positional_args. cbn [k_args]. induction (arguments (ready s)) as [|a l IH]; [reflexivity|].
  cbn [map filter snd]. destruct (isPositional a); cbn [map fst]; now rewrite IH.
Qed.
(** The groups of words given to positionals go, in the order of the command line, to the
    first, second, ... positional in listing order; a word is left over as additional
    argument only when all positionals have got their words. *)
Theorem C25_order : forall s ws pcs, reads s ws pcs ->
  exists k, map fst (given_of pcs) = firstn k (map a_id (positional_args (ready s))) /\ k <= length (positional_args (ready s)) /\
    (forall p1 w p2, pcs = p1 ++ PcAdditional w :: p2 -> map fst (given_of p1) = map a_id (positional_args (ready s))).
Proof.
  intros s ws pcs R. destruct (Reading_given _ _ _ _ R) as [k [E L]]. exists k. rewrite positionals_args in E. split; [exact E|]. split.
  - rewrite <- (map_length a_id), <- positionals_args, map_length. exact L.
  - intros p1 w p2 EP. rewrite <- positionals_args. apply (Reading_additional _ _ _ _ R p1 w p2 EP).
Qed.
Print Assumptions C25_order.
Definition stopped_at (stop : str -> bool) (rest : list str) : Prop := match rest with [] => True | w :: _ => stop w = true end.
Lemma took_facts : forall stop ar l vs w r, take_words stop ar l = Some vs -> l = w :: r -> stop w = false ->
  (forall n, ar = AGroups n \/ ar = AFixed n -> 0 < n) -> ar <> ANone ->
  vs <> [] /\ arity_ok ar vs /\ (ar = ARun \/ (exists n, ar = AGroups n) -> exists rest, l = vs ++ rest /\ stopped_at stop rest).
Proof.
  intros stop ar l vs w r T -> S G NN. split; [|split].
  - intros ->. destruct ar as [| |n| |n]; cbn in T; try congruence.
    + specialize (G n (or_intror eq_refl)). destruct n; [lia|]. match type of T with (if ?c then _ else _) = _ => destruct c end; discriminate.
    + rewrite S in T. discriminate.
    + rewrite S in T. destruct (groups_from stop n (n - 1) r); discriminate.
  - eapply take_words_ok; [|exact T]. intros n ->. apply G. now left.
  - intros [->|[n ->]].
    + cbn in T. rewrite S in T. injection T as <-. clear S. change (w :: run_of stop r) with ([w] ++ run_of stop r).
      assert (X : exists rest, r = run_of stop r ++ rest /\ stopped_at stop rest).
      { induction r as [|x r IH]; [exists []; cbn; auto|]. cbn [run_of]. destruct (stop x) eqn:Sx.
        - exists (x :: r). cbn. auto.
        - destruct IH as [rest [E D]]. exists rest. cbn [app]. rewrite <- E. auto. }
      destruct X as [rest [E D]]. exists rest. cbn [app]. rewrite <- E. auto.
    + apply (groups_max stop n _ 0 vs); [apply G; now left | exact T].
Qed.
(** The size of each group: nargs words; for the variable-length kinds (action INFINITE)
    as many words, or groups of nargs words, as possible: up to the next registered
    option, "--" or the end -- after "--", up to the end. *)
Theorem C25_size : forall s ws p1 b vs p2, usable s -> reads s ws (p1 ++ PcPositional (a_id b) vs :: p2) ->
  In b (arguments (ready s)) -> isPositional b = true -> getNargs b <> 0%N ->
  ws = flat_map piece_words p1 ++ vs ++ flat_map piece_words p2 /\ vs <> [] /\ (In PcEnd p1 \/ ~ In "--" vs) /\
  (getAction b = NONE -> N.of_nat (length vs) = getNargs b) /\
  (getAction b = INFINITE ->
     (exists k, N.of_nat (length vs) = (k * getNargs b)%N) /\
     match flat_map piece_words p2 with [] => True | w :: _ => ~ In PcEnd p1 /\ (w = "--" \/ stops (setup s) w = true) end) /\
  (getAction b = INFINITE -> getNargs b = 1%N -> ~ In PcEnd p1 -> maximal_run s vs (vs ++ flat_map piece_words p2)).
Proof.
  intros s ws p1 b vs p2 U R Ib P NZ. pose proof (usable_ready_wf s U) as W.
  destruct (Reading_at_positional _ _ _ _ R p1 (a_id b) vs p2 eq_refl) as [c [Ic [EW H]]].
  destruct (positionals_ids _ W) as [_ X]. destruct (X _ _ Ic) as [b' [Ib' [E1 [E2 _]]]].
  assert (b' = b) by (eapply wf_unique; [exact W | exact Ib' | exact Ib | exact E1]). subst b'. subst c. clear X E1 Ic Ib'.
  change (flat_map piece_words p2) with (words_of p2).
  assert (GN : forall m, arity_of (a_cfg b) = AGroups m \/ arity_of (a_cfg b) = AFixed m -> 0 < m).
  { intros m Hm. unfold arity_of in Hm. destruct (c_type (a_cfg b)); destruct Hm as [Hm|Hm]; try discriminate; injection Hm as <-; lia. }
  assert (NN : arity_of (a_cfg b) <> ANone) by (unfold arity_of; intros Hm; destruct (c_type (a_cfg b)); discriminate).
  (* what the kind says *)
  assert (ONE : getAction b = NONE -> arity_ok (arity_of (a_cfg b)) vs -> N.of_nat (length vs) = getNargs b).
  { intros A OK. pose proof (ready_positional s b NONE _ U Ib P A eq_refl NZ (or_introl eq_refl)) as Kd. unfold positional_kind in Kd. unfold arity_of in OK.
    destruct (N.eqb_spec (getNargs b) 0); [discriminate|]. destruct (N.eqb_spec (getNargs b) 1) as [E1|]; [|destruct (N.eqb_spec (getNargs b) 43)].
    - assert (T : c_type (a_cfg b) = POSITIONAL_ARGUMENT) by congruence. rewrite T in OK. cbn in OK. lia.
    - exfalso. assert (getNargs b = 1%N) by congruence. lia.
    - assert (T : c_type (a_cfg b) = NUMBER_POSITIONAL_ARGUMENT) by congruence. rewrite T in OK. cbn in OK. lia. }
  assert (INF : getAction b = INFINITE -> (getNargs b = 1%N /\ arity_of (a_cfg b) = ARun) \/ arity_of (a_cfg b) = AGroups (N.to_nat (getNargs b))).
  { intros A. pose proof (ready_positional s b INFINITE _ U Ib P A eq_refl NZ (or_intror eq_refl)) as Kd. unfold positional_kind in Kd.
    destruct (N.eqb_spec (getNargs b) 0); [discriminate|]. destruct (N.eqb_spec (getNargs b) 1) as [E1|].
    - left. split; [exact E1|]. unfold arity_of. replace (c_type (a_cfg b)) with INFINITE_POSITIONAL_ARGUMENT by congruence. reflexivity.
    - right. unfold arity_of. replace (c_type (a_cfg b)) with INFINITE_NUMBER_POSITIONAL_ARGUMENT by congruence. reflexivity. }
  assert (MULT : getAction b = INFINITE -> arity_ok (arity_of (a_cfg b)) vs -> exists k, N.of_nat (length vs) = (k * getNargs b)%N).
  { intros A OK. destruct (INF A) as [[E1 _]|E1].
    - exists (N.of_nat (length vs)). lia.
    - rewrite E1 in OK. destruct OK as [k Hk]. exists (N.of_nat k). rewrite Hk. lia. }
  assert (VAR : getAction b = INFINITE -> arity_of (a_cfg b) = ARun \/ exists n, arity_of (a_cfg b) = AGroups n).
  { intros A. destruct (INF A) as [[_ E1]|E1]; [now left | right; eauto]. }
  split; [exact EW|].
  destruct H as [[NE [T [w [r [EL Kw]]]]]|[IE [T NE]]].
  - assert (ND : ~ In "--" vs) by (intros X; apply (take_before_in _ _ _ _ _ T) in X; exact (before_end_no _ X)).
    assert (BE : before_end (vs ++ words_of p2) = w :: before_end r) by (rewrite EL; cbn [before_end]; now rewrite Kw).
    destruct (took_facts _ _ _ _ _ _ T BE (plain_no_stop _ _ Kw) GN NN) as [F1 [F2 F3]].
    split; [exact F1|]. split; [now right|]. split; [intros A; now apply ONE|]. split.
    + intros A. split; [now apply MULT|]. destruct (F3 (VAR A)) as [rest [E D]].
      rewrite before_end_skip in E by (intros x Hx ->; contradiction). apply app_inv_head in E. subst rest.
      destruct (words_of p2) as [|x l]; [exact Logic.I|]. split; [exact NE|]. cbn [before_end] in D. destruct (word_kind x) eqn:Kx; try (right; exact D). left. now apply kind_end'.
    + intros A N1 _. apply run_maximal. destruct (INF A) as [[_ E1]|E1]; [rewrite E1 in T; cbn in T; now injection T|].
      pose proof (ready_positional s b INFINITE _ U Ib P A eq_refl NZ (or_intror eq_refl)) as Kd. rewrite N1 in Kd. cbn in Kd.
      exfalso. unfold arity_of in E1. replace (c_type (a_cfg b)) with INFINITE_POSITIONAL_ARGUMENT in E1 by congruence. discriminate.
  - destruct (vs ++ words_of p2) as [|w r] eqn:EL; [contradiction|].
    destruct (took_facts _ _ _ _ _ _ T eq_refl eq_refl GN NN) as [F1 [F2 F3]].
    split; [exact F1|]. split; [now left|]. split; [intros A; now apply ONE|]. split.
    + intros A. split; [now apply MULT|]. destruct (F3 (VAR A)) as [rest [E D]]. rewrite <- EL in E. apply app_inv_head in E. subst rest.
      destruct (words_of p2); [exact Logic.I | discriminate D].
    + intros _ _ X. contradiction.
Qed.
Print Assumptions C25_size.
(** After a successful parse a positional is present iff it got words. *)
Theorem C25_present : forall s argv ws s' pcs a, usable s -> interprets s -> command_line argv ws -> parseArguments argv s = (s', Ok tt) ->
  reads s ws pcs -> In a (arguments s') -> isPositional a = true -> getNargs a <> 0%N ->
  (isExists a = true <-> exists vs, In (a_id a, vs) (given_of pcs) /\ vs <> []).
Proof.
  intros s argv ws s' pcs a U I C E R Ia P NZ. destruct (result_with s argv ws s' a pcs U C I E Ia R) as [b [Ib [_ [_ [CF [ID [EX _]]]]]]].
  pose proof (usable_ready_wf s U) as W. rewrite CF in P, NZ. rewrite EX, ID, on_line_eq, (occs_for_none s ws pcs b W R Ib P). cbn [orb].
  pose proof (reads_given_nodup s ws pcs W R) as ND. split.
  - intros H. destruct (given (a_id b) pcs) as [vs|] eqn:G; [|discriminate]. apply given_in in G. exists vs. split; [exact G|].
    apply (proj1 (given_In _ _ _)) in G. apply in_split in G. destruct G as [p1 [p2 ->]]. apply (C25_size s ws p1 b vs p2 U R Ib P NZ).
  - intros [vs [G _]]. now rewrite (in_given _ _ _ ND G).
Qed.
Print Assumptions C25_present.
(** a parser with positionals of all kinds *)
Definition files : state := history [OpAdd ["A"] [MRequired true]; OpAdd ["B"] [MNargs 2]; OpAdd ["C"] [MAction INFINITE]; OpAdd ["D"] [MAction INFINITE; MNargs 3]; OpAdd ["-v"] [MAction STORE_TRUE]].
Lemma files_usable : usable files.
Proof. apply careful_usable, careful_history. vm_compute. reflexivity. Qed.
Lemma files_interprets : interprets files.
Proof. right. vm_compute. discriminate. Qed.
Example C25_example : map (fun a => getNameOrFlags a) (positional_args (ready files)) = [["A"]; ["B"]; ["C"]; ["D"]] /\
  exists s', parseArguments ["prog"; "1"; "-v"; "2"; "-v"; "3"; "4"; "5"; "-v"; "6"; "7"; "8"; "--"; "9"] files = (s', Ok tt) /\
    to_vector (pick "A" s') = Ok ["1"] /\ to_vector (pick "B" s') = Ok ["2"; "-v"] /\ to_vector (pick "C" s') = Ok ["3"; "4"; "5"] /\
    to_vector (pick "D" s') = Ok ["6"; "7"; "8"] /\ getAdditionalArguments s' = ["9"].
Proof. split; [vm_compute; reflexivity | eexists; split; [vm_compute; reflexivity | vm_compute; auto]]. Qed.

(* ------------------------------------------------------------------ *)
(** * C26 *)
(** Not true in general: the words are added to the default values. *)
Definition dir : state := history [OpAdd ["D"] [MNargs 2; MDefaults ["x"; "y"]]].
Theorem C26_refuted :
  ~ (forall s argv ws s' pcs a vs, usable s -> interprets s -> command_line argv ws -> parseArguments argv s = (s', Ok tt) ->
       reads s ws pcs -> In a (arguments s') -> isPositional a = true -> In (a_id a, vs) (given_of pcs) -> holds a vs).
Proof.
  intros H. assert (L : command_line ["prog"; "1"; "2"] ["1"; "2"]) by line.
  assert (U : usable dir) by (apply careful_usable, careful_history; vm_compute; reflexivity).
  assert (I : interprets dir) by (right; vm_compute; discriminate).
  assert (R : exists pcs, reads dir ["1"; "2"] pcs /\ In (a_id (pick "D" (ready dir)), ["1"; "2"]) (given_of pcs)).
  { eexists. split; [reading | vm_compute; auto]. }
  destruct R as [pcs [R T1]].
  assert (E : parseArguments ["prog"; "1"; "2"] dir = (fst (parseArguments ["prog"; "1"; "2"] dir), Ok tt)) by (vm_compute; reflexivity).
  specialize (H _ _ _ _ pcs (pick "D" (fst (parseArguments ["prog"; "1"; "2"] dir))) ["1"; "2"] U I L E R).
  assert (Y : a_id (pick "D" (fst (parseArguments ["prog"; "1"; "2"] dir))) = a_id (pick "D" (ready dir))) by (vm_compute; reflexivity).
  rewrite Y in H.
  assert (Z : holds (pick "D" (fst (parseArguments ["prog"; "1"; "2"] dir))) ["1"; "2"] -> False).
  { assert (V : c_valid (a_cfg (pick "D" (fst (parseArguments ["prog"; "1"; "2"] dir)))) = None) by (vm_compute; reflexivity).
    assert (X : to_vector (pick "D" (fst (parseArguments ["prog"; "1"; "2"] dir))) = Ok ["x"; "y"; "1"; "2"]) by (vm_compute; reflexivity).
    unfold holds. rewrite V, X. intros Q. discriminate Q. }
  apply Z, H; [apply pick_In; vm_compute; reflexivity | vm_compute; reflexivity | exact T1].
Qed.
Print Assumptions C26_refuted.
(** It holds for a positional with one word (action NONE, nargs 1), and for the others if
    they have no default values and nothing is left from an earlier parse.  Missing for the
    full property: exactly the positionals with values before the parse; these are kept in
    front of the words (C26_refuted). *)
Lemma positional_values : forall s ws pcs b vs, usable s -> reads s ws pcs -> In b (arguments (ready s)) -> isPositional b = true -> In (a_id b, vs) (given_of pcs) ->
  a_dyn (read_arg pcs b) = pos_dyn (a_cfg b) vs (a_dyn (clear_arg b)).
Proof.
  intros s ws pcs b vs U R Ib P G. pose proof (usable_ready_wf s U) as W. rewrite (read_positional_arg s ws pcs b W R Ib P).
  rewrite (in_given _ _ _ (reads_given_nodup s ws pcs W R) G). reflexivity.
Qed.
Theorem C26_partial : forall s argv ws s' pcs a vs, usable s -> interprets s -> command_line argv ws -> parseArguments argv s = (s', Ok tt) ->
  reads s ws pcs -> In a (arguments s') -> isPositional a = true -> getNargs a <> 0%N -> In (a_id a, vs) (given_of pcs) ->
  (getAction a = NONE /\ getNargs a = 1%N) \/ no_values (ready s) a -> holds a vs.
Proof.
  intros s argv ws s' pcs a vs U I C E R Ia P NZ G NV. destruct (result_with s argv ws s' a pcs U C I E Ia R) as [b [Ib [Ea [T [CF [ID [EX _]]]]]]].
  pose proof (usable_ready_wf s U) as W. rewrite CF in P, NZ, NV. rewrite ID in *.
  pose proof (positional_values s ws pcs b vs U R Ib P G) as D.
  assert (HV : has_values (a_cfg b) = true) by (unfold has_values, arity_of; destruct (c_type (a_cfg b)); try discriminate P; reflexivity).
  assert (EXR : isExists (read_arg pcs b) = true) by (rewrite D; apply pos_exist).
  assert (SZ : arity_ok (arity_of (a_cfg b)) vs).
  { destruct (reads_given s ws pcs (a_id b) vs W R G) as [b' [Ib' [E' [_ TK]]]].
    assert (b' = b) by (eapply wf_unique; [exact W | exact Ib' | exact Ib | exact E']). subst b'.
    assert (GN : forall m, arity_of (a_cfg b) = AGroups m -> 0 < m) by (intros m Hm; unfold arity_of in Hm; destruct (c_type (a_cfg b)); try discriminate; injection Hm as <-; lia).
    destruct TK as [w l _ TW|w l TW]; eapply take_words_ok; try exact GN; exact TW. }
  assert (NVb : (getAction b = NONE /\ getNargs b = 1%N) \/ to_vector b = Ok []).
  { destruct NV as [NV|NV]; [now left | right; apply NV; auto]. }
  assert (ELS : c_type (a_cfg b) <> POSITIONAL_ARGUMENT -> map elem_value (d_elems (a_dyn (clear_arg b))) = [] \/ (grouped (c_type (a_cfg b)) = true /\ flat_map elem_values (d_elems (a_dyn (clear_arg b))) = [])).
  { intros NP. destruct NVb as [[A N1]|TV].
    - pose proof (ready_positional s b NONE _ U Ib P A eq_refl NZ (or_introl eq_refl)) as Kd. rewrite N1 in Kd. cbn in Kd. congruence.
    - unfold to_vector in TV. cbn [clear_arg arg_dyn a_dyn d_elems].
      destruct (c_type (a_cfg b)) eqn:TY; try discriminate P; try contradiction; injection TV as TV.
      + left. apply map_eq_nil in TV. now rewrite TV.
      + left. apply map_eq_nil in TV. now rewrite TV.
      + right. split; [reflexivity|]. clear - TV. induction (d_elems (a_dyn b)) as [|e l IH]; [reflexivity|]. cbn [map flat_map] in *.
        apply app_eq_nil in TV. destruct TV as [T1 T2]. rewrite (IH T2). unfold elem_values, clear_elem in *. cbn [el_subs]. apply map_eq_nil in T1. now rewrite T1. }
  assert (PV : plain_values (read_arg pcs b) = vs).
  { unfold plain_values. change (a_cfg (read_arg pcs b)) with (a_cfg b). rewrite D. unfold pos_dyn.
    assert (EV : forall l, map (fun e => lf_arg (el_leaf e)) l = map elem_value l) by reflexivity.
    assert (EG : forall l, flat_map (fun e => map lf_arg (el_subs e)) l = flat_map elem_values l) by reflexivity.
    destruct (c_type (a_cfg b)) eqn:TY; try discriminate P; cbn [d_elems d_arg set_arg set_elems].
    - unfold arity_of in SZ. rewrite TY in SZ. cbn in SZ. destruct vs as [|v [|? ?]]; try discriminate SZ. reflexivity.
    - destruct (ELS ltac:(discriminate)) as [X|[X _]]; [|discriminate]. now rewrite EV, map_app, X, elem_word_value.
    - destruct (ELS ltac:(discriminate)) as [X|[X _]]; [|discriminate]. now rewrite EV, map_app, X, elem_word_value.
    - assert (X : flat_map elem_values (d_elems (a_dyn (clear_arg b))) = []).
      { destruct (ELS ltac:(discriminate)) as [X|[_ X]]; [|exact X]. apply map_eq_nil in X. now rewrite X. }
      rewrite EG, flat_map_app, X. cbn [app]. rewrite flat_map_map, elem_group_values.
      unfold arity_of in SZ. rewrite TY in SZ. destruct SZ as [k SZ]. apply (chunks_mult _ k); [|exact SZ]. lia. }
  rewrite Ea, <- PV. apply holds_finished; [exact T | exact EXR | exact HV].
Qed.
Print Assumptions C26_partial.
Example C26_example : exists s', parseArguments ["prog"; "a"; "b"] shop = (s', Ok tt) /\ to_vector (pick "DST" s') = Ok ["b"] /\ no_values (ready files) (pick "C" (ready files)).
Proof.
  eexists. split; [vm_compute; reflexivity|]. split; [vm_compute; reflexivity|].
  intros b Ib E. assert (b = pick "C" (ready files)) as ->.
  { eapply wf_unique; [apply usable_ready_wf, files_usable | exact Ib | apply pick_In; vm_compute; reflexivity | exact E]. }
  vm_compute. reflexivity.
Qed.
