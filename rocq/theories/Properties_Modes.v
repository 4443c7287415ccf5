(** Properties_Modes.v -- what a mode changes, and nothing else (C63). *)
From Coq Require Import Permutation Sorted.
From Verif Require Import Base Model_Utils Model_Number Model_Types Model_Argument Model_Usage Model_Args Model_Api
  Spec_Order Spec_Names Spec_Reading Spec_Modes Spec_Parse Spec_Decl Spec_Finish Spec_History Spec_Api Spec_Result
  Proofs_Base Proofs_Order Proofs_Frame Proofs_Inv Proofs_ReadFacts Proofs_Reading Proofs_Parse Proofs_Decl Proofs_Finish
  Proofs_Meth Proofs_History Proofs_Config Proofs_Names Proofs_Central Proofs_Swap Proofs_Extend Proofs_Modes Properties_Parse Demo.

(** setHelpException / setVersionException: the outcome is the same, except that the text
    of the usage (or of the version) is thrown instead of printed, or conversely; when the
    call returns, so does the other, with the same object (but for the mode). *)
Theorem C63_exceptions : forall s argv ws h v, usable s -> command_line argv ws ->
  let m := excepting h v (s_modes s) in
  let r := snd (parseArguments argv s) in let r' := snd (parseArguments argv (in_modes m s)) in
  ((r' = r \/ (exists u, r = told (m_helpex (s_modes s)) KHelp u /\ r' = told h KHelp u) \/
              (exists u, r = told (m_verex (s_modes s)) KVersion u /\ r' = told v KVersion u)) /\
   (r = Ok tt -> r' = Ok tt /\ fst (parseArguments argv (in_modes m s)) = in_modes m (fst (parseArguments argv s)))).
Proof.
  intros s argv ws h v U C m r r'. unfold r, r'. clear r r'. rewrite !in_modes_eq. pose proof (usable_wf0 s U) as W.
  destruct (interprets_dec s) as [I|N].
  2:{ destruct (modes_idle s m argv W N) as [t [E E']]. rewrite E, E'. split; [now left | intros _; split; reflexivity]. }
  pose proof (modes_usable s m U) as U'.
  assert (ES : setup (with_modes s m) = Conf (k_map (setup s)) (k_args (setup s)) (m_alternative m) (m_strict m)) by (unfold setup; now rewrite (modes_ready s m W)).
  assert (EC : setup (with_modes s m) = setup s).
  { rewrite ES. unfold m, excepting, setup, conf_of. cbn [k_map k_args m_alternative m_strict]. destruct (ready_modes s W) as [-> _]. reflexivity. }
  destruct (parse_total s argv ws U C I) as [[pcs [RD _]]|[e [x [RJ [_ E]]]]].
  - assert (RD' : reads (with_modes s m) ws pcs) by (unfold reads; rewrite EC; exact RD).
    destruct (parse_verdict s argv ws pcs U C I RD) as [V F]. destruct (parse_verdict _ argv ws pcs U' C I RD') as [V' F'].
    rewrite (modes_scanned s m argv pcs W) in V', F'. rewrite V, V' in *. destruct (scanned_modes s argv pcs W) as [Md _].
    set (t := scanned argv pcs s) in *. split.
    + unfold verdict. cbn [with_modes s_modes s_help s_version s_args s_verstr]. rewrite Md. change (met (s_help t) (with_modes t m)) with (met (s_help t) t). change (met (s_version t) (with_modes t m)) with (met (s_version t) t).
      destruct (met (s_help t) t); [right; left; exists (usage_of t); split; reflexivity|].
      destruct (met (s_version t) t); [right; right; exists (s_verstr t); split; reflexivity|]. now left.
    + intros O. assert (O' : verdict (with_modes t m) = Ok tt).
      { revert O. unfold verdict. cbn [with_modes s_modes s_help s_version s_args s_verstr]. change (met (s_help t) (with_modes t m)) with (met (s_help t) t). change (met (s_version t) (with_modes t m)) with (met (s_version t) t).
        destruct (met (s_help t) t); [destruct (m_helpex (s_modes t)); discriminate|]. destruct (met (s_version t) t); [destruct (m_verex (s_modes t)); discriminate|]. intros O; exact O. }
      split; [exact O'|]. rewrite (F O), (F' O'). apply modes_completion.
  - assert (RJ' : rejects (with_modes s m) ws e) by (unfold rejects; rewrite EC; exact RJ).
    destruct (parse_rejects _ argv ws e U' C I RJ') as [x' [E' _]]. rewrite E, E'. split; [now left | discriminate].
Qed.
Print Assumptions C63_exceptions.

(** the two objects of a change of strict mode *)
Lemma strict_setup : forall s b, wf0 s -> let K := setup s in let K' := setup (with_modes s (strictly b (s_modes s))) in
  k_map K' = k_map K /\ k_args K' = k_args K /\ k_alt K' = k_alt K /\ k_strict K' = b /\ k_strict K = m_strict (s_modes s).
Proof.
  intros s b W. cbn zeta. unfold setup. rewrite (modes_ready s _ W). unfold conf_of. cbn [k_map k_args k_alt k_strict with_modes s_map s_args s_modes strictly m_alternative m_strict].
  destruct (ready_modes s W) as [-> _]. repeat split.
Qed.
Lemma alt_agreed : forall K K', k_alt K' = k_alt K -> forall ws, all_agreed K K' ws.
Proof. intros K K' E ws w _. now left. Qed.
Lemma positionals_same : forall K K', k_args K' = k_args K -> positionals K' = positionals K.
Proof. intros K K' E. unfold positionals. now rewrite E. Qed.
Lemma strict_same : forall s argv ws b pcs, usable s -> command_line argv ws -> interprets s -> let s' := with_modes s (strictly b (s_modes s)) in
  reads s ws pcs -> b = false \/ additional_of pcs = [] -> reads s' ws pcs /\
  snd (parseArguments argv s') = snd (parseArguments argv s) /\
  (snd (parseArguments argv s) = Ok tt -> fst (parseArguments argv s') = with_modes (fst (parseArguments argv s)) (strictly b (s_modes s))).
Proof.
  intros s argv ws b pcs U C I s' RD A. pose proof (usable_wf0 s U) as W. destruct (strict_setup s b W) as [EM [EA [EL [ES _]]]]. fold s' in EM, EA, EL, ES.
  assert (RD' : reads s' ws pcs).
  { unfold reads. rewrite (positionals_same _ _ EA). apply (reading_same (setup s) (setup s') EM EA _ _ _ RD (alt_agreed _ _ EL ws)). now rewrite ES. }
  destruct (parse_verdict s argv ws pcs U C I RD) as [V F]. destruct (parse_verdict s' argv ws pcs (modes_usable s _ U) C I RD') as [V' F'].
  unfold s' in V', F'. rewrite (modes_scanned s _ argv pcs W) in V', F'. destruct (scanned_modes s argv pcs W) as [Md _].
  rewrite modes_verdict in V' by (now rewrite Md). split; [exact RD'|]. split; [unfold s'; now rewrite V, V'|]. intros O. unfold s'. rewrite F', F; [apply modes_completion | exact O | now rewrite V', <- V].
Qed.
Lemma strict_refuses : forall s argv ws pcs w l, usable s -> command_line argv ws -> interprets s -> let s' := with_modes s (strictly true (s_modes s)) in
  reads s ws pcs -> additional_of pcs = w :: l -> snd (parseArguments argv s') = not_wanted w.
Proof.
  intros s argv ws pcs w l U C I s' RD A. pose proof (usable_wf0 s U) as W. destruct (strict_setup s true W) as [EM [EA [EL [ES _]]]]. fold s' in EM, EA, EL, ES.
  assert (RJ : rejects s' ws (refusal w)).
  { unfold rejects. rewrite (positionals_same _ _ EA). exact (reading_refused (setup s) (setup s') EM EA ES _ _ _ RD (alt_agreed _ _ EL ws) w l A). }
  destruct (parse_rejects s' argv ws _ (modes_usable s _ U) C I RJ) as [x [E _]]. now rewrite E.
Qed.

(** Strict mode against a call that succeeds without it: the words that call adds to the
    additional arguments are what matters.  None: the same result and the same object.
    Some: the first of them is refused. *)
Theorem C63_strict : forall s argv ws t, usable s -> command_line argv ws -> m_strict (s_modes s) = false ->
  parseArguments argv s = (t, Ok tt) ->
  let s' := in_modes (strictly true (s_modes s)) s in
  exists l, getAdditionalArguments t = getAdditionalArguments s ++ l /\
    match l with
    | [] => parseArguments argv s' = (in_modes (strictly true (s_modes t)) t, Ok tt)
    | w :: _ => snd (parseArguments argv s') = not_wanted w
    end.
Proof.
  intros s argv ws t U C NS E. cbn zeta. rewrite !in_modes_eq. pose proof (usable_wf0 s U) as W. destruct (interprets_dec s) as [I|N].
  2:{ destruct (modes_idle s (strictly true (s_modes s)) argv W N) as [x [E1 E2]]. rewrite E in E1. injection E1 as <-. exists []. rewrite E2. rewrite app_nil_r.
      unfold parseArguments in E. rewrite (proj2 (parse_with_eq _ argv s W) N) in E. injection E as <-. split; reflexivity. }
  destruct (parse_ok_args s argv ws t U C I E) as [pcs [RD [_ [A _]]]]. exists (additional_of pcs). split; [exact A|].
  destruct (additional_of pcs) as [|w l] eqn:AD.
  - destruct (strict_same s argv ws true pcs U C I RD (or_intror AD)) as [_ [R F]]. rewrite E in R, F. cbn [fst snd] in R, F. specialize (F eq_refl).
    destruct (parse_verdict s argv ws pcs U C I RD) as [V F0]. rewrite E in V, F0. cbn [fst snd] in V, F0. specialize (F0 eq_refl).
    assert (Md : s_modes t = s_modes s) by (rewrite F0; exact (proj1 (scanned_modes s argv pcs W))). rewrite Md.
    destruct (parseArguments argv (with_modes s (strictly true (s_modes s)))) as [y r]. cbn [fst snd] in R, F. now rewrite R, F.
  - exact (strict_refuses s argv ws pcs w l U C I RD AD).
Qed.
Print Assumptions C63_strict.
(** Conversely, what strict mode accepts is accepted without it, with the same object, and
    there is no additional argument. *)
Theorem C63_strict_accepts : forall s argv ws t', usable s -> command_line argv ws -> m_strict (s_modes s) = false ->
  parseArguments argv (in_modes (strictly true (s_modes s)) s) = (t', Ok tt) ->
  exists t, parseArguments argv s = (t, Ok tt) /\ t' = in_modes (strictly true (s_modes t)) t /\ getAdditionalArguments t = getAdditionalArguments s.
Proof.
  intros s argv ws t' U C NS E. rewrite in_modes_eq in E. pose proof (usable_wf0 s U) as W. destruct (interprets_dec s) as [I|N].
  2:{ destruct (modes_idle s (strictly true (s_modes s)) argv W N) as [x [E1 E2]]. exists x. rewrite E in E2. injection E2 as ->.
      unfold parseArguments in E1. rewrite (proj2 (parse_with_eq _ argv s W) N) in E1. injection E1 as <-. rewrite in_modes_eq. unfold parseArguments. rewrite (proj2 (parse_with_eq _ argv s W) N). split; [reflexivity | split; reflexivity]. }
  set (s' := with_modes s (strictly true (s_modes s))) in *. pose proof (modes_usable s (strictly true (s_modes s)) U) as U'. fold s' in U'.
  destruct (parse_ok_args s' argv ws t' U' C I E) as [pcs [RD [_ [A _]]]].
  assert (AD : additional_of pcs = []).
  { apply (Reading_strict _ _ _ _ RD). unfold setup, s'. cbn [conf_of k_strict]. rewrite (modes_ready s _ W). reflexivity. }
  assert (B : with_modes s' (strictly false (s_modes s')) = s).
  { unfold s'. rewrite modes_modes. replace (strictly false (s_modes (with_modes s (strictly true (s_modes s))))) with (s_modes s); [apply same_modes|]. cbn. unfold strictly. cbn. destruct (s_modes s) as [a b h v]; cbn in *. now rewrite NS. }
  destruct (strict_same s' argv ws false pcs U' C I RD (or_introl eq_refl)) as [_ [R F]]. rewrite B in R, F. rewrite E in R, F. cbn [fst snd] in R, F. specialize (F eq_refl).
  exists (fst (parseArguments argv s)). split; [destruct (parseArguments argv s) as [y r]; cbn [fst snd] in *; now rewrite R|]. rewrite in_modes_eq, F.
  assert (Mt : s_modes t' = s_modes s').
  { destruct (parse_verdict s' argv ws pcs U' C I RD) as [V F0]. rewrite E in F0. cbn [fst snd] in F0. rewrite (F0 eq_refl). exact (proj1 (scanned_modes s' argv pcs (usable_wf0 s' U'))). }
  split.
  - rewrite modes_modes. cbn [s_modes with_modes]. replace (strictly true (strictly false (s_modes s'))) with (s_modes t'). now rewrite same_modes.
  - change (getAdditionalArguments t' = getAdditionalArguments s). rewrite A, AD, app_nil_r. reflexivity.
Qed.
Print Assumptions C63_strict_accepts.
(** In all cases the outcome of strict mode is the outcome without it, or the refusal of a
    word of the command line. *)
Theorem C63_strict_outcome : forall s argv ws, usable s -> command_line argv ws -> m_strict (s_modes s) = false ->
  let r := snd (parseArguments argv s) in let r' := snd (parseArguments argv (in_modes (strictly true (s_modes s)) s)) in
  r' = r \/ exists w, In w ws /\ r' = not_wanted w.
Proof.
  intros s argv ws U C NS r r'. unfold r, r'. clear r r'. rewrite in_modes_eq. pose proof (usable_wf0 s U) as W. destruct (interprets_dec s) as [I|N].
  2:{ left. destruct (modes_idle s (strictly true (s_modes s)) argv W N) as [x [E1 E2]]. now rewrite E1, E2. }
  destruct (parse_total s argv ws U C I) as [[pcs [RD _]]|[e [x [RJ [_ E]]]]].
  - destruct (additional_of pcs) as [|w l] eqn:AD.
    + left. exact (proj1 (proj2 (strict_same s argv ws true pcs U C I RD (or_intror AD)))).
    + right. exists w. split; [|exact (strict_refuses s argv ws pcs w l U C I RD AD)].
      rewrite <- (Reading_words _ _ _ _ RD). apply in_flat_map. assert (IN : In w (additional_of pcs)) by (rewrite AD; now left). apply in_flat_map in IN. destruct IN as [p [IP IN]]. exists p. split; [exact IP|]. destruct p; try contradiction. exact IN.
  - destruct (strict_setup s true W) as [EM [EA [EL [ES _]]]]. set (s' := with_modes s (strictly true (s_modes s))) in *.
    destruct (fails_strict (setup s) (setup s') EM EA ES _ _ _ RJ (alt_agreed _ _ EL ws)) as [F|[w [IN F]]]; rewrite <- (positionals_same _ _ EA) in F.
    + left. destruct (parse_rejects s' argv ws e (modes_usable s _ U) C I F) as [y [E' _]]. now rewrite E, E'.
    + right. exists w. split; [exact IN|]. destruct (parse_rejects s' argv ws _ (modes_usable s _ U) C I F) as [y [E' _]]. now rewrite E'.
Qed.
Print Assumptions C63_strict_outcome.

(** Alternative mode changes nothing for a command line in which no word before "--" is a
    long name written with one dash. *)
Theorem C63_alternative : forall s argv ws b, usable s -> command_line argv ws ->
  (forall w, In w (before_end ws) -> ~ long_with_one_dash (ready s) w) ->
  let m := alternatively b (s_modes s) in
  snd (parseArguments argv (in_modes m s)) = snd (parseArguments argv s) /\
  (snd (parseArguments argv s) = Ok tt -> fst (parseArguments argv (in_modes m s)) = in_modes m (fst (parseArguments argv s))).
Proof.
  intros s argv ws b U C G m. rewrite !in_modes_eq. pose proof (usable_wf0 s U) as W. destruct (interprets_dec s) as [I|N].
  2:{ destruct (modes_idle s m argv W N) as [x [E1 E2]]. rewrite E1, E2. split; [reflexivity | intros _; reflexivity]. }
  set (s' := with_modes s m).
  assert (ES : setup s' = Conf (k_map (setup s)) (k_args (setup s)) b (k_strict (setup s))).
  { unfold s', setup. rewrite (modes_ready s m W). unfold conf_of. cbn [k_map k_args k_alt k_strict with_modes s_map s_args s_modes m_strict m_alternative m alternatively]. destruct (ready_modes s W) as [-> _]. reflexivity. }
  assert (EM : k_map (setup s') = k_map (setup s)) by now rewrite ES. assert (EA : k_args (setup s') = k_args (setup s)) by now rewrite ES.
  assert (ST : k_strict (setup s') = k_strict (setup s)) by now rewrite ES.
  assert (AG : all_agreed (setup s) (setup s') ws).
  { intros w IN. right. destruct (word_kind w) eqn:K; try (left; discriminate). right. specialize (G w IN). unfold k_has.
    rewrite (setup_none s _ (usable_wf0 _ (usable_ready s U))); [reflexivity|]. destruct (argumentExists (ready s) (String "-" (fst (cut_eq w)))) eqn:X; [|reflexivity]. destruct G. split; assumption. }
  destruct (parse_total s argv ws U C I) as [[pcs [RD _]]|[e [x [RJ [_ E]]]]].
  - assert (RD' : reads s' ws pcs).
    { unfold reads. rewrite (positionals_same _ _ EA). apply (reading_same (setup s) (setup s') EM EA _ _ _ RD AG). rewrite ST. destruct (k_strict (setup s)) eqn:KS; [right; exact (Reading_strict _ _ _ _ RD KS) | now left]. }
    destruct (parse_verdict s argv ws pcs U C I RD) as [V F]. destruct (parse_verdict s' argv ws pcs (modes_usable s _ U) C I RD') as [V' F'].
    unfold s' in V', F' |- *. rewrite (modes_scanned s _ argv pcs W) in V', F'. destruct (scanned_modes s argv pcs W) as [Md _].
    rewrite modes_verdict in V' by (now rewrite Md). split; [now rewrite V, V'|]. intros O. rewrite F', F; [apply modes_completion | exact O | now rewrite V', <- V].
  - pose proof (fails_same (setup s) (setup s') EM EA ST _ _ _ RJ AG) as F. rewrite <- (positionals_same _ _ EA) in F.
    destruct (parse_rejects s' argv ws e (modes_usable s _ U) C I F) as [y [E' _]]. rewrite E, E'. split; [reflexivity | discriminate].
Qed.
Print Assumptions C63_alternative.

(** the demonstration parser: additional words, help, a long name with one dash *)
Example C63_example : usable shop /\ m_strict (s_modes shop) = false /\
  snd (parseArguments ["prog"; "a"; "b"; "c"; "-v"; "d"] shop) = Ok tt /\
  getAdditionalArguments (fst (parseArguments ["prog"; "a"; "b"; "c"; "-v"; "d"] shop)) = ["c"; "d"] /\
  snd (parseArguments ["prog"; "a"; "b"; "c"; "-v"; "d"] (in_modes (strictly true (s_modes shop)) shop)) = not_wanted "c" /\
  snd (parseArguments ["prog"; "a"; "-v"] (in_modes (strictly true (s_modes shop)) shop)) = Ok tt /\
  (exists u, snd (parseArguments ["prog"; "-h"] (in_modes (excepting true true (s_modes shop)) shop)) = told true KHelp u /\
             snd (parseArguments ["prog"; "-h"] (in_modes (excepting false true (s_modes shop)) shop)) = told false KHelp u) /\
  long_with_one_dash (ready shop) "-name=bob" /\
  (forall w, In w (before_end ["a"; "-v"; "-nbob"; "--"; "-name"]) -> ~ long_with_one_dash (ready shop) w).
Proof.
  split; [exact shop_usable|]. split; [vm_compute; reflexivity|]. split; [vm_compute; reflexivity|]. split; [vm_compute; reflexivity|]. split; [vm_compute; reflexivity|].
  split; [vm_compute; reflexivity|]. split; [eexists; split; vm_compute; reflexivity|]. split; [split; vm_compute; reflexivity|].
  intros w I [K A]. cbn in I. destruct I as [<-|[<-|[<-|[]]]]; [vm_compute in K; discriminate K | vm_compute in A; discriminate A | vm_compute in A; discriminate A].
Qed.
(** for such a word alternative mode does matter: -name=bob gives the name, or (without
    the mode) is a bundle that begins with -n *)
Example C63_one_dash :
  snd (parseArguments ["prog"; "a"; "-name=bob"] shop) = Throw (Exn KParse "n" "only last option can be use a parameter") /\
  snd (parseArguments ["prog"; "a"; "-name=bob"] (in_modes (alternatively true (s_modes shop)) shop)) = Ok tt.
Proof. split; vm_compute; reflexivity. Qed.
