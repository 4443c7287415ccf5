(** Properties_Texts.v -- texts for the reader of the usage have no other effect (C64). *)
From Coq Require Import Permutation Sorted.
From Verif Require Import Base Model_Utils Model_Number Model_Types Model_Argument Model_Usage Model_Args Model_Api
  Spec_Order Spec_Names Spec_Reading Spec_Texts Spec_Parse Spec_Decl Spec_Finish Spec_History Spec_Api Spec_Result
  Proofs_Base Proofs_Order Proofs_Frame Proofs_Inv Proofs_ReadFacts Proofs_Reading Proofs_Finish Proofs_Parse Proofs_Central Proofs_Swap Proofs_Texts Properties_Parse Demo.

(** Two programs that make the same calls but for the texts given to help(), metavar(),
    setDescription(), setEpilog(), setUsage(), setUsageWidth() and setBinaryName():
    each call ends in the same way in both (exceptions included), except that a help
    option shows the usage of its program; and afterwards the objects differ in nothing
    but these texts. *)
Theorem C64_texts : forall ops ops', Forall2 op_texts ops ops' ->
  let p := calls ops init in let p' := calls ops' init in
  same_but_texts (fst p) (fst p') /\ Forall2 outcome_texts (snd p) (snd p').
Proof.
  intros ops ops' F. cbv zeta. assert (G : forall s s', reach s -> reach s' -> same_but_texts s s' -> same_but_texts (fst (calls ops s)) (fst (calls ops' s')) /\ Forall2 outcome_texts (snd (calls ops s)) (snd (calls ops' s'))).
  2:{ apply G; [constructor | constructor | apply st_refl]. }
  induction F as [|o o' ops ops' O F IH]; intros s s' R R' ST; [split; [exact ST | constructor]|].
  destruct (step_texts s s' o o' R R' ST O) as [ST1 OT]. cbn [calls]. destruct (step o s) as [t r] eqn:E, (step o' s') as [t' r'] eqn:E'. cbn [fst snd] in ST1, OT.
  assert (C : completed r <-> completed r') by (destruct OT; tauto).
  assert (D : completed r -> same_but_texts (fst (calls ops t)) (fst (calls ops' t')) /\ Forall2 outcome_texts (snd (calls ops t)) (snd (calls ops' t'))).
  { intros H. apply IH; [exact (reach_step s o t r R E H) | exact (reach_step s' o' t' r' R' E' (proj1 C H)) | exact ST1]. }
  destruct (calls ops t) as [v l], (calls ops' t') as [v' l']. cbn [fst snd] in D.
  destruct r, r'; cbn [completed] in C; try (exfalso; tauto); cbn [fst snd]; first [destruct (D Logic.I) as [D1 D2]; split; [exact D1 | constructor; [exact OT | exact D2]] | split; [exact ST1 | constructor; [exact OT | constructor]]].
Qed.
Print Assumptions C64_texts.

(** what the program sees of an argument, apart from help() and metavar() *)
Definition seen_of (a : argument) :=
  (getNameOrFlags a, isExists a, count a, isRequired a, getNargs a, getAction a, c_defaults (a_cfg a),
   getString a, to_vector a, to_vector_vector a, d_num (a_dyn a)).
(** In particular every query has the same answer. *)
Theorem C64_queries : forall ops ops' n, Forall2 op_texts ops ops' ->
  let s := fst (calls ops init) in let s' := fst (calls ops' init) in
  argumentExists s' n = argumentExists s n /\ getAdditionalArguments s' = getAdditionalArguments s /\
  s_verstr s' = s_verstr s /\ s_dlog s' = s_dlog s /\
  match getArgument s n, getArgument s' n with
  | Ok a, Ok b => seen_of b = seen_of a
  | Throw e, Throw e' => e' = e
  | UB, UB => True
  | _, _ => False
  end.
Proof.
  intros ops ops' n F. cbv zeta. destruct (C64_texts ops ops' F) as [ST _]. set (s := fst (calls ops init)) in *. set (s' := fst (calls ops' init)) in *.
  split; [unfold argumentExists; now rewrite (st_map _ _ ST)|]. split; [exact (st_additional _ _ ST)|]. split; [exact (st_verstr _ _ ST)|]. split; [exact (st_dlog _ _ ST)|].
  unfold getArgument. rewrite (st_map _ _ ST). destruct (assoc n (s_map s)) as [id|]; [|reflexivity]. unfold find_id.
  pose proof (sa_find (fun a => Nat.eqb (a_id a) id) _ _ (st_args _ _ ST)) as X. specialize (X ltac:(intros a b Y; cbv beta; now rewrite (sa_id a b Y))).
  destruct (find _ (s_args s)) as [a|], (find _ (s_args s')) as [b|]; try contradiction; [|exact Logic.I]. destruct X as [h [m ->]]. reflexivity.
Qed.
Print Assumptions C64_queries.

(** The program name argv[0] matters for the usage only. *)
Theorem C64_program_name : forall s a0 a0' ws, usable s -> command_line (a0 :: ws) ws -> command_line (a0' :: ws) ws ->
  let p := parseArguments (a0 :: ws) s in let p' := parseArguments (a0' :: ws) s in
  outcome_texts (snd p) (snd p') /\ (snd p = Ok tt -> same_but_texts (fst p) (fst p')).
Proof.
  intros s a0 a0' ws U C C'. cbv zeta. pose proof (usable_wf0 s U) as W. destruct (interprets_dec s) as [I|N].
  2:{ unfold parseArguments. rewrite !(proj2 (parse_with_eq _ _ s W) N). split; [apply rt_same | intros _; apply st_refl]. }
  destruct (parse_total s (a0 :: ws) ws U C I) as [[pcs [RD _]]|[e [x [RJ [_ E]]]]].
  2:{ destruct (parse_rejects s (a0' :: ws) ws e U C' I RJ) as [y [E' _]]. rewrite E, E'. split; [apply rt_same | discriminate]. }
  destruct (parse_verdict s (a0 :: ws) ws pcs U C I RD) as [V K]. destruct (parse_verdict s (a0' :: ws) ws pcs U C' I RD) as [V' K'].
  assert (B : exists b, scanned (a0' :: ws) pcs s = with_bin (scanned (a0 :: ws) pcs s) b).
  { unfold scanned, named. destruct (s_bin (ready s)) eqn:Eb; [exists a0'; reflexivity|]. eexists (s_bin (ready s)). unfold with_bin, with_additional, with_args. cbn [s_bin s_args s_map s_help s_version s_verstr s_modes s_additional s_usage s_freed s_dlog]. reflexivity. }
  destruct B as [b B]. rewrite B in V', K'. set (t := scanned (a0 :: ws) pcs s) in *.
  assert (ST : same_but_texts t (with_bin t b)) by (destruct (st_refl t); constructor; assumption).
  assert (VV : outcome_texts (verdict t) (verdict (with_bin t b)) /\ (verdict t = Ok tt -> verdict (with_bin t b) = Ok tt)).
  { unfold verdict. change (met (s_help (with_bin t b)) (with_bin t b)) with (met (s_help t) t). change (met (s_version (with_bin t b)) (with_bin t b)) with (met (s_version t) t).
    change (s_modes (with_bin t b)) with (s_modes t). change (s_verstr (with_bin t b)) with (s_verstr t). change (missing (with_bin t b)) with (missing t). change (s_args (with_bin t b)) with (s_args t).
    destruct (met (s_help t) t) eqn:M; [|split; [apply rt_same | intros H; exact H]].
    destruct (m_helpex (s_modes t)); (split; [|discriminate]); [apply rt_thrown | apply rt_printed]; assumption. }
  rewrite V, V' in *. split; [exact (proj1 VV)|]. intros O. rewrite (K O), (K' (proj2 VV O)). destruct (st_refl (completion t)). constructor; assumption.
Qed.
Print Assumptions C64_program_name.

(** the demonstration parser with and without texts *)
Definition wordy_ops : list op :=
  [OpSetDescription "copies things"; OpSetUsageWidth 4 30 1 40; OpAdd ["-n"; "--name"] [MHelp "a name"; MMetavar "NAME"; MDefaults ["anon"]];
   OpAdd ["-p"] [MNargs 2; MHelp "two"; MNargs 1; MNargs 3]; OpUpdate "-p" [MMetavar "X"; MDefaults ["1"]]; OpParse ["prog"; "-n"; "bob"; "--zzz"]; OpParse ["prog"; "-n"; "bob"; "x"]].
Definition terse_ops : list op :=
  [OpSetDescription ""; OpSetUsageWidth 2 20 2 56; OpAdd ["-n"; "--name"] [MHelp ""; MMetavar ""; MDefaults ["anon"]];
   OpAdd ["-p"] [MNargs 2; MHelp ""; MNargs 1; MNargs 3]; OpUpdate "-p" [MMetavar ""; MDefaults ["1"]]; OpParse ["prog"; "-n"; "bob"; "--zzz"]; OpParse ["prog"; "-n"; "bob"; "x"]].
Example C64_example : Forall2 op_texts wordy_ops terse_ops /\
  map (fun r => match r with Ok _ => None | Throw e => Some (x_kind e) | _ => None end) (snd (calls wordy_ops init)) = [None; None; None; None; Some KArgument; Some KParse; None] /\
  usage_of (fst (calls wordy_ops init)) <> usage_of (fst (calls terse_ops init)) /\
  match getArgument (fst (calls wordy_ops init)) "-n" with Ok a => getString a = "bob" | _ => False end /\
  (exists u u', snd (calls (wordy_ops ++ [OpParse ["prog"; "-h"]]) init) = snd (calls wordy_ops init) ++ [Exit u] /\
     snd (calls (terse_ops ++ [OpParse ["prog"; "-h"]]) init) = snd (calls terse_ops init) ++ [Exit u'] /\ u <> u').
Proof.
  split.
  - repeat first [apply Forall2_cons | apply Forall2_nil]; first [apply ot_description | apply ot_width | apply ot_parse | apply ot_add | apply ot_update]; repeat first [apply Forall2_cons | apply Forall2_nil];
      first [apply mt_help | apply mt_metavar | apply mt_same].
  - split; [vm_compute; reflexivity|]. split; [vm_compute; discriminate|]. split; [vm_compute; reflexivity|]. eexists. eexists. split; [vm_compute; reflexivity|]. split; [vm_compute; reflexivity | discriminate].
Qed.
