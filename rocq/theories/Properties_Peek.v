(** Properties_Peek.v -- C76: validators that remember their calls and read the parser that
    is calling them. *)
From Coq Require Import Permutation Sorted.
From Verif Require Import Base Model_Utils Model_Number Model_Types Model_Argument Model_Usage Model_Args Model_Api Model_Calls Model_Peek
  Spec_Order Spec_Names Spec_Reading Spec_Parse Spec_Decl Spec_Finish Spec_History Spec_Api Spec_Result Spec_Peek
  Proofs_Base Proofs_Order Proofs_Frame Proofs_Inv Proofs_ReadFacts Proofs_Reading Proofs_Finish Proofs_Parse Proofs_Central Proofs_Dyn Proofs_Check Demo Properties_Parse Properties_Final Properties_Calls Proofs_Peek Proofs_Peek2 Proofs_Peek3.

(* ------------------------------------------------------------------ *)
(** * one answer each *)

(** the same argument, its validator always answering [ans] of the argument *)
Definition settle (ans : nat -> vres) (a : argument) : argument :=
  Arg (a_id a) (a_gen a) (cfg_valid (a_cfg a) (option_map (fun v => Validator (v_id v) (fun _ => ans (a_id a))) (c_valid (a_cfg a))) (c_valid_del (a_cfg a))) (a_dyn a).
Lemma settle_sa : forall ans a, same_arg_but_answers a (settle ans a).
Proof. intros ans a. eexists. split; [|reflexivity]. unfold same_object. now destruct (c_valid (a_cfg a)). Qed.
Lemma settle_st : forall ans s, same_but_answers s (with_args s (map (settle ans) (s_args s))).
Proof. intros ans s. apply st_intro. induction (s_args s) as [|a l IH]; constructor; [apply settle_sa | exact IH]. Qed.
Lemma st_shape : forall s s', same_but_answers s s' -> shape s s'.
Proof.
  intros s s' R _. split; [|exact (st_map _ _ R)]. pose proof (st_args _ _ R) as F. induction F as [|a b l l' [w [_ ->]] F IH]; constructor; [repeat split | exact IH].
Qed.
Lemma st_refl : forall s, same_but_answers s s.
Proof. intros s. constructor; [|reflexivity]. induction (s_args s); constructor; [apply sa_refl | assumption]. Qed.

Lemma rr_eq : forall r r' : res unit, rr eq r r' -> r' = r.
Proof. intros [] []; cbn; try contradiction; try reflexivity; intros ->; reflexivity. Qed.

(** A call with validators that remember and look around is the call, on the parser that
    differs in nothing else, with validators that have one answer each: the one that was
    given at the moment of the question. *)
Theorem C76_answers : forall answers argv s s1 r ms, reach s -> parseArguments_peek answers argv s = ((s1, r), ms) ->
  exists s0 s1', same_but_answers s s0 /\
    parseArguments argv s0 = (s1', r) /\ same_but_answers s1 s1' /\ happenings argv s0 = map fst ms /\
    (forall k v vs t, nth_error ms k = Some (Called v vs, t) ->
       exists b w now, In b (arguments s0) /\ c_valid (a_cfg b) = Some w /\ v_id w = v /\ (forall xs, v_fn w xs = answers (firstn (Datatypes.S k) ms)) /\
         In now (arguments t) /\ a_id now = a_id b /\ plain_values now = vs).
Proof.
  intros answers argv s s1 r ms RE E. pose proof (reach_wf s RE) as W. unfold parseArguments_peek in E. rewrite peek_before in E.
  assert (SH : forall s0, same_but_answers s s0 -> parseArguments_traced argv s0 = rest_traced (before (parse_fuel argv s) argv s0)).
  { intros s0 R. unfold parseArguments_traced. replace (parse_fuel argv s0) with (parse_fuel argv s); [apply traced_before|]. unfold parse_fuel. now rewrite (sa_length _ _ (st_args _ _ R)). }
  assert (TR : forall s0 s1', same_but_answers s s0 -> fst (parseArguments_traced argv s0) = (s1', r) -> parseArguments argv s0 = (s1', r)) by (intros s0 s1' _ X; now rewrite <- C71_same).
  destruct (before (parse_fuel argv s) argv s) as [t rb] eqn:EB.
  assert (NB : (forall ids, rb <> Ok (Some ids)) -> rest_peek answers (t, rb) [] = (fst (rest_traced (t, rb)), []) /\ snd (rest_traced (t, rb)) = []).
  { intros N. destruct rb as [[ids|]|e|o| |]; try (split; reflexivity). now specialize (N ids). }
  destruct rb as [[ids|]|e|o| |].
  2-6: destruct NB as [N1 N2]; [intros ids; discriminate|]; rewrite E in N1; injection N1 as N1 NM; subst ms; exists s, s1; pose proof (SH s (st_refl s)) as X; rewrite EB in X;
    split; [apply st_refl|]; split; [apply TR; [apply st_refl | rewrite X; cbn [rest_traced fst]; cbn [rest_traced rest_peek fst] in *; congruence]|]; split; [apply st_refl|]; split; [unfold happenings; rewrite X; exact N2 |
      intros k v vs t0 Q; destruct k; discriminate Q].
  clear NB. destruct (before_ok _ _ _ _ _ (proj1 W) EB) as [IN [ES ->]].
  pose proof (frame_scan (parse_fuel argv s) argv (prepared s)) as FS. rewrite ES in FS. cbn [fst] in FS.
  assert (W1 : wf0 t) by (eapply frame_wf0; [exact (proj1 (wf_prepared s W)) | exact FS]).
  cbn [rest_peek] in E. destruct (finish_det answers (map a_id (s_args t)) (wf_ids t W1) [] t) as [ans [_ [AN TW]]]. rewrite E in AN. cbn [snd length] in AN.
  set (s0 := with_args s (map (settle ans) (s_args s))). pose proof (settle_st ans s) as R0. fold s0 in R0.
  pose proof (shape_wf0 _ _ (proj1 W) (st_shape _ _ R0)) as W0.
  destruct (sim_before (parse_fuel argv s) argv s s0 R0) as [RB QB]. rewrite EB in RB, QB. cbn [fst snd] in RB, QB.
  pose proof (SH s0 R0) as T0. destruct (before (parse_fuel argv s) argv s0) as [t' rb'] eqn:EB'. cbn [fst snd] in RB, QB.
  destruct rb' as [o'| | | |]; try contradiction. cbn in QB. subst o'. cbn [rest_traced] in T0.
  destruct (before_ok _ _ _ _ _ W0 EB') as [_ [ES' _]]. pose proof (frame_scan (parse_fuel argv s) argv (prepared s0)) as FS'. rewrite ES' in FS'. cbn [fst] in FS'.
  assert (AB : forall b w, In b (arguments t') -> c_valid (a_cfg b) = Some w -> exists x, In x (arguments s0) /\ a_id x = a_id b /\ c_valid (a_cfg x) = Some w).
  { intros b w Ib V. assert (X : In (static b) (map static (s_args (prepared s0)))) by (rewrite <- (fr_args _ _ FS'); now apply in_map).
    apply in_map_iff in X. destruct X as [x [Ex Ix]]. unfold static in Ex. injection Ex as Ei Eg Ec. destruct (prepared_args s0 x Ix) as [Iy|[_ ->]]; [|rewrite <- Ec in V; discriminate V].
    unfold cleared in Iy. cbn [s_args with_args] in Iy. apply in_map_iff in Iy. destruct Iy as [y [<- Iy]]. exists y. rewrite <- Ei, <- Ec in *. split; [exact Iy|]. split; [reflexivity | exact V]. }
  assert (AF : forall x w, In x (arguments s0) -> c_valid (a_cfg x) = Some w -> forall vs, v_fn w vs = ans (a_id x)).
  { intros x w Ix V vs. unfold s0 in Ix. cbn [s_args with_args] in Ix. apply in_map_iff in Ix. destruct Ix as [y [<- _]]. cbn in V |- *. destruct (c_valid (a_cfg y)); [|discriminate]. injection V as <-. reflexivity. }
  assert (A0 : answered ans (map a_id (s_args t)) t').
  { intros b w Ib _ V vs. destruct (AB b w Ib V) as [x [Ix [<- Vx]]]. now apply AF. }
  destruct (TW t' RB A0) as [X1 [X2 X3]]. rewrite E in X1, X2, X3. destruct (finish_traced (map a_id (s_args t)) t') as [[s1' r'] hs]. cbn [fst snd map app] in X1, X2, X3.
  apply rr_eq in X2. subst r'. exists s0, s1'. split; [exact R0|]. split; [apply TR; [exact R0 | now rewrite T0]|]. split; [exact X1|]. split; [unfold happenings; rewrite T0; now symmetry|].
  intros k v vs u Q. destruct (AN k v vs u (Nat.le_0_l k) Q) as [i [a [w [Ii [Fi [V [Vi [Pv [Fr An]]]]]]]]].
  assert (Fr2 : frame t u) by exact Fr.
  destruct (find_id_In _ _ _ Fi) as [Ia Ei].
  assert (X : In (static a) (map static (s_args t))) by (rewrite <- (fr_args _ _ Fr2); now apply in_map).
  apply in_map_iff in X. destruct X as [c [Ec Ic]]. unfold static in Ec. injection Ec as Ec1 Ec2 Ec3.
  destruct (Forall2_in_l _ _ _ _ (st_args _ _ RB) Ic) as [b [Ib [w' [SO Eb]]]].
  unfold same_object in SO. rewrite Ec3, V in SO. destruct w' as [w'|]; [|discriminate]. injection SO as SO.
  destruct (AB b w' Ib) as [x [Ix [Ex Vx]]]; [rewrite Eb; reflexivity|].
  exists x, w', a. split; [exact Ix|]. split; [exact Vx|]. split; [now rewrite SO|].
  assert (Eid : a_id x = i) by (rewrite Ex, Eb; cbn [a_id]; now rewrite Ec1).
  split; [intros xs; rewrite (AF x w' Ix Vx xs), Eid; exact An|]. split; [exact Ia|]. split; [congruence | exact Pv].
Qed.
Print Assumptions C76_answers.

(* ------------------------------------------------------------------ *)
(** * validators that neither remember nor look *)

Definition same_run {A} (m : P A) (t : T A) (h : list moment) (s : state) : Prop :=
  fst (m h s) = fst (t s) /\ map fst (snd (m h s)) = map fst h ++ snd (t s).
Lemma run_calm : forall A (f : M A) h s, same_run (calmly f) (quietly f) h s.
Proof. intros A f h s. split; [reflexivity|]. cbn. now rewrite app_nil_r. Qed.
Lemma run_bind : forall A B m t (f : A -> P B) (g : A -> T B) h s, same_run m t h s -> (forall x s1, fst (t s) = (s1, Ok x) -> same_run (f x) (g x) (snd (m h s)) s1) -> same_run (pbind m f) (tbind t g) h s.
Proof.
  intros A B m t f g h s [X Y] H. unfold same_run, pbind, tbind. destruct (m h s) as [[s1 r] h1], (t s) as [[s1' r'] l]. cbn [fst snd] in *. injection X as <- <-.
  destruct r as [x|e|o| |]; try (split; [reflexivity | exact Y]). destruct (H x s1 eq_refl) as [X1 Y1]. destruct (g x s1) as [q l']. cbn [fst snd] in *. split; [exact X1|]. rewrite Y1, Y. now rewrite app_assoc.
Qed.
Definition by_fn (fn : nat -> list str -> vres) (s : state) : Prop := forall a w, In a (arguments s) -> c_valid (a_cfg a) = Some w -> forall vs, v_fn w vs = fn (v_id w) vs.
Lemma by_fn_frame : forall fn s s', frame s s' -> by_fn fn s -> by_fn fn s'.
Proof.
  intros fn s s' F H a w Ia V vs. assert (X : In (static a) (map static (s_args s))) by (rewrite <- (fr_args _ _ F); now apply in_map).
  apply in_map_iff in X. destruct X as [b [Eb Ib]]. unfold static in Eb. injection Eb as E1 E2 E3. rewrite <- E3 in V. exact (H b w Ib V vs).
Qed.
Section Pure.
Variable answers : mind.
Variable fn : nat -> list str -> vres.
Hypothesis PURE : forall h v vs t, answers (h ++ [(Called v vs, t)]) = fn v vs.
Lemma one_pure : forall id h s, by_fn fn s -> same_run (finish_one_peek answers id) (finish_one_traced id) h s.
Proof.
  intros id h s B. unfold finish_one_peek, finish_one_traced. apply run_bind; [apply run_calm|]. intros a s1 D. unfold quietly, deref in D. cbn [fst] in D.
  destruct (find_id id (s_args s)) as [b|] eqn:F; [|discriminate D]. injection D as <- <-. destruct (find_id_In _ _ _ F) as [Ib _].
  assert (TL : forall h1 s1, same_run (pbind (calmly (toNumber id)) (fun _ => toDest_peek id)) (quietly (toNumber id) ;;;; toDest_traced id) h1 s1).
  { intros h1 s1. apply run_bind; [apply run_calm|]. intros [] s2 _. split; [reflexivity|]. unfold toDest_peek, toDest_traced. cbn [snd]. now rewrite map_app, map_map. }
  apply run_bind; [|intros; apply TL]. destruct (c_valid (a_cfg b)) as [v|] eqn:V; [|apply run_calm]. destruct (d_exist (a_dyn b)); [|apply run_calm].
  unfold same_run, validate_peek, tbind, record, quietly, calmly, deref. rewrite F. cbn [fst snd]. rewrite plain_values_eq.
  assert (FN : validate b (Validator (v_id v) (fun _ => answers (h ++ [(Called (v_id v) (plain_values b), s)]))) s = validate b v s).
  { apply validate_fn. cbn [v_fn]. rewrite (B b v Ib V). apply PURE. }
  rewrite FN. destruct (validate b v s) as [x y]. cbn [fst snd app]. split; [reflexivity | now rewrite map_app].
Qed.
Lemma finish_pure : forall ids h s, by_fn fn s -> same_run (finish_peek answers ids) (finish_traced ids) h s.
Proof.
  induction ids as [|id ids IH]; intros h s B; [apply run_calm|]. cbn [finish_peek finish_traced]. apply run_bind; [now apply one_pure|].
  intros [] s1 E. apply IH. rewrite finish_one_erase in E. apply (by_fn_frame fn s); [|exact B]. pose proof (frame_finish_one id s) as X. rewrite E in X. exact X.
Qed.
End Pure.

(** Validators whose answer depends on the values only: the call is the one of
    Model_Args.v, and the moments are the happenings of Model_Calls.v.  In particular all
    that is shown about parseArguments is about such calls. *)
Theorem C76_pure : forall answers (fn : nat -> list str -> vres) argv s, reach s ->
  (forall h v vs t, answers (h ++ [(Called v vs, t)]) = fn v vs) ->
  (forall a w, In a (arguments s) -> c_valid (a_cfg a) = Some w -> forall vs, v_fn w vs = fn (v_id w) vs) ->
  fst (parseArguments_peek answers argv s) = parseArguments argv s /\ map fst (snd (parseArguments_peek answers argv s)) = happenings argv s.
Proof.
  intros answers fn argv s RE PURE B. pose proof (reach_wf s RE) as W. unfold happenings. rewrite <- C71_same. unfold parseArguments_peek, parseArguments_traced. rewrite peek_before, traced_before.
  destruct (before (parse_fuel argv s) argv s) as [t rb] eqn:EB. destruct rb as [[ids|]|e|o| |]; try (split; reflexivity). cbn [rest_peek rest_traced].
  assert (Bt : by_fn fn t).
  { destruct (before_ok _ _ _ _ _ (proj1 W) EB) as [_ [ES _]]. pose proof (frame_scan (parse_fuel argv s) argv (prepared s)) as FS. rewrite ES in FS. cbn [fst] in FS.
    apply (by_fn_frame fn (prepared s) t FS). intros a w Ia V vs. destruct (prepared_args s a Ia) as [Iy|[_ ->]]; [|discriminate V].
    unfold cleared in Iy. cbn [s_args with_args] in Iy. apply in_map_iff in Iy. destruct Iy as [y [<- Iy]]. exact (B y w Iy V vs). }
  exact (finish_pure answers fn PURE ids [] t Bt).
Qed.
Print Assumptions C76_pure.

(* ------------------------------------------------------------------ *)
(** * what user code sees *)

(** At every moment at which parseArguments calls user code or writes a variable: the
    words have been read; it is the turn of one argument [b]; the arguments listed before
    it are as they will be when the call ends; those listed after it, and [b] itself when
    its validator is called, are as the line was read, without numbers; everything else is
    as the reading left it. *)
Theorem C76_sees : forall answers s argv ws s1 r ms h t, usable s -> command_line argv ws ->
  parseArguments_peek answers argv s = ((s1, r), ms) -> In (h, t) ms ->
  exists pcs l1 b l2 L1 B L2 L3, reads s ws pcs /\ arguments (ready s) = l1 ++ b :: l2 /\ arguments t = L1 ++ B :: L2 /\ arguments s1 = L1 ++ L3 /\
    length L1 = length l1 /\ Forall2 (as_read pcs) l2 L2 /\
    match h with
    | Called v vs => as_read pcs b B /\ on_line (a_id b) pcs = true /\ (exists w, c_valid (a_cfg b) = Some w /\ v_id w = v) /\ vs = line_values pcs b
    | Delivered e => goes_to b e /\ exists later, L3 = B :: later
    end /\
    getAdditionalArguments t = getAdditionalArguments s ++ additional_of pcs /\
    with_dlog (with_args (with_additional t []) []) [] = with_dlog (with_args (with_additional (named argv (ready s)) []) []) [].
Proof.
  intros answers s argv ws s1 r ms h t U C E Hm. pose proof (reach_wf s (proj1 U)) as W. unfold parseArguments_peek in E. rewrite peek_before in E.
  destruct (before (parse_fuel argv s) argv s) as [u rb] eqn:EB. destruct rb as [[ids|]|e|o| |]; cbn [rest_peek] in E; try (injection E as _ _ <-; destruct Hm).
  destruct (before_ok _ _ _ _ _ (proj1 W) EB) as [IN [ES ->]]. destruct (scan_total s argv ws U C) as [[pcs [R ES2]]|[e [s0 [_ ES2]]]]; rewrite ES in ES2; [|discriminate ES2]. injection ES2 as ->.
  pose proof (usable_ready s U) as UR. pose proof (proj1 (reach_wf _ (proj1 UR))) as WR.
  assert (EA : s_args (scanned argv pcs s) = map (read_arg pcs) (arguments (ready s))) by reflexivity.
  assert (ND : NoDup (map a_id (map (read_arg pcs) (arguments (ready s))))) by (rewrite map_map; exact (wf_ids _ WR)).
  rewrite EA in E. destruct (finish_sees answers (map (read_arg pcs) (arguments (ready s))) [] [] (scanned argv pcs s) EA ND) as [_ [_ [ms' [EM SE]]]].
  rewrite E in EM, SE. cbn [fst snd app] in EM, SE. subst ms'. destruct (SE _ Hm) as [k1 [c [k2 [L1 [B [L3 [Q1 [Q2 [Q3 [Q4 [Q5 [Q6 Q7]]]]]]]]]]]].
  cbn [app fst snd] in *. symmetry in Q1. destruct (map_eq_app _ _ _ _ (eq_sym Q1)) as [l1 [l1r [EL [E1 E2]]]]. destruct l1r as [|b l2]; [discriminate E2|]. cbn [map] in E2. injection E2 as Ec E2.
  assert (Ib : In b (arguments (ready s))) by (rewrite EL; apply in_or_app; right; now left).
  exists pcs, l1, b, l2, L1, B, (map (read_arg pcs) l2), L3. split; [exact R|]. split; [exact EL|]. split; [rewrite Q3, E2; reflexivity|]. split; [exact Q4|]. split; [rewrite Q2, <- E1; apply map_length|].
  split.
  { assert (G : forall l, (forall x, In x l -> In x (arguments (ready s))) -> Forall2 (as_read pcs) l (map (read_arg pcs) l)).
    { induction l as [|x l IH]; intros H; constructor; [apply (read_as_read s ws pcs x U R), H; now left | apply IH; intros y Hy; apply H; now right]. }
    apply G. intros x Hx. rewrite EL. apply in_or_app. right. now right. }
  split.
  { destruct h as [v vs|e].
    - destruct Q7 as [-> [X [[w [V Vw]] Pv]]]. subst c. pose proof (read_as_read s ws pcs b U R Ib) as AR. pose proof (ar_exists _ _ _ AR) as AX. rewrite X in AX. symmetry in AX.
      split; [exact AR|]. split; [exact AX|]. split; [exists w; split; [exact V | exact Vw]|]. rewrite Pv, (ar_values _ _ _ AR), AX. reflexivity.
    - destruct Q7 as [G L]. subst c. split; [exact G | exact L]. }
  clear - Q5 W. unfold bare in Q5. split.
  - change (s_additional (with_dlog (with_args t []) []) = s_additional s ++ additional_of pcs). rewrite Q5. cbn. f_equal. destruct (ready_cases s (proj1 W)) as [[-> _]|[-> _]]; reflexivity.
  - change (with_additional (with_dlog (with_args t []) []) [] = with_dlog (with_args (with_additional (named argv (ready s)) []) []) []). rewrite Q5. unfold scanned. reflexivity.
Qed.
Print Assumptions C76_sees.

(** A validator that asks, for one listed before its own argument, sees the number typed;
    for one listed after its own, it does not: numbers are computed argument by argument,
    in the order of the listing.  (--max is listed before --min.) *)
Definition range (on_max on_min : option validator) : state := history
  [OpAdd ["--min"] ([MNargs 1] ++ match on_min with Some v => [MValid (Some v) true] | None => [] end);
   OpAdd ["--max"] ([MNargs 1] ++ match on_max with Some v => [MValid (Some v) true] | None => [] end)].
(** the validator that refuses what is not a number on the right side of the option [other] *)
Definition looks (n : nat) (other : str) (ok : dec -> dec -> bool) : mind := fun ms =>
  match rev ms with
  | (Called v [x], t) :: _ =>
      if Nat.eqb v n then
        match istream_double x, getArgument t other with
        | Some d, Ok o => match getNumber o with Ok e => if ok d e then VOk true [x] else VThrow ("not with " ^^ getString o) | _ => VThrow (getString o ^^ " is not a number") end
        | _, _ => VThrow "not a number"
        end
      else VOk true [x]
  | _ => VOther
  end.
Definition any (n : nat) : validator := Validator n (fun vs => VOk true vs).
Lemma range_usable : usable (range (Some (any 0)) None) /\ usable (range None (Some (any 1))).
Proof. split; apply careful_usable, careful_history; vm_compute; reflexivity. Qed.
Example C76_example :
  (* --min looks at --max: as wanted *)
  (let p := parseArguments_peek (looks 1 "--max" dec_ltb) ["prog"; "--min"; "3"; "--max"; "1"] (range None (Some (any 1))) in
   snd (fst p) = Throw (Exn KValid "--min" "not with 1") /\ map fst (snd p) = [Called 1 ["3"]]) /\
  (let p := parseArguments_peek (looks 1 "--max" dec_ltb) ["prog"; "--min"; "3"; "--max"; "5"] (range None (Some (any 1))) in
   snd (fst p) = Ok tt /\ map fst (snd p) = [Called 1 ["3"]]) /\
  (* --max looks at --min: every line is refused *)
  (let p := parseArguments_peek (looks 0 "--min" (fun d e => dec_ltb e d)) ["prog"; "--min"; "3"; "--max"; "5"] (range (Some (any 0)) None) in
   snd (fst p) = Throw (Exn KValid "--max" "3 is not a number") /\ map fst (snd p) = [Called 0 ["5"]]).
Proof. cbv zeta. split; [|split]; split; vm_compute; reflexivity. Qed.
(** so a validator does not see, in general, the numbers of the other arguments on the
    line, even if the call accepts the line and each of them is a number *)
Theorem C76_number_refuted : ~ forall answers s argv ws s1 ms v vs t n x y, usable s -> command_line argv ws ->
  parseArguments_peek answers argv s = ((s1, Ok tt), ms) -> In (Called v vs, t) ms ->
  getArgument t n = Ok x -> c_valid (a_cfg x) = None -> isExists x = true -> getArgument s1 n = Ok y -> isNumber y = true -> isNumber x = true.
Proof.
  intros H. pose (s := range (Some (any 0)) None). pose (answers := (fun _ => VOk true ["5"]) : mind). pose (argv := ["prog"; "--min"; "3"; "--max"; "5"]).
  destruct (snd (parseArguments_peek answers argv s)) as [|[[v vs|e] t] l] eqn:M; [vm_compute in M; discriminate M | | vm_compute in M; discriminate M].
  assert (Et : t = snd (hd (Called 0 [], init) (snd (parseArguments_peek answers argv s)))) by (rewrite M; reflexivity).
  assert (X : isNumber (pick "--min" t) = true).
  { apply (H answers s argv ["--min"; "3"; "--max"; "5"] (fst (fst (parseArguments_peek answers argv s))) (snd (parseArguments_peek answers argv s)) v vs t "--min" (pick "--min" t) (pick "--min" (fst (fst (parseArguments_peek answers argv s))))).
    - exact (proj1 range_usable).
    - line.
    - vm_compute. reflexivity.
    - rewrite M. now left.
    - rewrite Et. vm_compute. reflexivity.
    - rewrite Et. vm_compute. reflexivity.
    - rewrite Et. vm_compute. reflexivity.
    - vm_compute. reflexivity.
    - vm_compute. reflexivity. }
  rewrite Et in X. vm_compute in X. discriminate X.
Qed.
Print Assumptions C76_number_refuted.
(** what can be relied on: the numbers of the arguments listed before *)
Theorem C76_number_partial : forall answers s argv ws s1 r ms v vs t, usable s -> command_line argv ws ->
  parseArguments_peek answers argv s = ((s1, r), ms) -> In (Called v vs, t) ms ->
  exists l1 b l2, arguments (ready s) = l1 ++ b :: l2 /\ (exists w, c_valid (a_cfg b) = Some w /\ v_id w = v) /\
    forall k a, k < length l1 -> nth_error (arguments t) k = Some a -> nth_error (arguments s1) k = Some a.
Proof.
  intros answers s argv ws s1 r ms v vs t U C E Hm. destruct (C76_sees answers s argv ws s1 r ms _ t U C E Hm) as [pcs [l1 [b [l2 [L1 [B [L2 [L3 [_ [E1 [E2 [E3 [E4 [_ [[_ [_ [V _]]] _]]]]]]]]]]]]]]].
  exists l1, b, l2. split; [exact E1|]. split; [exact V|]. intros k a L N. rewrite E2 in N. rewrite E3. rewrite <- E4 in L. rewrite nth_error_app1 in * by exact L. exact N.
Qed.
Print Assumptions C76_number_partial.
