(** Proofs_Reorder2.v -- names that no call has mentioned; parsers alike up to the
    identities of the arguments. *)
From Coq Require Import Permutation Sorted.
From Verif Require Import Base Model_Utils Model_Number Model_Types Model_Argument Model_Usage Model_Args Model_Api
  Spec_Order Spec_Names Spec_Reading Spec_Extend Spec_Reorder Spec_Parse Spec_Decl Spec_Finish Spec_History Spec_Api Spec_Result
  Proofs_Base Proofs_Order Proofs_Stable Proofs_Frame Proofs_Inv Proofs_ReadFacts Proofs_Reading Proofs_Parse Proofs_Decl Proofs_Finish
  Proofs_Meth Proofs_History Proofs_Config Proofs_Names Proofs_Distinct Proofs_Central Proofs_Swap Proofs_Redecl Proofs_Extend Proofs_Like Properties_Parse Proofs_LikeParse Proofs_LikeNew Properties_Extend Proofs_Reorder.

(* ------------------------------------------------------------------ *)
(** * names that were never mentioned *)
Lemma meths_unused : forall n ms i s, wf s -> unused s n -> ~ In n (flat_map Spec_Extend.meth_names ms) ->
  (exists a, In a (s_args s) /\ a_id a = i) -> unused (fst (run_meths i ms s)) n.
Proof.
  intros n. induction ms as [|m ms IH]; intros i s W U NX [a [Ia <-]]; [exact U|].
  assert (U1 : unused (fst (meth_state m a s)) n).
  { intros x Ix. destruct (Proofs_Distinct.meth_names m a s Ia) as [[_ EN]|[f [-> [_ [_ EN]]]]].
    - destruct (EN x Ix) as [y [Iy [_ E2]]]. rewrite E2. now apply U.
    - destruct (EN x Ix) as [[_ E2]|[Iy _]]; [|now apply U]. rewrite E2. intros Q. apply (proj1 (sort_flags_In _ _)) in Q. apply in_app_or in Q.
      destruct Q as [Q|[Q|[]]]; [now apply (U a Ia)|]. apply NX. cbn. now left. }
  assert (NXr : ~ In n (flat_map Spec_Extend.meth_names ms)) by (intros Q; apply NX; cbn; apply in_or_app; now right).
  destruct (meth_state m a s) as [s1 e] eqn:M. cbn [fst] in *. destruct e as [e|].
  - rewrite (stop_meths _ _ _ _ _ _ (proj1 W) Ia M). exact U1.
  - rewrite (more_meths _ _ _ _ _ (proj1 W) Ia M). apply IH; try assumption; [exact (meth_wf _ _ _ _ _ W Ia M)|].
    destruct (meth_like [] (fun _ => True) false (fun _ => false) (twice s) s s (a, a) m) as [_ [L' [H' R']]]; try assumption; try apply W.
    + apply like_self; [apply W | intros k []].
    + apply in_map_iff. now exists a.
    + intros f _ [].
    + now left.
    + destruct R' as [q [Iq [E1 _]]]. cbn [fst snd] in *. rewrite M in H'. cbn [fst] in H'. exists (fst q). split; [|exact E1]. rewrite (lb_l _ _ _ _ _ _ _ H'). now apply in_map.
Qed.
Lemma removed_unused : forall n k s a, wf0 s -> unused s n -> In a (s_args s) -> assoc k (s_map s) = Some (a_id a) -> unused (removed s k a) n.
Proof.
  intros n k s a W U Ia As b Ib. apply (removed_args s k a b W Ia As) in Ib. destruct Ib as [_ [x [Ix [_ Eb]]]].
  destruct (Nat.eqb (a_id x) (a_id a)); subst b; [|now apply U]. intros Q. apply (U x Ix). cbn in Q. now apply remove_first_In in Q.
Qed.
Lemma sorted_unused : forall n s, unused s n -> unused (with_args s (sort_by arg_lt (s_args s))) n.
Proof. intros n s U a I. apply U. cbn in I. now apply (proj1 (sort_In _ _ _)) in I. Qed.
Lemma remove_loop_unused : forall n l s s', wf0 s -> unused s n -> remove_loop l s = (s', Ok tt) -> wf0 s' /\ unused s' n.
Proof.
  intros n. induction l as [|k l IH]; intros s s' W U E; [injection E as <-; now split|]. cbn [remove_loop] in E.
  destruct (assoc k (s_map s)) as [i|] eqn:A.
  - destruct (wf_entry _ W k i (assoc_In _ _ _ A)) as [a [Ia [<- _]]]. destruct (remove_one_eq s k a W A Ia) as [R W1]. rewrite (bind_ok _ _ _ _ _ R) in E.
    apply (IH _ _ W1 (removed_unused n k s a W U Ia A) E).
  - unfold bind, remove_one, find_name in E. unfold bind in E. rewrite A in E. discriminate.
Qed.
Lemma step_unused : forall n o s s' r, wf s -> unused s n -> sets_up o -> ~ In n (op_names o) -> step o s = (s', r) -> completed r -> unused s' n.
Proof.
  intros n o s s' r W U NP NX S C. destruct o as [ns ms|k ms|ns| |argv|v|b|b|b|b|b|u|d|e|p a sp h]; cbn [step op_names] in *;
    try (exfalso; eapply NP; reflexivity); try (injection S as <- _; exact U).
  - assert (N1 : ~ In n ns) by (intros Q; apply NX, in_or_app; now left). assert (N2 : ~ In n (flat_map Spec_Extend.meth_names ms)) by (intros Q; apply NX, in_or_app; now right).
    pose proof (addArgument_register ns s) as A. destruct (to_register ns (s_map s)) as [e|c] eqn:T.
    + rewrite (bind_throw _ _ _ _ _ A) in S. injection S as <- _. exact U.
    + destruct (to_register_names _ _ _ T) as [NE NI]. rewrite (register_plain s c (proj1 W) NE) in A. rewrite (bind_ok _ _ _ _ _ A) in S.
      change s' with (fst (s', r)). rewrite <- S. apply meths_unused; [|  |exact N2|].
      * apply (wf_step (OpAdd ns []) s _ (Ok tt) W); [|exact Logic.I]. cbn [step]. rewrite (bind_ok _ _ _ _ _ A). reflexivity.
      * intros x Ix. apply Proofs_Like.registered_In in Ix. destruct Ix as [Ix| ->]; [now apply U|]. cbn. intros Q. now apply N1, NI.
      * exists (Arg (fresh_id s) 0 c new_dyn). split; [|reflexivity]. cbn. apply sort_In, in_or_app. right. now left.
  - assert (N2 : ~ In n (flat_map Spec_Extend.meth_names ms)) by (intros Q; apply NX; now right).
    destruct (assoc k (s_map s)) as [i|] eqn:A.
    + destruct (wf_entry _ (proj1 W) k i (assoc_In _ _ _ A)) as [a [Ia [<- _]]].
      assert (E : updateArgument k s = (s, Ok (a_id a))) by (unfold updateArgument, bind, find_name, deref; rewrite A, (In_find_id _ _ (wf_ids _ (proj1 W)) Ia); reflexivity).
      rewrite (bind_ok _ _ _ _ _ E) in S. change s' with (fst (s', r)). rewrite <- S. apply meths_unused; try assumption. now exists a.
    + assert (E : updateArgument k s = (s, Throw (Exn KAccess k "argument not found"))) by (unfold updateArgument, bind, find_name; rewrite A; reflexivity).
      rewrite (bind_throw _ _ _ _ _ E) in S. injection S as <- _. exact U.
  - destruct ns as [|n0 l0]; [injection S as <- _; exact U|]. set (l := n0 :: l0) in *.
    assert (RA : removeArguments l s = match find (fun n => negb (mem_key n (s_map s))) l with Some n => (s, Throw (Exn KArgument n "argument not found")) | None => (remove_loop l ;;; sort_args) s end).
    { unfold removeArguments, l, bind at 1, get. cbv beta iota. destruct (find (fun n => negb (mem_key n (s_map s))) (n0 :: l0)); reflexivity. }
    rewrite RA in S. destruct (find _ l); [injection S as <- _; exact U|].
    destruct (remove_loop_cases l s (proj1 W)) as [s2 [_ [E|E]]].
    + destruct (remove_loop_unused n l s s2 (proj1 W) U E) as [W2 U2]. rewrite (bind_ok _ _ _ _ _ E), (sort_args_ok _ W2) in S. injection S as <- _. now apply sorted_unused.
    + unfold bind in S. rewrite E in S. injection S as <- <-. destruct C.
  - injection S as <- _. intros a [].
Qed.
Lemma run_unused : forall n ops s s', wf s -> unused s n -> Forall sets_up ops -> (forall o, In o ops -> ~ In n (op_names o)) -> run ops s = Some s' -> unused s' n.
Proof.
  intros n. induction ops as [|o ops IH]; intros s s' W U FO NX E; [injection E as <-; exact U|]. inversion_clear FO as [|? ? SU FR]. cbn [run] in E.
  destruct (step o s) as [s1 r] eqn:S. destruct r as [[]|e|x| |]; try discriminate;
    apply (IH s1 s' (wf_step _ _ _ _ W S Logic.I) (step_unused n o s s1 _ W U SU (NX o (or_introl eq_refl)) S Logic.I) FR (fun o' I => NX o' (or_intror I)) E).
Qed.

(* ------------------------------------------------------------------ *)
(** * alike up to the identities of the arguments *)
Definition alike (s s' : state) : Prop := exists F P, (forall i, F i = false) /\ like_by [] silent false F P s s'.
Lemma own_none : forall F l, (forall i, F i = false) -> own F l = l.
Proof. intros F l NF. unfold own. induction l as [|a l IH]; cbn; [reflexivity|]. rewrite NF. cbn. now rewrite IH. Qed.
Lemma flip_rel : forall P i i', rel (map flip P) i i' <-> rel P i' i.
Proof.
  intros P i i'. split.
  - intros [p [I [E1 E2]]]. apply in_map_iff in I. destruct I as [q [<- I]]. now exists q.
  - intros [p [I [E1 E2]]]. exists (flip p). split; [now apply in_map | now split].
Qed.
Lemma alike_sym : forall s s', alike s s' -> alike s' s.
Proof.
  intros s s' [F [P [NF H]]]. exists F, (map flip P). split; [exact NF|]. destruct H.
  assert (PF : forall p p', ptr_rel P F p p' -> (p = None -> p' = None) -> ptr_rel (map flip P) F p' p /\ (p' = None -> p = None)).
  { intros [q|] [q'|] A B; try discriminate (B eq_refl); cbn in *; try (split; [exact Logic.I | trivial]); try contradiction. split; [|discriminate]. split; [|apply NF]. intros i i' g R. apply (proj1 (flip_rel _ _ _)) in R.
    destruct A as [A _]. symmetry. now apply A. }
  destruct (lb_tight eq_refl) as [T1 T2]. split; cbn; try (intros; contradiction).
  - rewrite map_map. rewrite <- (own_none F (s_args s') NF), lb_r. apply map_ext. reflexivity.
  - rewrite map_map, (own_none F _ NF), lb_l. apply map_ext. reflexivity.
  - intros p I. apply in_map_iff in I. destruct I as [q [<- I]]. apply same_sym. now apply lb_same.
  - intros n. specialize (lb_map n). destruct (assoc n (s_map s)), (assoc n (s_map s')); try (now destruct lb_map). now apply flip_rel.
  - intros b _ E. rewrite NF in E. discriminate.
  - intros i E. rewrite NF in E. discriminate.
  - now apply PF.
  - now apply PF.
  - intros _. split; now apply PF.
  - now symmetry.
  - now symmetry.
  - now symmetry.
  - now symmetry.
  - now symmetry.
  - now symmetry.
Qed.
(** the usage text depends on the configurations, in the order of the list *)
Lemma usage_same : forall s s', map a_cfg (s_args s') = map a_cfg (s_args s) -> s_bin s' = s_bin s -> s_usage s' = s_usage s -> getUsage s' = getUsage s.
Proof.
  intros s s' A B U.
  assert (FM : forall (f : acfg -> bool) l, map a_cfg (filter (fun a => f (a_cfg a)) l) = filter f (map a_cfg l)).
  { intros f l. induction l as [|a l IH]; cbn; [reflexivity|]. destruct (f (a_cfg a)); cbn; now rewrite IH. }
  assert (FA : forall (f : acfg -> bool) l, forallb (fun a => f (a_cfg a)) l = forallb f (map a_cfg l)).
  { intros f l. induction l as [|a l IH]; cbn; [reflexivity|]. now rewrite IH. }
  assert (O : options_of (s_args s') = options_of (s_args s)).
  { unfold options_of, is_pos_arg. rewrite !(FM (fun c => negb (is_positional (c_type c)))). now rewrite A. }
  assert (P : positionals_of (s_args s') = positionals_of (s_args s)).
  { unfold positionals_of, is_pos_arg. rewrite !(FM (fun c => is_positional (c_type c))). now rewrite A. }
  assert (D : forallb usage_defined (s_args s') = forallb usage_defined (s_args s)).
  { unfold usage_defined, is_pos_arg, has_name.
    rewrite !(FA (fun c => (match c_names c with [] => false | _ => true end) && (is_positional (c_type c) || match meta_flag None (c_names c) with Some _ => true | None => false end))). now rewrite A. }
  unfold getUsage. rewrite U, D. unfold usage_text, synopsis. now rewrite U, B, O, P.
Qed.
Lemma like_list : forall {A} (f : argument -> A) X Q D F P s s', like_by X Q D F P s s' -> (forall i, F i = false) -> (forall a b, same a b -> f b = f a) ->
  map f (s_args s') = map f (s_args s).
Proof.
  intros A f X Q D F P s s' H NF E. rewrite <- (own_none F (s_args s') NF), (lb_r _ _ _ _ _ _ _ H), (lb_l _ _ _ _ _ _ _ H), !map_map. apply map_ext_in. intros p I. apply E. now apply (lb_same _ _ _ _ _ _ _ H).
Qed.
Lemma usage_like : forall X Q D F P s s', like_by X Q D F P s s' -> (forall i, F i = false) -> getUsage s' = getUsage s.
Proof.
  intros X Q D F P s s' H NF. apply usage_same; [|apply (lb_bin _ _ _ _ _ _ _ H) | apply (lb_usage _ _ _ _ _ _ _ H)].
  apply (like_list a_cfg X Q D F P s s' H NF). now intros a b [_ [E _]].
Qed.
Lemma alike_interchangeable : forall s s', alike s s' -> wf0 s -> wf0 s' -> interchangeable s s'.
Proof.
  intros s s' [F [P [NF H]]] W W'. destruct (results_like [] F P s s' H W W') as [A [_ [B C]]]; [intros b _ E; rewrite NF in E; discriminate|].
  split; [intros n; apply A; intros []|]. split; [apply (like_list (fun a => (a_cfg a, a_dyn a)) _ _ _ F P s s' H NF); intros a b [_ [E1 E2]]; now rewrite E1, E2|].
  split; [apply (lb_bin _ _ _ _ _ _ _ H)|]. split; [apply (lb_modes _ _ _ _ _ _ _ H)|]. split; [apply (lb_verstr _ _ _ _ _ _ _ H)|]. split; [apply (lb_usage _ _ _ _ _ _ _ H)|].
  split; [exact B|]. split; [exact C|]. apply (usage_like _ _ _ _ _ _ _ H NF).
Qed.
Lemma alike_answers : forall s s', alike s s' -> reach s' -> answers_alike s s'.
Proof.
  intros s s' [F [P [NF H]]] R' U IN.
  assert (U' : usable s').
  { apply (usable_like [] F P s s' H U R'). intros b Ib. rewrite <- (own_none F (s_args s') NF), (lb_r _ _ _ _ _ _ _ H) in Ib. apply in_map_iff in Ib. destruct Ib as [p [<- Ip]].
    destruct (lb_same _ _ _ _ _ _ _ H p Ip) as [_ [-> _]]. apply U. rewrite (lb_l _ _ _ _ _ _ _ H). now apply in_map. }
  split; [exact U'|]. assert (N1 : ~ In "-h" []) by intros []. assert (N2 : ~ In "--help" []) by intros [].
  split; [exact (interprets_like [] F P s s' H N1 N2 IN)|]. intros argv ws CL.
  assert (UM : unmentioned (setup s) [] ws) by (intros w n _ _ []).
  destruct (parse_like [] F P s s' argv ws H U U' N1 N2 CL IN UM) as [A B].
  assert (E : snd (parseArguments argv s') = snd (parseArguments argv s)).
  { destruct A as [A|[[u [G A]] [u' [G' A']]]]; [exact A|]. destruct (ready_like [] F P s s' H (usable_wf _ U) (usable_wf _ U') N1 N2) as [L H1].
    pose proof (usage_like _ _ _ _ _ _ _ (like_named [] F L (ready s) (ready s') argv H1) NF) as E. rewrite G, G' in E. injection E as <-. rewrite A, A', (lb_modes _ _ _ _ _ _ _ H). reflexivity. }
  split; [exact E|]. intros O. destruct (B O) as [L [H1 _]]. rewrite O in E.
  apply alike_interchangeable; [now exists F, L| |].
  - destruct (parseArguments argv s) as [t x] eqn:Q. cbn [fst snd] in *. subst x. apply (wf_step (OpParse argv) s t (Ok tt) (usable_wf _ U) Q Logic.I).
  - destruct (parseArguments argv s') as [t x] eqn:Q. cbn [fst snd] in *. subst x. apply (wf_step (OpParse argv) s' t (Ok tt) (usable_wf _ U') Q Logic.I).
Qed.
Lemma calls_alike : forall ops s s', alike s s' -> wf s -> wf s' -> Forall sets_up ops ->
  snd (calls ops s') = snd (calls ops s) /\ forall t, run ops s = Some t -> exists t', run ops s' = Some t' /\ alike t t' /\ wf t /\ wf t'.
Proof.
  intros ops s s' [F [P [NF H]]] W W' FO. assert (FO' : Forall (sets_up_without []) ops) by (eapply Forall_impl; [|exact FO]; intros o SU; split; [exact SU | intros n _ []]).
  destruct (calls_like [] ops F P s s' H W W' FO') as [A B]. split; [exact A|]. intros t E. destruct (B t E) as [t' [F' [L' [B1 [B2 [B3 [B4 B5]]]]]]]. exists t'. split; [exact B1|]. split; [|now split].
  exists F', L'. split; [|exact B2]. intros i. destruct (F' i) eqn:Q; [|reflexivity]. specialize (NF i). rewrite (B5 i Q) in NF. discriminate.
Qed.
(** two independent declarations *)
Lemma independent_sym : forall o1 o2, independent o1 o2 -> independent o2 o1.
Proof.
  intros [] []; cbn; try tauto. intros [A [B [C [D E]]]]. split; [intros n I J; now apply (A n)|]. tauto.
Qed.
Lemma swap_option : forall s ns1 ms1 ns2 ms2, wf s -> option_names ns1 -> independent (OpAdd ns1 ms1) (OpAdd ns2 ms2) ->
  (forall n, In n (op_names (OpAdd ns1 ms1)) \/ In n (op_names (OpAdd ns2 ms2)) -> unused s n) ->
  let o1 := OpAdd ns1 ms1 in let o2 := OpAdd ns2 ms2 in let s1 := fst (step o1 s) in let s2 := fst (step o2 s) in
  snd (step o1 s2) = snd (step o1 s) /\ snd (step o2 s1) = snd (step o2 s) /\ completed (snd (step o1 s)) /\ completed (snd (step o2 s)) /\
  wf (fst (step o2 s1)) /\ wf (fst (step o1 s2)) /\ alike (fst (step o2 s1)) (fst (step o1 s2)).
Proof.
  intros s ns1 ms1 ns2 ms2 W ON [DJ [_ [RR [R1 R2]]]] U. cbv zeta.
  assert (G : forall D1, (D1 = false -> Forall roleless ms1) -> (negb D1 = false -> Forall roleless ms2) ->
    let o1 := OpAdd ns1 ms1 in let o2 := OpAdd ns2 ms2 in let s1 := fst (step o1 s) in let s2 := fst (step o2 s) in
    snd (step o1 s2) = snd (step o1 s) /\ snd (step o2 s1) = snd (step o2 s) /\ completed (snd (step o1 s)) /\ completed (snd (step o2 s)) /\
    wf (fst (step o2 s1)) /\ wf (fst (step o1 s2)) /\ alike (fst (step o2 s1)) (fst (step o1 s2))).
  { intros D1 G1 G2. cbv zeta.
    destruct (swap_like s ns1 ms1 ns2 ms2 D1 (negb D1) W ON R1 R2 G1 G2 eq_refl (fun n I => U n (or_introl I)) (fun n I => U n (or_intror I)) DJ silent) as [E1 [E2 [W12 [W21 [P H]]]]].
    split; [exact E1|]. split; [exact E2|].
    split; [apply (like_added D1 true (op_names (OpAdd ns1 ms1)) s ns1 ms1 W (fun _ => ON) R1 G1 (fun n => iff_refl _)); intros n I; apply unused_free; [apply W | apply U; now left]|].
    split; [apply (like_added (negb D1) false (op_names (OpAdd ns2 ms2)) s ns2 ms2 W ltac:(discriminate) R2 G2 (fun n => iff_refl _)); intros n I; apply unused_free; [apply W | apply U; now right]|].
    split; [exact W12|]. split; [exact W21|]. exists nowhere, P. split; [reflexivity | exact H]. }
  destruct RR as [RR|RR]; [apply (G false) | apply (G true)]; cbn; try discriminate; trivial.
Qed.
Lemma swap_any : forall s o1 o2, wf s -> independent o1 o2 -> (forall n, In n (op_names o1) \/ In n (op_names o2) -> unused s n) ->
  let s1 := fst (step o1 s) in let s2 := fst (step o2 s) in
  snd (step o1 s2) = snd (step o1 s) /\ snd (step o2 s1) = snd (step o2 s) /\ completed (snd (step o1 s)) /\ completed (snd (step o2 s)) /\
  wf (fst (step o2 s1)) /\ wf (fst (step o1 s2)) /\ alike (fst (step o2 s1)) (fst (step o1 s2)).
Proof.
  intros s o1 o2 W IND U. cbv zeta. destruct o1 as [ns1 ms1| | | | | | | | | | | | | |]; try (destruct o2; now destruct IND); destruct o2 as [ns2 ms2| | | | | | | | | | | | | |]; try (now destruct IND).
  pose proof IND as [_ [[ON|ON] _]].
  - exact (swap_option s ns1 ms1 ns2 ms2 W ON IND U).
  - destruct (swap_option s ns2 ms2 ns1 ms1 W ON (independent_sym _ _ IND) (fun n I => U n (proj1 (or_comm _ _) I))) as [A [B [C [D [E [G H]]]]]].
    split; [exact B|]. split; [exact A|]. split; [exact D|]. split; [exact C|]. split; [exact G|]. split; [exact E|]. now apply alike_sym.
Qed.
