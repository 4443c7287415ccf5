(** Properties_Extend.v -- C60 (a further option). *)
From Coq Require Import Permutation Sorted.
From Verif Require Import Base Model_Utils Model_Number Model_Types Model_Argument Model_Usage Model_Args Model_Api
  Spec_Order Spec_Names Spec_Reading Spec_Extend Spec_Parse Spec_Decl Spec_Finish Spec_History Spec_Api Spec_Result
  Proofs_Base Proofs_Order Proofs_Stable Proofs_Frame Proofs_Inv Proofs_ReadFacts Proofs_Reading Proofs_Parse Proofs_Decl Proofs_Finish
  Proofs_Meth Proofs_History Proofs_Config Proofs_Names Proofs_Central Proofs_Swap Proofs_Redecl Proofs_Check Proofs_Extend Proofs_Like Properties_Parse Proofs_LikeParse Proofs_LikeNew Demo.

(** a sequence of calls on two alike parsers *)
Lemma calls_like : forall X ops F L s s', like_by X silent false F L s s' -> wf s -> wf s' -> Forall (sets_up_without X) ops ->
  snd (calls ops s') = snd (calls ops s) /\
  forall t, run ops s = Some t -> exists t' F' L', run ops s' = Some t' /\ like_by X silent false F' L' t t' /\ wf t /\ wf t' /\ forall i, F' i = true -> F i = true.
Proof.
  intros X. induction ops as [|o ops IH]; intros F L s s' H W W' FO.
  - split; [reflexivity|]. intros t E. injection E as <-. exists s', F, L. repeat (split; [assumption || reflexivity|]). trivial.
  - inversion_clear FO as [|? ? [NP NX] FR]. destruct (step_like X silent false o F L s s' H W W' NP NX (or_introl eq_refl)) as [E C].
    cbn [calls run]. destruct (step o s) as [s1 r] eqn:S, (step o s') as [s1' r'] eqn:S'. cbn [fst snd] in *. subst r'.
    destruct r as [[]|e|out| |]; try (split; [reflexivity | discriminate]).
    + destruct (C Logic.I) as [F1 [L1 [H1 S1]]]. destruct (IH F1 L1 s1 s1' H1 (wf_step _ _ _ _ W S Logic.I) (wf_step _ _ _ _ W' S' Logic.I) FR) as [A B].
      destruct (calls ops s1) as [u l], (calls ops s1') as [u' l']. cbn [snd] in *. split; [now f_equal|]. intros t E. destruct (B t E) as [t' [F' [L' [B1 [B2 [B3 [B4 B5]]]]]]]. exists t', F', L'. repeat (split; [assumption|]). auto.
    + destruct (C Logic.I) as [F1 [L1 [H1 S1]]]. destruct (IH F1 L1 s1 s1' H1 (wf_step _ _ _ _ W S Logic.I) (wf_step _ _ _ _ W' S' Logic.I) FR) as [A B].
      destruct (calls ops s1) as [u l], (calls ops s1') as [u' l']. cbn [snd] in *. split; [now f_equal|]. intros t E. destruct (B t E) as [t' [F' [L' [B1 [B2 [B3 [B4 B5]]]]]]]. exists t', F', L'. repeat (split; [assumption|]). auto.
Qed.
Lemma usable_like : forall X F L s s', like_by X silent false F L s s' -> usable s -> reach s' -> (forall b, In b (arguments s') -> (getNargs b < 2 ^ 63)%N) -> usable s'.
Proof.
  intros X F L s s' H [R [SE PT]] R' NA. split; [exact R'|]. split.
  - intros b I. split; [now apply NA|]. intros T. destruct (F (a_id b)) eqn:Fb.
    + destruct (lb_foreign _ _ _ _ _ _ _ H b I Fb) as [P _]. rewrite T in P. discriminate.
    + assert (J : In b (own F (s_args s'))) by (apply filter_In; split; [exact I | now rewrite Fb]). rewrite (lb_r _ _ _ _ _ _ _ H) in J. apply in_map_iff in J. destruct J as [p [<- J]].
      destruct (lb_same _ _ _ _ _ _ _ H p J) as [_ [C _]]. rewrite C in *. apply (SE (fst p)); [now apply (like_in_l X silent false F L s s' H) | exact T].
  - assert (Q : forall p p', ptr_rel L F p p' -> (p = None -> p' = None) -> live_ptr p s -> live_ptr p' s').
    { intros [q|] [q'|] P TT LV; try exact Logic.I; [|discriminate (TT eq_refl)]. destruct P as [H0 _]. cbn in *. destruct LV as [a A]. apply find_ptr_In in A. destruct A as [Ia Ea].
      rewrite (lb_l _ _ _ _ _ _ _ H) in Ia. apply in_map_iff in Ia. destruct Ia as [r [<- Ir]]. apply find_ptr_live. exists (snd r). split; [apply (like_in_r X silent false F L s s' H r Ir)|].
      destruct (lb_same _ _ _ _ _ _ _ H r Ir) as [G _]. unfold ptr_of. rewrite G. symmetry. apply (H0 _ _ _ (in_rel L r Ir)). now symmetry. }
    destruct (lb_tight _ _ _ _ _ _ _ H eq_refl) as [T1 T2].
    destruct PT as [P1 P2]. split; [exact (Q _ _ (lb_help _ _ _ _ _ _ _ H) T1 P1) | exact (Q _ _ (lb_version _ _ _ _ _ _ _ H) T2 P2)].
Qed.
Lemma results_like : forall X F L s s', like_by X silent false F L s s' -> wf0 s -> wf0 s' ->
  (forall b, In b (s_args s') -> F (a_id b) = true -> isExists b = false /\ count b = 0) -> same_results X s s'.
Proof.
  intros X F L s s' H W W' A. split; [|split; [|split; [apply (lb_additional _ _ _ _ _ _ _ H) | apply (lb_dlog _ _ _ _ _ _ _ H)]]].
  - intros n NX. unfold same_argument. destruct (like_find_name X silent false F L s s' H n NX) as [[E E']|[p [I [E E']]]].
    + unfold getArgument. now rewrite E, E'.
    + rewrite (getArgument_by s n (fst p) W (like_in_l X silent false F L s s' H p I) E), (getArgument_by s' n (snd p) W' (proj1 (like_in_r X silent false F L s s' H p I)) E').
      apply (lb_same _ _ _ _ _ _ _ H p I).
  - intros n a NX G. apply getArgument_inv in G; [|exact W']. destruct G as [I [_ E]]. apply A; [exact I|].
    pose proof (lb_map _ _ _ _ _ _ _ H n) as M. rewrite (lb_new _ _ _ _ _ _ _ H n NX), E in M. apply M.
Qed.

(* ------------------------------------------------------------------ *)
(** * C60 *)
(** One more option, declared somewhere among the declarations, under names that are free
    at that place and that the other calls do not mention.  Every other call has the
    outcome it has without the option: *)
Theorem C60_declarations : forall s ns ms ops, reach s -> option_names ns -> Forall quiet_meth ms ->
  (forall n, In n (op_names (OpAdd ns ms)) -> argumentExists s n = false) ->
  Forall (sets_up_without (op_names (OpAdd ns ms))) ops ->
  snd (calls ops (fst (step (OpAdd ns ms) s))) = snd (calls ops s).
Proof.
  intros s ns ms ops R ON QM FR FO. pose proof (reach_wf s R) as W.
  destruct (like_new_quiet (op_names (OpAdd ns ms)) s ns ms W ON QM (fun n => iff_refl _) (fun n I => proj2 (getArgument_none s n (FR n I)))) as [C [F [L H]]].
  destruct (step (OpAdd ns ms) s) as [s1 r] eqn:S. cbn [fst snd] in *. apply (calls_like _ ops F L s s1 H W (wf_step _ _ _ _ W S C) FO).
Qed.
Print Assumptions C60_declarations.
(** and a command line that does not refer to the option has the meaning it has without
    it: the same return or exception (help shows each parser's own usage text), the same
    values, additional arguments and deliveries; the option itself is absent. *)
Theorem C60_parse : forall s0 ns ms ops s argv ws, reach s0 -> option_names ns -> Forall quiet_meth ms ->
  (forall n, In n (op_names (OpAdd ns ms)) -> argumentExists s0 n = false) ->
  ~ In "-h" (op_names (OpAdd ns ms)) -> ~ In "--help" (op_names (OpAdd ns ms)) ->
  Forall (sets_up_without (op_names (OpAdd ns ms))) ops -> run ops s0 = Some s ->
  usable s -> command_line argv ws -> interprets s -> unmentioned (setup s) (op_names (OpAdd ns ms)) ws ->
  exists s', run (OpAdd ns ms :: ops) s0 = Some s' /\
    ((forall b, In b (arguments s') -> (getNargs b < 2 ^ 63)%N) ->
     same_answer argv s s' (snd (parseArguments argv s)) (snd (parseArguments argv s')) /\
     (snd (parseArguments argv s) = Ok tt -> same_results (op_names (OpAdd ns ms)) (fst (parseArguments argv s)) (fst (parseArguments argv s')))).
Proof.
  intros s0 ns ms ops s argv ws R ON QM FR NH NHL FO RU U CL IN UM. pose proof (reach_wf s0 R) as W. set (X := op_names (OpAdd ns ms)) in *.
  destruct (like_new_quiet X s0 ns ms W ON QM (fun n => iff_refl _) (fun n I => proj2 (getArgument_none s0 n (FR n I)))) as [C [F [L H]]].
  destruct (step (OpAdd ns ms) s0) as [s1 r] eqn:S. cbn [fst snd] in *.
  destruct (calls_like X ops F L s0 s1 H W (wf_step _ _ _ _ W S C) FO) as [_ B]. destruct (B s RU) as [s' [F' [L' [RU' [H' [Ws [Ws' _]]]]]]].
  exists s'. split; [cbn [run]; rewrite S; destruct r as [[]|e|out| |]; try destruct C; exact RU'|]. intros NA.
  assert (R' : reach s') by (eapply (run_reach ops); [eapply reach_step; [exact R | exact S | exact C] | exact RU']).
  pose proof (usable_like X F' L' s s' H' U R' NA) as U'.
  destruct (parse_like X F' L' s s' argv ws H' U U' NH NHL CL IN UM) as [A D]. split; [exact A|]. intros E. destruct (D E) as [L2 [H2 A2]].
  assert (E' : snd (parseArguments argv s') = Ok tt).
  { destruct A as [A|[[u [_ A]] _]]; [congruence|]. rewrite E in A. destruct (m_helpex _); discriminate. }
  apply (results_like X F' L2 _ _ H2); [| |exact A2].
  - destruct (parseArguments argv s) as [t x] eqn:P. cbn [fst snd] in *. subst x. apply (wf_step (OpParse argv) s t (Ok tt) (usable_wf _ U) P Logic.I).
  - destruct (parseArguments argv s') as [t x] eqn:P. cbn [fst snd] in *. subst x. apply (wf_step (OpParse argv) s' t (Ok tt) (usable_wf _ U') P Logic.I).
Qed.
Print Assumptions C60_parse.
(** the demo parser, with an option declared in the middle; the command line uses values
    that begin like the new option *)
Definition colour : op := OpAdd ["-c"; "--colour"] [MNargs 2; MDefaults ["red"; "green"]; MFlag "-C"; MHelp "two colours"].
Definition half : state := history (firstn 4 shop_ops).
Definition colour_line : list str := ["-v"; "src"; "-n-c"; "--add=--colour"; "-i"; "x"; "y"; "--"; "--colour"; "-c"].
Lemma colour_unmentioned : unmentioned (setup shop) (op_names colour) colour_line.
Proof.
  assert (C : forallb (fun w => forallb (fun n => negb (mem_str n (op_names colour))) (refers (setup shop) w)) (before_end colour_line) = true) by (vm_compute; reflexivity).
  intros w n I J K. rewrite forallb_forall in C. specialize (C w I). rewrite forallb_forall in C. specialize (C n J). apply mem_str_In in K. rewrite K in C. discriminate.
Qed.
Lemma colour_free : forall n, In n (op_names colour) -> argumentExists half n = false.
Proof.
  intros n I. assert (C : forallb (fun n => negb (argumentExists half n)) (op_names colour) = true) by (vm_compute; reflexivity).
  rewrite forallb_forall in C. apply negb_true_iff. now apply C.
Qed.
Lemma colour_later : Forall (sets_up_without (op_names colour)) (skipn 4 shop_ops).
Proof.
  assert (C : forallb (fun o => forallb (fun n => negb (mem_str n (op_names colour))) (op_names o)) (skipn 4 shop_ops) = true) by (vm_compute; reflexivity).
  apply Forall_forall. intros o I. split.
  - intros argv ->. cbn in I. repeat (destruct I as [I|I]; [discriminate|]). destruct I.
  - intros n J K. rewrite forallb_forall in C. specialize (C o I). rewrite forallb_forall in C. specialize (C n J). apply mem_str_In in K. rewrite K in C. discriminate.
Qed.
Example C60_example : reach half /\ option_names ["-c"; "--colour"] /\ (forall n, In n (op_names colour) -> argumentExists half n = false) /\
  ~ In "-h" (op_names colour) /\ ~ In "--help" (op_names colour) /\
  Forall (sets_up_without (op_names colour)) (skipn 4 shop_ops) /\ run (skipn 4 shop_ops) half = Some shop /\
  usable shop /\ command_line ("prog" :: colour_line) colour_line /\ interprets shop /\ unmentioned (setup shop) (op_names colour) colour_line /\
  snd (parseArguments ("prog" :: colour_line) shop) = Ok tt /\
  exists s', run (colour :: skipn 4 shop_ops) half = Some s' /\ Forall (fun b => (getNargs b < 2 ^ 63)%N) (arguments s') /\
    length (arguments s') = S (length (arguments shop)).
Proof.
  split; [apply history_reach|]. split; [exact Logic.I|]. split; [exact colour_free|].
  split; [vm_compute; intuition discriminate|]. split; [vm_compute; intuition discriminate|]. split; [exact colour_later|].
  split; [vm_compute; reflexivity|]. split; [exact shop_usable|]. split; [line|]. split; [exact shop_interprets|]. split; [exact colour_unmentioned|].
  split; [vm_compute; reflexivity|]. eexists. split; [vm_compute; reflexivity|]. split; [repeat constructor; vm_compute; reflexivity | vm_compute; reflexivity].
Qed.
(** The command line must not refer to the option: a word that was a value before can be
    an option afterwards. *)
Example C60_mentioned : exists t,
  run (shop_ops ++ [OpParse ["prog"; "src"; "-i"; "x"; "-c"]]) init = Some t /\ match getArgument t "-i" with Ok a => to_vector a = Ok ["x"; "-c"] | _ => False end /\
  snd (calls (shop_ops ++ [colour; OpParse ["prog"; "src"; "-i"; "x"; "-c"]]) init) = repeat (Ok tt) 11 ++ [Throw (Exn KParse "c" "bad number of argument")].
Proof. eexists. split; [vm_compute; reflexivity|]. split; [vm_compute; reflexivity | vm_compute; reflexivity]. Qed.
