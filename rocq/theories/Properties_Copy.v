(** Properties_Copy.v -- C67: copies of arguments (Argument c = args["-n"];). *)
From Coq Require Import Permutation.
From Verif Require Import Base Model_Utils Model_Number Model_Types Model_Argument Model_Usage Model_Args Model_Api Model_Double Model_Copy
  Spec_Names Spec_Parse Spec_History Spec_Api Proofs_Base Proofs_Frame Proofs_Inv Proofs_Decl Proofs_Meth Proofs_History Proofs_Ghost Proofs_Owner
  Proofs_Names Proofs_Check Properties_Names Properties_Life.

(** Full property: a copy of an argument is a snapshot.  It shows what the argument shows
    at the time it is taken, whatever is done with the parser afterwards; and making,
    keeping and destroying copies does not affect the parser.  True except that the copy
    does not show the list of defaults (C67_defaults_refuted), and that destroying a copy
    destroys a validator that was handed over to the argument (C67_validator_refuted). *)

(** all observers of an argument but getDefaults() give the same *)
Definition same_view (a b : argument) : Prop :=
  getString b = getString a /\ to_bool b = to_bool a /\ to_vector b = to_vector a /\ to_vector_vector b = to_vector_vector a /\
  isNumber b = isNumber a /\ getNumber b = getNumber a /\ (forall t, to_arith t b = to_arith t a) /\
  d_elems (a_dyn b) = d_elems (a_dyn a) /\ isExists b = isExists a /\ count b = count a /\
  getNameOrFlags b = getNameOrFlags a /\ isRequired b = isRequired a /\ getNargs b = getNargs a /\ getAction b = getAction a /\
  isPositional b = isPositional a /\ c_help (a_cfg b) = c_help (a_cfg a) /\ c_metavar (a_cfg b) = c_metavar (a_cfg a) /\
  c_default (a_cfg b) = c_default (a_cfg a).
Notation getDefaults a := (c_defaults (a_cfg a)).

(** A registered argument can be copied; the parser does not notice; the copy shows what
    the argument shows. *)
Theorem C67_shows_partial : forall p n a, getArgument (p_args p) n = Ok a ->
  exists b, pstep (PCopy n) p = (Program (p_args p) (p_copies p ++ [b]), Ok tt) /\ same_view a b.
Proof.
  intros p n a G. exists (copied a). unfold pstep. rewrite G. split; [reflexivity|]. repeat split.
Qed.
Print Assumptions C67_shows_partial.
(** Copying an unknown argument throws, and does nothing else. *)
Theorem C67_unknown : forall p n, argumentExists (p_args p) n = false -> pstep (PCopy n) p = (p, Throw (not_found n)).
Proof. intros p n E. cbn [pstep]. now rewrite (proj1 (getArgument_none (p_args p) n E)). Qed.
Print Assumptions C67_unknown.
Theorem C67_defaults_refuted : exists p n a b p', reach (p_args p) /\ getArgument (p_args p) n = Ok a /\ pstep (PCopy n) p = (p', Ok tt) /\
  p_copies p' = [b] /\ getDefaults a = ["1"] /\ getDefaults b = [].
Proof.
  exists (Program (history [OpAdd ["-n"] [MDefaults ["1"]]]) []), "-n". do 3 eexists. split; [apply history_reach|].
  split; [vm_compute; reflexivity|]. split; [vm_compute; reflexivity|]. split; [reflexivity|]. split; reflexivity.
Qed.
Print Assumptions C67_defaults_refuted.

(** Afterwards the copies stay as they are, whatever is called: only the destruction of a
    copy removes it, and only it. *)
Theorem C67_kept : forall ops p p' l, pcalls ops p = (p', l) -> (forall k, ~ In (PDrop k) ops) -> exists new, p_copies p' = p_copies p ++ new.
Proof.
  induction ops as [|o ops IH]; intros p p' l E ND; [injection E as <- <-; exists []; now rewrite app_nil_r|].
  cbn [pcalls] in E. destruct (pstep o p) as [p1 x] eqn:S.
  assert (K : exists new, p_copies p1 = p_copies p ++ new).
  { destruct o as [o|n|k]; cbn [pstep] in S.
    - destruct (step o (p_args p)) as [s r]. injection S as <- _. exists []. cbn. now rewrite app_nil_r.
    - destruct (getArgument (p_args p) n) as [a|e|out| |]; injection S as <- _; (now exists [copied a]) || (exists []; now rewrite app_nil_r).
    - elim (ND k). now left. }
  destruct K as [new K].
  assert (F : (exists new, p_copies p' = p_copies p ++ new) \/ exists l', pcalls ops p1 = (p', l')).
  { destruct x; try (injection E as <- _; left; now exists new); destruct (pcalls ops p1) as [p2 l2]; injection E as <- _; right; now exists l2. }
  destruct F as [F|[l' F]]; [exact F|]. destruct (IH p1 p' l' F) as [new' K']; [intros k I; apply (ND k); now right|].
  exists (new ++ new'). rewrite K', K. now rewrite app_assoc.
Qed.
Print Assumptions C67_kept.
Theorem C67_dropped : forall p k a, nth_error (p_copies p) k = Some a ->
  exists l1 l2 p', pstep (PDrop k) p = (p', Ok tt) /\ p_copies p = l1 ++ a :: l2 /\ length l1 = k /\ p_copies p' = l1 ++ l2.
Proof.
  intros p k a H. unfold pstep. rewrite H. destruct (nth_error_split _ _ H) as [l1 [l2 [E L]]]. exists l1, l2. eexists. split; [reflexivity|].
  split; [exact E|]. split; [exact L|]. cbn [p_copies]. rewrite E, <- L. clear. induction l1 as [|x l1 IH]; cbn; [reflexivity | now rewrite IH].
Qed.
Print Assumptions C67_dropped.

(** The parser and its calls are not affected: the same calls without copies have the same
    outcomes, and leave the parser the same in everything visible and in the deliveries to
    destinations. *)
Definition is_call (o : pop) : bool := match o with PCall _ => true | _ => false end.
Definition calls_of (ops : list pop) : list op := flat_map (fun o => match o with PCall c => [c] | _ => [] end) ops.
(** the outcomes of the calls among all outcomes *)
Fixpoint outcomes_of (ops : list pop) (l : list (res unit)) {struct l} : list (res unit) :=
  match l, ops with
  | x :: l, o :: ops => if is_call o then x :: outcomes_of ops l else outcomes_of ops l
  | _, _ => []
  end.
Definition same_parser (s t : state) : Prop := visible s = visible t /\ s_dlog s = s_dlog t.
Lemma ghost_visible : forall s, s = ghost (s_freed s) (s_dlog s) (visible s).
Proof. intros []. unfold ghost, visible, with_dlog, with_freed. cbn. now rewrite !app_nil_r. Qed.
Lemma same_parser_step : forall o s t, same_parser s t -> snd (step o s) = snd (step o t) /\ same_parser (fst (step o s)) (fst (step o t)).
Proof.
  intros o s t [V D]. rewrite (ghost_visible s), (ghost_visible t), V, D.
  rewrite (eqv_step o (s_freed s) (s_dlog t) (visible t)), (eqv_step o (s_freed t) (s_dlog t) (visible t)). repeat split.
Qed.
Lemma same_parser_args : forall s t, same_parser s t -> s_args s = s_args t /\ s_map s = s_map t.
Proof. intros s t [V _]. split; [change (s_args (visible s) = s_args (visible t)) | change (s_map (visible s) = s_map (visible t))]; now rewrite V. Qed.
Lemma same_parser_lookup : forall s t n, same_parser s t -> getArgument s n = getArgument t n.
Proof. intros s t n H. destruct (same_parser_args s t H) as [A B]. unfold getArgument. now rewrite A, B. Qed.
Lemma unaffected : forall ops p s, same_parser (p_args p) s -> reach s ->
  outcomes_of ops (snd (pcalls ops p)) = snd (calls (calls_of ops) s) /\ same_parser (p_args (fst (pcalls ops p))) (fst (calls (calls_of ops) s)).
Proof.
  induction ops as [|o ops IH]; intros p s H R; [split; [reflexivity | exact H]|].
  destruct o as [o|n|k]; cbn [pcalls pstep calls_of flat_map].
  - change (flat_map (fun o => match o with PCall c => [c] | _ => [] end) ops) with (calls_of ops). cbn [app calls].
    destruct (same_parser_step o (p_args p) s H) as [X Y]. destruct (step o (p_args p)) as [t x] eqn:E1. destruct (step o s) as [u y] eqn:E2.
    cbn [fst snd] in X, Y. subst y.
    assert (NEXT : completed x -> outcomes_of ops (snd (pcalls ops (Program t (p_copies p)))) = snd (calls (calls_of ops) u) /\
       same_parser (p_args (fst (pcalls ops (Program t (p_copies p))))) (fst (calls (calls_of ops) u))).
    { intros C. apply IH; [exact Y|]. exact (reach_step s o u x R E2 C). }
    destruct x; cbn [completed] in NEXT; try (split; [reflexivity | exact Y]);
      destruct (NEXT Logic.I) as [N1 N2]; destruct (pcalls ops (Program t (p_copies p))) as [p2 l2]; destruct (calls (calls_of ops) u) as [u2 l3];
      cbn [fst snd] in *; (split; [rewrite <- N1; reflexivity | exact N2]).
  - change (flat_map (fun o => match o with PCall c => [c] | _ => [] end) ops) with (calls_of ops). cbn [app].
    assert (NUB : (exists a, getArgument (p_args p) n = Ok a) \/ (exists e, getArgument (p_args p) n = Throw e)).
    { rewrite (same_parser_lookup _ s n H). destruct (C01_lookup s n R) as [L1 L2]. destruct (argumentExists s n).
      - left. destruct (L1 eq_refl) as [a [G _]]. now exists a.
      - right. destruct (L2 eq_refl) as [G _]. eexists; exact G. }
    destruct NUB as [[a ->]|[e ->]].
    + destruct (IH (Program (p_args p) (p_copies p ++ [copied a])) s H R) as [I1 I2]. destruct (pcalls ops _) as [p2 l2]. exact (conj I1 I2).
    + destruct (IH p s H R) as [I1 I2]. destruct (pcalls ops p) as [p2 l2]. exact (conj I1 I2).
  - change (flat_map (fun o => match o with PCall c => [c] | _ => [] end) ops) with (calls_of ops). cbn [app].
    destruct (nth_error (p_copies p) k) as [a|].
    + destruct (IH (Program (with_freed (p_args p) (s_freed (p_args p) ++ owned (a_cfg a))) (drop_nth k (p_copies p))) s H R) as [I1 I2].
      destruct (pcalls ops _) as [p2 l2]. exact (conj I1 I2).
    + destruct (IH p s H R) as [I1 I2]. destruct (pcalls ops p) as [p2 l2]. exact (conj I1 I2).
Qed.
Theorem C67_unaffected : forall ops p, reach (p_args p) ->
  outcomes_of ops (snd (pcalls ops p)) = snd (calls (calls_of ops) (p_args p)) /\
  same_parser (p_args (fst (pcalls ops p))) (fst (calls (calls_of ops) (p_args p))).
Proof. intros ops p R. apply unaffected; [split; reflexivity | exact R]. Qed.
Print Assumptions C67_unaffected.

(** Validators: no trouble as long as no argument is copied that owns one ... *)
Definition owns (a : argument) (v : validator) : Prop := c_valid (a_cfg a) = Some v /\ c_valid_del (a_cfg a) = true.
Definition pop_ok (o : pop) (p : program) : Prop :=
  match o with
  | PCall c => op_ok valid_once c (p_args p)
  | PCopy n => forall a v, getArgument (p_args p) n = Ok a -> ~ owns a v
  | PDrop _ => True
  end.
Inductive preach : program -> Prop :=
| pr_init : preach (Program init [])
| pr_step : forall p o p' r, preach p -> pop_ok o p -> pstep o p = (p', r) -> completed r -> preach p'.
Lemma owns_none : forall a, (forall v, ~ owns a v) -> owned (a_cfg a) = [].
Proof.
  intros a H. unfold owned. destruct (c_valid (a_cfg a)) as [v|] eqn:E; [|reflexivity]. destruct (c_valid_del (a_cfg a)) eqn:D; [|reflexivity].
  elim (H v). split; assumption.
Qed.
Lemma drop_In : forall {A} k (l : list A) x, In x (drop_nth k l) -> In x l.
Proof.
  induction k as [|k IH]; intros [|y l] x I; cbn in *; auto. destruct I as [I|I]; [now left | right; now apply IH].
Qed.
Lemma preach_inv : forall p, preach p -> reach_with valid_once (p_args p) /\ forall b, In b (p_copies p) -> owned (a_cfg b) = [].
Proof.
  intros p R. induction R as [|p o p' r R [IR IC] OK E C]; [split; [constructor | intros b []]|].
  destruct o as [o|n|k]; cbn [pstep] in E.
  - destruct (step o (p_args p)) as [s x] eqn:S. injection E as <- <-. split; [|exact IC]. exact (rw_step _ _ _ _ _ IR OK S C).
  - destruct (getArgument (p_args p) n) as [a|e|out| |] eqn:G; injection E as <- <-; try (split; assumption).
    split; [exact IR|]. intros b I. cbn [p_copies] in I. apply in_app_or in I. destruct I as [I|[<-|[]]]; [now apply IC|].
    change (owned (a_cfg (copied a))) with (owned (a_cfg a)). apply owns_none. intros v. now apply (OK a v).
  - destruct (nth_error (p_copies p) k) as [a|] eqn:N; injection E as <- <-; [|split; assumption].
    cbn [p_args p_copies]. rewrite (IC a (nth_error_In _ _ N)), app_nil_r. split; [|intros b I; apply IC; exact (drop_In _ _ _ I)].
    assert (X : with_freed (p_args p) (s_freed (p_args p)) = p_args p) by (destruct (p_args p); reflexivity). rewrite X. exact IR.
Qed.
Theorem C67_validators_partial : forall p, preach p ->
  NoDup (pdestroyed p) /\ (forall v d, In (v, d) (attached (p_args p)) -> ~ In (v_id v) (s_freed (p_args p))).
Proof.
  intros p R. destruct (preach_inv p R) as [IR IC]. destruct (C46_at_most_once _ IR) as [A B]. split; [|exact B].
  unfold pdestroyed, all_owned. assert (X : flat_map (fun a => owned (a_cfg a)) (p_copies p) = []).
  { clear -IC. induction (p_copies p) as [|b l IH]; [reflexivity|]. cbn. rewrite (IC b (or_introl eq_refl)). apply IH. intros c I. apply IC. now right. }
  rewrite X, app_nil_r. exact A.
Qed.
Print Assumptions C67_validators_partial.

(** ... and always trouble if the copy of one that does is destroyed: the validator in use
    is deleted, and will be deleted again. *)
Theorem C67_validator_refuted : forall p n a v, reach (p_args p) -> getArgument (p_args p) n = Ok a -> owns a v ->
  exists p', pcalls [PCopy n; PDrop (length (p_copies p))] p = (p', [Ok tt; Ok tt]) /\
    In (v, true) (attached (p_args p')) /\ In (v_id v) (s_freed (p_args p')) /\ ~ NoDup (pdestroyed p').
Proof.
  intros p n a v R G [V D]. destruct (reach_wf _ R) as [W _]. cbn [pcalls pstep]. rewrite G. cbn [p_copies p_args].
  rewrite nth_error_app2 by lia. rewrite Nat.sub_diag. cbn [nth_error].
  eexists. split; [reflexivity|]. cbn [p_args p_copies].
  assert (O : owned (a_cfg (copied a)) = [v_id v]) by (unfold owned, copied; cbn; now rewrite V, D). rewrite O.
  destruct (getArgument_inv _ _ _ W G) as [Ia _].
  assert (AT : In (v, true) (attached (with_freed (p_args p) (s_freed (p_args p) ++ [v_id v])))).
  { apply in_flat_map. exists a. split; [exact Ia|]. unfold attachment. rewrite V, D. now left. }
  assert (FR : In (v_id v) (s_freed (p_args p) ++ [v_id v])) by (apply in_or_app; right; now left).
  split; [exact AT|]. split; [exact FR|].
  intros ND. unfold pdestroyed, destroyed in ND. cbn [s_freed with_freed s_args p_args] in ND. rewrite <- app_assoc in ND.
  assert (IO : In (v_id v) (all_owned (s_args (p_args p)))).
  { apply in_flat_map. exists a. split; [exact Ia|]. unfold owned. rewrite V, D. now left. }
  revert FR ND. generalize (s_freed (p_args p) ++ [v_id v]) as l. intros l FR ND.
  apply in_split in FR. destruct FR as [l1 [l2 ->]]. rewrite <- app_assoc in ND. cbn in ND. apply NoDup_remove_2 in ND. apply ND.
  apply in_or_app. right. apply in_or_app. right. apply in_or_app. now left.
Qed.
Print Assumptions C67_validator_refuted.

(** a program with two copies, one destroyed: the conditions of the theorems are met *)
Definition copying : list pop :=
  [PCall (OpAdd ["-n"] []); PCall (OpAdd ["-w"] [MValid (Some (yes 1)) true]); PCall (OpParse ["p"; "-n"; "a"]); PCopy "-n";
   PCall (OpParse ["p"; "-n"; "b"]); PCopy "-n"; PDrop 0; PCopy "-x"].
Definition copying_end : program := fst (pcalls copying (Program init [])).
Example C67_example : map getString (p_copies copying_end) = ["b"] /\ pdestroyed copying_end = [1] /\
  snd (pcalls copying (Program init [])) = [Ok tt; Ok tt; Ok tt; Ok tt; Ok tt; Ok tt; Ok tt; Throw (not_found "-x")] /\
  exists a, getArgument (p_args copying_end) "-w" = Ok a /\ owns a (yes 1).
Proof. split; [vm_compute; reflexivity|]. split; [vm_compute; reflexivity|]. split; [vm_compute; reflexivity|]. eexists. split; [vm_compute; reflexivity|]. split; reflexivity. Qed.
Example C67_preach_example : exists p, preach p /\ length (p_copies p) = 1 /\ attached (p_args p) <> [].
Proof.
  set (s1 := fst (step (OpAdd ["-n"] []) init)). set (s2 := fst (step (OpAdd ["-w"] [MValid (Some (yes 1)) true]) s1)).
  exists (Program s2 [copied (match getArgument s2 "-n" with Ok a => a | _ => Arg 0 0 new_cfg new_dyn end)]).
  split; [|split; [reflexivity | vm_compute; discriminate]].
  apply (pr_step (Program s2 []) (PCopy "-n") _ (Ok tt)); [| |vm_compute; reflexivity | exact Logic.I].
  - apply (pr_step (Program s1 []) (PCall (OpAdd ["-w"] [MValid (Some (yes 1)) true])) _ (Ok tt)); [| |vm_compute; reflexivity | exact Logic.I].
    + apply (pr_step (Program init []) (PCall (OpAdd ["-n"] [])) _ (Ok tt)); [constructor | |vm_compute; reflexivity | exact Logic.I].
      split; [exact Logic.I|]. intros s' id _. exact Logic.I.
    + split; [exact Logic.I|]. intros s' id E. vm_compute in E. injection E as <- <-. split; [|intros; exact Logic.I].
      intros a Ia Ea. split; [intros []|]. intros w d I. vm_compute in I. destruct I.
  - intros a v G [V D]. vm_compute in G. injection G as <-. discriminate V.
Qed.
