(** Proofs_Peek2.v -- a call with validators that remember and look around is the call with
    validators that always give the answers these gave; what they can see. *)
From Coq Require Import Permutation Sorted.
From Verif Require Import Base Model_Utils Model_Number Model_Types Model_Argument Model_Usage Model_Args Model_Api Model_Calls Model_Peek
  Spec_Order Spec_Names Spec_Reading Spec_Parse Spec_Decl Spec_Finish Spec_History Spec_Api Spec_Result Spec_Peek
  Proofs_Base Proofs_Order Proofs_Frame Proofs_Inv Proofs_ReadFacts Proofs_Reading Proofs_Finish Proofs_Parse Proofs_Central Properties_Parse Properties_Calls Proofs_Peek.

(* ------------------------------------------------------------------ *)
(** * the two halves of a call *)

(** args.cpp:63-144: all that comes before the last loop; the arguments of that loop, if
    the call gets there *)
Definition before (fuel : nat) (argv : list str) : M (option (list nat)) :=
  modify (fun s => with_args s (map clear_arg (s_args s))) ;;;
  do early <- help_setup ;;
  if (early : bool) then ret None
  else scan fuel argv ;;; check_help ;;; check_version ;;; check_required ;;;
       do s <- get ;; ret (Some (map a_id (s_args s))).
Definition rest_peek answers (r : state * res (option (list nat))) (h : list moment) : (state * res unit) * list moment :=
  match r with
  | (s1, Ok (Some ids)) => finish_peek answers ids h s1
  | (s1, Ok None) => ((s1, Ok tt), h)
  | (s1, Throw e) => ((s1, Throw e), h)
  | (s1, Exit o) => ((s1, Exit o), h)
  | (s1, UB) => ((s1, UB), h)
  | (s1, OutOfFuel) => ((s1, OutOfFuel), h)
  end.
Definition rest_traced (r : state * res (option (list nat))) : (state * res unit) * list happening :=
  match r with
  | (s1, Ok (Some ids)) => finish_traced ids s1
  | (s1, Ok None) => ((s1, Ok tt), [])
  | (s1, Throw e) => ((s1, Throw e), [])
  | (s1, Exit o) => ((s1, Exit o), [])
  | (s1, UB) => ((s1, UB), [])
  | (s1, OutOfFuel) => ((s1, OutOfFuel), [])
  end.
Ltac halves := repeat (match goal with |- context [match ?m ?x with (_, _) => _ end] => let s1 := fresh "t" in destruct (m x) as [s1 []] end; try reflexivity).
Lemma peek_before : forall answers fuel argv h s, parse_with_peek answers fuel argv h s = rest_peek answers (before fuel argv s) h.
Proof.
  intros. unfold parse_with_peek, before, after_scan_peek, pbind, calmly, bind. cbn [modify].
  unfold modify. destruct (help_setup _) as [s1 [early|e|o| |]]; try reflexivity. destruct early; [reflexivity|].
  destruct (scan fuel argv s1) as [s2 [?|e|o| |]]; try reflexivity. destruct (check_help s2) as [s3 [?|e|o| |]]; try reflexivity.
  destruct (check_version s3) as [s4 [?|e|o| |]]; try reflexivity. destruct (check_required s4) as [s5 [?|e|o| |]]; try reflexivity.
Qed.
Lemma app_nil_pair : forall A B (p : A * list B), (let (x, l) := p in (x, [] ++ l)) = p.
Proof. now intros A B []. Qed.
Lemma traced_before : forall fuel argv s, parse_with_traced fuel argv s = rest_traced (before fuel argv s).
Proof.
  intros. unfold parse_with_traced, before, after_scan_traced, tbind, quietly, bind, modify.
  destruct (help_setup _) as [s1 [early|e|o| |]]; try reflexivity. destruct early; [reflexivity|].
  destruct (scan fuel argv s1) as [s2 [?|e|o| |]]; try reflexivity. destruct (check_help s2) as [s3 [?|e|o| |]]; try reflexivity.
  destruct (check_version s3) as [s4 [?|e|o| |]]; try reflexivity. destruct (check_required s4) as [s5 [?|e|o| |]]; try reflexivity.
  unfold get, ret, rest_traced. now rewrite !app_nil_pair.
Qed.
Lemma sim_before : forall fuel argv, sim eq (before fuel argv) (before fuel argv).
Proof.
  intros. unfold before. eapply sim_bind.
  { apply sim_modify. intros s s' R. apply st_args_change; [exact R|]. apply sa_map; [exact (st_args _ _ R)|]. intros a b [w [S ->]]. exists w. split; [exact S | reflexivity]. }
  intros _ _ _. eapply sim_bind; [apply sim_help_setup|]. intros e _ <-. destruct e; [now apply sim_ret|].
  eapply sim_bind; [apply sim_scan|]. intros _ _ _. eapply sim_bind; [apply sim_check_help|]. intros _ _ _. eapply sim_bind; [apply sim_check_version|]. intros _ _ _.
  eapply sim_bind; [apply sim_required|]. intros _ _ _. eapply sim_bind; [apply sim_get|]. intros s s' R. apply sim_ret. now rewrite (sa_ids _ _ (st_args _ _ R)).
Qed.

(** where the last loop starts: the object when the words are read *)
Lemma print_ok : forall p b k t s s1 u, print_or_throw p b k t s = (s1, Ok u) -> s1 = s.
Proof.
  intros p b k t s s1 u. unfold print_or_throw, bind, get, ret. destruct p as [p|]; [|congruence]. destruct (find_ptr p (s_args s)); [|unfold ub; discriminate].
  destruct (d_exist _); [|congruence]. destruct t; try (unfold ub; discriminate). destruct b; [unfold throw; discriminate|]. unfold clear, modify. discriminate.
Qed.
Lemma required_ok : forall s s1 u, check_required s = (s1, Ok u) -> s1 = s.
Proof.
  intros s s1 u. unfold check_required, bind, get, ret. destruct (find _ _) as [a|]; [|congruence]. unfold front. destruct (c_names (a_cfg a)); [discriminate|].
  unfold ret, throw. destruct (c_type (a_cfg a)); discriminate.
Qed.
Lemma before_ok : forall fuel argv s s1 ids, wf0 s -> before fuel argv s = (s1, Ok (Some ids)) ->
  interprets s /\ scan fuel argv (prepared s) = (s1, Ok tt) /\ ids = map a_id (s_args s1).
Proof.
  intros fuel argv s s1 ids W. unfold before, bind, modify. fold (cleared s). rewrite (help_setup_eq (cleared s) (wf0_cleared s W)).
  change (s_help (cleared s)) with (s_help s). change (free_help (cleared s)) with (free_help s). unfold prepared, interprets.
  assert (G : forall t, (match scan fuel argv t with
    | (s', Ok a) => (let (s2, r) := check_help s' in match r with
         | Ok a0 => (let (s3, r0) := check_version s2 in match r0 with
             | Ok a1 => (let (s4, r1) := check_required s3 in match r1 with Ok _ => (s4, Ok (Some (map a_id (s_args s4)))) | Throw e => (s4, Throw e) | Exit o => (s4, Exit o) | UB => (s4, UB) | OutOfFuel => (s4, OutOfFuel) end)
             | Throw e => (s3, Throw e) | Exit o => (s3, Exit o) | UB => (s3, UB) | OutOfFuel => (s3, OutOfFuel) end)
         | Throw e => (s2, Throw e) | Exit o => (s2, Exit o) | UB => (s2, UB) | OutOfFuel => (s2, OutOfFuel) end)
    | (s', Throw e) => (s', Throw e) | (s', Exit o) => (s', Exit o) | (s', UB) => (s', UB) | (s', OutOfFuel) => (s', OutOfFuel) end) = (s1, Ok (Some ids)) ->
    scan fuel argv t = (s1, Ok tt) /\ ids = map a_id (s_args s1)).
  { intros t. destruct (scan fuel argv t) as [s2 [[]|e|o| |]]; try discriminate. destruct (check_help s2) as [s3 [[]|e|o| |]] eqn:E1; try discriminate.
    destruct (check_version s3) as [s4 [[]|e|o| |]] eqn:E2; try discriminate. destruct (check_required s4) as [s5 [[]|e|o| |]] eqn:E3; try discriminate.
    intros X. injection X as <- <-. apply print_ok in E1. apply print_ok in E2. apply required_ok in E3. subst. split; reflexivity. }
  destruct (s_help s) as [p|].
  - intros X. split; [left; discriminate|]. apply G. exact X.
  - destruct (free_help s) as [|x l]; [discriminate|]. intros X. split; [right; discriminate|]. apply G. exact X.
Qed.

(* ------------------------------------------------------------------ *)
(** * the twin *)
Definition twin {A B} (Q : A -> B -> Prop) (m : P A) (t : T B) (h : list moment) (s s' : state) : Prop :=
  let p := m h s in let q := t s' in
  st (fst (fst p)) (fst (fst q)) /\ rr Q (snd (fst p)) (snd (fst q)) /\ map fst (snd p) = map fst h ++ snd q.
Lemma twin_calm : forall A B (Q : A -> B -> Prop) f g h s s', sim Q f g -> st s s' -> twin Q (calmly f) (quietly g) h s s'.
Proof. intros A B Q f g h s s' S R. destruct (S s s' R) as [X Y]. split; [exact X|]. split; [exact Y|]. cbn. now rewrite app_nil_r. Qed.
Lemma twin_bind : forall A B C D (Q : A -> B -> Prop) (R : C -> D -> Prop) m t (f : A -> P C) (g : B -> T D) h s s',
  twin Q m t h s s' -> (forall x y, Q x y -> snd (fst (m h s)) = Ok x -> st (fst (fst (m h s))) (fst (fst (t s'))) -> twin R (f x) (g y) (snd (m h s)) (fst (fst (m h s))) (fst (fst (t s')))) ->
  twin R (pbind m f) (tbind t g) h s s'.
Proof.
  intros A B C D Q R m t f g h s s' [X [Y Z]] H. unfold twin, pbind, tbind. destruct (m h s) as [[s1 r] h1], (t s') as [[s1' r'] l]. cbn [fst snd] in *.
  destruct r as [x|e|o| |], r' as [y|e'|o'| |]; cbn in Y; try contradiction; try (split; [exact X|]; split; [exact Y | exact Z]).
  destruct (H x y Y eq_refl X) as [X1 [Y1 Z1]]. destruct (g y s1') as [q l']. cbn [fst snd] in *. split; [exact X1|]. split; [exact Y1|]. rewrite Z1, Z. now rewrite app_assoc.
Qed.
Lemma twin_dest : forall id h s s', st s s' -> twin eq (toDest_peek id) (toDest_traced id) h s s'.
Proof.
  intros id h s s' R. destruct (sim_toDest id s s' R) as [X Y]. split; [exact X|]. split; [exact Y|]. unfold toDest_peek, toDest_traced. cbn [snd].
  rewrite map_app, map_map. cbn [fst]. rewrite (st_dlog _ _ R), (st_dlog _ _ X). reflexivity.
Qed.

(** the validators of [s] answer as [ans] says, each always the same *)
Definition answered (ans : nat -> vres) (ids : list nat) (s : state) : Prop :=
  forall a v, In a (s_args s) -> In (a_id a) ids -> c_valid (a_cfg a) = Some v -> forall vs, v_fn v vs = ans (a_id a).
Lemma answered_frame : forall ans ids s s', frame s s' -> answered ans ids s -> answered ans ids s'.
Proof.
  intros ans ids s s' F H a v Ia Ii E vs. assert (X : In (static a) (map static (s_args s))) by (rewrite <- (fr_args _ _ F); now apply in_map).
  apply in_map_iff in X. destruct X as [b [Eb Ib]]. unfold static in Eb. injection Eb as E1 E2 E3. rewrite <- E1, <- E3 in *. exact (H b v Ib Ii E vs).
Qed.
(** the question put to the validator of the argument [id], if it is put *)
Definition asked (id : nat) (s : state) : list moment :=
  match find_id id (s_args s) with
  | Some a => match c_valid (a_cfg a) with
              | Some v => if d_exist (a_dyn a) then [(Called (v_id v) (plain_values a), s)] else []
              | None => []
              end
  | None => []
  end.
Definition delivered (m : moment) : Prop := exists e, fst m = Delivered e.

Lemma find_same : forall id s s', st s s' -> match find_id id (s_args s), find_id id (s_args s') with Some a, Some b => sa a b | None, None => True | _, _ => False end.
Proof. intros id s s' R. apply (sa_find (fun a => Nat.eqb (a_id a) id) _ _ (st_args _ _ R)). intros a b X. cbv beta. now rewrite (sa_id a b X). Qed.
Lemma find_id_In : forall id l a, find_id id l = Some a -> In a l /\ a_id a = id.
Proof. intros id l a E. unfold find_id in E. apply find_some in E. destruct E as [I E]. split; [exact I | now apply Nat.eqb_eq]. Qed.
Lemma validate_fn : forall a v w s, v_fn v (plain_values a) = v_fn w (plain_values a) -> validate a v s = validate a w s.
Proof. intros a v w s E. unfold validate. rewrite plain_values_eq, E. reflexivity. Qed.

Lemma one_twin : forall answers id h s s' ans, st s s' -> answered ans [id] s' ->
  (forall m, asked id s = [m] -> ans id = answers (h ++ [m])) ->
  twin eq (finish_one_peek answers id) (finish_one_traced id) h s s'.
Proof.
  intros answers id h s s' ans R A H. unfold finish_one_peek, finish_one_traced. pose proof (find_same id s s' R) as F. unfold asked in H.
  destruct (find_id id (s_args s)) as [a|] eqn:E1, (find_id id (s_args s')) as [b|] eqn:E2; try contradiction.
  2:{ unfold twin, pbind, calmly, tbind, quietly, deref. rewrite E1, E2. cbn. rewrite app_nil_r. split; [exact R|]. split; [exact Logic.I | reflexivity]. }
  pose proof F as [w [SO Eb]]. assert (EV : c_valid (a_cfg b) = w) by (rewrite Eb; reflexivity). assert (EX : d_exist (a_dyn b) = d_exist (a_dyn a)) by (rewrite Eb; reflexivity).
  assert (TL : forall h1 s1 s1', st s1 s1' -> twin eq (pbind (calmly (toNumber id)) (fun _ => toDest_peek id)) (quietly (toNumber id) ;;;; toDest_traced id) h1 s1 s1').
  { intros h1 s1 s1' R1. apply (twin_bind _ _ _ _ eq); [now apply twin_calm; [apply sim_toNumber|] |]. intros _ _ _ _ R2. now apply twin_dest. }
  assert (CH : twin eq (match c_valid (a_cfg a) with Some v => if d_exist (a_dyn a) then validate_peek answers a v else calmly (ret tt) | None => calmly (ret tt) end)
     (match w with Some v => if d_exist (a_dyn a) then record [Called (v_id v) (match to_vector b with Ok l => l | _ => [] end)] ;;;; quietly (validate b v) else quietly (ret tt) | None => quietly (ret tt) end) h s s').
  { unfold same_object in SO. destruct (c_valid (a_cfg a)) as [v|] eqn:V, w as [v'|]; cbn in SO; try discriminate; [|apply twin_calm; [now apply sim_ret | exact R]].
    injection SO as SO. destruct (d_exist (a_dyn a)); [|apply twin_calm; [now apply sim_ret | exact R]].
    assert (PV : plain_values b = plain_values a) by (rewrite Eb; reflexivity).
    assert (FN : validate b v' s' = validate b (Validator (v_id v) (fun _ => answers (h ++ [(Called (v_id v) (plain_values a), s)]))) s').
    { apply validate_fn. cbn [v_fn]. transitivity (ans id); [|exact (H _ eq_refl)]. destruct (find_id_In _ _ _ E2) as [Ib Eid]. rewrite <- Eid at 1. apply A; [exact Ib | left; now rewrite Eid | exact EV]. }
    unfold twin, validate_peek, tbind, record, quietly. rewrite !plain_values_eq. cbn [app]. rewrite FN, PV, SO.
    destruct (sim_validate a b (Validator (v_id v) (fun _ => answers (h ++ [(Called (v_id v) (plain_values a), s)]))) F s s' R) as [X Y].
    destruct (validate b _ s') as [x y]. cbn [fst snd] in *. split; [exact X|]. split; [exact Y|]. rewrite map_app. reflexivity. }
  apply (twin_bind _ _ _ _ (fun x y => x = a /\ y = b)).
  - unfold twin, calmly, quietly, deref. rewrite E1, E2. cbn. rewrite app_nil_r. split; [exact R|]. split; [split; reflexivity | reflexivity].
  - intros x y [-> ->] _ R0. unfold calmly, quietly, deref in R0 |- *. rewrite E1, E2 in *. cbn [fst snd] in *. rewrite EV, EX.
    apply (twin_bind _ _ _ _ eq); [exact CH|]. intros _ _ _ _ R1. apply TL, R1.
Qed.

(* ------------------------------------------------------------------ *)
(** * the moments of the last loop *)
Lemma one_moments : forall answers id h s, exists d, snd (finish_one_peek answers id h s) = h ++ asked id s ++ d /\ Forall delivered d.
Proof.
  intros answers id h s. unfold finish_one_peek, asked, pbind, calmly, deref. destruct (find_id id (s_args s)) as [a|]; [|exists []; rewrite app_nil_r; split; [reflexivity | constructor]].
  assert (TL : forall h1 s1, exists d, snd (let (p, h2) := (toNumber id s1, h1) in let (s2, r) := p in match r with
     | Ok _ => toDest_peek id h2 s2 | Throw e => ((s2, Throw e), h2) | Exit o => ((s2, Exit o), h2) | UB => ((s2, UB), h2) | OutOfFuel => ((s2, OutOfFuel), h2) end) = h1 ++ d /\ Forall delivered d).
  { intros h1 s1. destruct (toNumber id s1) as [s2 r]. assert (N : exists d : list moment, h1 = h1 ++ d /\ Forall delivered d) by (exists []; rewrite app_nil_r; split; [reflexivity | constructor]).
    destruct r; try exact N. eexists. split; [reflexivity|]. apply Forall_forall. intros x Hx. apply in_map_iff in Hx. destruct Hx as [e [<- _]]. now exists e. }
  assert (Z : exists d, snd (let (p, h2) := (toNumber id s, h) in let (s2, r) := p in match r with
     | Ok _ => toDest_peek id h2 s2 | Throw e => ((s2, Throw e), h2) | Exit o => ((s2, Exit o), h2) | UB => ((s2, UB), h2) | OutOfFuel => ((s2, OutOfFuel), h2) end) = h ++ [] ++ d /\ Forall delivered d) by exact (TL h s).
  destruct (c_valid (a_cfg a)) as [v|]; [|exact Z]. destruct (d_exist (a_dyn a)); [|exact Z]. clear Z. unfold validate_peek. rewrite plain_values_eq.
  set (h1 := h ++ [(Called (v_id v) (plain_values a), s)]).
  destruct (validate a _ s) as [s1 r]. assert (N : exists d : list moment, h1 = h ++ [(Called (v_id v) (plain_values a), s)] ++ d /\ Forall delivered d) by (exists []; split; [reflexivity | constructor]).
  destruct r; try exact N. destruct (TL h1 s1) as [d [E D]]. exists d. split; [|exact D]. rewrite E. unfold h1. now rewrite <- app_assoc.
Qed.
Lemma frame_toNumber : forall id, keeps frame (toNumber id).
Proof. intros; unfold toNumber; kk. Qed.
Lemma one_frame : forall answers id h s, frame s (fst (fst (finish_one_peek answers id h s))).
Proof.
  intros answers id h s. unfold finish_one_peek, pbind, calmly, deref. destruct (find_id id (s_args s)) as [a|]; [|apply frame_refl].
  assert (TL : forall h1 s1, frame s1 (fst (fst (let (p, h2) := (toNumber id s1, h1) in let (s2, r) := p in match r with
     | Ok _ => toDest_peek id h2 s2 | Throw e => ((s2, Throw e), h2) | Exit o => ((s2, Exit o), h2) | UB => ((s2, UB), h2) | OutOfFuel => ((s2, OutOfFuel), h2) end)))).
  { intros h1 s1. assert (F : frame s1 (fst (toNumber id s1))) by (apply frame_toNumber). destruct (toNumber id s1) as [s2 r]. cbn [fst] in F. destruct r; try exact F.
    eapply frame_trans; [exact F|]. apply frame_toDest. }
  destruct (c_valid (a_cfg a)) as [v|]; [|exact (TL h s)]. destruct (d_exist (a_dyn a)); [|exact (TL h s)]. unfold validate_peek.
  match goal with |- context [validate a ?w s] => assert (F : frame s (fst (validate a w s))) by (apply frame_validate); destruct (validate a w s) as [s1 r] end. cbn [fst] in F.
  destruct r; try exact F. eapply frame_trans; [exact F|]. apply TL.
Qed.

(** the answer in the list of moments [ms] to the question at place [k] *)
Definition answered_as (answers : mind) (ans : nat -> vres) (s : state) (ids : list nat) (ms : list moment) (from : nat) : Prop :=
  forall k v vs t, from <= k -> nth_error ms k = Some (Called v vs, t) ->
    exists id a w, In id ids /\ find_id id (s_args t) = Some a /\ c_valid (a_cfg a) = Some w /\ v_id w = v /\ plain_values a = vs /\ frame s t /\ ans id = answers (firstn (Datatypes.S k) ms).
Lemma nth_error_lt : forall A (l : list A) k x, nth_error l k = Some x -> k < length l.
Proof. intros A l k x E. apply nth_error_Some. rewrite E. discriminate. Qed.
Lemma nth_error_app_ge : forall A (l m : list A) k, length l <= k -> nth_error (l ++ m) k = nth_error m (k - length l).
Proof. intros. now apply nth_error_app2. Qed.
Lemma asked_shape : forall id s m, In m (asked id s) -> asked id s = [m] /\ exists a w, find_id id (s_args s) = Some a /\ c_valid (a_cfg a) = Some w /\ fst m = Called (v_id w) (plain_values a) /\ snd m = s.
Proof.
  intros id s m. unfold asked. destruct (find_id id (s_args s)) as [a|]; [|easy]. destruct (c_valid (a_cfg a)) as [w|] eqn:V; [|easy]. destruct (d_exist (a_dyn a)); [|easy].
  intros [<-|[]]. split; [reflexivity|]. exists a, w. auto.
Qed.
Lemma one_asked : forall answers id h s d rest k v vs t, Forall delivered d -> length h <= k -> k < length (h ++ asked id s ++ d) ->
  nth_error ((h ++ asked id s ++ d) ++ rest) k = Some (Called v vs, t) ->
  exists a w, find_id id (s_args t) = Some a /\ c_valid (a_cfg a) = Some w /\ v_id w = v /\ plain_values a = vs /\ t = s /\
    match asked id s with [m] => answers (h ++ [m]) | _ => VOther end = answers (firstn (Datatypes.S k) ((h ++ asked id s ++ d) ++ rest)).
Proof.
  intros answers id h s d rest k v vs t D L1 L2 N. rewrite nth_error_app1 in N by exact L2. rewrite nth_error_app_ge in N by exact L1.
  destruct (asked id s) as [|m l] eqn:A.
  - cbn [app] in N. apply nth_error_In in N. rewrite Forall_forall in D. destruct (D _ N) as [e E]. discriminate E.
  - destruct (asked_shape id s m) as [S1 [a [w [F [V [E1 E2]]]]]]; [rewrite A; now left|]. rewrite A in S1. injection S1 as ->. 
    destruct (k - length h) as [|j] eqn:K.
    + cbn in N. injection N as ->. cbn [fst snd] in E1, E2. injection E1 as -> ->. exists a, w. subst t. split; [exact F|]. split; [exact V|]. split; [reflexivity|]. split; [reflexivity|]. split; [reflexivity|].
      assert (k = length h) by lia. subst k. f_equal. rewrite <- app_assoc, firstn_app. rewrite firstn_all2 by lia. f_equal. replace (Datatypes.S (length h) - length h) with 1 by lia. reflexivity.
    + cbn in N. apply nth_error_In in N. rewrite Forall_forall in D. destruct (D _ N) as [e E]. discriminate E.
Qed.

Lemma finish_det : forall answers ids, NoDup ids -> forall h s, exists ans,
  (exists l, snd (finish_peek answers ids h s) = h ++ l) /\
  answered_as answers ans s ids (snd (finish_peek answers ids h s)) (length h) /\
  (forall s', st s s' -> answered ans ids s' -> twin eq (finish_peek answers ids) (finish_traced ids) h s s').
Proof.
  intros answers ids ND. induction ND as [|id ids NI ND IH]; intros h s.
  - exists (fun _ => VOther). cbn [finish_peek finish_traced]. split; [exists []; cbn; now rewrite app_nil_r|]. split.
    + intros k v vs t L N. change (nth_error h k = Some (Called v vs, t)) in N. apply nth_error_lt in N. exfalso. exact (Nat.lt_irrefl _ (Nat.lt_le_trans _ _ _ N L)).
    + intros s' R _. apply twin_calm; [now apply sim_ret | exact R].
  - destruct (one_moments answers id h s) as [d [E D]]. pose proof (one_frame answers id h s) as F1.
    set (q := finish_one_peek answers id h s) in *.
    destruct (IH (snd q) (fst (fst q))) as [ansr [[l El] [AR TR]]].
    set (ans := fun i => if Nat.eqb i id then match asked id s with [m] => answers (h ++ [m]) | _ => VOther end else ansr i).
    assert (EF : finish_peek answers (id :: ids) h s = match snd (fst q) with Ok _ => finish_peek answers ids (snd q) (fst (fst q)) | Throw e => ((fst (fst q), Throw e), snd q) | Exit o => ((fst (fst q), Exit o), snd q) | UB => ((fst (fst q), UB), snd q) | OutOfFuel => ((fst (fst q), OutOfFuel), snd q) end).
    { cbn [finish_peek]. unfold pbind. fold q. destruct q as [[s1 []] h1]; reflexivity. }
    assert (Aid : ans id = match asked id s with [m] => answers (h ++ [m]) | _ => VOther end) by (unfold ans; now rewrite Nat.eqb_refl).
    assert (Ar : forall i, In i ids -> ans i = ansr i) by (intros i Hi; unfold ans; destruct (Nat.eqb_spec i id); [subst; contradiction | reflexivity]).
    exists ans. split; [|split].
    + rewrite EF. destruct (snd (fst q)); try (rewrite E; eexists; reflexivity). rewrite El, E, <- app_assoc. eexists; reflexivity.
    + assert (G : exists rest, snd (finish_peek answers (id :: ids) h s) = (h ++ asked id s ++ d) ++ rest /\
        answered_as answers ansr (fst (fst q)) ids (snd (finish_peek answers (id :: ids) h s)) (length (h ++ asked id s ++ d))).
      { rewrite EF. destruct (snd (fst q)).
        1:{ exists l. rewrite El, E. split; [reflexivity|]. rewrite El, E in AR. exact AR. }
        all: exists []; cbn [snd]; rewrite E, app_nil_r; split; [reflexivity|]; intros k v vs t L N; apply nth_error_lt in N; exfalso; exact (Nat.lt_irrefl _ (Nat.lt_le_trans _ _ _ N L)). }
      destruct G as [rest [G1 G2]]. intros k v vs t L N. destruct (le_lt_dec (length (h ++ asked id s ++ d)) k) as [Lk|Lk].
      * destruct (G2 k v vs t Lk N) as [i [a [w [Ii [Fi [V [Vi [Pv [Fr An]]]]]]]]]. exists i, a, w. split; [now right|]. split; [exact Fi|]. split; [exact V|]. split; [exact Vi|]. split; [exact Pv|].
        split; [eapply frame_trans; [exact F1 | exact Fr]|]. now rewrite (Ar i Ii).
      * rewrite G1 in *. destruct (one_asked answers id h s d rest k v vs t D L Lk N) as [a [w [Fi [V [Vi [Pv [-> An]]]]]]]. exists id, a, w. split; [now left|]. split; [exact Fi|]. split; [exact V|]. split; [exact Vi|]. split; [exact Pv|].
        split; [apply frame_refl|]. now rewrite Aid.
    + intros s' R A. cbn [finish_peek finish_traced]. apply (twin_bind _ _ _ _ eq).
      * apply (one_twin answers id h s s' ans R).
        -- intros a v Ia Ii. apply A; [exact Ia|]. destruct Ii as [<-|[]]. now left.
        -- intros m Em. rewrite Aid, Em. reflexivity.
      * intros _ _ _ _ R1. fold q in R1 |- *. apply TR; [exact R1|]. rewrite finish_one_erase. apply (answered_frame ansr ids s'); [apply frame_finish_one|].
        intros a v Ia Ii Va vs. rewrite <- (Ar _ Ii). apply (A a v Ia); [now right | exact Va].
Qed.
