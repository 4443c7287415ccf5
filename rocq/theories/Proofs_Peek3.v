(** Proofs_Peek3.v -- what the parser looks like while the last loop runs. *)
From Coq Require Import Permutation Sorted.
From Verif Require Import Base Model_Utils Model_Number Model_Types Model_Argument Model_Usage Model_Args Model_Api Model_Calls Model_Peek
  Spec_Order Spec_Names Spec_Reading Spec_Parse Spec_Decl Spec_Finish Spec_History Spec_Api Spec_Result Spec_Peek
  Proofs_Base Proofs_Order Proofs_Frame Proofs_Inv Proofs_ReadFacts Proofs_Reading Proofs_Finish Proofs_Parse Proofs_Central Proofs_Dyn Properties_Parse
  Properties_Defaults Properties_Number Properties_Final Properties_Calls Proofs_Peek Proofs_Peek2.

(* ------------------------------------------------------------------ *)
(** * one argument is touched *)
Definition bare (s : state) : state := with_dlog (with_args s []) [].
Definition touch (id : nat) (s s1 : state) : Prop :=
  bare s1 = bare s /\ exists f, (forall a, static (f a) = static a) /\ s_args s1 = upd_id id f (s_args s).
Lemma touch_refl : forall id s, touch id s s.
Proof. intros id s. split; [reflexivity|]. exists (fun a => a). split; [reflexivity|]. unfold upd_id. rewrite map_ext with (g := fun a => a); [now rewrite map_id|]. intros a. now destruct (Nat.eqb _ _). Qed.
Lemma touch_trans : forall id s t u, touch id s t -> touch id t u -> touch id s u.
Proof.
  intros id s t u [B1 [f [F1 E1]]] [B2 [g [F2 E2]]]. split; [congruence|]. exists (fun a => g (f a)). split; [intros a; now rewrite F2|].
  rewrite E2, E1. unfold upd_id. rewrite map_map. apply map_ext. intros a. destruct (Nat.eqb (a_id a) id) eqn:E; [|now rewrite E].
  pose proof (F1 a) as X. unfold static in X. injection X as X _ _. now rewrite X, E.
Qed.
Lemma touch_dyn : forall id f s, touch id s (fst (set_dyn id f s)).
Proof. intros id f s. split; [reflexivity|]. eexists. split; [|reflexivity]. intros a. reflexivity. Qed.
Lemma touch_validate : forall a v s, touch (a_id a) s (fst (validate a v s)).
Proof.
  intros a v s. unfold validate.
  assert (FR : forall m, touch (a_id a) s (fst ((do f <- front (c_names (a_cfg a)) ;; throw KValid f m : M unit) s))).
  { intros m. unfold bind, front. destruct (c_names (a_cfg a)); apply touch_refl. }
  destruct (v_fn v _) as [[] vs|msg|]; try apply FR; [|apply touch_refl]. destruct (c_type (a_cfg a)); try apply FR; try apply touch_dyn; destruct vs; try apply touch_refl; apply touch_dyn.
Qed.
Lemma touch_toNumber : forall id s, touch id s (fst (toNumber id s)).
Proof. intros id s. unfold toNumber, bind, deref. destruct (find_id id (s_args s)); [apply touch_dyn | apply touch_refl]. Qed.
Lemma toDest_args : forall id s, s_args (fst (toDest id s)) = s_args s /\ bare (fst (toDest id s)) = bare s.
Proof.
  intros id s. unfold toDest, bind, deref. destruct (find_id id (s_args s)) as [a|]; [|split; reflexivity]. destruct (c_dest (a_cfg a)) as [d|]; [|split; reflexivity].
  destruct (dest_events a d) as [evs [e|]]; split; reflexivity.
Qed.
Lemma touch_toDest : forall id s, touch id s (fst (toDest id s)).
Proof. intros id s. destruct (toDest_args id s) as [A B]. destruct (touch_refl id s) as [_ [f [F E]]]. split; [exact B|]. exists f. split; [exact F | congruence]. Qed.
Lemma touch_split : forall id s s1 done a todo, touch id s s1 -> s_args s = done ++ a :: todo -> NoDup (map a_id (done ++ a :: todo)) -> a_id a = id ->
  exists a', static a' = static a /\ s_args s1 = done ++ a' :: todo.
Proof.
  intros id s s1 done a todo [_ [f [F E]]] ES ND <-. exists (f a). split; [apply F|]. rewrite E, ES. unfold upd_id. rewrite map_app. cbn [map]. rewrite Nat.eqb_refl.
  rewrite map_app in ND. cbn [map] in ND. pose proof (NoDup_remove_2 _ _ _ ND) as NI.
  assert (G : forall l, (forall x, In x l -> In (a_id x) (map a_id done ++ map a_id todo)) -> map (fun x => if Nat.eqb (a_id x) (a_id a) then f x else x) l = l).
  { intros l H. rewrite <- map_id. apply map_ext_in. intros x Ix. destruct (Nat.eqb_spec (a_id x) (a_id a)) as [Q|_]; [|reflexivity]. exfalso. apply NI. rewrite <- Q. now apply H. }
  rewrite !G; [reflexivity | |]; intros x Ix; apply in_or_app; [right | left]; now apply in_map.
Qed.

(* ------------------------------------------------------------------ *)
(** * the moments of one argument *)
Definition seen_one (id : nat) (s s1 : state) (m : moment) : Prop :=
  touch id s (snd m) /\
  match fst m with
  | Called v vs => snd m = s /\ exists a w, find_id id (s_args s) = Some a /\ d_exist (a_dyn a) = true /\ c_valid (a_cfg a) = Some w /\ v_id w = v /\ vs = plain_values a
  | Delivered e => s_args s1 = s_args (snd m) /\ exists a, find_id id (s_args (snd m)) = Some a /\ goes_to a e
  end.
Lemma dest_goes : forall id s m, In m (map (fun e => (Delivered e, s)) (skipn (length (s_dlog s)) (s_dlog (fst (toDest id s))))) ->
  snd m = s /\ exists e, fst m = Delivered e /\ exists a, find_id id (s_args s) = Some a /\ goes_to a e.
Proof.
  intros id s m H. apply in_map_iff in H. destruct H as [e [<- He]]. split; [reflexivity|]. exists e. split; [reflexivity|].
  destruct (find_id id (s_args s)) as [a|] eqn:F.
  - exists a. split; [reflexivity|]. destruct (find_id_In _ _ _ F) as [_ Ei]. apply events_goes. pose proof (dest_trace s a) as D. rewrite Ei in D. specialize (D F).
    unfold toDest_traced in D. cbn [snd] in D. assert (X : In (Delivered e) (map Delivered (fst (arg_events a)))) by (rewrite <- D; now apply in_map).
    apply in_map_iff in X. destruct X as [e' [Q Ie]]. injection Q as ->. exact Ie.
  - exfalso. unfold toDest, bind, deref in He. rewrite F in He. cbn [fst] in He. rewrite skipn_all in He. exact He.
Qed.
Lemma one_sees : forall answers id h s, touch id s (fst (fst (finish_one_peek answers id h s))) /\
  exists ms, snd (finish_one_peek answers id h s) = h ++ ms /\ forall m, In m ms -> seen_one id s (fst (fst (finish_one_peek answers id h s))) m.
Proof.
  intros answers id h s. unfold finish_one_peek, pbind, calmly, deref.
  destruct (find_id id (s_args s)) as [a|] eqn:F; [|split; [apply touch_refl|]; exists []; split; [cbn; now rewrite app_nil_r | easy]].
  set (TL := fun (h1 : list moment) (s1 : state) => let (p, h2) := (toNumber id s1, h1) in let (s2, r) := p in match r with
     | Ok _ => toDest_peek id h2 s2 | Throw e => ((s2, Throw e), h2) | Exit o => ((s2, Exit o), h2) | UB => ((s2, UB), h2) | OutOfFuel => ((s2, OutOfFuel), h2) end).
  assert (T : forall h1 s1, touch id s s1 -> touch id s (fst (fst (TL h1 s1))) /\ exists ms, snd (TL h1 s1) = h1 ++ ms /\ forall m, In m ms -> seen_one id s (fst (fst (TL h1 s1))) m).
  { intros h1 s1 T1. unfold TL. pose proof (touch_toNumber id s1) as TN. destruct (toNumber id s1) as [s2 r]. cbn [fst] in TN. pose proof (touch_trans _ _ _ _ T1 TN) as T2.
    assert (N : touch id s s2 /\ exists ms : list moment, h1 = h1 ++ ms /\ forall m, In m ms -> seen_one id s s2 m) by (split; [exact T2|]; exists []; split; [now rewrite app_nil_r | easy]).
    destruct r; try exact N. unfold toDest_peek. cbn [fst snd]. split; [eapply touch_trans; [exact T2 | apply touch_toDest]|]. eexists. split; [reflexivity|].
    intros m Hm. destruct (dest_goes id s2 m Hm) as [E1 [e [E2 [b [Fb G]]]]]. split; [now rewrite E1|]. rewrite E2, E1. split; [apply toDest_args|]. exists b. split; [exact Fb | exact G]. }
  destruct (c_valid (a_cfg a)) as [v|] eqn:V; [|apply T, touch_refl]. destruct (d_exist (a_dyn a)) eqn:X; [|apply T, touch_refl]. unfold validate_peek. rewrite plain_values_eq.
  set (q := (Called (v_id v) (plain_values a), s) : moment). destruct (find_id_In _ _ _ F) as [_ Ei].
  assert (Q : forall s1, seen_one id s s1 q). { intros s1. split; [apply touch_refl|]. split; [reflexivity|]. exists a, v. auto. }
  match goal with |- context [validate a ?w s] => pose proof (touch_validate a w s) as TV; destruct (validate a w s) as [s1 r] end. rewrite Ei in TV. cbn [fst] in TV.
  assert (N : touch id s s1 /\ exists ms : list moment, h ++ [q] = h ++ ms /\ forall m, In m ms -> seen_one id s s1 m) by (split; [exact TV|]; exists [q]; split; [reflexivity | intros m [<-|[]]; apply Q]).
  destruct r; try exact N. destruct (T (h ++ [q]) s1 TV) as [T1 [ms [E1 M1]]]. split; [exact T1|]. exists (q :: ms). split; [transitivity ((h ++ [q]) ++ ms); [exact E1 | now rewrite <- app_assoc]|].
  intros m [<-|Hm]; [apply Q | exact (M1 m Hm)].
Qed.

(* ------------------------------------------------------------------ *)
(** * the moments of the loop *)
Definition seen_at (done todo : list argument) (s s1 : state) (m : moment) : Prop :=
  exists l1 b l2 L1 B L3, todo = l1 ++ b :: l2 /\ length L1 = length l1 /\ s_args (snd m) = done ++ L1 ++ B :: l2 /\ s_args s1 = done ++ L1 ++ L3 /\
    bare (snd m) = bare s /\ static B = static b /\
    match fst m with
    | Called v vs => B = b /\ d_exist (a_dyn b) = true /\ (exists w, c_valid (a_cfg b) = Some w /\ v_id w = v) /\ vs = plain_values b
    | Delivered e => goes_to b e /\ exists r, L3 = B :: r
    end.
Lemma find_mid : forall done a todo, NoDup (map a_id (done ++ a :: todo)) -> find_id (a_id a) (done ++ a :: todo) = Some a.
Proof.
  intros done a todo ND. rewrite map_app in ND. cbn [map] in ND. pose proof (NoDup_remove_2 _ _ _ ND) as NI. unfold find_id.
  induction done as [|x done IH]; cbn [app find]; [now rewrite Nat.eqb_refl|]. destruct (Nat.eqb_spec (a_id x) (a_id a)) as [Q|_]; [exfalso; apply NI; cbn; left; exact Q|].
  cbn [map app] in ND. apply IH; [now inversion ND | intros H; apply NI; now right].
Qed.
Lemma goes_static : forall a b e, static a = static b -> goes_to a e -> goes_to b e.
Proof. intros a b e E. unfold static in E. injection E as _ _ E. unfold goes_to. now rewrite E. Qed.
Lemma finish_sees : forall answers todo done h s, s_args s = done ++ todo -> NoDup (map a_id (done ++ todo)) ->
  let q := finish_peek answers (map a_id todo) h s in
  (exists l, s_args (fst (fst q)) = done ++ l) /\ bare (fst (fst q)) = bare s /\
  exists ms, snd q = h ++ ms /\ forall m, In m ms -> seen_at done todo s (fst (fst q)) m.
Proof.
  intros answers. induction todo as [|a todo IH]; intros done h s ES ND; cbv zeta.
  - cbn [map finish_peek]. split; [exists []; exact ES|]. split; [reflexivity|]. exists []. split; [cbn; now rewrite app_nil_r | easy].
  - cbn [map finish_peek]. destruct (one_sees answers (a_id a) h s) as [T1 [ms1 [E1 M1]]].
    destruct (touch_split (a_id a) s _ done a todo T1 ES ND eq_refl) as [a' [SA EA]]. destruct T1 as [TB _].
    set (q1 := finish_one_peek answers (a_id a) h s) in *.
    assert (Aid : a_id a' = a_id a) by (unfold static in SA; now injection SA).
    assert (ND' : NoDup (map a_id ((done ++ [a']) ++ todo))) by (rewrite <- app_assoc; cbn [app]; rewrite map_app in *; cbn [map] in *; now rewrite Aid).
    assert (EA' : s_args (fst (fst q1)) = (done ++ [a']) ++ todo) by (rewrite <- app_assoc; exact EA).
    destruct (IH (done ++ [a']) (snd q1) (fst (fst q1)) EA' ND') as [[l0 EL] [BB [ms2 [E2 M2]]]]. clear IH.
    assert (L1 : forall s1 l3, s_args s1 = done ++ a' :: l3 -> forall m, In m ms1 -> seen_at done (a :: todo) s s1 m).
    { intros s1 l3 Es m Hm. destruct (M1 m Hm) as [TM K]. destruct (touch_split (a_id a) s _ done a todo TM ES ND eq_refl) as [B [SB EB]].
      exists [], a, todo, [], B, (a' :: l3). split; [reflexivity|]. split; [reflexivity|]. split; [exact EB|]. split; [exact Es|]. split; [apply TM|]. split; [exact SB|].
      destruct (fst m) as [v vs|e].
      - destruct K as [Em [x [w [Fx [Xx [Vx [Vw Pv]]]]]]]. rewrite Em, ES in EB. apply app_inv_head in EB. injection EB as EB. rewrite ES, (find_mid done a todo ND) in Fx. injection Fx as <-.
        split; [now symmetry|]. split; [exact Xx|]. split; [exists w; split; [exact Vx | exact Vw] | exact Pv].
      - destruct K as [Ea [x [Fx G]]]. rewrite EA, EB in Ea. apply app_inv_head in Ea. injection Ea as Ea. split; [|exists l3; now rewrite Ea].
        rewrite EB in Fx. assert (NB : NoDup (map a_id (done ++ B :: todo))) by (rewrite <- Ea; rewrite map_app in *; cbn [map] in *; now rewrite Aid).
        replace (a_id a) with (a_id B) in Fx by (unfold static in SB; now injection SB). rewrite (find_mid done B todo NB) in Fx. injection Fx as <-. exact (goes_static _ _ _ SB G). }
    assert (EF : pbind (finish_one_peek answers (a_id a)) (fun _ => finish_peek answers (map a_id todo)) h s =
      match snd (fst q1) with Ok _ => finish_peek answers (map a_id todo) (snd q1) (fst (fst q1)) | Throw e => ((fst (fst q1), Throw e), snd q1) | Exit o => ((fst (fst q1), Exit o), snd q1) | UB => ((fst (fst q1), UB), snd q1) | OutOfFuel => ((fst (fst q1), OutOfFuel), snd q1) end).
    { unfold pbind. fold q1. destruct q1 as [[s1 []] h1]; reflexivity. }
    rewrite EF. assert (N : (exists l, s_args (fst (fst q1)) = done ++ l) /\ bare (fst (fst q1)) = bare s /\ exists ms, snd q1 = h ++ ms /\ forall m, In m ms -> seen_at done (a :: todo) s (fst (fst q1)) m).
    { split; [eexists; exact EA|]. split; [exact TB|]. exists ms1. split; [exact E1|]. exact (L1 _ _ EA). }
    destruct (snd (fst q1)); try exact N. clear N. split; [exists (a' :: l0); rewrite EL, <- app_assoc; reflexivity|]. split; [congruence|].
    exists (ms1 ++ ms2). split; [rewrite app_assoc, <- E1; exact E2|]. intros m Hm. apply in_app_or in Hm. destruct Hm as [Hm|Hm].
    + apply (L1 _ l0); [rewrite EL, <- app_assoc; reflexivity | exact Hm].
    + destruct (M2 m Hm) as [l1 [b [l2 [K1 [B [K3 [Q1 [Q2 [Q3 [Q4 [Q5 [Q6 Q7]]]]]]]]]]]]. exists (a :: l1), b, l2, (a' :: K1), B, K3. split; [rewrite Q1; reflexivity|]. split; [cbn; now rewrite Q2|].
      split; [rewrite Q3, <- app_assoc; reflexivity|]. split; [rewrite Q4, <- app_assoc; reflexivity|]. split; [congruence|]. split; [exact Q6 | exact Q7].
Qed.

(* ------------------------------------------------------------------ *)
(** * as read *)
Definition numberless (d : adyn) : Prop := forall e, In e (d_elems d) -> lf_num (el_leaf e) = None /\ forall l, In l (el_subs e) -> lf_num l = None.
Lemma word_numberless : forall vs e, In e (map elem_word vs) -> lf_num (el_leaf e) = None /\ forall l, In l (el_subs e) -> lf_num l = None.
Proof. intros vs e H. apply in_map_iff in H. destruct H as [v [<- _]]. split; [reflexivity | intros l []]. Qed.
Lemma group_numberless : forall vs e, In e (map elem_group vs) -> lf_num (el_leaf e) = None /\ forall l, In l (el_subs e) -> lf_num l = None.
Proof. intros vs e H. apply in_map_iff in H. destruct H as [v [<- _]]. split; [reflexivity|]. intros l Hl. cbn in Hl. apply in_map_iff in Hl. destruct Hl as [w [<- _]]. reflexivity. Qed.
Lemma occ_numberless : forall c o d, numberless d -> numberless (occ_dyn c o d).
Proof.
  intros c o d H. assert (H' : numberless (match o_style o with Glued => seen d | _ => d end)) by (destruct (o_style o); exact H).
  unfold occ_dyn. set (d' := match o_style o with Glued => seen d | _ => d end) in *. clearbody d'.
  assert (K : forall e, In e (if d_exist d' then d_elems d' else []) -> lf_num (el_leaf e) = None /\ forall l, In l (el_subs e) -> lf_num l = None) by (intros e He; destruct (d_exist d'); [apply H', He | destruct He]).
  destruct (c_type c); intros e He; cbn in He; try exact (H' e He); try exact (word_numberless _ _ He); apply in_app_or in He; destruct He as [He|He]; try exact (K e He); first [exact (word_numberless _ _ He) | exact (group_numberless _ _ He)].
Qed.
Lemma pos_numberless : forall c vs d, numberless d -> numberless (pos_dyn c vs d).
Proof.
  intros c vs d H. unfold pos_dyn. destruct (c_type c); intros e He; cbn in He; try exact (H e He); apply in_app_or in He; destruct He as [He|He]; try exact (H e He);
  first [exact (word_numberless _ _ He) | exact (group_numberless _ _ He)].
Qed.
Lemma pieces_numberless : forall id c pcs d, numberless d -> numberless (pieces_dyn id c pcs d).
Proof.
  intros id c pcs. unfold pieces_dyn. induction pcs as [|p pcs IH]; intros d H; [exact H|]. cbn [fold_left]. apply IH. destruct p as [w os used|i vs|w|]; cbn [piece_dyn]; try exact H.
  - clear IH. revert d H. induction os as [|o os IHo]; intros d H; [exact H|]. cbn [fold_left]. apply IHo. destruct (Nat.eqb _ _); [now apply occ_numberless | exact H].
  - destruct (Nat.eqb i id); [now apply pos_numberless | exact H].
Qed.
Lemma read_as_read : forall s ws pcs b, usable s -> reads s ws pcs -> In b (arguments (ready s)) -> as_read pcs b (read_arg pcs b).
Proof.
  intros s ws pcs b U R Ib. pose proof (proj1 (reach_wf _ (proj1 (usable_ready s U)))) as W. constructor.
  - split; [|split]; reflexivity.
  - exact (read_exist s ws pcs b W R Ib).
  - destruct (on_line (a_id b) pcs) eqn:O; [exact (line_read s ws pcs b U R Ib O) | now rewrite (read_absent s ws pcs b W R Ib O)].
  - unfold isNumber, read_arg. cbn [a_dyn]. now rewrite pieces_num.
  - apply pieces_numberless. intros e He. cbn in He. apply in_map_iff in He. destruct He as [x [<- _]]. split; [reflexivity|]. intros l Hl. cbn in Hl. apply in_map_iff in Hl. destruct Hl as [y [<- _]]. reflexivity.
Qed.
