(** Properties_Move.v -- C85 (options may be given anywhere). *)
From Verif Require Import Base Model_Utils Model_Number Model_Types Model_Argument Model_Usage Model_Args Model_Api
  Spec_Order Spec_Names Spec_Reading Spec_Parse Spec_Decl Spec_Finish Spec_History Spec_Api Spec_Result
  Proofs_Base Proofs_Order Proofs_Frame Proofs_Inv Proofs_ReadFacts Proofs_Reading Proofs_Parse Proofs_Decl Proofs_Finish
  Proofs_Meth Proofs_History Proofs_Config Proofs_Check Proofs_Names Proofs_Central Proofs_Dyn Properties_Words Demo Properties_Parse Proofs_Swap Proofs_Kind
  Proofs_Values Properties_Values Properties_Positional Properties_Spell Properties_Repeat Properties_Final Properties_Required Properties_Offending Properties_Roles Spec_Roundtrip Properties_Roundtrip
  Spec_Insert Proofs_Insert Properties_Permute Properties_Insert.

(** for every option the same requests, in the same order *)
Definition same_requests (qs qs' : list request) : Prop :=
  forall a, filter (fun q => Nat.eqb (a_id (r_arg q)) (a_id a)) qs' = filter (fun q => Nat.eqb (a_id (r_arg q)) (a_id a)) qs.
(** none of the options of [qs] is on the line [ws] as it is *)
Definition not_asked_by (s : state) (ws : list str) (qs : list request) : Prop :=
  forall pcs q, reads s ws pcs -> In q qs -> occs_for (a_id (r_arg q)) pcs = [].

(** The requests are inserted into the same line at two places, in any order of the
    options: the outcome is the same. *)
Theorem C85_moved : forall s a0 pre qs post p pre' qs' post' p', insertion s a0 pre qs post p -> insertion s a0 pre' qs' post' p' ->
  pre' ++ post' = pre ++ post -> same_requests qs qs' -> not_asked_by s (pre ++ post) qs ->
  same_outcome (parseArguments (longer a0 pre qs post) s) (parseArguments (longer a0 pre' qs' post') s).
Proof.
  intros s a0 pre qs post p pre' qs' post' p' IN IN' E SR NA.
  destruct (insertion_reads _ _ _ _ _ _ IN) as [A [_ B]]. destruct (insertion_reads _ _ _ _ _ _ IN') as [A' [_ B']]. rewrite E in A', B'.
  destruct IN as [U I _ _ _ _ C CL]. destruct IN' as [_ _ _ _ _ _ _ CL'].
  destruct (read_or_reject s _ _ U C I) as [[pcs R]|[e R]].
  - destruct (A _ R) as [r [-> R1]]. destruct (A' _ R) as [r' [E' R2]].
    apply (C55_readings s a0 _ _ _ _ U I CL CL' R1 R2).
    + intros a _. rewrite !occs_for_app, !r_occs_for, SR. pose proof (f_equal (occs_for (a_id a)) E') as EO. rewrite !occs_for_app in EO.
      destruct (filter (fun q => Nat.eqb (a_id (r_arg q)) (a_id a)) qs) as [|q l] eqn:F; [exact EO|].
      assert (Iq : In q qs /\ a_id (r_arg q) = a_id a). { assert (J : In q (q :: l)) by now left. rewrite <- F in J. apply filter_In in J. destruct J as [J K]. split; [exact J | now apply Nat.eqb_eq]. }
      destruct Iq as [Iq Ea]. pose proof (NA _ q R Iq) as N. rewrite Ea, occs_for_app in N. rewrite N in EO. symmetry in EO.
      apply app_eq_nil in N. apply app_eq_nil in EO. destruct N as [-> ->], EO as [-> ->]. reflexivity.
    + pose proof (f_equal given_of E') as EG. rewrite !given_of_app in *. rewrite !r_given. exact EG.
    + pose proof (f_equal additional_of E') as EG. rewrite !additional_of_app in *. rewrite !r_additional. exact EG.
  - apply B in R as R1. apply B' in R as R2.
    destruct (parse_rejects s (longer a0 pre qs post) _ e U CL I R1) as [t [P _]]. destruct (parse_rejects s (longer a0 pre' qs' post') _ e U CL' I R2) as [t' [P' _]].
    split; [rewrite P, P'; reflexivity|]. rewrite P. discriminate.
Qed.
Print Assumptions C85_moved.
(** prog $OPTIONS "$@"  and  prog "$@" $OPTIONS *)
Theorem C85_front_or_end : forall s a0 qs ws p, insertion s a0 [] qs ws [] -> insertion s a0 ws qs [] p -> not_asked_by s ws qs ->
  same_outcome (parseArguments (a0 :: flat_map r_words qs ++ ws) s) (parseArguments (a0 :: ws ++ flat_map r_words qs) s).
Proof.
  intros s a0 qs ws p IN IN' NA. pose proof (C85_moved s a0 [] qs ws [] ws qs [] p IN IN' (app_nil_r ws) (fun a => eq_refl) NA) as H.
  unfold longer in H. cbn [app] in H. rewrite app_nil_r in H. exact H.
Qed.
Print Assumptions C85_front_or_end.
(** It is enough that the line alone is accepted and leaves these options absent. *)
Theorem C85_absent : forall s a0 pre qs post p pre' qs' post' p' t, insertion s a0 pre qs post p -> insertion s a0 pre' qs' post' p' ->
  pre' ++ post' = pre ++ post -> same_requests qs qs' -> parseArguments (a0 :: pre ++ post) s = (t, Ok tt) ->
  (forall q a, In q qs -> In a (arguments t) -> a_id a = a_id (r_arg q) -> isExists a = false) ->
  same_outcome (parseArguments (longer a0 pre qs post) s) (parseArguments (longer a0 pre' qs' post') s).
Proof.
  intros s a0 pre qs post p pre' qs' post' p' t IN IN' E SR P AB. apply (C85_moved s a0 pre qs post p pre' qs' post' p' IN IN' E SR).
  destruct IN as [U I G _ _ _ C _]. intros pcs q R Iq. destruct (parse_ok s _ _ t U C I P) as [pcs' [R' [Et _]]]. assert (Et' : t = completion (scanned (a0 :: pre ++ post) pcs' s)) by (rewrite Et; reflexivity). clear Et.
  pose proof (Reading_det _ _ _ _ R _ R') as X. subst pcs' t. pose proof (usable_ready_wf s U) as W.
  rewrite Forall_forall in G. specialize (G q Iq). assert (Ia : In (r_arg q) (arguments (ready s))) by (destruct q; exact (proj1 G)).
  specialize (AB q (finished (read_arg pcs (r_arg q))) Iq). rewrite completed_args, finished_id in AB. specialize (AB (in_map (fun b => finished (read_arg pcs b)) _ _ Ia)).
  assert (ID : a_id (read_arg pcs (r_arg q)) = a_id (r_arg q)) by reflexivity. specialize (AB ID).
  rewrite (proj1 (finished_exist _)), (read_exist s _ _ _ W R Ia), on_line_eq in AB. apply orb_false_iff in AB. destruct AB as [AB _].
  destruct (occs_for _ pcs); [reflexivity | discriminate].
Qed.
Print Assumptions C85_absent.

(** a case for the demonstration parser: -i and -n in front, in the middle in the other
    order, and at the end *)
Definition r_i : request := Request (pick "-i" (ready shop)) "-i" None ["1"; "2"].
Definition r_n : request := Request (pick "-n" (ready shop)) "--name=y" (Some "y") ["y"].
Example C85_example : insertion shop "prog" [] [r_i; r_n] ["src"; "-a"; "q"; "dst"; "rest"] [] /\
  (exists p, insertion shop "prog" ["src"] [r_n; r_i] ["-a"; "q"; "dst"; "rest"] p) /\
  (exists p, insertion shop "prog" ["src"; "-a"; "q"; "dst"; "rest"] [r_i; r_n] [] p) /\
  same_requests [r_i; r_n] [r_n; r_i] /\
  (exists t, parseArguments ["prog"; "src"; "-a"; "q"; "dst"; "rest"; "-i"; "1"; "2"; "--name=y"] shop = (t, Ok tt) /\
    to_vector (pick "-n" t) = Ok ["y"] /\ to_vector (pick "-i" t) = Ok ["1"; "2"] /\ to_vector (pick "SRC" t) = Ok ["src"] /\ to_vector (pick "DST" t) = Ok ["dst"] /\
    getAdditionalArguments t = ["rest"]) /\
  not_asked_by shop ["src"; "-a"; "q"; "dst"; "rest"] [r_i; r_n].
Proof.
  assert (Gi : good_request shop r_i).
  { split; [vm_compute; tauto|]. split; [apply (Sp_short shop _ None "i"); [vm_compute; reflexivity | discriminate | intros X; vm_compute in X; discriminate X]|].
    split; [intros X; repeat (destruct X as [X|X]; [discriminate X|]); exact X|].
    assert (AR : arity_of (a_cfg (pick "-i" (ready shop))) = ARun) by (vm_compute; reflexivity). rewrite AR. cbn [suits]. intros v [<-|[<-|[]]]; vm_compute; reflexivity. }
  assert (Gn : good_request shop r_n) by (unfold r_n; good_one; apply (Sp_long shop _ (Some "y") "name"); [vm_compute; reflexivity | cbn; intuition discriminate]).
  assert (NZ : forall b, In b (arguments (ready shop)) -> isPositional b = true -> getNargs b <> 0%N).
  { refine (forall_arguments (ready shop) (fun b => negb (isPositional b) || negb (N.eqb (getNargs b) 0)) (fun b => isPositional b = true -> getNargs b <> 0%N) _ _); [vm_compute; reflexivity|].
    intros b H P E. rewrite P, E in H. discriminate H. }
  split; [|split; [|split; [|split; [|split]]]].
  - split; [apply shop_usable | apply shop_interprets | constructor; [exact Gi | constructor; [exact Gn | constructor]] | | eexists; constructor | left; reflexivity | line | line].
    intros q0 q E. change [r_i; r_n] with ([r_i] ++ [r_n]) in E. apply app_inj_tail in E. destruct E as [_ <-]. vm_compute. exact Logic.I.
  - eexists. split; [apply shop_usable | apply shop_interprets | constructor; [exact Gn | constructor; [exact Gi | constructor]] | | eexists; reaching | right; exact NZ | line | line].
    intros q0 q E. change [r_n; r_i] with ([r_n] ++ [r_i]) in E. apply app_inj_tail in E. destruct E as [_ <-]. vm_compute. right. reflexivity.
  - eexists. split; [apply shop_usable | apply shop_interprets | constructor; [exact Gi | constructor; [exact Gn | constructor]] | | eexists; reaching | right; exact NZ | line | line].
    intros q0 q E. change [r_i; r_n] with ([r_i] ++ [r_n]) in E. apply app_inj_tail in E. destruct E as [_ <-]. vm_compute. exact Logic.I.
  - intros a. assert (NE : a_id (r_arg r_i) <> a_id (r_arg r_n)) by (vm_compute; discriminate). cbn [filter].
    destruct (Nat.eqb_spec (a_id (r_arg r_n)) (a_id a)) as [Q|Q]; destruct (Nat.eqb_spec (a_id (r_arg r_i)) (a_id a)) as [Q'|Q']; try reflexivity. exfalso. apply NE. rewrite Q'. symmetry. exact Q.
  - eexists. split; [vm_compute; reflexivity|]. repeat (split; [vm_compute; reflexivity|]). vm_compute. reflexivity.
  - intros pcs q R Iq. assert (R' : exists pcs', reads shop ["src"; "-a"; "q"; "dst"; "rest"] pcs' /\ occs_for (a_id (r_arg r_i)) pcs' = [] /\ occs_for (a_id (r_arg r_n)) pcs' = []).
    { eexists. split; [reading|]. split; vm_compute; reflexivity. }
    destruct R' as [pcs' [R' [Oi On]]]. rewrite (Reading_det _ _ _ _ R _ R'). destruct Iq as [<-|[<-|[]]]; [exact Oi | exact On].
Qed.
Print Assumptions C85_example.
