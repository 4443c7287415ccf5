(** Proofs_Safe.v -- no undefined behaviour in parseArguments, whatever the nargs, the
    words and the number of iterations. *)
From Coq Require Import Permutation Sorted.
From Verif Require Import Base Model_Utils Model_Number Model_Types Model_Argument Model_Usage Model_Args Model_Api
  Spec_Order Spec_Names Spec_Reading Spec_Parse Spec_Finish Spec_History Spec_Api Spec_Result
  Proofs_Base Proofs_Order Proofs_Frame Proofs_Inv Proofs_Table Proofs_ReadFacts Proofs_Reading Proofs_Parse Proofs_Decl Proofs_Finish
  Proofs_Meth Proofs_History Proofs_Config Proofs_Central.

(** words inside argv can be read *)
Lemma argv_range_ok : forall argv n i, i + n <= length argv -> exists l, argv_range argv i n = Some l /\ length l = n.
Proof.
  intros argv. induction n as [|n IH]; intros i H; [now exists []|].
  cbn [argv_range]. destruct (nth_error argv i) as [w|] eqn:E.
  - destruct (IH (S i)) as [l [-> L]]; [lia|]. exists (w :: l). simpl. now rewrite L.
  - apply nth_error_None in E. lia.
Qed.
Lemma endIndex_le : forall argv, endOptionIndex argv <= length argv.
Proof. induction argv as [|w r IH]; simpl; [lia|]. destruct (isEndOption w); lia. Qed.

Section Safe.
  Variable s0 : state.
  Hypothesis W : table s0.
  (** no undefined behaviour from any state that differs from [s0] as parsing may *)
  Definition nice {A} (m : M A) : Prop := forall s, frame s0 s -> snd (m s) <> UB.

  Lemma nice_ret : forall {A} (a : A), nice (ret a). Proof. intros A a s _; discriminate. Qed.
  Lemma nice_throw : forall {A} k x y, nice (@throw A k x y). Proof. intros A k x y s _; discriminate. Qed.
  Lemma nice_fuel : forall {A}, nice (fun s => (s, @OutOfFuel A)). Proof. intros A s _; discriminate. Qed.
  Lemma nice_bind : forall {A B} (m : M A) (f : A -> M B), nice m -> keeps frame m -> (forall a, nice (f a)) -> nice (bind m f).
  Proof.
    intros A B m f Hm K Hf s F. specialize (Hm s F). specialize (K s). unfold bind.
    destruct (m s) as [s1 [a|e|o| |]]; simpl in *; try discriminate; try congruence.
    apply Hf. eapply frame_trans; eassumption.
  Qed.
  Lemma nice_get : forall {B} (f : state -> M B), (forall s, frame s0 s -> nice (f s)) -> nice (bind get f).
  Proof. intros B f H s F. unfold bind, get. now apply H. Qed.
  Lemma nice_modify : forall f, nice (modify f). Proof. intros f s _; discriminate. Qed.
  Lemma nice_set_dyn : forall id f, nice (set_dyn id f). Proof. intros id f s _; discriminate. Qed.
  Lemma nice_find : forall {B} n (f : option nat -> M B), nice (f None) ->
    (forall id, In (n, id) (s_map s0) -> nice (f (Some id))) -> nice (bind (find_name n) f).
  Proof.
    intros B n f H0 H1 s F. unfold bind, find_name. rewrite (fr_map _ _ F).
    destruct (assoc n (s_map s0)) as [id|] eqn:E; [|now apply H0]. apply H1; [|exact F]. now apply assoc_In.
  Qed.
  Lemma frame_find_id : forall s id a, frame s0 s -> find_id id (s_args s0) = Some a ->
    exists b, find_id id (s_args s) = Some b.
  Proof.
    intros s id a F H. apply find_id_In in H. destruct H as [I E].
    destruct (find_id id (s_args s)) as [b|] eqn:D; [now exists b|]. exfalso.
    apply find_id_none in D. apply D. rewrite <- E.
    assert (M : map a_id (s_args s) = map a_id (s_args s0)).
    { pose proof (fr_args _ _ F) as G. apply (f_equal (map (fun p => fst (fst p)))) in G. rewrite !map_map in G. exact G. }
    rewrite M. now apply in_map.
  Qed.
  Lemma nice_deref : forall n id, In (n, id) (s_map s0) -> nice (deref id).
  Proof.
    intros n id I s F. rewrite deref_eq.
    destruct (t_entry _ W _ _ I) as [a [Ia [E _]]]. subst id.
    destruct (frame_find_id s (a_id a) a F) as [b ->]; [|discriminate]. apply In_find_id; [apply (t_ids _ W) | exact Ia].
  Qed.
  Lemma names_some : forall s a, frame s0 s -> In a (s_args s) -> c_names (a_cfg a) <> [].
  Proof.
    intros s a F I. pose proof (table_has_name s (table_frame _ _ W F)) as H. rewrite forallb_forall in H. specialize (H a I).
    unfold has_name in H. now destruct (c_names (a_cfg a)).
  Qed.
  Lemma nice_front : forall l, l <> [] -> nice (front l).
  Proof. intros [|x l] H s _; [congruence | discriminate]. Qed.

  Section Words.
    Variable argv : list str.
    Lemma nice_at : forall i, i < length argv -> nice (argv_at argv i).
    Proof.
      intros i H s _. unfold argv_at. destruct (nth_error argv i) eqn:E; [discriminate|].
      apply nth_error_None in E. lia.
    Qed.
    Lemma nice_slice : forall i j, j <= length argv -> nice (argv_slice argv i j).
    Proof.
      intros i j H s _. unfold argv_slice. destruct (Nat.le_gt_cases j i) as [L|L].
      - replace (j - i) with 0 by lia. discriminate.
      - destruct (argv_range_ok argv (j - i) i) as [l [-> _]]; [lia | discriminate].
    Qed.
    Lemma nice_eoi_short : forall b cs, nice (eoi_short b cs).
    Proof.
      intros b; induction cs as [|c cs IH]; cbn [eoi_short].
      - apply nice_find; intros; apply nice_ret.
      - destruct cs as [|c' cs]; [apply nice_find; intros; apply nice_ret|].
        apply nice_find; [apply nice_ret|]. intros id I.
        apply nice_bind; [now apply nice_deref with (1 := I) | kp | intros a].
        destruct (negb b && takes_value (c_type (a_cfg a))); [apply nice_ret|].
        destruct (is_bool_option (c_type (a_cfg a))); [apply nice_ret | exact IH].
    Qed.
    Lemma nice_eoi : forall w, nice (endOfInfinite w).
    Proof.
      intros w; unfold endOfInfinite. destruct (isShortOption w).
      - destruct (takeArg w) as [[h o] x]. apply nice_get; intros s F.
        destruct (m_alternative _ && _); [apply nice_ret | apply nice_eoi_short].
      - destruct (isLongOption w); [|apply nice_ret]. destruct (takeArg w) as [[h o] x].
        apply nice_find; intros; apply nice_ret.
    Qed.
    Lemma nice_run : forall n id e i k, i + n <= length argv -> nice (run_loop id argv e n i k).
    Proof.
      induction n as [|n IH]; intros id e i k L; cbn [run_loop]; [apply nice_ret|].
      apply nice_bind; [apply nice_at; lia | auto with frame | intros w].
      apply nice_bind; [destruct e; [apply nice_ret | apply nice_eoi] | destruct e; [kp | auto with frame] | intros []]; [apply nice_ret|].
      apply nice_bind; [apply nice_set_dyn | auto with frame | intros _]. apply IH; lia.
    Qed.
    Lemma nice_run_to : forall m id e i k, m <= length argv -> nice (run_loop id argv e (m - i) i k).
    Proof.
      intros m id e i k H. destruct (Nat.le_gt_cases m i) as [L|L].
      - replace (m - i) with 0 by lia. apply nice_ret.
      - apply nice_run; lia.
    Qed.
    Lemma nice_group : forall fuel id n e m i k err, m <= length argv -> nice err -> nice (group_loop fuel id n argv e m i k err).
    Proof.
      induction fuel as [|f IH]; intros id n e m i k err L Ne; cbn [group_loop]; [apply nice_fuel|].
      destruct (Nat.ltb_spec i m); [|apply nice_ret].
      apply nice_bind; [apply nice_at; lia | auto with frame | intros w].
      apply nice_bind; [destruct e; [apply nice_ret | apply nice_eoi] | destruct e; [kp | auto with frame] | intros []]; [apply nice_ret|].
      destruct (N.ltb_spec (N.of_nat m) (szadd i n)); [exact Ne|].
      apply nice_bind; [apply nice_slice; lia | auto with frame | intros ws].
      apply nice_bind; [apply nice_set_dyn | auto with frame | intros _]. now apply IH.
    Qed.
    Lemma nice_parseArgument : forall fuel m i h o x n id, m <= length argv -> In (n, id) (s_map s0) ->
      nice (parseArgument fuel m argv i h o x id).
    Proof.
      intros fuel m i h o x n id L I. unfold parseArgument.
      apply nice_bind; [now apply nice_deref with (1 := I) | kp | intros a].
      apply nice_bind; [| destruct h; destruct (c_type (a_cfg a)); kk
                        | intros j; apply nice_bind; [apply nice_set_dyn | auto with frame | intros _; apply nice_ret]].
      assert (SL : forall p f, (N.of_nat m <=? p)%N = false -> (forall ws, nice (f ws)) -> nice (bind (argv_slice argv (S i) (S (N.to_nat p))) (f : _ -> M nat))).
      { intros p f Lp Hf. apply N.leb_gt in Lp. apply nice_bind; [apply nice_slice; lia | auto with frame | exact Hf]. }
      destruct h; destruct (c_type (a_cfg a)); try apply nice_ret; try apply nice_throw;
        repeat (apply nice_bind; [solve [apply nice_set_dyn | now apply nice_run_to | apply nice_group; [assumption | apply nice_throw]] | solve [kk] | intros ?]);
        try apply nice_ret;
        try (destruct (Nat.leb_spec m (i + 1)); [apply nice_throw|]; apply nice_bind; [apply nice_at; lia | solve [kk] | intros ?];
             apply nice_bind; [apply nice_set_dyn | solve [kk] | intros ?; apply nice_ret]);
        (cbv zeta; destruct (N.of_nat m <=? szadd i (c_nargs (a_cfg a)))%N eqn:Lp; [apply nice_throw|]; apply SL; [exact Lp | intros ws];
          apply nice_bind; [apply nice_set_dyn | solve [kk] | intros ?; apply nice_ret]).
    Qed.
    Lemma nice_short_loop : forall cs fuel m i h x, m <= length argv -> nice (short_loop fuel m argv i h x cs).
    Proof.
      induction cs as [|c cs IH]; intros fuel m i h x L; cbn [short_loop].
      - apply nice_find; [apply nice_throw|]. intros id I. now apply nice_parseArgument with (2 := I).
      - destruct cs as [|c' cs]; [apply nice_find; [apply nice_throw|]; intros id I; now apply nice_parseArgument with (2 := I)|].
        apply nice_find; [apply nice_throw|]. intros id I.
        apply nice_bind; [now apply nice_deref with (1 := I) | kp | intros a].
        destruct (negb h && takes_value (c_type (a_cfg a))).
        { apply nice_bind; [apply nice_set_dyn | auto with frame | intros _]. now apply nice_parseArgument with (2 := I). }
        destruct (negb (is_bool_option (c_type (a_cfg a)))); [apply nice_throw|].
        apply nice_bind; [apply nice_set_dyn | auto with frame | intros _]. now apply IH.
    Qed.
    Lemma nice_parseShort : forall fuel m i w, m <= length argv -> nice (parseShort fuel m argv i w).
    Proof.
      intros fuel m i w L; unfold parseShort. destruct (takeArg w) as [[h o] x]. apply nice_get; intros s F.
      destruct (m_alternative (s_modes s)); [|now apply nice_short_loop].
      rewrite (fr_map _ _ F). destruct (assoc (dash_str ^^ o) (s_map s0)) as [id|] eqn:E; [|now apply nice_short_loop].
      apply assoc_In in E. now apply nice_parseArgument with (2 := E).
    Qed.
    Lemma nice_parseLong : forall fuel m i w, m <= length argv -> nice (parseLong fuel m argv i w).
    Proof.
      intros fuel m i w L; unfold parseLong. destruct (takeArg w) as [[h o] x].
      apply nice_find; [apply nice_throw|]. intros id I. now apply nice_parseArgument with (2 := I).
    Qed.
    Lemma nice_parsePositional : forall fuel m i e, m <= length argv -> i < length argv ->
      nice (parsePositional fuel m argv i e).
    Proof.
      intros fuel m i e L Li; unfold parsePositional. apply nice_get; intros s F.
      destruct (next_positional s) as [b|] eqn:E.
      - apply find_some in E. destruct E as [Ib _]. pose proof (names_some s b F Ib) as Nb.
        assert (Ne : nice (do f <- front (c_names (a_cfg b)) ;; @bad_number nat f)).
        { apply nice_bind; [now apply nice_front | kp | intros; apply nice_throw]. }
        apply nice_bind; [| destruct (c_type (a_cfg b)); kk; apply frame_group; kk
                          | intros j; apply nice_bind; [apply nice_set_dyn | auto with frame | intros _; apply nice_ret]].
        destruct (c_type (a_cfg b)); try apply nice_ret.
        + apply nice_bind; [now apply nice_at | auto with frame | intros w].
          apply nice_bind; [apply nice_set_dyn | auto with frame | intros _; apply nice_ret].
        + cbv zeta. destruct (N.ltb_spec (N.of_nat m) (szadd i (c_nargs (a_cfg b)))); [exact Ne|].
          apply nice_bind; [apply nice_slice; lia | auto with frame | intros ws].
          apply nice_bind; [apply nice_set_dyn | auto with frame | intros _; apply nice_ret].
        + apply nice_bind; [now apply nice_run_to | auto with frame | intros; apply nice_ret].
        + apply nice_bind; [now apply nice_group | apply frame_group; kk | intros; apply nice_ret].
      - apply nice_bind; [now apply nice_at | auto with frame | intros w].
        destruct (m_strict _); [apply nice_throw|].
        apply nice_bind; [apply nice_modify | apply keeps_modify; intros t; constructor; reflexivity | intros _; apply nice_ret].
    Qed.
    Lemma nice_end_loop : forall fuel g i, nice (end_loop fuel g argv i).
    Proof.
      induction fuel as [|f IH]; intros g i; cbn [end_loop]; [apply nice_fuel|].
      destruct (Nat.ltb_spec i (length argv)); [|apply nice_ret].
      apply nice_bind; [now apply nice_parsePositional | auto with frame | intros j; apply IH].
    Qed.
    Lemma nice_parse_loop : forall fuel g e i, e <= length argv -> nice (parse_loop fuel g argv e i).
    Proof.
      induction fuel as [|f IH]; intros g e i L; cbn [parse_loop]; [apply nice_fuel|].
      destruct (Nat.ltb_spec i (length argv)); [|apply nice_ret].
      apply nice_bind; [now apply nice_at | auto with frame | intros w].
      destruct (isShortOption w); [apply nice_bind; [now apply nice_parseShort | auto with frame | intros j; now apply IH]|].
      destruct (isLongOption w); [apply nice_bind; [now apply nice_parseLong | auto with frame | intros j; now apply IH]|].
      destruct (isEndOption w); [apply nice_end_loop|].
      apply nice_bind; [now apply nice_parsePositional | auto with frame | intros j; now apply IH].
    Qed.
    Lemma nice_scan : forall fuel, s_bin s0 <> "" \/ argv <> [] -> snd (scan fuel argv s0) <> UB.
    Proof.
      intros fuel B. unfold scan, bind at 1.
      assert (Q : exists s1, set_binary argv s0 = (s1, Ok tt)).
      { unfold set_binary, bind, get. destruct (s_bin s0) eqn:Eb; [|eexists; reflexivity].
        destruct argv as [|w r]; [destruct B as [B|B]; exfalso; now apply B|]. eexists; reflexivity. }
      destruct Q as [s1 Q]. pose proof (frame_set_binary argv s0) as F. rewrite Q in *. simpl in F.
      apply nice_parse_loop; [apply endIndex_le | exact F].
    Qed.
  End Words.
End Safe.

Lemma after_scan_nice : forall s, table s -> pointers_ok s -> snd (after_scan s) <> UB /\ snd (after_scan s) <> OutOfFuel.
Proof.
  intros s W P. pose proof (finish_table s W P) as F. split; intros E.
  - rewrite E in F. remember UB as r eqn:Er. destruct F; try discriminate; destruct (m_helpex (s_modes s)), (m_verex (s_modes s)); discriminate.
  - rewrite E in F. remember OutOfFuel as r eqn:Er. destruct F; try discriminate; destruct (m_helpex (s_modes s)), (m_verex (s_modes s)); discriminate.
Qed.

Lemma bin_prepared : forall s, s_bin (prepared s) = s_bin s.
Proof. intros s. unfold prepared. destruct (s_help s); [reflexivity|]. destruct (free_help s); reflexivity. Qed.
Lemma pointers_prepared : forall s, pointers_ok s -> pointers_ok (prepared s).
Proof.
  intros s P. assert (PC : pointers_ok (cleared s)) by (eapply pointers_frame; [apply frame_clear_args | exact P]).
  unfold prepared. destruct (s_help s) eqn:H; [exact PC|]. destruct (free_help s) as [|x l] eqn:F; [exact PC|].
  apply pointing_ok. apply ok_pointing in PC. destruct PC as [_ P2]. split.
  - simpl. exists (Arg (fresh_id (cleared s)) 0 (help_cfg (free_help (cleared s))) new_dyn). split; [|reflexivity].
    apply sort_In. apply in_app_iff. right. now left.
  - unfold with_auto_help. cbn [s_version s_args with_help registered with_args with_map].
    eapply points_incl; [|exact P2]. intros a Ia. apply sort_In. apply in_app_iff. now left.
Qed.
Lemma table_auto : forall s, table s -> s_help s = None -> free_help s <> [] -> table (with_auto_help s).
Proof.
  intros s [T1 T2 T3 T4 T5] H F. set (c := help_cfg (free_help s)).
  pose proof (keys_insert_fold (c_names c) (fresh_id s) _ T2) as KD.
  assert (IN : forall a, In a (s_args (with_auto_help s)) <-> In a (s_args s) \/ a = Arg (fresh_id s) 0 c new_dyn).
  { intros a. unfold with_auto_help, registered. cbn [s_args with_help with_args with_map].
    rewrite (sort_In arg_lt a), in_app_iff. cbn [In]. split; [intros [K|[K|[]]] | intros [K|K]]; auto. }
  constructor.
  - unfold with_auto_help, registered. cbn [s_args with_help with_args with_map]. eapply Permutation_NoDup; [apply Permutation_map, sort_perm|]. rewrite map_app.
    apply (Permutation_NoDup (l := fresh_id s :: map a_id (s_args s))); [apply Permutation_cons_append|]. constructor; [apply fresh_id_new | exact T1].
  - exact KD.
  - intros n id K. apply (In_assoc _ _ _ KD) in K. rewrite assoc_insert_fold in K. destruct (assoc n (s_map s)) eqn:A.
    + injection K as ->. apply assoc_In in A. destruct (T3 _ _ A) as [a [I Q]]. exists a; split; [apply IN; now left | exact Q].
    + destruct (mem_str n (c_names c)) eqn:Mn; [|discriminate]. injection K as <-. eexists; split; [apply IN; right; reflexivity|].
      split; [reflexivity|]. now apply mem_str_In in Mn.
  - intros a I. apply IN in I. destruct I as [I| ->]; [now apply T4 | exact F].
  - intros a I. apply IN in I. destruct I as [I| ->]; [now apply T5|]. intros _. cbn [a_cfg c_names c help_cfg]. unfold free_help.
    destruct (mem_key "-h" (s_map s)), (mem_key "--help" (s_map s)); repeat constructor.
Qed.
Lemma table_prepared : forall s, table s -> table (prepared s).
Proof.
  intros s T. pose proof (table_cleared s T) as Tc. unfold prepared. destruct (s_help s) eqn:H; [exact Tc|]. destruct (free_help s) as [|x l] eqn:F; [exact Tc|].
  apply table_auto; [exact Tc | exact H |]. change (free_help (cleared s)) with (free_help s). rewrite F. discriminate.
Qed.

Theorem parse_safe_table : forall fuel argv s, table s -> pointers_ok s -> s_bin s <> "" \/ argv <> [] ->
  snd (parse_with fuel argv s) <> UB.
Proof.
  intros fuel argv s W P B. destruct (parse_with_table fuel argv s W) as [E1 E2].
  destruct (interprets_dec s) as [I|I]; [rewrite E1 by exact I | rewrite E2 by exact I; discriminate].
  pose proof (table_prepared s W) as Wp.
  assert (Sc : snd (scan fuel argv (prepared s)) <> UB) by (apply nice_scan; [exact Wp | now rewrite bin_prepared]).
  pose proof (frame_scan fuel argv (prepared s)) as F. unfold bind.
  destruct (scan fuel argv (prepared s)) as [s1 [u|e|o| |]]; simpl in *; try discriminate; [|congruence].
  apply after_scan_nice; [exact (table_frame _ _ Wp F)|]. eapply pointers_frame; [exact F|]. apply pointers_prepared; exact P.
Qed.
Theorem parse_safe : forall fuel argv s, wf s -> pointers_ok s -> s_bin s <> "" \/ argv <> [] ->
  snd (parse_with fuel argv s) <> UB.
Proof. intros fuel argv s W. exact (parse_safe_table fuel argv s (wf0_table s (proj1 W))). Qed.
