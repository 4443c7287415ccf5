(** Proofs_Reading.v -- the scanning loop of parseArguments computes the reading of
    the command line described in Spec_Reading.v. *)
From Coq Require Import Permutation Sorted.
From Verif Require Import Base Model_Utils Model_Number Model_Types Model_Argument Model_Usage Model_Args Model_Api
  Spec_Order Spec_Names Spec_Reading Proofs_Base Proofs_Order Proofs_Frame Proofs_Inv.

(* ------------------------------------------------------------------ *)
(** * words *)
Lemma cstr_cons : forall c r, cstr (String c r) = true -> c <> nul /\ cstr r = true.
Proof.
  intros c r H; simpl in H. apply andb_true_iff in H. destruct H as [H1 H2].
  apply negb_true_iff, Ascii.eqb_neq in H1. auto.
Qed.
Lemma kind_spec : forall w, cstr w = true ->
  isShortOption w = (match word_kind w with WShort => true | _ => false end) /\
  isLongOption w = (match word_kind w with WLong => true | _ => false end) /\
  isEndOption w = (match word_kind w with WEnd => true | _ => false end).
Proof.
  intros w H. unfold isShortOption, isLongOption, isEndOption, cget, word_kind.
  destruct w as [|a [|b r]]; simpl.
  - repeat split.
  - destruct (Ascii.eqb a dash) eqn:E; simpl; change dash with "-"%char in E; rewrite E; repeat split.
  - change dash with "-"%char in *. destruct (Ascii.eqb a "-"); simpl; [|repeat split].
    apply cstr_cons in H. destruct H as [_ H]. apply cstr_cons in H. destruct H as [Nb H].
    destruct (Ascii.eqb b "-") eqn:Eb; simpl.
    + destruct r as [|c r]; simpl; [repeat split|].
      apply cstr_cons in H. destruct H as [Nc _]. apply Ascii.eqb_neq in Nc.
      rewrite Nc. repeat split.
    + apply Ascii.eqb_neq in Nb. rewrite Nb. repeat split.
Qed.
Lemma kind_end : forall w, word_kind w = WEnd <-> w = "--".
Proof.
  intros w; split.
  - unfold word_kind. destruct w as [|a [|b [|c r]]]; simpl; try discriminate.
    + destruct (Ascii.eqb a "-"); discriminate.
    + destruct (Ascii.eqb_spec a "-"); [|discriminate]. destruct (Ascii.eqb_spec b "-"); [|discriminate]. subst; reflexivity.
    + destruct (Ascii.eqb a "-"); [|discriminate]. destruct (Ascii.eqb b "-"); discriminate.
  - intros ->; reflexivity.
Qed.

Lemma split_cut : forall w, cut_eq w = match split_eq w with Some (n, v) => (n, Some v) | None => (w, None) end.
Proof.
  induction w as [|c w IH]; simpl; [reflexivity|].
  change equal_sign with "="%char. destruct (Ascii.eqb c "="); [reflexivity|].
  rewrite IH. destruct (split_eq w) as [[n v]|]; reflexivity.
Qed.
Lemma takeArg_cut : forall w, takeArg w =
  match cut_eq w with (n, Some v) => (true, n, v) | (n, None) => (false, n, "") end.
Proof. intros w; unfold takeArg. rewrite split_cut. destruct (split_eq w) as [[n v]|]; reflexivity. Qed.
Lemma sdrop1 : forall s, sdrop 1 s = after1 s.
Proof. intros [|c [|d s]]; reflexivity. Qed.
Lemma sdrop2 : forall s, sdrop 2 s = after2 s.
Proof. intros [|c [|d [|e s]]]; reflexivity. Qed.

Lemma kind_short_form : forall w, word_kind w = WShort -> exists c r, w = String "-" (String c r) /\ c <> "-"%char.
Proof.
  intros [|a [|b r]]; simpl; try discriminate.
  - destruct (Ascii.eqb a "-"); discriminate.
  - destruct (Ascii.eqb_spec a "-"); [|discriminate]. destruct (Ascii.eqb_spec b "-") as [|N]; [destruct r; discriminate|].
    intros _. subst. eauto.
Qed.
Lemma kind_long_form : forall w, word_kind w = WLong -> exists c r, w = String "-" (String "-" (String c r)).
Proof.
  intros [|a [|b r]]; simpl; try discriminate.
  - destruct (Ascii.eqb a "-"); discriminate.
  - destruct (Ascii.eqb_spec a "-"); [|discriminate]. destruct (Ascii.eqb_spec b "-") as [|N]; [|discriminate].
    destruct r; [discriminate|]. intros _; subst. eauto.
Qed.

(* ------------------------------------------------------------------ *)
(** * configuration of a state *)
Lemma conf_frame : forall s s', frame s s' -> conf_of s' = conf_of s.
Proof.
  intros s s' [F M _ _ _ Md _ _]. unfold conf_of. rewrite M, Md. f_equal.
  assert (G : forall l l', map static l' = map static l ->
     map (fun a => (a_id a, a_cfg a)) l' = map (fun a => (a_id a, a_cfg a)) l).
  { induction l as [|a l IH]; intros [|b l'] E; simpl in *; try discriminate; [reflexivity|].
    injection E; intros. f_equal; [congruence | auto]. }
  auto.
Qed.
Lemma frame_wf0 : forall s s', wf0 s -> frame s s' -> wf0 s'.
Proof. intros s s' W F; eapply shape_wf0; [exact W | now apply frame_shape]. Qed.

Lemma find_conf_args : forall id l,
  find (fun p : nat * acfg => Nat.eqb (fst p) id) (map (fun a => (a_id a, a_cfg a)) l) =
  option_map (fun a => (a_id a, a_cfg a)) (find_id id l).
Proof.
  intros id l. unfold find_id. induction l as [|a l IH]; simpl; [reflexivity|].
  destruct (Nat.eqb (a_id a) id); [reflexivity | exact IH].
Qed.

Lemma lookup_cases : forall s n, wf0 s ->
  (assoc n (s_map s) = None /\ k_find (conf_of s) n = None) \/
  (exists a, In a (s_args s) /\ assoc n (s_map s) = Some (a_id a) /\ find_id (a_id a) (s_args s) = Some a /\
     k_find (conf_of s) n = Some (a_id a, a_cfg a) /\ In n (c_names (a_cfg a))).
Proof.
  intros s n W. unfold k_find, conf_of; simpl. destruct (assoc n (s_map s)) as [id|] eqn:A; [right | now left].
  destruct (wf_entry s W _ _ (assoc_In _ _ _ A)) as [a [I [E N]]]. subst id.
  exists a. rewrite find_conf_args. pose proof (In_find_id _ _ (wf_ids s W) I) as F. rewrite F. repeat split; auto.
Qed.
Lemma k_has_mem : forall s n, wf0 s -> k_has (conf_of s) n = mem_key n (s_map s).
Proof.
  intros s n W. unfold k_has, mem_key. destruct (lookup_cases s n W) as [[-> ->]|[a [_ [-> [_ [-> _]]]]]]; reflexivity.
Qed.
Lemma dash_option : forall s a n, wf0 s -> In a (s_args s) -> In n (c_names (a_cfg a)) -> starts_dash n = true ->
  is_positional (c_type (a_cfg a)) = false.
Proof.
  intros s a n W I N D. destruct (is_positional (c_type (a_cfg a))) eqn:P; [|reflexivity].
  destruct (wf_pos s W a I P) as [m [E PN]]. rewrite E in N. destruct N as [<-|[]].
  apply plain_no_dash in PN. congruence.
Qed.
(** "--" is never registered *)
Lemma no_dashdash : forall s, wf0 s -> assoc "--" (s_map s) = None.
Proof.
  intros s W. destruct (lookup_cases s "--" W) as [[-> _]|[a [I [_ [_ [_ N]]]]]]; [reflexivity|exfalso].
  pose proof (dash_option s a "--" W I N eq_refl) as P.
  destruct (wf_opt s W a I P) as [F _]. rewrite Forall_forall in F. specialize (F _ N). discriminate F.
Qed.

(* ------------------------------------------------------------------ *)
(** * updating the values of one argument *)
Definition upd_dyn (id : nat) (f : adyn -> adyn) (s : state) : state :=
  with_args s (upd_id id (fun a => arg_dyn a (f (a_dyn a))) (s_args s)).
Lemma set_dyn_eq : forall id f s, set_dyn id f s = (upd_dyn id f s, Ok tt).
Proof. reflexivity. Qed.
Lemma upd_dyn_comp : forall id f g s, upd_dyn id g (upd_dyn id f s) = upd_dyn id (fun d => g (f d)) s.
Proof.
  intros. unfold upd_dyn, with_args; simpl. f_equal. rewrite upd_id_comp by reflexivity. reflexivity.
Qed.
Lemma with_args_id : forall s, with_args s (s_args s) = s.
Proof. intros []; reflexivity. Qed.
Lemma upd_dyn_ext : forall id f g s,
  (forall a, In a (s_args s) -> a_id a = id -> f (a_dyn a) = g (a_dyn a)) -> upd_dyn id f s = upd_dyn id g s.
Proof. intros. unfold upd_dyn. f_equal. apply upd_id_ext. intros a I E. now rewrite H. Qed.
Lemma upd_dyn_id : forall id f s, (forall d, f d = d) -> upd_dyn id f s = s.
Proof.
  intros. unfold upd_dyn. rewrite upd_id_id; [apply with_args_id|]. intros a _ _. rewrite H. now destruct a.
Qed.
Lemma frame_upd_dyn : forall id f s, frame s (upd_dyn id f s).
Proof. intros. exact (frame_set_dyn id f s). Qed.
Lemma find_upd_dyn : forall id f s a, find_id id (s_args s) = Some a ->
  find_id id (s_args (upd_dyn id f s)) = Some (arg_dyn a (f (a_dyn a))).
Proof. intros. unfold upd_dyn; simpl. rewrite find_upd_same by reflexivity. now rewrite H. Qed.
Lemma conf_upd_dyn : forall id f s, conf_of (upd_dyn id f s) = conf_of s.
Proof. intros; apply conf_frame, frame_upd_dyn. Qed.
Lemma wf0_upd_dyn : forall id f s, wf0 s -> wf0 (upd_dyn id f s).
Proof. intros; eapply frame_wf0; [exact H | apply frame_upd_dyn]. Qed.

(* ------------------------------------------------------------------ *)
(** * the end of a run of values *)
Lemma eoi_short_eq : forall cs s hasArg, wf0 s ->
  eoi_short hasArg cs s = (s, Ok (stops_bundle (conf_of s) hasArg cs)).
Proof.
  induction cs as [|c cs IH]; intros s hasArg W.
  - simpl. unfold bind, find_name. change (dash_str ^^ dash_str) with "--". now rewrite no_dashdash.
  - change (one_char c) with (dash_str ^^ str1 c).
    destruct cs as [|c' cs].
    + simpl. unfold bind, find_name. change (String dash (str1 c)) with (one_char c).
      destruct (lookup_cases s (one_char c) W) as [[-> ->]|[a [_ [-> [_ [-> _]]]]]]; reflexivity.
    + cbn [eoi_short stops_bundle]. unfold bind, find_name. change (dash_str ^^ str1 c) with (one_char c).
      destruct (lookup_cases s (one_char c) W) as [[-> ->]|[a [_ [-> [F [-> _]]]]]]; [reflexivity|].
      rewrite deref_eq, F. unfold glues, is_flag_type. cbv zeta.
      unfold takes_value, is_bool_option. specialize (IH s hasArg W).
      destruct hasArg, (c_type (a_cfg a)); cbn [negb andb orb]; try reflexivity; exact IH.
Qed.
Lemma eoi_eq : forall w s, wf0 s -> cstr w = true -> endOfInfinite w s = (s, Ok (stops (conf_of s) w)).
Proof.
  intros w s W C. unfold endOfInfinite, stops. destruct (kind_spec w C) as [-> [-> _]].
  rewrite takeArg_cut. destruct (cut_eq w) as [name value]. destruct (word_kind w).
  - assert (E : (let '(hasArg, option, _) := match value with Some v => (true, name, v) | None => (false, name, "") end in
                 do s <- get ;; if m_alternative (s_modes s) && mem_key (dash_str ^^ option) (s_map s) then ret true
                   else eoi_short hasArg (sdrop 1 option)) s =
             (s, Ok (k_alt (conf_of s) && k_has (conf_of s) (String "-" name)
                      || stops_bundle (conf_of s) (match value with Some _ => true | None => false end) (after1 name)))).
    { rewrite k_has_mem by exact W. change (dash_str ^^ name) with (String "-" name).
      destruct value; unfold bind, get; cbv beta iota zeta; change (dash_str ^^ name) with (String "-" name);
      (change (k_alt (conf_of s)) with (m_alternative (s_modes s));
       destruct (m_alternative (s_modes s) && mem_key (String "-" name) (s_map s)); [reflexivity|];
       rewrite sdrop1, eoi_short_eq by exact W; reflexivity). }
    exact E.
  - assert (E : (let '(_, option, _) := match value with Some v => (true, name, v) | None => (false, name, "") end in
                 do o <- find_name option ;; ret (match o with Some _ => true | None => false end)) s =
             (s, Ok (k_has (conf_of s) name))).
    { rewrite k_has_mem by exact W. unfold mem_key. destruct value; reflexivity. }
    exact E.
  - reflexivity.
  - reflexivity.
Qed.

(* ------------------------------------------------------------------ *)
(** * lists of words *)
Lemma argv_range_eq : forall n i argv, i + n <= length argv -> argv_range argv i n = Some (firstn n (skipn i argv)).
Proof.
  induction n as [|n IH]; intros i argv H; simpl; [reflexivity|].
  destruct (nth_error argv i) as [w|] eqn:E.
  - rewrite IH by lia. f_equal.
    assert (G : skipn i argv = w :: skipn (S i) argv).
    { clear -E. revert argv E; induction i; intros [|x l] E; simpl in *; try discriminate; [congruence|]. now apply IHi. }
    rewrite G. reflexivity.
  - apply nth_error_None in E. lia.
Qed.
Lemma skipn_nth : forall {A} i (l : list A) w r, skipn i l = w :: r -> nth_error l i = Some w /\ skipn (S i) l = r /\ i < length l.
Proof.
  induction i; intros [|x l] w r H; simpl in *; try discriminate.
  - injection H as -> ->. repeat split; lia.
  - destruct (IHi _ _ _ H) as [H1 [H2 H3]]. repeat split; auto. lia.
Qed.
Lemma skipn_cons_nth : forall {A} i (l : list A), i < length l -> exists w, nth_error l i = Some w /\ skipn i l = w :: skipn (S i) l.
Proof.
  induction i; intros [|x l] H; simpl in *; try lia.
  - exists x; auto.
  - destruct (IHi l ltac:(lia)) as [w [H1 H2]]. exists w; auto.
Qed.
Lemma argv_at_eq : forall argv i w s, nth_error argv i = Some w -> argv_at argv i s = (s, Ok w).
Proof. intros. unfold argv_at. now rewrite H. Qed.
Lemma argv_slice_eq : forall argv i j s, i <= j -> j <= length argv ->
  argv_slice argv i j s = (s, Ok (firstn (j - i) (skipn i argv))).
Proof. intros. unfold argv_slice. rewrite argv_range_eq by lia. reflexivity. Qed.
Lemma Forall_skipn : forall {A} (P : A -> Prop) i l, Forall P l -> Forall P (skipn i l).
Proof. intros A P; induction i; intros [|x l] H; simpl; auto. inversion H; auto. Qed.
Lemma Forall_firstn : forall {A} (P : A -> Prop) i l, Forall P l -> Forall P (firstn i l).
Proof. intros A P; induction i; intros [|x l] H; simpl; auto. inversion H; auto. Qed.

(* ------------------------------------------------------------------ *)
(** * run_loop *)
Definition push (es : list elem) (d : adyn) : adyn := dyn_elems d (d_elems d ++ es).
Lemma push_nil : forall d, push [] d = d.
Proof. intros []; unfold push, dyn_elems; simpl. now rewrite app_nil_r. Qed.
Lemma push_push : forall es es' d, push es' (push es d) = push (es ++ es') d.
Proof. intros; unfold push, dyn_elems; simpl. now rewrite app_assoc. Qed.
Definition stop_of (hasEnd : bool) (K : conf) : str -> bool := if hasEnd then no_stop else stops K.
Lemma stop_check : forall (hasEnd : bool) w s, wf0 s -> cstr w = true ->
  (if hasEnd then ret false else endOfInfinite w) s = (s, Ok (stop_of hasEnd (conf_of s) w)).
Proof. intros [] w s W C; [reflexivity | now apply eoi_eq]. Qed.

Lemma run_loop_eq : forall n i count s id argv hasEnd, wf0 s -> Forall (fun w => cstr w = true) argv ->
  i + n <= length argv ->
  let ws := run_of (stop_of hasEnd (conf_of s)) (firstn n (skipn i argv)) in
  run_loop id argv hasEnd n i count s =
    (upd_dyn id (push (map elem_word ws)) s, Ok (count + length ws)).
Proof.
  induction n as [|n IH]; intros i count s id argv hasEnd W C L ws.
  - subst ws. simpl. rewrite upd_dyn_id by apply push_nil. now rewrite Nat.add_0_r.
  - destruct (skipn_cons_nth i argv ltac:(lia)) as [w [Nw Sw]].
    assert (Cw : cstr w = true).
    { rewrite Forall_forall in C. apply C. eapply nth_error_In; exact Nw. }
    subst ws. cbn [run_loop]. unfold bind. rewrite (argv_at_eq _ _ _ _ Nw), (stop_check hasEnd w s W Cw).
    rewrite Sw. cbn [firstn run_of]. destruct (stop_of hasEnd (conf_of s) w).
    + simpl. rewrite upd_dyn_id by apply push_nil. now rewrite Nat.add_0_r.
    + unfold push_elems. rewrite set_dyn_eq. change (fun d => dyn_elems d (d_elems d ++ [word_elem w])) with (push [elem_word w]).
      rewrite IH; [|now apply wf0_upd_dyn|exact C|lia].
      rewrite conf_upd_dyn, upd_dyn_comp. f_equal; [|f_equal; simpl; lia].
      apply upd_dyn_ext. intros; now rewrite push_push.
Qed.

(* ------------------------------------------------------------------ *)
(** * group_loop *)
Lemma groups_from_inside : forall stop n k l, k <= length l ->
  groups_from stop n k l = option_map (app (firstn k l)) (groups_from stop n 0 (skipn k l)).
Proof.
  induction k as [|k IH]; intros l H; simpl.
  - destruct (groups_from stop n 0 l); reflexivity.
  - destruct l as [|w l]; simpl in *; [lia|]. rewrite IH by lia.
    destruct (groups_from stop n 0 (skipn k l)); reflexivity.
Qed.
Lemma groups_from_short : forall stop n k l, length l < k -> groups_from stop n k l = None.
Proof.
  induction k as [|k IH]; intros l H; [lia|]. destruct l as [|w l]; simpl in *; [reflexivity|]. now rewrite IH by lia.
Qed.
Lemma groups_from_step : forall stop n l w, 0 < n -> hd_error l = Some w ->
  groups_from stop n 0 l =
    if stop w then Some []
    else if Nat.ltb (length l) n then None
    else option_map (app (firstn n l)) (groups_from stop n 0 (skipn n l)).
Proof.
  intros stop n [|x l] w Hn E; [discriminate|]. injection E as ->. cbn [groups_from]. destruct (stop w); [reflexivity|].
  destruct n as [|n]; [lia|]. replace (S n - 1) with n by lia.
  destruct (Nat.ltb_spec (length (w :: l)) (S n)) as [H|H]; simpl in H.
  - rewrite groups_from_short by lia. reflexivity.
  - rewrite groups_from_inside by lia. simpl. destruct (groups_from stop (S n) 0 (skipn n l)); reflexivity.
Qed.
Lemma map_seq_S : forall {A} (f : nat -> A) a k, map f (seq (S a) k) = map (fun i => f (S i)) (seq a k).
Proof. intros A f a k. rewrite <- seq_shift, map_map. reflexivity. Qed.
Lemma skipn_skipn' : forall {A} a b (l : list A), skipn a (skipn b l) = skipn (b + a) l.
Proof.
  intros A a b; revert a; induction b; intros a l; simpl; [reflexivity|]. destruct l; [now rewrite skipn_nil|]. apply IHb.
Qed.
Lemma chunks_cons : forall {A} n (g r : list A), 0 < n -> length g = n -> chunks n (g ++ r) = g :: chunks n r.
Proof.
  intros A n g r Hn Hg. unfold chunks. rewrite app_length, Hg.
  replace (n + length r) with (length r + 1 * n) by lia. rewrite Nat.div_add by lia.
  rewrite Nat.add_1_r. cbn [seq map]. f_equal.
  - simpl. rewrite <- Hg, firstn_app, Nat.sub_diag, firstn_all. simpl. now rewrite app_nil_r.
  - rewrite map_seq_S. apply map_ext. intros i. f_equal.
    rewrite skipn_app, Hg. replace (S i * n - n) with (i * n) by lia.
    rewrite skipn_all2 by (rewrite Hg; lia). reflexivity.
Qed.
Lemma chunks_nil : forall {A} n, @chunks A n [] = [].
Proof. intros A [|n]; reflexivity. Qed.

Definition throws {A} (m : M A) (e : exn) : Prop := forall s, m s = (s, Throw e).

Lemma szadd_small : forall i n, (N.of_nat i + n < w64)%N -> szadd i n = (N.of_nat i + n)%N.
Proof. intros; unfold szadd. now rewrite N.mod_small. Qed.

Lemma firstn_app_exact : forall {A} n (l : list A), n <= length l -> length (firstn n l) = n.
Proof. intros; rewrite firstn_length; lia. Qed.
Lemma firstn_sub_skipn : forall {A} n k (l : list A), n <= k -> firstn n (firstn k l) = firstn n l.
Proof. intros; rewrite firstn_firstn. f_equal; lia. Qed.

Lemma group_loop_eq : forall fuel i count s id n argv hasEnd maxIndex err e,
  wf0 s -> Forall (fun w => cstr w = true) argv -> (0 < n)%N -> (N.of_nat (length argv) + n < w64)%N ->
  i <= maxIndex -> maxIndex <= length argv -> maxIndex - i < fuel -> throws err e ->
  match groups_from (stop_of hasEnd (conf_of s)) (N.to_nat n) 0 (firstn (maxIndex - i) (skipn i argv)) with
  | Some ws => group_loop fuel id n argv hasEnd maxIndex i count err s =
      (upd_dyn id (push (map elem_group (chunks (N.to_nat n) ws))) s, Ok (count + length ws))
  | None => exists s1, frame s s1 /\ group_loop fuel id n argv hasEnd maxIndex i count err s = (s1, Throw e)
  end.
Proof.
  induction fuel as [|fuel IH]; intros i count s id n argv hasEnd maxIndex err e W C Hn HN Hi Hm Hf HE; [lia|].
  cbn [group_loop]. destruct (Nat.ltb_spec i maxIndex) as [Lt|Ge].
  - destruct (skipn_cons_nth i argv ltac:(lia)) as [w [Nw Sw]].
    assert (Cw : cstr w = true).
    { rewrite Forall_forall in C. apply C. eapply nth_error_In; exact Nw. }
    set (avail := firstn (maxIndex - i) (skipn i argv)).
    assert (HL : length avail = maxIndex - i).
    { subst avail. rewrite firstn_length, skipn_length. lia. }
    assert (Hh : hd_error avail = Some w).
    { subst avail. rewrite Sw. destruct (maxIndex - i) eqn:Q; [lia | reflexivity]. }
    rewrite (groups_from_step (stop_of hasEnd (conf_of s)) (N.to_nat n) avail w ltac:(lia) Hh).
    unfold bind. rewrite (argv_at_eq _ _ _ _ Nw), (stop_check hasEnd w s W Cw).
    destruct (stop_of hasEnd (conf_of s) w).
    + rewrite chunks_nil. simpl. rewrite upd_dyn_id by apply push_nil. now rewrite Nat.add_0_r.
    + rewrite szadd_small by lia.
      destruct (N.ltb_spec (N.of_nat maxIndex) (N.of_nat i + n)) as [Bad|Good].
      * destruct (Nat.ltb_spec (length avail) (N.to_nat n)); [|lia].
        exists s; split; [apply frame_refl | apply HE].
      * destruct (Nat.ltb_spec (length avail) (N.to_nat n)); [lia|].
        set (nn := N.to_nat n) in *.
        assert (Hnext : N.to_nat (N.of_nat i + n) = i + nn) by lia. rewrite Hnext.
        rewrite argv_slice_eq by lia. replace (i + nn - i) with nn by lia.
        unfold push_elems. rewrite set_dyn_eq.
        change (fun d => dyn_elems d (d_elems d ++ [group_elem (firstn nn (skipn i argv))])) with (push [elem_group (firstn nn (skipn i argv))]).
        assert (HG : firstn nn avail = firstn nn (skipn i argv)) by (subst avail; apply firstn_sub_skipn; lia).
        assert (HS : skipn nn avail = firstn (maxIndex - (i + nn)) (skipn (i + nn) argv)).
        { subst avail. rewrite skipn_firstn_comm, skipn_skipn'. f_equal; lia. }
        set (g := firstn nn (skipn i argv)) in *.
        assert (Lg : length g = nn) by (subst g; rewrite <- HG; apply firstn_app_exact; lia).
        specialize (IH (i + nn) (count + length g) (upd_dyn id (push [elem_group g]) s) id n argv hasEnd maxIndex err e
          (wf0_upd_dyn _ _ _ W) C Hn HN ltac:(lia) Hm ltac:(lia) HE).
        rewrite conf_upd_dyn in IH. fold nn in IH. rewrite <- HS in IH.
        destruct (groups_from (stop_of hasEnd (conf_of s)) nn 0 (skipn nn avail)) as [ws|]; simpl.
        -- rewrite IH, upd_dyn_comp, HG. f_equal; [|f_equal; rewrite app_length; lia].
           apply upd_dyn_ext. intros a _ _. rewrite push_push. f_equal.
           rewrite chunks_cons by lia. reflexivity.
        -- destruct IH as [s1 [F E]]. exists s1; split; [|exact E].
           eapply frame_trans; [apply frame_upd_dyn | exact F].
  - replace (maxIndex - i) with 0 by lia. simpl. rewrite chunks_nil. simpl.
    rewrite upd_dyn_id by apply push_nil. now rewrite Nat.add_0_r.
Qed.

(* ------------------------------------------------------------------ *)
(** * occurrences *)
Definition apply_occ (s : state) (o : occ) : state :=
  with_args s (upd_id (o_id o) (fun a => arg_dyn a (occ_dyn (a_cfg a) o (a_dyn a))) (s_args s)).
Lemma apply_occ_upd : forall s o a, wf0 s -> find_id (o_id o) (s_args s) = Some a ->
  apply_occ s o = upd_dyn (o_id o) (occ_dyn (a_cfg a) o) s.
Proof.
  intros s o a W F. unfold apply_occ, upd_dyn. f_equal. apply upd_id_ext. intros b Ib Eb.
  apply find_id_In in F. destruct F as [Ia Ea].
  now rewrite (wf_unique s b a W Ib Ia ltac:(congruence)).
Qed.
Lemma frame_apply_occ : forall s o, frame s (apply_occ s o).
Proof.
  intros s o; constructor; try reflexivity. simpl. unfold upd_id. rewrite map_map. apply map_ext.
  intros a. now destruct (Nat.eqb (a_id a) (o_id o)).
Qed.
Lemma wf0_apply_occ : forall s o, wf0 s -> wf0 (apply_occ s o).
Proof. intros; eapply frame_wf0; [exact H | apply frame_apply_occ]. Qed.
Lemma conf_apply_occ : forall s o, conf_of (apply_occ s o) = conf_of s.
Proof. intros; apply conf_frame, frame_apply_occ. Qed.
Lemma find_apply_occ : forall s o id a, find_id id (s_args s) = Some a ->
  exists a', find_id id (s_args (apply_occ s o)) = Some a' /\ a_cfg a' = a_cfg a.
Proof.
  intros s o id a F. unfold apply_occ; simpl. destruct (Nat.eq_dec id (o_id o)) as [->|N].
  - rewrite find_upd_same by reflexivity. rewrite F. eexists; split; reflexivity.
  - rewrite find_upd_other by (auto; reflexivity). exists a; auto.
Qed.

(** no argument has an absurd nargs for a command line of that many words, and
    groups are not empty *)
Definition sane (len : nat) (s : state) : Prop :=
  forall a, In a (s_args s) ->
    (N.of_nat len + c_nargs (a_cfg a) < w64)%N /\
    (forall n, arity_of (a_cfg a) = AGroups n -> 0 < n) /\
    (c_type (a_cfg a) = MULTI_NUMBER_OPTION -> 0 < N.to_nat (c_nargs (a_cfg a))).
Lemma sane_frame : forall len s s', sane len s -> frame s s' -> sane len s'.
Proof.
  intros len s s' H [F _ _ _ _ _ _ _] a I.
  assert (exists b, In b (s_args s) /\ a_cfg b = a_cfg a) as [b [Ib <-]].
  { apply (in_map static) in I. rewrite F in I. apply in_map_iff in I. destruct I as [b [E I]].
    exists b; split; [exact I|]. unfold static in E. congruence. }
  now apply H.
Qed.

Lemma bind_assoc_eq : forall {A B} (m : M A) (f : A -> M B) s s1 r,
  m s = (s1, r) -> bind m f s = match r with Ok a => f a s1 | Throw e => (s1, Throw e) | Exit o => (s1, Exit o) | UB => (s1, UB) | OutOfFuel => (s1, OutOfFuel) end.
Proof. intros; unfold bind; now rewrite H. Qed.

Definition opt_arg (hasArg : bool) (arg : str) : option str := if hasArg then Some arg else None.

Lemma occ_dyn_sep : forall c id vs, forall d, occ_dyn c (Occ id Separate vs) d = occ_dyn c (Occ id AfterEq vs) d.
Proof. reflexivity. Qed.
Lemma chunks_one : forall {A} n (l : list A), 0 < n -> length l = n -> chunks n l = [l].
Proof. intros. rewrite <- (app_nil_r l) at 1. rewrite chunks_cons by auto. now rewrite chunks_nil. Qed.

Lemma eq_ok : forall {A} (s s' : state) (x y : A), s = s' -> x = y -> (s, Ok x) = (s', Ok y).
Proof. intros; now subst. Qed.

Lemma parseArgument_eq : forall fuel maxIndex argv index hasArg option arg id s a,
  wf0 s -> Forall (fun w => cstr w = true) argv -> sane (length argv) s ->
  index < maxIndex -> maxIndex <= length argv -> maxIndex - index <= fuel ->
  find_id id (s_args s) = Some a -> is_positional (c_type (a_cfg a)) = false ->
  match option_values (conf_of s) (a_cfg a) option (opt_arg hasArg arg) (firstn (maxIndex - S index) (skipn (S index) argv)) with
  | inl e => exists s', frame s s' /\ parseArgument fuel maxIndex argv index hasArg option arg id s = (s', Throw e)
  | inr vs => parseArgument fuel maxIndex argv index hasArg option arg id s =
      (apply_occ s (Occ id (style_of (opt_arg hasArg arg)) vs), Ok (S index + length (if hasArg then [] else vs)))
  end.
Proof.
  intros fuel maxIndex argv index hasArg option arg id s a W C SN Hi Hm Hf F P.
  destruct (find_id_In _ _ _ F) as [Ia Ea].
  destruct (SN a Ia) as [SN1 [SN2 SN3]].
  set (avail := firstn (maxIndex - S index) (skipn (S index) argv)).
  assert (HL : length avail = maxIndex - S index).
  { subst avail. rewrite firstn_length, skipn_length. lia. }
  assert (D : deref id s = (s, Ok a)) by (rewrite deref_eq, F; reflexivity).
  unfold parseArgument. rewrite !(bind_ok _ _ _ _ _ D).
  assert (AO : forall st vs, apply_occ s (Occ id st vs) = upd_dyn id (occ_dyn (a_cfg a) (Occ id st vs)) s).
  { intros st vs. rewrite (apply_occ_upd s (Occ id st vs) a W); [reflexivity | exact F]. }
  assert (OD : forall st vs d, st <> Glued -> occ_dyn (a_cfg a) (Occ id st vs) d =
    seen match c_type (a_cfg a) with
    | SIMPLE_OPTION => set_arg d (hd "" vs)
    | NUMBER_OPTION | INFINITE_OPTION => set_elems d (map elem_word vs)
    | MULTI_OPTION | MULTI_INFINITE_OPTION => set_elems d ((if d_exist d then d_elems d else []) ++ map elem_word vs)
    | MULTI_NUMBER_OPTION | MULTI_NUMBER_INFINITE_OPTION =>
        set_elems d ((if d_exist d then d_elems d else []) ++ map elem_group (chunks (N.to_nat (c_nargs (a_cfg a))) vs))
    | _ => d
    end).
  { intros st vs d Hst. destruct st; try reflexivity. congruence. }
  assert (ST : style_of (opt_arg hasArg arg) <> Glued) by (destruct hasArg; discriminate).
  destruct hasArg; simpl opt_arg.
  - (* attached value *)
    unfold option_values, arity_of.
    destruct (c_type (a_cfg a)) eqn:T; try discriminate P;
    try (eexists; split; [apply frame_refl | reflexivity]);
    unfold bind, ret, clear_elems, clear_unless_exists, push_elems; rewrite ?set_dyn_eq; rewrite ?upd_dyn_comp;
    (apply eq_ok; [rewrite AO | simpl; lia]);
    apply upd_dyn_ext; intros b _ _; rewrite (OD _ _ _ ST); simpl; destruct (d_exist (a_dyn b)) eqn:X; unfold dyn_seen, seen, set_arg, set_elems, dyn_elems, dyn_arg; simpl; rewrite ?X; reflexivity.
  - (* following words *)
    unfold option_values, take_words.
    destruct (c_type (a_cfg a)) eqn:T; try discriminate P; unfold arity_of; rewrite T; cbv iota beta zeta.
    + (* HELP *) unfold bind, ret; rewrite set_dyn_eq, AO. apply eq_ok; [|simpl; lia].
      apply upd_dyn_ext; intros b _ _; rewrite (OD _ _ _ ST); reflexivity.
    + unfold bind, ret; rewrite set_dyn_eq, AO. apply eq_ok; [|simpl; lia].
      apply upd_dyn_ext; intros b _ _; rewrite (OD _ _ _ ST); reflexivity.
    + unfold bind, ret; rewrite set_dyn_eq, AO. apply eq_ok; [|simpl; lia].
      apply upd_dyn_ext; intros b _ _; rewrite (OD _ _ _ ST); reflexivity.
    + unfold bind, ret; rewrite set_dyn_eq, AO. apply eq_ok; [|simpl; lia].
      apply upd_dyn_ext; intros b _ _; rewrite (OD _ _ _ ST); reflexivity.
    + (* SIMPLE *)
      destruct (Nat.leb_spec maxIndex (index + 1)) as [B|G].
      * destruct avail as [|w r] eqn:Ev; [|simpl in HL; lia].
        exists s; split; [apply frame_refl | reflexivity].
      * destruct avail as [|w r] eqn:Ev; [simpl in HL; lia|].
        assert (Nw : nth_error argv (S index) = Some w).
        { destruct (skipn_cons_nth (S index) argv ltac:(lia)) as [x [Nx Sx]]. subst avail. rewrite Sx in Ev.
          destruct (maxIndex - S index) eqn:Q; [lia|]. simpl in Ev. congruence. }
        unfold bind, ret. rewrite (argv_at_eq _ _ _ _ Nw). rewrite ?set_dyn_eq, ?upd_dyn_comp, AO.
        apply eq_ok; [|simpl; lia].
        apply upd_dyn_ext; intros b _ _; rewrite (OD _ _ _ ST); reflexivity.
    + (* NUMBER *)
      unfold bind, ret, clear_elems, push_elems. rewrite set_dyn_eq. rewrite szadd_small by lia.
      destruct (N.leb_spec (N.of_nat maxIndex) (N.of_nat index + c_nargs (a_cfg a))) as [B|G].
      * destruct (Nat.ltb_spec (length avail) (N.to_nat (c_nargs (a_cfg a)))); [|lia].
        eexists; split; [apply frame_upd_dyn | reflexivity].
      * destruct (Nat.ltb_spec (length avail) (N.to_nat (c_nargs (a_cfg a)))); [lia|].
        set (nn := N.to_nat (c_nargs (a_cfg a))) in *.
        replace (N.to_nat (N.of_nat index + c_nargs (a_cfg a))) with (index + nn) by lia.
        rewrite argv_slice_eq by lia. rewrite ?set_dyn_eq, ?upd_dyn_comp, AO.
        replace (S (index + nn) - S index) with nn by lia.
        assert (HG : firstn nn avail = firstn nn (skipn (S index) argv)) by (subst avail; apply firstn_sub_skipn; lia).
        rewrite HG. apply eq_ok.
        -- apply upd_dyn_ext; intros b _ _; rewrite (OD _ _ _ ST); reflexivity.
        -- rewrite <- HG, firstn_app_exact by lia. lia.
    + (* INFINITE *)
      unfold bind, ret, clear_elems. rewrite set_dyn_eq.
      rewrite run_loop_eq; [|now apply wf0_upd_dyn|exact C|lia].
      rewrite conf_upd_dyn. fold avail. rewrite ?set_dyn_eq, ?upd_dyn_comp, AO. apply eq_ok.
      * apply upd_dyn_ext; intros b _ _; rewrite (OD _ _ _ ST); reflexivity.
      * simpl. lia.
    + (* MULTI *)
      destruct (Nat.leb_spec maxIndex (index + 1)) as [B|G].
      * destruct avail as [|w r] eqn:Ev; [|simpl in HL; lia].
        eexists; split; [|unfold bind, clear_unless_exists; rewrite set_dyn_eq; reflexivity]. apply frame_upd_dyn.
      * destruct avail as [|w r] eqn:Ev; [simpl in HL; lia|].
        assert (Nw : nth_error argv (S index) = Some w).
        { destruct (skipn_cons_nth (S index) argv ltac:(lia)) as [x [Nx Sx]]. subst avail. rewrite Sx in Ev.
          destruct (maxIndex - S index) eqn:Q; [lia|]. simpl in Ev. congruence. }
        unfold bind, ret, clear_unless_exists, push_elems. rewrite set_dyn_eq. rewrite (argv_at_eq _ _ _ _ Nw).
        rewrite ?set_dyn_eq, ?upd_dyn_comp, AO.
        apply eq_ok; [|simpl; lia].
        apply upd_dyn_ext; intros b _ _; rewrite (OD _ _ _ ST).
        destruct (d_exist (a_dyn b)) eqn:X; unfold dyn_seen, seen, set_arg, set_elems, dyn_elems, dyn_arg; simpl; rewrite ?X; reflexivity.
    + (* MULTI_INFINITE *)
      unfold bind, ret, clear_unless_exists. rewrite set_dyn_eq.
      rewrite run_loop_eq; [|now apply wf0_upd_dyn|exact C|lia].
      rewrite conf_upd_dyn. fold avail. rewrite ?set_dyn_eq, ?upd_dyn_comp, AO. apply eq_ok.
      * apply upd_dyn_ext; intros b _ _; rewrite (OD _ _ _ ST).
        destruct (d_exist (a_dyn b)) eqn:X; unfold dyn_seen, seen, set_arg, set_elems, dyn_elems, push, dyn_arg; simpl; rewrite ?X; reflexivity.
      * simpl. lia.
    + (* MULTI_NUMBER *)
      unfold bind, ret, clear_unless_exists, push_elems. rewrite set_dyn_eq. rewrite szadd_small by lia.
      destruct (N.leb_spec (N.of_nat maxIndex) (N.of_nat index + c_nargs (a_cfg a))) as [B|G].
      * destruct (Nat.ltb_spec (length avail) (N.to_nat (c_nargs (a_cfg a)))); [|lia].
        eexists; split; [apply frame_upd_dyn | reflexivity].
      * destruct (Nat.ltb_spec (length avail) (N.to_nat (c_nargs (a_cfg a)))); [lia|].
        set (nn := N.to_nat (c_nargs (a_cfg a))) in *.
        replace (N.to_nat (N.of_nat index + c_nargs (a_cfg a))) with (index + nn) by lia.
        rewrite argv_slice_eq by lia. rewrite ?set_dyn_eq, ?upd_dyn_comp, AO.
        replace (S (index + nn) - S index) with nn by lia.
        assert (HG : firstn nn avail = firstn nn (skipn (S index) argv)) by (subst avail; apply firstn_sub_skipn; lia).
        rewrite HG. apply eq_ok.
        -- apply upd_dyn_ext; intros b _ _; rewrite (OD _ _ _ ST). fold nn.
           rewrite chunks_one; [| |rewrite <- HG; apply firstn_app_exact; lia].
           ++ destruct (d_exist (a_dyn b)) eqn:X; unfold dyn_seen, seen, set_arg, set_elems, dyn_elems, dyn_arg; simpl; rewrite ?X; reflexivity.
           ++ apply SN3; reflexivity.
        -- rewrite <- HG, firstn_app_exact by lia. lia.
    + (* MULTI_NUMBER_INFINITE *)
      specialize (SN2 (N.to_nat (c_nargs (a_cfg a)))). unfold arity_of in SN2. rewrite T in SN2. specialize (SN2 eq_refl).
      unfold bind, ret, clear_unless_exists. rewrite set_dyn_eq.
      pose proof (group_loop_eq fuel (S index) 0 (upd_dyn id (fun d => if d_exist d then d else dyn_elems d []) s) id
        (c_nargs (a_cfg a)) argv false maxIndex (bad_number option) (parse_error option "bad number of argument")
        (wf0_upd_dyn _ _ _ W) C ltac:(lia) SN1 ltac:(lia) Hm ltac:(lia) ltac:(intros q; reflexivity)) as GL.
      rewrite conf_upd_dyn in GL. fold avail in GL. simpl stop_of in GL.
      destruct (groups_from (stops (conf_of s)) (N.to_nat (c_nargs (a_cfg a))) 0 avail) as [ws|].
      * rewrite GL. rewrite ?set_dyn_eq, ?upd_dyn_comp, AO. apply eq_ok.
        -- apply upd_dyn_ext; intros b _ _; rewrite (OD _ _ _ ST).
           destruct (d_exist (a_dyn b)) eqn:X; unfold dyn_seen, seen, set_arg, set_elems, dyn_elems, push, dyn_arg; simpl; rewrite ?X; reflexivity.
        -- simpl. lia.
      * destruct GL as [s1 [F1 E1]]. exists s1. rewrite E1. split; [|reflexivity].
        eapply frame_trans; [apply frame_upd_dyn | exact F1].
Qed.

(* ------------------------------------------------------------------ *)
(** * option words *)
Definition apply_occs (s : state) (os : list occ) : state := fold_left apply_occ os s.
Lemma frame_apply_occs : forall os s, frame s (apply_occs s os).
Proof.
  induction os as [|o os IH]; intros s; [apply frame_refl|].
  simpl. eapply frame_trans; [apply frame_apply_occ | apply IH].
Qed.
Lemma k_find_arg : forall s n id c, wf0 s -> k_find (conf_of s) n = Some (id, c) ->
  assoc n (s_map s) = Some id /\ exists a, find_id id (s_args s) = Some a /\ a_cfg a = c /\ In n (c_names c) /\ In a (s_args s).
Proof.
  intros s n id c W H. destruct (lookup_cases s n W) as [[_ E]|[a [I [A [F [E N]]]]]]; [congruence|].
  rewrite E in H. injection H as <- <-. split; [exact A|]. exists a; auto.
Qed.
Lemma k_find_none : forall s n, wf0 s -> k_find (conf_of s) n = None -> assoc n (s_map s) = None.
Proof.
  intros s n W H. destruct (lookup_cases s n W) as [[E _]|[a [I [A [F [E N]]]]]]; [exact E|congruence].
Qed.
Lemma flag_seen : forall s id a, wf0 s -> find_id id (s_args s) = Some a ->
  is_flag_type (c_type (a_cfg a)) = true -> upd_dyn id dyn_seen s = apply_occ s (flag_occ id).
Proof.
  intros s id a W F T. rewrite (apply_occ_upd s (flag_occ id) a W F). apply upd_dyn_ext.
  intros b _ _. unfold occ_dyn; simpl. destruct (c_type (a_cfg a)); try discriminate T; reflexivity.
Qed.
Lemma glued_occ : forall s id a vs, wf0 s -> find_id id (s_args s) = Some a ->
  apply_occ (upd_dyn id dyn_seen s) (Occ id AfterEq vs) = apply_occ s (Occ id Glued vs).
Proof.
  intros s id a vs W F.
  rewrite (apply_occ_upd s (Occ id Glued vs) a W F).
  rewrite (apply_occ_upd (upd_dyn id dyn_seen s) (Occ id AfterEq vs) (arg_dyn a (dyn_seen (a_dyn a)))).
  - rewrite upd_dyn_comp. apply upd_dyn_ext. reflexivity.
  - now apply wf0_upd_dyn.
  - now apply find_upd_dyn.
Qed.

Definition opt_avail (maxIndex index : nat) (argv : list str) := firstn (maxIndex - S index) (skipn (S index) argv).

Lemma short_loop_eq : forall cs fuel maxIndex argv index hasArg arg bools s,
  wf0 s -> Forall (fun w => cstr w = true) argv -> sane (length argv) s ->
  index < maxIndex -> maxIndex <= length argv -> maxIndex - index <= fuel ->
  match bundle (conf_of s) (opt_arg hasArg arg) bools cs with
  | MeansError e => exists s', frame s s' /\ short_loop fuel maxIndex argv index hasArg arg cs s = (s', Throw e)
  | MeansOption bools' id c name st v =>
      exists more, bools' = bools ++ more /\
      match option_values (conf_of s) c name v (opt_avail maxIndex index argv) with
      | inl e => exists s', frame s s' /\ short_loop fuel maxIndex argv index hasArg arg cs s = (s', Throw e)
      | inr vs => short_loop fuel maxIndex argv index hasArg arg cs s =
          (apply_occs s (map flag_occ more ++ [Occ id st vs]),
           Ok (S index + length (match v with Some _ => [] | None => vs end)))
      end
  end.
Proof.
  induction cs as [|c cs IH]; intros fuel maxIndex argv index hasArg arg bools s W C SN Hi Hm Hf.
  - simpl. exists s; split; [apply frame_refl|]. unfold bind, find_name. change (dash_str ^^ dash_str) with "--".
    now rewrite no_dashdash.
  - assert (FN : find_name (dash_str ^^ str1 c) s = (s, Ok (assoc (one_char c) (s_map s)))) by reflexivity.
    destruct cs as [|c' cs].
    + cbn [bundle short_loop]. rewrite !(bind_ok _ _ _ _ _ FN).
      destruct (k_find (conf_of s) (one_char c)) as [[id cf]|] eqn:K.
      * destruct (k_find_arg _ _ _ _ W K) as [A [a [F [Ec [Nn Ia]]]]]. rewrite A.
        exists []. split; [now rewrite app_nil_r|].
        pose proof (parseArgument_eq fuel maxIndex argv index hasArg (str1 c) arg id s a W C SN Hi Hm Hf F
          (dash_option s a _ W Ia ltac:(rewrite Ec; exact Nn) eq_refl)) as PA.
        rewrite Ec in PA. fold (opt_avail maxIndex index argv) in PA.
        destruct (option_values (conf_of s) cf (str1 c) (opt_arg hasArg arg) (opt_avail maxIndex index argv)) as [e|vs].
        -- exact PA.
        -- rewrite PA. simpl. destruct hasArg; reflexivity.
      * rewrite (k_find_none _ _ W K). exists s; split; [apply frame_refl | reflexivity].
    + cbn [bundle short_loop]. rewrite !(bind_ok _ _ _ _ _ FN).
      destruct (k_find (conf_of s) (one_char c)) as [[id cf]|] eqn:K.
      2: { rewrite (k_find_none _ _ W K). exists s; split; [apply frame_refl | reflexivity]. }
      destruct (k_find_arg _ _ _ _ W K) as [A [a [F [Ec [Nn Ia]]]]]. rewrite A.
      assert (D : deref id s = (s, Ok a)) by (rewrite deref_eq, F; reflexivity).
      rewrite !(bind_ok _ _ _ _ _ D). rewrite Ec.
      assert (GT : takes_value (c_type cf) = glues cf) by reflexivity.
      assert (BT : is_bool_option (c_type cf) = is_flag_type (c_type cf)) by reflexivity.
      cbv zeta. rewrite GT, BT.
      set (s1 := upd_dyn id dyn_seen s).
      assert (S1 : set_dyn id dyn_seen s = (s1, Ok tt)) by reflexivity.
      assert (W1 : wf0 s1) by (apply wf0_upd_dyn, W).
      assert (F1 : frame s s1) by apply frame_upd_dyn.
      assert (SN1 : sane (length argv) s1) by (eapply sane_frame; eauto).
      assert (K1 : conf_of s1 = conf_of s) by apply conf_upd_dyn.
      assert (REC : is_flag_type (c_type cf) = true ->
        match bundle (conf_of s) (opt_arg hasArg arg) (bools ++ [id]) (String c' cs) with
        | MeansError e => exists s', frame s s' /\
            (set_dyn id dyn_seen ;;; short_loop fuel maxIndex argv index hasArg arg (String c' cs)) s = (s', Throw e)
        | MeansOption bools' id0 c0 name st v => exists more, bools' = bools ++ more /\
            match option_values (conf_of s) c0 name v (opt_avail maxIndex index argv) with
            | inl e => exists s', frame s s' /\
               (set_dyn id dyn_seen ;;; short_loop fuel maxIndex argv index hasArg arg (String c' cs)) s = (s', Throw e)
            | inr vs => (set_dyn id dyn_seen ;;; short_loop fuel maxIndex argv index hasArg arg (String c' cs)) s =
               (apply_occs s (map flag_occ more ++ [Occ id0 st vs]), Ok (S index + length (match v with Some _ => [] | None => vs end)))
            end
        end).
      { intros FT. specialize (IH fuel maxIndex argv index hasArg arg (bools ++ [id]) s1 W1 C SN1 Hi Hm Hf).
        rewrite K1 in IH. rewrite (bind_ok _ _ _ _ _ S1).
        destruct (bundle (conf_of s) (opt_arg hasArg arg) (bools ++ [id]) (String c' cs)) as [e|bools' id0 c0 name st v].
        - destruct IH as [s' [Fs E]]. exists s'; split; [eapply frame_trans; eauto | exact E].
        - destruct IH as [more [-> IH]]. exists (id :: more). split; [now rewrite <- app_assoc|].
          destruct (option_values (conf_of s) c0 name v (opt_avail maxIndex index argv)) as [e|vs].
          + destruct IH as [s' [Fs E]]. exists s'; split; [eapply frame_trans; eauto | exact E].
          + rewrite IH. apply eq_ok; [|reflexivity]. simpl. unfold s1.
            rewrite <- (flag_seen s id a W F); [reflexivity | rewrite Ec; exact FT]. }
      destruct hasArg; cbn [negb andb opt_arg] in *.
      * destruct (is_flag_type (c_type cf)) eqn:FT; cbn [negb].
        -- exact (REC eq_refl).
        -- exists s; split; [apply frame_refl | reflexivity].
      * destruct (glues cf) eqn:GL.
        -- exists []. split; [now rewrite app_nil_r|]. rewrite !(bind_ok _ _ _ _ _ S1).
           assert (Fd : find_id id (s_args s1) = Some (arg_dyn a (dyn_seen (a_dyn a)))) by (now apply find_upd_dyn).
           pose proof (parseArgument_eq fuel maxIndex argv index true (str1 c) (String c' cs) id s1 _ W1 C SN1 Hi Hm Hf Fd
             (dash_option s a _ W Ia ltac:(rewrite Ec; exact Nn) eq_refl)) as PA.
           simpl a_cfg in PA. rewrite Ec, K1 in PA. fold (opt_avail maxIndex index argv) in PA. simpl opt_arg in PA.
           destruct (option_values (conf_of s) cf (str1 c) (Some (String c' cs)) (opt_avail maxIndex index argv)) as [e|vs].
           ++ destruct PA as [s' [Fs E]]. exists s'; split; [eapply frame_trans; eauto | exact E].
           ++ rewrite PA. apply eq_ok; [|reflexivity]. simpl. unfold s1. now rewrite <- (glued_occ s id a vs W F).
        -- destruct (is_flag_type (c_type cf)) eqn:FT; cbn [negb].
           ++ exact (REC eq_refl).
           ++ exists s; split; [apply frame_refl | reflexivity].
Qed.

Lemma cut_name_short : forall w, word_kind w = WShort -> exists r, fst (cut_eq w) = String "-" r.
Proof.
  intros w H. destruct (kind_short_form w H) as [c [r [-> _]]]. cbn [cut_eq]. change (Ascii.eqb "-" "=") with false. cbv iota.
  destruct (if Ascii.eqb c "=" then _ else _) as [n v]. simpl. eauto.
Qed.
Lemma cut_name_long : forall w, word_kind w = WLong -> exists r, fst (cut_eq w) = String "-" (String "-" r).
Proof.
  intros w H. destruct (kind_long_form w H) as [c [r ->]]. cbn [cut_eq]. change (Ascii.eqb "-" "=") with false. cbv iota.
  destruct (if Ascii.eqb c "=" then _ else _) as [n v]. simpl. eauto.
Qed.

Definition parse_option (k : wkind) (fuel maxIndex : nat) (argv : list str) (index : nat) (w : str) : M nat :=
  match k with WLong => parseLong fuel maxIndex argv index w | _ => parseShort fuel maxIndex argv index w end.
Lemma parse_option_eq : forall w fuel maxIndex argv index s,
  wf0 s -> Forall (fun w => cstr w = true) argv -> sane (length argv) s ->
  index < maxIndex -> maxIndex <= length argv -> maxIndex - index <= fuel ->
  word_kind w = WShort \/ word_kind w = WLong ->
  match read_option (conf_of s) w (opt_avail maxIndex index argv) with
  | inl e => exists s', frame s s' /\ parse_option (word_kind w) fuel maxIndex argv index w s = (s', Throw e)
  | inr (occs, used) => parse_option (word_kind w) fuel maxIndex argv index w s =
      (apply_occs s occs, Ok (S index + length used))
  end.
Proof.
  intros w fuel maxIndex argv index s W C SN Hi Hm Hf KW.
  assert (TA : takeArg w = (match snd (cut_eq w) with Some _ => true | None => false end, fst (cut_eq w),
             match snd (cut_eq w) with Some v => v | None => "" end)).
  { rewrite takeArg_cut. destruct (cut_eq w) as [n [v|]]; reflexivity. }
  unfold read_option, word_meaning. destruct (cut_eq w) as [name value] eqn:CE. simpl in TA.
  set (hasArg := match value with Some _ => true | None => false end) in *.
  set (arg := match value with Some v => v | None => "" end) in *.
  assert (OA : opt_arg hasArg arg = value) by (destruct value; reflexivity).
  assert (PA : forall id c n pre opt, k_find (conf_of s) n = Some (id, c) -> n = String "-" pre ->
    match (match option_values (conf_of s) c opt value (opt_avail maxIndex index argv) with
           | inl e => inl e
           | inr vs => inr (map flag_occ [] ++ [Occ id (style_of value) vs], match value with Some _ => [] | None => vs end)
           end) with
    | inl e => exists s', frame s s' /\ parseArgument fuel maxIndex argv index hasArg opt arg id s = (s', Throw e)
    | inr (occs, used) => parseArgument fuel maxIndex argv index hasArg opt arg id s = (apply_occs s occs, Ok (S index + length used))
    end).
  { intros id c n pre opt K En. destruct (k_find_arg _ _ _ _ W K) as [A [a [F [Ec [Nn Ia]]]]].
    pose proof (parseArgument_eq fuel maxIndex argv index hasArg opt arg id s a W C SN Hi Hm Hf F
          (dash_option s a n W Ia ltac:(rewrite Ec; exact Nn) ltac:(rewrite En; reflexivity))) as PA.
    rewrite Ec, OA in PA. fold (opt_avail maxIndex index argv) in PA.
    destruct (option_values (conf_of s) c opt value (opt_avail maxIndex index argv)) as [e|vs]; [exact PA|].
    rewrite PA. apply eq_ok; [reflexivity|]. unfold hasArg. destruct value; reflexivity. }
  destruct KW as [KW|KW]; rewrite KW; cbn [parse_option].
  - unfold parseShort. rewrite TA. cbv iota beta. rewrite sdrop1.
    assert (G : get s = (s, Ok s)) by reflexivity. rewrite !(bind_ok _ _ _ _ _ G).
    change (k_alt (conf_of s)) with (m_alternative (s_modes s)). change (dash_str ^^ name) with (String "-" name).
    assert (SL : match (match bundle (conf_of s) value [] (after1 name) with
                  | MeansError e => inl e
                  | MeansOption bools id c n st v =>
                      match option_values (conf_of s) c n v (opt_avail maxIndex index argv) with
                      | inl e => inl e
                      | inr vs => inr (map flag_occ bools ++ [Occ id st vs], match v with Some _ => [] | None => vs end)
                      end end) with
           | inl e => exists s', frame s s' /\ short_loop fuel maxIndex argv index hasArg arg (after1 name) s = (s', Throw e)
           | inr (occs, used) => short_loop fuel maxIndex argv index hasArg arg (after1 name) s = (apply_occs s occs, Ok (S index + length used))
           end).
    { pose proof (short_loop_eq (after1 name) fuel maxIndex argv index hasArg arg [] s W C SN Hi Hm Hf) as SL. rewrite OA in SL.
      destruct (bundle (conf_of s) value [] (after1 name)) as [e|bools id c n st v]; [exact SL|].
      destruct SL as [more [-> SL]]. destruct (option_values (conf_of s) c n v (opt_avail maxIndex index argv)); exact SL. }
    destruct (m_alternative (s_modes s)); [|exact SL].
    destruct (k_find (conf_of s) (String "-" name)) as [[id c]|] eqn:K.
    + destruct (k_find_arg _ _ _ _ W K) as [A _]. rewrite A. exact (PA id c _ name _ K eq_refl).
    + rewrite (k_find_none _ _ W K). exact SL.
  - unfold parseLong. rewrite TA. cbv iota beta. rewrite sdrop2.
    assert (FN : find_name name s = (s, Ok (assoc name (s_map s)))) by reflexivity. rewrite !(bind_ok _ _ _ _ _ FN).
    destruct (cut_name_long w KW) as [r En]. rewrite CE in En; simpl in En.
    destruct (k_find (conf_of s) name) as [[id c]|] eqn:K.
    + destruct (k_find_arg _ _ _ _ W K) as [A _]. rewrite A. exact (PA id c _ _ _ K En).
    + rewrite (k_find_none _ _ W K). exists s; split; [apply frame_refl | reflexivity].
Qed.

(* ------------------------------------------------------------------ *)
(** * positional words *)
Definition left_over (a : argument) : bool := is_positional (c_type (a_cfg a)) && negb (d_exist (a_dyn a)).
(** the positional arguments not filled yet *)
Definition pos_left (s : state) : list (nat * acfg) :=
  map (fun a => (a_id a, a_cfg a)) (filter left_over (s_args s)).
Definition apply_pos (s : state) (id : nat) (vs : list str) : state :=
  with_args s (upd_id id (fun a => arg_dyn a (pos_dyn (a_cfg a) vs (a_dyn a))) (s_args s)).

Lemma filter_upd_option : forall id f l, (forall a, In a l -> a_id a = id -> is_positional (c_type (a_cfg a)) = false) ->
  filter left_over (upd_id id (fun a => arg_dyn a (f a)) l) = filter left_over l.
Proof.
  intros id f l; induction l as [|a l IH]; intros H; [reflexivity|]. simpl.
  destruct (Nat.eqb_spec (a_id a) id) as [E|E].
  - assert (left_over (arg_dyn a (f a)) = false /\ left_over a = false) as [-> ->].
    { unfold left_over; simpl. now rewrite (H a (or_introl eq_refl) E). }
    apply IH. intros b Ib; apply H; now right.
  - destruct (left_over a); [f_equal|]; apply IH; intros b Ib; apply H; now right.
Qed.
Lemma pos_left_occ : forall s o, wf0 s -> (forall a, In a (s_args s) -> a_id a = o_id o -> is_positional (c_type (a_cfg a)) = false) ->
  pos_left (apply_occ s o) = pos_left s.
Proof.
  intros s o W H. unfold pos_left, apply_occ; simpl.
  rewrite (filter_upd_option (o_id o) (fun a => occ_dyn (a_cfg a) o (a_dyn a)) _ H). reflexivity.
Qed.
Lemma apply_pos_upd : forall s id a vs, wf0 s -> find_id id (s_args s) = Some a ->
  apply_pos s id vs = upd_dyn id (pos_dyn (a_cfg a) vs) s.
Proof.
  intros s id a vs W F. unfold apply_pos, upd_dyn. f_equal. apply upd_id_ext. intros b Ib Eb.
  apply find_id_In in F. destruct F as [Ia Ea]. now rewrite (wf_unique s b a W Ib Ia ltac:(congruence)).
Qed.
Lemma filter_upd_pos : forall id vs l a, NoDup (map a_id l) ->
  hd_error (filter left_over l) = Some a -> a_id a = id ->
  filter left_over (upd_id id (fun a => arg_dyn a (pos_dyn (a_cfg a) vs (a_dyn a))) l) = tl (filter left_over l).
Proof.
  intros id vs l a; induction l as [|b l IH]; intros ND H E; [discriminate|]. simpl in *.
  inversion ND as [|x y NI ND']; subst x y.
  destruct (left_over b) eqn:L.
  - simpl in H. injection H as ->. rewrite E, Nat.eqb_refl.
    assert (X : left_over (arg_dyn a (pos_dyn (a_cfg a) vs (a_dyn a))) = false).
    { unfold left_over; simpl. now rewrite andb_false_r. }
    rewrite X. simpl. rewrite upd_id_id; [reflexivity|]. intros c Ic Ec. exfalso. apply NI. rewrite E, <- Ec. now apply in_map.
  - assert (Nat.eqb (a_id b) id = false) as Hb.
    { apply Nat.eqb_neq. intros Q. apply NI. rewrite Q, <- E. apply in_map.
      destruct (filter left_over l) as [|z zs] eqn:Fz; [discriminate|]. injection H as ->.
      assert (In a (filter left_over l)) by (rewrite Fz; now left). now apply filter_In in H. }
    rewrite Hb, L. now apply IH.
Qed.
Lemma next_positional_hd : forall s, next_positional s = hd_error (filter left_over (s_args s)).
Proof.
  intros s. unfold next_positional. induction (s_args s) as [|a l IH]; [reflexivity|]. simpl. unfold left_over at 1.
  rewrite andb_comm. destruct (is_positional (c_type (a_cfg a)) && negb (d_exist (a_dyn a))); [reflexivity | exact IH].
Qed.
Lemma run_of_length : forall stop l, length (run_of stop l) <= length l.
Proof. intros stop l; induction l as [|w l IH]; simpl; [lia|]. destruct (stop w); simpl; lia. Qed.
Lemma groups_from_length : forall stop n l k ws, groups_from stop n k l = Some ws -> length ws <= length l.
Proof.
  intros stop n l; induction l as [|w l IH]; intros [|k] ws H; simpl in *; try discriminate.
  - injection H as <-; simpl; lia.
  - destruct (stop w); [injection H as <-; simpl; lia|].
    destruct (groups_from stop n (n - 1) l) as [x|] eqn:G; [|discriminate]. injection H as <-. apply IH in G. simpl; lia.
  - destruct (groups_from stop n k l) as [x|] eqn:G; [|discriminate]. injection H as <-. apply IH in G. simpl; lia.
Qed.
Lemma take_words_length : forall stop ar l ws, take_words stop ar l = Some ws -> length ws <= length l.
Proof.
  intros stop ar l ws H. destruct ar; simpl in H.
  - injection H as <-; simpl; lia.
  - destruct l; [discriminate|]. injection H as <-; simpl; lia.
  - destruct (Nat.ltb_spec (length l) n); [discriminate|]. injection H as <-. rewrite firstn_length; lia.
  - injection H as <-. apply run_of_length.
  - eapply groups_from_length; eauto.
Qed.

Lemma parsePositional_eq : forall fuel maxIndex argv index hasEnd s,
  wf0 s -> Forall (fun w => cstr w = true) argv -> sane (length argv) s ->
  index < maxIndex -> maxIndex <= length argv -> maxIndex - index < fuel ->
  match pos_left s with
  | [] => forall w, nth_error argv index = Some w ->
      parsePositional fuel maxIndex argv index hasEnd s =
        if m_strict (s_modes s) then (s, Throw (parse_error w "invalid additional argument"))
        else (with_additional s (s_additional s ++ [w]), Ok (S index))
  | (id, c) :: ps =>
      match take_words (stop_of hasEnd (conf_of s)) (arity_of c) (firstn (maxIndex - index) (skipn index argv)) with
      | None => exists s', frame s s' /\ parsePositional fuel maxIndex argv index hasEnd s =
                   (s', Throw (parse_error (first_of c) "bad number of argument"))
      | Some vs => parsePositional fuel maxIndex argv index hasEnd s = (apply_pos s id vs, Ok (index + length vs)) /\
                   pos_left (apply_pos s id vs) = ps
      end
  end.
Proof.
  intros fuel maxIndex argv index hasEnd s W C SN Hi Hm Hf.
  unfold parsePositional. assert (G : get s = (s, Ok s)) by reflexivity. rewrite !(bind_ok _ _ _ _ _ G). clear G.
  rewrite next_positional_hd.
  unfold pos_left at 1. destruct (filter left_over (s_args s)) as [|a l] eqn:FL.
  - simpl. intros w Nw. unfold bind. rewrite (argv_at_eq _ _ _ _ Nw). destruct (m_strict (s_modes s)); reflexivity.
  - cbn [map hd_error].
    assert (Ia : In a (s_args s) /\ left_over a = true) by (apply filter_In; rewrite FL; now left).
    destruct Ia as [Ia La]. apply andb_true_iff in La. destruct La as [P _].
    destruct (SN a Ia) as [SN1 [SN2 SN3]].
    pose proof (In_find_id _ _ (wf_ids s W) Ia) as F.
    set (id := a_id a) in *. set (avail := firstn (maxIndex - index) (skipn index argv)).
    assert (HL : length avail = maxIndex - index) by (subst avail; rewrite firstn_length, skipn_length; lia).
    assert (PL : forall vs, pos_left (apply_pos s id vs) = map (fun a => (a_id a, a_cfg a)) l).
    { intros vs. unfold pos_left, apply_pos; simpl.
      rewrite (filter_upd_pos id vs (s_args s) a (wf_ids s W)); [now rewrite FL | now rewrite FL | reflexivity]. }
    assert (FR : front (c_names (a_cfg a)) s = (s, Ok (first_of (a_cfg a)))).
    { destruct (wf_pos s W a Ia P) as [m [E _]]. unfold first_of. rewrite E. reflexivity. }
    destruct (wf_pos s W a Ia P) as [mname [Emn _]].
    assert (AP : forall vs, apply_pos s id vs = upd_dyn id (pos_dyn (a_cfg a) vs) s).
    { intros; now apply apply_pos_upd. }
    unfold take_words, arity_of.
    destruct (c_type (a_cfg a)) eqn:T; try discriminate P.
    + destruct avail as [|w r] eqn:Ev; [simpl in HL; lia|]. split; [|apply PL].
      assert (Nw : nth_error argv index = Some w).
      { destruct (skipn_cons_nth index argv ltac:(lia)) as [x [Nx Sx]]. subst avail. rewrite Sx in Ev.
        destruct (maxIndex - index) eqn:Q; [lia|]. simpl in Ev. congruence. }
      unfold bind, ret. rewrite (argv_at_eq _ _ _ _ Nw). rewrite ?set_dyn_eq, ?upd_dyn_comp, AP.
      apply eq_ok; [|simpl; lia]. apply upd_dyn_ext; intros b _ _. unfold pos_dyn; rewrite T; reflexivity.
    + rewrite szadd_small by lia.
      destruct (N.ltb_spec (N.of_nat maxIndex) (N.of_nat index + c_nargs (a_cfg a))) as [B|Gd].
      * destruct (Nat.ltb_spec (length avail) (N.to_nat (c_nargs (a_cfg a)))); [|lia].
        exists s; split; [apply frame_refl|]. unfold bind. rewrite FR. reflexivity.
      * destruct (Nat.ltb_spec (length avail) (N.to_nat (c_nargs (a_cfg a)))); [lia|]. split; [|apply PL].
        set (nn := N.to_nat (c_nargs (a_cfg a))) in *.
        replace (N.to_nat (N.of_nat index + c_nargs (a_cfg a))) with (index + nn) by lia.
        unfold bind, ret, push_elems. rewrite argv_slice_eq by lia. rewrite ?set_dyn_eq, ?upd_dyn_comp, AP.
        replace (index + nn - index) with nn by lia.
        assert (HG : firstn nn avail = firstn nn (skipn index argv)) by (subst avail; apply firstn_sub_skipn; lia).
        rewrite HG. apply eq_ok.
        -- apply upd_dyn_ext; intros b _ _. unfold pos_dyn; rewrite T; reflexivity.
        -- rewrite <- HG, firstn_app_exact by lia. lia.
    + split; [|apply PL]. unfold bind, ret.
      rewrite run_loop_eq; [|exact W|exact C|lia]. fold avail. rewrite ?set_dyn_eq, ?upd_dyn_comp, AP.
      apply eq_ok; [|simpl; lia]. apply upd_dyn_ext; intros b _ _. unfold pos_dyn; rewrite T; reflexivity.
    + specialize (SN2 (N.to_nat (c_nargs (a_cfg a)))). unfold arity_of in SN2. rewrite T in SN2. specialize (SN2 eq_refl).
      pose proof (group_loop_eq fuel index 0 s id
        (c_nargs (a_cfg a)) argv hasEnd maxIndex (bad_number (first_of (a_cfg a))) (parse_error (first_of (a_cfg a)) "bad number of argument")
        W C ltac:(lia) SN1 ltac:(lia) Hm ltac:(lia) ltac:(intros q; reflexivity)) as GL.
      assert (GE : forall f i0 c0 st, group_loop f id (c_nargs (a_cfg a)) argv hasEnd maxIndex i0 c0
           (do x <- front (c_names (a_cfg a));; bad_number x) st =
           group_loop f id (c_nargs (a_cfg a)) argv hasEnd maxIndex i0 c0 (bad_number (first_of (a_cfg a))) st).
      { assert (FE : (do x <- front (c_names (a_cfg a));; @bad_number nat x) = (fun st => bad_number (first_of (a_cfg a)) st)).
        { unfold first_of. rewrite Emn. reflexivity. }
        intros. rewrite FE. reflexivity. }
      fold avail in GL.
      destruct (groups_from (stop_of hasEnd (conf_of s)) (N.to_nat (c_nargs (a_cfg a))) 0 avail) as [ws|].
      * split; [|apply PL]. unfold bind at 1. unfold bind at 1. rewrite GE, GL. unfold bind, ret. rewrite ?set_dyn_eq, ?upd_dyn_comp, AP.
        apply eq_ok; [|simpl; lia]. apply upd_dyn_ext; intros b _ _. unfold pos_dyn; rewrite T; reflexivity.
      * destruct GL as [s1 [F1 E1]]. exists s1. split; [exact F1|]. unfold bind at 1. unfold bind at 1. rewrite GE, E1. reflexivity.
Qed.

(* ------------------------------------------------------------------ *)
(** * pieces *)
Definition apply_piece (s : state) (p : piece) : state :=
  match p with
  | PcOption _ os _ => apply_occs s os
  | PcPositional id vs => apply_pos s id vs
  | PcAdditional w => with_additional s (s_additional s ++ [w])
  | PcEnd => s
  end.
Definition apply_pieces (s : state) (pcs : list piece) : state := fold_left apply_piece pcs s.

Definition map_dyn (f : nat -> acfg -> adyn -> adyn) (l : list argument) : list argument :=
  map (fun a => Arg (a_id a) (a_gen a) (a_cfg a) (f (a_id a) (a_cfg a) (a_dyn a))) l.
Lemma map_dyn_comp : forall f g l, map_dyn g (map_dyn f l) = map_dyn (fun i c d => g i c (f i c d)) l.
Proof. intros. unfold map_dyn. rewrite map_map. reflexivity. Qed.
Lemma map_dyn_id : forall l, map_dyn (fun _ _ d => d) l = l.
Proof. intros. unfold map_dyn. rewrite map_ext with (g := fun a => a); [apply map_id|]. intros []; reflexivity. Qed.
Lemma map_dyn_ext : forall f g l, (forall i c d, f i c d = g i c d) -> map_dyn f l = map_dyn g l.
Proof. intros. unfold map_dyn. apply map_ext. intros a; now rewrite H. Qed.
Lemma upd_id_map_dyn : forall id f l,
  upd_id id (fun a => arg_dyn a (f (a_cfg a) (a_dyn a))) l = map_dyn (fun i c d => if Nat.eqb id i then f c d else d) l.
Proof.
  intros. unfold upd_id, map_dyn. apply map_ext. intros a. rewrite (Nat.eqb_sym id). destruct (Nat.eqb (a_id a) id).
  - reflexivity.
  - now destruct a.
Qed.
Lemma apply_occs_eq : forall os s, apply_occs s os =
  with_args s (map_dyn (fun i c d => fold_left (fun d o => if Nat.eqb (o_id o) i then occ_dyn c o d else d) os d) (s_args s)).
Proof.
  induction os as [|o os IH]; intros s.
  - simpl. rewrite map_dyn_id. symmetry. apply with_args_id.
  - simpl. fold (apply_occs (apply_occ s o) os). rewrite IH. unfold apply_occ.
    rewrite (upd_id_map_dyn (o_id o) (fun c d => occ_dyn c o d)). unfold with_args; simpl. f_equal.
    rewrite map_dyn_comp. reflexivity.
Qed.
Lemma apply_piece_eq : forall s p, apply_piece s p =
  with_additional (with_args s (map_dyn (fun i c d => piece_dyn i c d p) (s_args s))) (s_additional s ++ additional_of [p]).
Proof.
  intros s [w os used | id vs | w | ]; unfold additional_of; simpl; rewrite ?app_nil_r.
  - rewrite apply_occs_eq. reflexivity.
  - unfold apply_pos. rewrite (upd_id_map_dyn id (fun c d => pos_dyn c vs d)). reflexivity.
  - rewrite map_dyn_id. reflexivity.
  - rewrite map_dyn_id. now destruct s.
Qed.
Lemma apply_pieces_eq : forall pcs s, apply_pieces s pcs =
  with_additional (with_args s (read_args pcs (s_args s))) (s_additional s ++ additional_of pcs).
Proof.
  induction pcs as [|p pcs IH]; intros s.
  - simpl. rewrite app_nil_r. change (read_args [] (s_args s)) with (map_dyn (fun _ _ d => d) (s_args s)).
    rewrite map_dyn_id. now destruct s.
  - simpl. fold (apply_pieces (apply_piece s p) pcs). rewrite IH, apply_piece_eq.
    unfold with_additional, with_args; simpl. f_equal.
    + change (read_args pcs (map_dyn (fun i c d => piece_dyn i c d p) (s_args s))) with
        (map_dyn (fun i c d => pieces_dyn i c pcs d) (map_dyn (fun i c d => piece_dyn i c d p) (s_args s))).
      rewrite map_dyn_comp. reflexivity.
    + unfold additional_of. simpl. rewrite app_nil_r, <- app_assoc. reflexivity.
Qed.
Lemma frame_apply_piece : forall s p, frame s (apply_piece s p).
Proof.
  intros s p. rewrite apply_piece_eq. constructor; try reflexivity. simpl. unfold map_dyn. rewrite map_map. reflexivity.
Qed.
Lemma frame_apply_pieces : forall pcs s, frame s (apply_pieces s pcs).
Proof.
  induction pcs as [|p pcs IH]; intros s; [apply frame_refl|]. simpl. eapply frame_trans; [apply frame_apply_piece | apply IH].
Qed.

(* ------------------------------------------------------------------ *)
(** * the loop after "--" *)
Lemma pos_left_len : forall s, length (pos_left s) <= length (s_args s).
Proof.
  intros s. unfold pos_left. rewrite map_length. induction (s_args s) as [|a l IH]; simpl; [lia|].
  destruct (left_over a); simpl; lia.
Qed.
Lemma end_loop_eq : forall fuel gfuel argv i s,
  wf0 s -> Forall (fun w => cstr w = true) argv -> sane (length argv) s ->
  (length argv - i) + length (pos_left s) < fuel -> length argv < gfuel -> i <= length argv ->
  (exists pcs, ReadingEnd (conf_of s) (pos_left s) (skipn i argv) pcs /\
     end_loop fuel gfuel argv i s = (apply_pieces s pcs, Ok tt)) \/
  (exists e s', FailsEnd (conf_of s) (pos_left s) (skipn i argv) e /\ frame s s' /\
     end_loop fuel gfuel argv i s = (s', Throw e)).
Proof.
  induction fuel as [|fuel IH]; intros gfuel argv i s W C SN Hf Hg Hi; [lia|].
  cbn [end_loop]. destruct (Nat.ltb_spec i (length argv)) as [Lt|Ge].
  2: { left. exists []. rewrite skipn_all2 by lia. split; [constructor | reflexivity]. }
  destruct (skipn_cons_nth i argv Lt) as [w [Nw Sw]].
  pose proof (parsePositional_eq gfuel (length argv) argv i true s W C SN Lt ltac:(lia) ltac:(lia)) as PP.
  rewrite (firstn_all2 (n := length argv - i) (skipn i argv)) in PP by (rewrite skipn_length; lia). simpl stop_of in PP.
  destruct (pos_left s) as [|[id c] ps] eqn:PL.
  - specialize (PP w Nw). destruct (m_strict (s_modes s)) eqn:ST.
    + right. exists (parse_error w "invalid additional argument"), s. rewrite Sw.
      split; [apply Fe_additional; exact ST|]. split; [apply frame_refl|]. apply bind_throw. exact PP.
    + set (s1 := with_additional s (s_additional s ++ [w])).
      assert (F1 : frame s s1) by (constructor; reflexivity).
      assert (PL1 : pos_left s1 = []) by exact PL.
      assert (K1 : conf_of s1 = conf_of s) by (apply conf_frame, F1).
      destruct (IH gfuel argv (S i) s1 (frame_wf0 _ _ W F1) C (sane_frame _ _ _ SN F1)) as [[pcs [R E]]|[e [s' [R [Fs E]]]]].
      { rewrite PL1. simpl in *. lia. } { lia. } { lia. }
      * left. exists (PcAdditional w :: pcs). rewrite PL1, K1 in R. split.
        -- rewrite Sw. constructor; [exact ST | exact R].
        -- rewrite (bind_ok _ _ _ _ _ PP). exact E.
      * right. exists e, s'. rewrite PL1, K1 in R. split; [|split].
        -- rewrite Sw. apply Fe_additional_next; [exact ST | exact R].
        -- eapply frame_trans; eauto.
        -- rewrite (bind_ok _ _ _ _ _ PP). exact E.
  - rewrite Sw in PP.
    destruct (take_words no_stop (arity_of c) (w :: skipn (S i) argv)) as [vs|] eqn:TW.
    + destruct PP as [PP PL1]. set (s1 := apply_pos s id vs) in *.
      assert (F1 : frame s s1) by (exact (frame_apply_piece s (PcPositional id vs))).
      assert (K1 : conf_of s1 = conf_of s) by (apply conf_frame, F1).
      assert (LV : i + length vs <= length argv).
      { apply take_words_length in TW. rewrite <- Sw, skipn_length in TW. lia. }
      assert (SK : skipn (length vs) (w :: skipn (S i) argv) = skipn (i + length vs) argv).
      { rewrite <- Sw. apply skipn_skipn'. }
      destruct (IH gfuel argv (i + length vs) s1 (frame_wf0 _ _ W F1) C (sane_frame _ _ _ SN F1)) as [[pcs [R E]]|[e [s' [R [Fs E]]]]].
      { rewrite PL1. simpl in Hf. lia. } { lia. } { lia. }
      * left. exists (PcPositional id vs :: pcs). rewrite PL1, K1, <- SK in R. split.
        -- rewrite Sw. now constructor.
        -- rewrite (bind_ok _ _ _ _ _ PP). exact E.
      * right. exists e, s'. rewrite PL1, K1, <- SK in R. split; [|split].
        -- rewrite Sw. eapply Fe_positional_next; eauto.
        -- eapply frame_trans; eauto.
        -- rewrite (bind_ok _ _ _ _ _ PP). exact E.
    + destruct PP as [s' [Fs PP]]. right. exists (parse_error (first_of c) "bad number of argument"), s'.
      split; [rewrite Sw; now constructor|]. split; [exact Fs|]. apply bind_throw. exact PP.
Qed.

(* ------------------------------------------------------------------ *)
(** * the main loop *)
Lemma endIndex_le : forall l, endOptionIndex l <= length l.
Proof. induction l as [|w l IH]; simpl; [lia|]. destruct (isEndOption w); lia. Qed.
Lemma endIndex_skip : forall i l, i <= endOptionIndex l -> endOptionIndex (skipn i l) = endOptionIndex l - i.
Proof.
  induction i as [|i IH]; intros [|w l] H; simpl in *; try lia.
  destruct (isEndOption w); [lia|]. rewrite IH by lia. lia.
Qed.
Lemma before_end_firstn : forall l, Forall (fun w => cstr w = true) l -> firstn (endOptionIndex l) l = before_end l.
Proof.
  induction l as [|w l IH]; intros H; [reflexivity|]. inversion H as [|x y Hw Hl]; subst x y. simpl.
  destruct (kind_spec w Hw) as [_ [_ ->]]. destruct (word_kind w); simpl; rewrite ?IH by exact Hl; reflexivity.
Qed.
Lemma avail_before : forall i argv, Forall (fun w => cstr w = true) argv -> i <= endOptionIndex argv ->
  firstn (endOptionIndex argv - i) (skipn i argv) = before_end (skipn i argv).
Proof.
  intros i argv C H. rewrite <- (endIndex_skip i argv H). apply before_end_firstn. now apply Forall_skipn.
Qed.
Lemma before_endIndex : forall i argv w, Forall (fun w => cstr w = true) argv -> nth_error argv i = Some w ->
  word_kind w <> WEnd -> i <= endOptionIndex argv -> i < endOptionIndex argv.
Proof.
  intros i argv w C N K H. assert (i <> endOptionIndex argv); [|lia]. intros E.
  revert i N H E. induction argv as [|x argv IH]; intros i N H E; [destruct i; discriminate|]. inversion C; subst x0 l.
  simpl in *. destruct (kind_spec x ltac:(assumption)) as [_ [_ IE]]. destruct (isEndOption x) eqn:X.
  - subst i. injection N as ->. destruct (word_kind w); congruence.
  - destruct i; [lia|]. simpl in N. apply (IH ltac:(assumption) i N); lia.
Qed.
Lemma before_end_length : forall l, length (before_end l) <= length l.
Proof. induction l as [|w l IH]; simpl; [lia|]. destruct (word_kind w); simpl; lia. Qed.
Lemma option_values_length : forall K c name value avail vs, option_values K c name value avail = inr vs ->
  length (match value with Some _ => [] | None => vs end) <= length avail.
Proof.
  intros K c name [v|] avail vs H; simpl in *; [lia|].
  destruct (take_words (stops K) (arity_of c) avail) as [x|] eqn:T; [|discriminate]. injection H as <-.
  eapply take_words_length; eauto.
Qed.
Lemma read_option_length : forall K w avail occs used, read_option K w avail = inr (occs, used) -> length used <= length avail.
Proof.
  intros K w avail occs used H. unfold read_option in H. destruct (word_meaning K w) as [e|bools id c name st value]; [discriminate|].
  destruct (option_values K c name value avail) as [e|vs] eqn:O; [discriminate|]. injection H as _ <-.
  eapply option_values_length; eauto.
Qed.
(** the occurrences of an option word are occurrences of options *)
Lemma bundle_ids : forall K value cs bools bools' id c name st v,
  bundle K value bools cs = MeansOption bools' id c name st v ->
  (forall i, In i bools -> exists n c', k_find K (String "-" n) = Some (i, c')) ->
  (forall i, In i bools' -> exists n c', k_find K (String "-" n) = Some (i, c')) /\
  (exists n, k_find K (String "-" n) = Some (id, c)).
Proof.
  intros K value; induction cs as [|x cs IH]; intros bools bools' id c name st v H B; simpl in H; [discriminate|].
  destruct (k_find K (one_char x)) as [[i cf]|] eqn:KF; [|discriminate].
  assert (B' : forall j, In j (bools ++ [i]) -> exists n c', k_find K (String "-" n) = Some (j, c')).
  { intros j Hj. apply in_app_or in Hj. destruct Hj as [Hj|[<-|[]]]; [auto|]. eexists _, _; exact KF. }
  destruct cs as [|y cs].
  - injection H as <- <- <- _ _ _. split; [exact B | eexists; exact KF].
  - destruct value as [w|].
    + destruct (is_flag_type (c_type cf)); [|discriminate]. eapply IH; eauto.
    + destruct (glues cf); [injection H as <- <- <- _ _ _; split; [exact B | eexists; exact KF]|].
      destruct (is_flag_type (c_type cf)); [|discriminate]. eapply IH; eauto.
Qed.
Lemma meaning_ids : forall K w bools id c name st v,
  word_kind w = WShort \/ word_kind w = WLong ->
  word_meaning K w = MeansOption bools id c name st v ->
  (forall i, In i bools -> exists n c', k_find K (String "-" n) = Some (i, c')) /\
  (exists n, k_find K (String "-" n) = Some (id, c)).
Proof.
  intros K w bools id c name st v KW H. unfold word_meaning in H.
  destruct (cut_eq w) as [n val] eqn:CE. destruct KW as [KW|KW]; rewrite KW in H.
  - destruct (k_alt K).
    + destruct (k_find K (String "-" n)) as [[i cf]|] eqn:KF.
      * injection H as <- <- <- _ _ _. split; [intros _ []|eexists; exact KF].
      * eapply bundle_ids; [exact H | intros _ []].
    + eapply bundle_ids; [exact H | intros _ []].
  - destruct (k_find K n) as [[i cf]|] eqn:KF; [|discriminate].
    injection H as <- <- <- _ _ _. split; [intros _ []|].
    destruct (cut_name_long w KW) as [r En]. rewrite CE in En. simpl in En. subst n. eexists; exact KF.
Qed.
Lemma read_option_ids : forall K w avail occs used,
  word_kind w = WShort \/ word_kind w = WLong ->
  read_option K w avail = inr (occs, used) ->
  forall o, In o occs -> exists n c, k_find K (String "-" n) = Some (o_id o, c).
Proof.
  intros K w avail occs used KW H o I. unfold read_option in H.
  destruct (word_meaning K w) as [e|bools id c name st value] eqn:M; [discriminate|].
  destruct (option_values K c name value avail) as [e|vs]; [discriminate|]. injection H as <- _.
  destruct (meaning_ids _ _ _ _ _ _ _ _ KW M) as [B D]. apply in_app_or in I. destruct I as [I|[<-|[]]].
  - apply in_map_iff in I. destruct I as [i [<- Ii]]. simpl. auto.
  - simpl. destruct D as [n D]; eauto.
Qed.
Lemma option_id : forall s id n c, wf0 s -> k_find (conf_of s) (String "-" n) = Some (id, c) ->
  forall a, In a (s_args s) -> a_id a = id -> is_positional (c_type (a_cfg a)) = false.
Proof.
  intros s id n c W K a I E. destruct (k_find_arg _ _ _ _ W K) as [_ [b [F [Ec [Nn Ib]]]]].
  apply find_id_In in F. destruct F as [_ Eb]. assert (a = b) by (apply (wf_unique s a b W I Ib); congruence). subst b.
  apply (dash_option s a (String "-" n) W I); [rewrite Ec; exact Nn | reflexivity].
Qed.
Lemma pos_left_occs : forall os s, wf0 s ->
  (forall o, In o os -> exists n c, k_find (conf_of s) (String "-" n) = Some (o_id o, c)) ->
  pos_left (apply_occs s os) = pos_left s.
Proof.
  induction os as [|o os IH]; intros s W H; [reflexivity|]. simpl.
  destruct (H o (or_introl eq_refl)) as [n [c K]].
  change (fold_left apply_occ os (apply_occ s o)) with (apply_occs (apply_occ s o) os).
  rewrite IH; [|now apply wf0_apply_occ|].
  - apply pos_left_occ; [exact W|]. eapply option_id; eauto.
  - intros o' I. rewrite conf_apply_occ. apply H. now right.
Qed.

Lemma parse_loop_eq : forall fuel gfuel argv i s,
  wf0 s -> Forall (fun w => cstr w = true) argv -> sane (length argv) s ->
  (length argv - i) + length (pos_left s) < fuel -> length argv < gfuel -> i <= endOptionIndex argv ->
  (exists pcs, Reading (conf_of s) (pos_left s) (skipn i argv) pcs /\
     parse_loop fuel gfuel argv (endOptionIndex argv) i s = (apply_pieces s pcs, Ok tt)) \/
  (exists e s', Fails (conf_of s) (pos_left s) (skipn i argv) e /\ frame s s' /\
     parse_loop fuel gfuel argv (endOptionIndex argv) i s = (s', Throw e)).
Proof.
  induction fuel as [|fuel IH]; intros gfuel argv i s W C SN Hf Hg Hi; [lia|].
  cbn [parse_loop]. pose proof (endIndex_le argv) as EL.
  destruct (Nat.ltb_spec i (length argv)) as [Lt|Ge].
  2: { left. exists []. rewrite skipn_all2 by lia. split; [constructor | reflexivity]. }
  destruct (skipn_cons_nth i argv Lt) as [w [Nw Sw]].
  assert (Cw : cstr w = true).
  { rewrite Forall_forall in C. apply C. eapply nth_error_In; exact Nw. }
  rewrite (bind_ok _ _ _ _ _ (argv_at_eq argv i w s Nw)).
  destruct (kind_spec w Cw) as [KS [KL KE]].
  (* an option word *)
  assert (OPT : word_kind w = WShort \/ word_kind w = WLong ->
    (exists pcs, Reading (conf_of s) (pos_left s) (skipn i argv) pcs /\
       (do j <- parse_option (word_kind w) gfuel (endOptionIndex argv) argv i w;; parse_loop fuel gfuel argv (endOptionIndex argv) j) s = (apply_pieces s pcs, Ok tt)) \/
    (exists e s', Fails (conf_of s) (pos_left s) (skipn i argv) e /\ frame s s' /\
       (do j <- parse_option (word_kind w) gfuel (endOptionIndex argv) argv i w;; parse_loop fuel gfuel argv (endOptionIndex argv) j) s = (s', Throw e))).
  { intros KW. assert (Hlt : i < endOptionIndex argv).
    { apply (before_endIndex i argv w C Nw); [destruct KW; congruence | exact Hi]. }
    pose proof (parse_option_eq w gfuel (endOptionIndex argv) argv i s W C SN Hlt EL ltac:(lia) KW) as PO.
    unfold opt_avail in PO. rewrite (avail_before (S i) argv C) in PO by lia.
    destruct (read_option (conf_of s) w (before_end (skipn (S i) argv))) as [e|[occs used]] eqn:RO.
    - destruct PO as [s' [Fs PO]]. right. exists e, s'. split; [rewrite Sw; now apply Fl_option|].
      split; [exact Fs|]. apply bind_throw. exact PO.
    - set (s1 := apply_occs s occs) in *.
      assert (F1 : frame s s1) by apply frame_apply_occs.
      assert (K1 : conf_of s1 = conf_of s) by (apply conf_frame, F1).
      assert (PL1 : pos_left s1 = pos_left s).
      { apply pos_left_occs; [exact W|]. eapply read_option_ids; eauto. }
      assert (LV : S i + length used <= endOptionIndex argv).
      { apply read_option_length in RO. rewrite <- (avail_before (S i) argv C ltac:(lia)), firstn_length in RO. lia. }
      assert (SK : skipn (length used) (skipn (S i) argv) = skipn (S i + length used) argv) by apply skipn_skipn'.
      destruct (IH gfuel argv (S i + length used) s1 (frame_wf0 _ _ W F1) C (sane_frame _ _ _ SN F1)) as [[pcs [R E]]|[e [s' [R [Fs E]]]]].
      { rewrite PL1. lia. } { lia. } { lia. }
      + left. exists (PcOption w occs used :: pcs). rewrite PL1, K1, <- SK in R. split.
        * rewrite Sw. now constructor.
        * rewrite (bind_ok _ _ _ _ _ PO). exact E.
      + right. exists e, s'. rewrite PL1, K1, <- SK in R. split; [|split].
        * rewrite Sw. eapply Fl_option_next; eauto.
        * eapply frame_trans; eauto.
        * rewrite (bind_ok _ _ _ _ _ PO). exact E. }
  rewrite KS, KL, KE. destruct (word_kind w) eqn:KW.
  - exact (OPT (or_introl eq_refl)).
  - exact (OPT (or_intror eq_refl)).
  - clear OPT.
    destruct (end_loop_eq fuel gfuel argv (S i) s W C SN ltac:(lia) Hg ltac:(lia)) as [[pcs [R E]]|[e [s' [R [Fs E]]]]].
    + left. exists (PcEnd :: pcs). split; [rewrite Sw; now constructor | exact E].
    + right. exists e, s'. split; [rewrite Sw; now apply Fl_end|]. auto.
  - clear OPT. assert (Hlt : i < endOptionIndex argv).
    { apply (before_endIndex i argv w C Nw); [congruence | exact Hi]. }
    pose proof (parsePositional_eq gfuel (endOptionIndex argv) argv i false s W C SN Hlt EL ltac:(lia)) as PP.
    rewrite (avail_before i argv C Hi) in PP. simpl stop_of in PP.
    destruct (pos_left s) as [|[id c] ps] eqn:PL.
    + specialize (PP w Nw). destruct (m_strict (s_modes s)) eqn:ST.
      * right. exists (parse_error w "invalid additional argument"), s. rewrite Sw.
        split; [now apply Fl_additional|]. split; [apply frame_refl|]. apply bind_throw. exact PP.
      * set (s1 := with_additional s (s_additional s ++ [w])).
        assert (F1 : frame s s1) by (constructor; reflexivity).
        assert (PL1 : pos_left s1 = []) by exact PL.
        assert (K1 : conf_of s1 = conf_of s) by (apply conf_frame, F1).
        destruct (IH gfuel argv (S i) s1 (frame_wf0 _ _ W F1) C (sane_frame _ _ _ SN F1)) as [[pcs [R E]]|[e [s' [R [Fs E]]]]].
        { rewrite PL1. simpl in *. lia. } { lia. } { lia. }
        -- left. exists (PcAdditional w :: pcs). rewrite PL1, K1 in R. split.
           ++ rewrite Sw. now constructor.
           ++ rewrite (bind_ok _ _ _ _ _ PP). exact E.
        -- right. exists e, s'. rewrite PL1, K1 in R. split; [|split].
           ++ rewrite Sw. now apply Fl_additional_next.
           ++ eapply frame_trans; eauto.
           ++ rewrite (bind_ok _ _ _ _ _ PP). exact E.
    + rewrite Sw in PP.
      destruct (take_words (stops (conf_of s)) (arity_of c) (before_end (w :: skipn (S i) argv))) as [vs|] eqn:TW.
      * destruct PP as [PP PL1]. set (s1 := apply_pos s id vs) in *.
        assert (F1 : frame s s1) by (exact (frame_apply_piece s (PcPositional id vs))).
        assert (K1 : conf_of s1 = conf_of s) by (apply conf_frame, F1).
        assert (LV : i + length vs <= endOptionIndex argv).
        { apply take_words_length in TW. rewrite <- Sw, <- (avail_before i argv C Hi), firstn_length in TW. lia. }
        assert (SK : skipn (length vs) (w :: skipn (S i) argv) = skipn (i + length vs) argv).
        { rewrite <- Sw. apply skipn_skipn'. }
        destruct (IH gfuel argv (i + length vs) s1 (frame_wf0 _ _ W F1) C (sane_frame _ _ _ SN F1)) as [[pcs [R E]]|[e [s' [R [Fs E]]]]].
        { rewrite PL1. simpl in Hf. lia. } { lia. } { lia. }
        -- left. exists (PcPositional id vs :: pcs). rewrite PL1, K1, <- SK in R. split.
           ++ rewrite Sw. now constructor.
           ++ rewrite (bind_ok _ _ _ _ _ PP). exact E.
        -- right. exists e, s'. rewrite PL1, K1, <- SK in R. split; [|split].
           ++ rewrite Sw. eapply Fl_positional_next; eauto.
           ++ eapply frame_trans; eauto.
           ++ rewrite (bind_ok _ _ _ _ _ PP). exact E.
      * destruct PP as [s' [Fs PP]]. right. exists (parse_error (first_of c) "bad number of argument"), s'.
        split; [rewrite Sw; now constructor|]. split; [exact Fs|]. apply bind_throw. exact PP.
Qed.
