(** Properties_Valid.v -- C31 ValidChoise, C32 ValidMinMax, C33 ValidPath, C34 ValidNumber.
    A validator is called with the values of an argument; how its answer is used by
    parseArguments is C30. *)
From Verif Require Import Base Model_Number Model_Types Model_Valid Model_Args Model_Api Spec_Number Proofs_Number.

(** [v] accepts the values [vs]: it returns true and leaves them as they are *)
Definition accepts (v : list str -> vres) (vs : list str) : Prop := v vs = VOk true vs.
(** [v] throws ParseArgumentValidException(msg) *)
Definition throws (v : list str -> vres) (vs : list str) (msg : str) : Prop := v vs = VThrow msg.
(** [bad] is the first value of [vs] that is not [good] *)
Definition first_bad (good : str -> Prop) (vs : list str) (bad : str) : Prop :=
  exists before after, vs = before ++ bad :: after /\ Forall good before /\ ~ good bad.

Lemma check_accepts : forall err good vs, (forall x, err x = None <-> good x) -> (accepts (check_all err) vs <-> Forall good vs).
Proof.
  intros err good vs G. unfold accepts, check_all. assert (H : check_each err vs = None <-> Forall good vs).
  { induction vs as [|x vs IH]; cbn [check_each]; [split; auto|]. rewrite Forall_cons_iff, <- G, <- IH.
    destruct (err x); split; intuition congruence. }
  rewrite <- H. destruct (check_each err vs); split; intuition congruence.
Qed.
Lemma check_throws : forall err (good : str -> Prop) vs m, (forall x, err x = None <-> good x) ->
  (throws (check_all err) vs m <-> exists bad, first_bad good vs bad /\ err bad = Some m).
Proof.
  intros err good vs m G. unfold throws, check_all.
  assert (H : check_each err vs = Some m <-> exists bad, first_bad good vs bad /\ err bad = Some m).
  { induction vs as [|x vs IH]; cbn [check_each].
    - split; [discriminate|]. intros [bad [[b [a [E _]]] _]]. destruct b; discriminate E.
    - destruct (err x) as [m'|] eqn:E.
      + assert (NG : ~ good x) by (intros K; apply G in K; congruence). split.
        * intros K. injection K as ->. exists x. split; [|exact E]. exists [], vs. repeat split; auto.
        * intros [bad [[b [a [Eb [Fb Nb]]]] Em]]. destruct b as [|y b]; cbn in Eb; injection Eb as -> Eb; [congruence|].
          inversion Fb; subst. contradiction.
      + rewrite IH. apply G in E. split; intros [bad [[b [a [Eb [Fb Nb]]]] Em]]; exists bad; (split; [|exact Em]).
        * exists (x :: b), a. subst vs. repeat split; auto.
        * destruct b as [|y b]; cbn in Eb; injection Eb as -> Eb; [contradiction|]. inversion Fb; subst. now exists b, a. }
  rewrite <- H. destruct (check_each err vs); split; intuition congruence.
Qed.
(** a list either is all good or has a first bad value *)
Lemma check_cases : forall err vs, check_all err vs = VOk true vs \/ exists m, check_all err vs = VThrow m.
Proof. intros err vs. unfold check_all. destruct (check_each err vs) as [m|]; [right; now exists m | now left]. Qed.

(** ------------------------------ C31 ------------------------------ *)
Lemma mem_str_iff : forall s l, mem_str s l = true <-> In s l.
Proof.
  intros s l. unfold mem_str. rewrite existsb_exists. split; [intros [x [I E]]; apply String.eqb_eq in E; now subst | intros I; exists s; now rewrite String.eqb_refl].
Qed.
Lemma choise_good : forall cs x, err_choise cs x = None <-> In x cs.
Proof.
  intros cs x. unfold err_choise. rewrite <- mem_str_iff. destruct (mem_str x cs); split; congruence.
Qed.
Theorem C31_accepts : forall choises vs, accepts (validChoise choises) vs <-> forall v, In v vs -> In v choises.
Proof. intros cs vs. rewrite <- Forall_forall. apply check_accepts, choise_good. Qed.
Theorem C31_throws : forall choises vs msg, throws (validChoise choises) vs msg <->
  exists bad, first_bad (fun v => In v choises) vs bad /\
    msg = dquote ^^ bad ^^ dquote ^^ " is not a valid choise (" ^^ join ", " (map (fun c => dquote ^^ c ^^ dquote) choises) ^^ ")".
Proof.
  intros cs vs msg. unfold validChoise. rewrite (check_throws _ (fun v => In v cs) vs msg (choise_good cs)).
  split; intros [bad [F E]]; exists bad; (split; [exact F|]); destruct F as [b [a [_ [_ N]]]].
  - unfold err_choise in E. destruct (mem_str bad cs) eqn:M; [apply mem_str_iff in M; contradiction|]. injection E as <-.
    unfold quoted. now rewrite !app_assoc_s.
  - unfold err_choise. destruct (mem_str bad cs) eqn:M; [apply mem_str_iff in M; contradiction|]. subst msg. unfold quoted. now rewrite !app_assoc_s.
Qed.
Theorem C31_total : forall choises vs, accepts (validChoise choises) vs \/ exists msg, throws (validChoise choises) vs msg.
Proof. intros. apply check_cases. Qed.
Example C31_example : accepts (validChoise ["rock"; "paper"; ""]) ["paper"; ""; "paper"] /\
  throws (validChoise ["rock"; "paper"]) ["rock"; "well"; "spock"] (dquote ^^ "well" ^^ dquote ^^ " is not a valid choise (" ^^ dquote ^^ "rock" ^^ dquote ^^ ", " ^^ dquote ^^ "paper" ^^ dquote ^^ ")").
Proof. split; reflexivity. Qed.

(** ------------------------------ C32 ------------------------------ *)
(** The number type of the code is double; the theorem holds for every number type [D]
    whose order [ltb] is a strict weak order (double without NaN), however values are
    read from and printed to text. *)
Definition strict_weak {D} (ltb : D -> D -> bool) : Prop :=
  (forall x y, ltb x y = true -> ltb y x = false) /\ (forall x y z, ltb x y = false -> ltb y z = false -> ltb x z = false).
(** x <= y *)
Definition le_by {D} (ltb : D -> D -> bool) (x y : D) : Prop := ltb y x = false.
(** min(a,b) <= x <= max(a,b) *)
Definition between {D} (ltb : D -> D -> bool) (a b x : D) : Prop :=
  (le_by ltb a x /\ le_by ltb x b) \/ (le_by ltb b x /\ le_by ltb x a).
(** [v] reads as a number between the bounds *)
Definition in_range {D} (ltb : D -> D -> bool) (read : str -> option D) (a b : D) (v : str) : Prop :=
  exists x, read v = Some x /\ between ltb a b x.
Lemma minmax_good : forall {D} (ltb : D -> D -> bool) read show a b v, strict_weak ltb ->
  (let (lo, hi) := minmax_bounds ltb a b in err_minmax ltb read show lo hi v = None <-> in_range ltb read a b v) /\
  (le_by ltb (fst (minmax_bounds ltb a b)) (snd (minmax_bounds ltb a b))).
Proof.
  intros D ltb read show a b v [AS TR]. unfold minmax_bounds. destruct (ltb b a) eqn:E; cbn [fst snd]; (split; [|unfold le_by; auto]).
  - unfold err_minmax, in_range, between, le_by. destruct (read v) as [x|] eqn:R; [|split; [discriminate | intros [x [K _]]; discriminate K]].
    destruct (ltb x b) eqn:E1, (ltb a x) eqn:E2; cbn [orb]; (split; [try discriminate|intros [y [Q H]]; injection Q as <-; try reflexivity]).
    + exfalso. destruct H as [[H1 H2]|[H1 H2]]; [|congruence]. pose proof (TR b x a H2 H1). congruence.
    + exfalso. destruct H as [[H1 H2]|[H1 H2]]; [|congruence]. pose proof (TR b x a H2 H1). congruence.
    + exfalso. destruct H as [[H1 H2]|[H1 H2]]; [|congruence]. pose proof (TR b x a H2 H1). congruence.
    + intros _. exists x. split; [reflexivity|]. right. auto.
  - unfold err_minmax, in_range, between, le_by. destruct (read v) as [x|] eqn:R; [|split; [discriminate | intros [x [K _]]; discriminate K]].
    destruct (ltb x a) eqn:E1, (ltb b x) eqn:E2; cbn [orb]; (split; [try discriminate|intros [y [Q H]]; injection Q as <-; try reflexivity]).
    + exfalso. destruct H as [[H1 H2]|[H1 H2]]; [congruence|]. pose proof (TR x b a H1 E). congruence.
    + exfalso. destruct H as [[H1 H2]|[H1 H2]]; [congruence|]. pose proof (TR x b a H1 E). congruence.
    + exfalso. destruct H as [[H1 H2]|[H1 H2]]; [congruence|]. pose proof (TR b a x E H2). congruence.
    + intros _. exists x. split; [reflexivity|]. left. auto.
Qed.
Theorem C32_accepts : forall D (ltb : D -> D -> bool) read show a b vs, strict_weak ltb ->
  (accepts (validMinMax ltb read show a b) vs <-> forall v, In v vs -> in_range ltb read a b v).
Proof.
  intros D ltb read show a b vs W. rewrite <- Forall_forall. unfold validMinMax.
  pose proof (fun v => proj1 (minmax_good ltb read show a b v W)) as G. destruct (minmax_bounds ltb a b) as [lo hi]. now apply check_accepts.
Qed.
Theorem C32_throws : forall D (ltb : D -> D -> bool) read show a b vs msg, strict_weak ltb ->
  (throws (validMinMax ltb read show a b) vs msg <->
   exists bad, first_bad (in_range ltb read a b) vs bad /\
     match read bad with
     | None => msg = dquote ^^ bad ^^ dquote ^^ " is not a number"
     | Some _ => msg = bad ^^ " is not between " ^^ show (if ltb b a then b else a) ^^ " and " ^^ show (if ltb b a then a else b)
     end).
Proof.
  intros D ltb read show a b vs msg W. unfold validMinMax.
  pose proof (fun v => proj1 (minmax_good ltb read show a b v W)) as G.
  assert (EB : minmax_bounds ltb a b = (if ltb b a then b else a, if ltb b a then a else b)) by (unfold minmax_bounds; now destruct (ltb b a)).
  rewrite EB in *. rewrite (check_throws _ (in_range ltb read a b) vs msg G).
  split; intros [bad [F E]]; exists bad; (split; [exact F|]); destruct F as [b1 [a1 [_ [_ N]]]]; rewrite <- G in N; revert N E; unfold err_minmax, quoted;
    destruct (read bad) as [x|]; rewrite ?app_assoc_s.
  - destruct (ltb x _ || ltb _ x); [intros _ E; injection E as <-; reflexivity | intros N; now elim N].
  - intros _ E. injection E as <-. reflexivity.
  - destruct (ltb x _ || ltb _ x); [intros _ ->; reflexivity | intros N; now elim N].
  - intros _ ->. reflexivity.
Qed.
Theorem C32_order_irrelevant : forall D (ltb : D -> D -> bool) read show a b vs, strict_weak ltb ->
  (accepts (validMinMax ltb read show a b) vs <-> accepts (validMinMax ltb read show b a) vs).
Proof.
  intros D ltb read show a b vs W. rewrite !C32_accepts by exact W.
  assert (B : forall v, in_range ltb read a b v <-> in_range ltb read b a v).
  { intros v. unfold in_range, between. split; intros [x H]; exists x; tauto. }
  split; intros H v I; apply B, H, I.
Qed.

(** the instance on exact decimals read as a C++ stream reads them *)
Lemma pow_pos : forall k, (0 <= k)%Z -> (0 < 10 ^ k)%Z.
Proof. intros. apply Z.pow_pos_nonneg; lia. Qed.
Lemma dec_le_at : forall x y k, (k <= Z.min (snd x) (snd y))%Z ->
  (dec_le x y <-> (fst x * 10 ^ (snd x - k) <= fst y * 10 ^ (snd y - k))%Z).
Proof.
  intros [m1 e1] [m2 e2] k K. unfold dec_le. cbn [fst snd] in *. set (e := Z.min e1 e2) in *.
  replace (e1 - k)%Z with (e1 - e + (e - k))%Z by lia. replace (e2 - k)%Z with (e2 - e + (e - k))%Z by lia.
  rewrite !Z.pow_add_r by lia. rewrite !Z.mul_assoc. pose proof (pow_pos (e - k) ltac:(lia)). split; intros; nia.
Qed.
Lemma dec_ltb_le : forall x y, dec_ltb y x = false <-> dec_le x y.
Proof.
  intros [m1 e1] [m2 e2]. unfold dec_ltb, dec_le. cbn [fst snd]. rewrite Z.ltb_ge. now rewrite (Z.min_comm e2 e1).
Qed.
Lemma dec_strict_weak : strict_weak dec_ltb.
Proof.
  split.
  - intros x y H. apply dec_ltb_le. destruct (dec_ltb y x) eqn:E; [|now apply dec_ltb_le in E; rewrite <- dec_ltb_le in *; destruct x, y; unfold dec_ltb in *; rewrite Z.ltb_lt, ?Z.ltb_ge in *; rewrite Z.min_comm in H; lia].
    exfalso. destruct x as [m1 e1], y as [m2 e2]. unfold dec_ltb in *. rewrite Z.ltb_lt in *. rewrite Z.min_comm in E. lia.
  - intros x y z H1 H2. apply dec_ltb_le in H1, H2. apply dec_ltb_le.
    set (k := Z.min (snd x) (Z.min (snd y) (snd z))).
    apply (dec_le_at y x k) in H1; [|lia]. apply (dec_le_at z y k) in H2; [|lia]. apply (dec_le_at z x k); lia.
Qed.
Theorem C32_decimals : forall show (a b : dec) vs,
  accepts (validMinMax dec_ltb istream_double show a b) vs <->
  forall v, In v vs -> exists x, begins_with_number v x /\ representable x /\ ((dec_le a x /\ dec_le x b) \/ (dec_le b x /\ dec_le x a)).
Proof.
  intros show a b vs. rewrite (C32_accepts _ _ _ _ _ _ _ dec_strict_weak).
  assert (B : forall v, in_range dec_ltb istream_double a b v <->
    exists x, begins_with_number v x /\ representable x /\ ((dec_le a x /\ dec_le x b) \/ (dec_le b x /\ dec_le x a))).
  { intros v. unfold in_range, between, le_by. split; intros [x H]; exists x; rewrite istream_grammar, !dec_ltb_le in *; tauto. }
  split; intros H v I; apply B, H, I.
Qed.
Example C32_example : let mm := validMinMax dec_ltb istream_double (fun _ => "_") (5, -1)%Z (2, 0)%Z in
  accepts mm ["0.5"; "2e0"; " 1.25"; "1km"] /\ throws mm ["1"; "2.01"; "x"] "2.01 is not between _ and _" /\
  throws mm ["1"; "x"; "2.01"] (dquote ^^ "x" ^^ dquote ^^ " is not a number").
Proof. now vm_compute. Qed.

(** ------------------------------ C33 ------------------------------ *)
(** [fs p]: what stat(2) says about the path [p] *)
Definition is_ok_path (mode : pmode) (fs : str -> option fkind) (p : str) : Prop :=
  match mode with
  | PAll => exists k, fs p = Some k
  | PIsFile => fs p = Some FReg
  | PIsDir => fs p = Some FDir
  end.
Lemma path_good : forall mode fs p, err_path mode fs p = None <-> is_ok_path mode fs p.
Proof.
  intros mode fs p. unfold err_path, is_ok_path. destruct (fs p) as [k|].
  - destruct mode, k; (split; [try discriminate; intros _; eauto | intros H; try reflexivity; try discriminate H]).
  - destruct mode; (split; [discriminate | intros H]); [destruct H as [k H]; discriminate H | discriminate H | discriminate H].
Qed.
Theorem C33_accepts : forall mode fs vs, accepts (validPath mode fs) vs <-> forall v, In v vs -> is_ok_path mode fs v.
Proof. intros. rewrite <- Forall_forall. apply check_accepts, path_good. Qed.
Theorem C33_throws : forall mode fs vs msg, throws (validPath mode fs) vs msg <->
  exists bad, first_bad (is_ok_path mode fs) vs bad /\
    msg = dquote ^^ bad ^^ dquote ^^
      match fs bad, mode with
      | None, _ => " is not a valid path"
      | Some _, PIsDir => " is not a valid directory"
      | Some _, _ => " is not a valid file"
      end.
Proof.
  intros mode fs vs msg. unfold validPath. rewrite (check_throws _ (is_ok_path mode fs) vs msg (path_good mode fs)).
  split; intros [bad [F E]]; exists bad; (split; [exact F|]); destruct F as [b1 [a1 [_ [_ N]]]]; rewrite <- path_good in N; revert N E; unfold err_path, quoted;
    destruct (fs bad) as [[]|]; destruct mode; rewrite ?app_assoc_s; intros N E; try (now elim N); try (injection E as <-); subst; reflexivity.
Qed.
Example C33_example : let fs p := if String.eqb p "/etc" then Some FDir else if String.eqb p "/etc/passwd" then Some FReg else if String.eqb p "/dev/null" then Some FOther else None in
  accepts (validPath PIsDir fs) ["/etc"; "/etc"] /\ accepts (validPath PAll fs) ["/etc"; "/dev/null"] /\
  throws (validPath PIsFile fs) ["/etc/passwd"; "/dev/null"; "/none"] (dquote ^^ "/dev/null" ^^ dquote ^^ " is not a valid file").
Proof. repeat split; reflexivity. Qed.

(** ------------------------------ C34 ------------------------------ *)
Lemma number_good : forall x, err_number x = None <-> x = "" \/ number_text x.
Proof.
  intros x. rewrite <- strtod_grammar. unfold err_number, strtod_rest. destruct (strtod_subject x) as [[|c r]|] eqn:E.
  - split; auto.
  - split; [discriminate | intros [-> | H]; [discriminate E | discriminate H]].
  - destruct x; split; try discriminate; auto. intros [H|H]; discriminate H.
Qed.
(** the empty string is accepted although it is not a number *)
Theorem C34_refuted : accepts validNumber [""] /\ ~ number_text "".
Proof. split; [reflexivity|]. rewrite <- strtod_grammar. discriminate. Qed.
(** ... and that is the only exception *)
Theorem C34_partial : forall vs, accepts validNumber vs <-> forall v, In v vs -> v = "" \/ number_text v.
Proof. intros. rewrite <- Forall_forall. apply check_accepts, number_good. Qed.
Theorem C34_nonempty : forall vs, ~ In "" vs -> (accepts validNumber vs <-> forall v, In v vs -> number_text v).
Proof.
  intros vs NE. rewrite C34_partial. split; intros H v I; destruct (H v I); auto; subst; contradiction.
Qed.
Theorem C34_throws : forall vs msg, throws validNumber vs msg <->
  exists bad, first_bad (fun v => v = "" \/ number_text v) vs bad /\ msg = dquote ^^ bad ^^ dquote ^^ " is not a number".
Proof.
  intros vs msg. unfold validNumber. rewrite (check_throws _ _ vs msg number_good).
  split; intros [bad [F E]]; exists bad; (split; [exact F|]); destruct F as [b1 [a1 [_ [_ N]]]]; rewrite <- number_good in N; revert N E; unfold err_number, quoted;
    destruct (strtod_rest bad); rewrite ?app_assoc_s; intros N E; try (now elim N); try (injection E as <-); subst; reflexivity.
Qed.
Example C34_example : accepts validNumber ["12"; " -3.5e+7"; "0x1F.8p3"; "inf"; "nan(abc)"; ".5"; "5."] /\
  throws validNumber ["12"; "12km"; "a"] (dquote ^^ "12km" ^^ dquote ^^ " is not a number") /\ throws validNumber ["."] (dquote ^^ "." ^^ dquote ^^ " is not a number").
Proof. repeat split; reflexivity. Qed.
