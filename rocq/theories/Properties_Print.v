(** Properties_Print.v -- C74: the bounds in the message of ValidMinMax.  Texts and rounding
    are specified in Spec_Print.v. *)
From Coq Require Import Lqa Lia.
From Verif Require Import Base Model_Number Model_Types Model_Valid Model_Double Model_Print
  Spec_Number Spec_Double Spec_Print Proofs_Base Proofs_Number Proofs_Double Proofs_Print Properties_Valid Properties_Double Properties_MinMax.
Local Open Scope Z_scope.

(** A bound is shown as "inf", "-inf", "nan", or as the decimal of six significant digits next
    to it. *)
Inductive shown : dbl -> str -> Prop :=
| Sh_nan : shown DNan "nan"
| Sh_inf : forall neg, shown (DInf neg) (if neg then "-inf" else "inf")
| Sh_fin : forall neg m e y t, nearest6 (inject_Z m * 2 ^ e) y -> written_signed neg y t -> shown (DFin neg m e) t.
Definition magnitude (d : dbl) : Prop := match d with DFin _ m _ => 0 <= m | _ => True end.
Lemma written_signed_unique : forall neg y y' t t', (y == y')%Q -> written_signed neg y t -> written_signed neg y' t' -> t = t'.
Proof. intros neg y y' t t' E (u & -> & W) (u' & -> & W'). f_equal. exact (written_unique y y' u u' E W W'). Qed.
(** This determines the text. *)
Theorem C74_text : forall d t, magnitude d -> (shown d t <-> t = show_double d).
Proof.
  intros d t M. destruct d as [neg m e | neg |]; cbn [magnitude] in M.
  - destruct (show_written neg m e M) as (y & N & W). split.
    + intro S. inversion S as [| | neg' m' e' y' t' N' W' E1 E2]; subst. exact (written_signed_unique neg _ _ _ _ (nearest6_unique _ _ _ N' N) W' W).
    + intros ->. exact (Sh_fin neg m e y _ N W).
  - split; [intro S; inversion S; destruct neg; reflexivity | intros ->; destruct neg; [exact (Sh_inf true) | exact (Sh_inf false)]].
  - split; [intro S; inversion S; reflexivity | intros ->; exact Sh_nan].
Qed.
Print Assumptions C74_text.

(** ** The message *)
Lemma at_most_self : forall neg m e, at_most (DFin neg m e) (with_sign neg (inject_Z m * 2 ^ e)).
Proof. intros. apply Qle_refl. Qed.
(** the bound [b] is less than the bound [a] *)
Definition less (b a : dbl) : Prop := exists y, at_most b y /\ ~ at_most a y.
Lemma less_iff : forall b a, a <> DNan -> b <> DNan -> (less b a <-> dbl_ltb b a = true).
Proof.
  intros b a Na Nb. unfold less. destruct b as [nb mb eb | nb |]; [| | contradiction].
  - pose proof (ltb_at_most (DFin nb mb eb) (with_sign nb (inject_Z mb * 2 ^ eb)) a ltac:(exists nb, mb, eb; split; reflexivity) Na) as L. split.
    + intros (y & Y1 & Y2). destruct (dbl_ltb (DFin nb mb eb) a) eqn:E; [reflexivity |]. exfalso. apply Y2.
      destruct a as [na ma ea | na |]; [pose proof (proj1 L eq_refl) as K; cbn [at_most] in *; exact (Qle_trans _ _ _ K Y1) | exact (proj1 L eq_refl) | contradiction].
    + intro E. exists (with_sign nb (inject_Z mb * 2 ^ eb)). split; [apply at_most_self |]. intro K. apply L in K. congruence.
  - destruct nb.
    + destruct a as [na ma ea | [] |]; [| | | contradiction].
      * split; [reflexivity |]. intros _. exists (with_sign na (inject_Z ma * 2 ^ ea) - 1)%Q. split; [reflexivity |]. cbn [at_most]. intro K. lra.
      * split; [intros (y & _ & K); elim K; reflexivity | discriminate].
      * split; [reflexivity |]. intros _. exists 0%Q. split; [reflexivity | discriminate].
    + split; [intros (y & K & _); discriminate K | destruct a as [na ma ea | [] |]; discriminate].
Qed.
(** the value begins with a number within the range of double *)
Definition readable (v : str) : Prop := exists d, begins_with_number v d /\ representable d.
(** An exception is thrown exactly if there is a first value that is not a number between the
    bounds, and this is its text: the value, and both bounds, the smaller one first. *)
Theorem C74_message : forall a b vs msg, a <> DNan -> b <> DNan -> magnitude a -> magnitude b ->
  (throws (validMinMax_double a b) vs msg <->
   exists bad, first_bad (good_double a b) vs bad /\
     ((~ readable bad /\ msg = dquote ^^ bad ^^ dquote ^^ " is not a number") \/
      (readable bad /\ exists lo hi tlo thi, ((less b a /\ lo = b /\ hi = a) \/ (~ less b a /\ lo = a /\ hi = b)) /\ shown lo tlo /\ shown hi thi /\
         msg = bad ^^ " is not between " ^^ tlo ^^ " and " ^^ thi))).
Proof.
  intros a b vs msg Na Nb Ma Mb. unfold validMinMax_double, validMinMax. pose proof (fun v => double_good show_double a b v Na Nb) as G.
  assert (EB : minmax_bounds dbl_ltb a b = (if dbl_ltb b a then b else a, if dbl_ltb b a then a else b)) by (unfold minmax_bounds; now destruct (dbl_ltb b a)).
  rewrite EB in *. rewrite (check_throws _ (good_double a b) vs msg G).
  assert (RB : forall v, readable v <-> istream_dbl v <> None).
  { intro v. unfold istream_dbl. pose proof (istream_grammar v) as IG. destruct (istream_double v) as [d |]; cbn [option_map].
    - split; [discriminate | intros _; exists d; apply IG; reflexivity].
    - split; [intros (d & D); apply IG in D; discriminate D | intro K; elim K; reflexivity]. }
  assert (R : forall bad, first_bad (good_double a b) vs bad ->
    (err_minmax dbl_ltb istream_dbl show_double (if dbl_ltb b a then b else a) (if dbl_ltb b a then a else b) bad = Some msg <->
     ((~ readable bad /\ msg = dquote ^^ bad ^^ dquote ^^ " is not a number") \/
      (readable bad /\ exists lo hi tlo thi, ((less b a /\ lo = b /\ hi = a) \/ (~ less b a /\ lo = a /\ hi = b)) /\ shown lo tlo /\ shown hi thi /\
         msg = bad ^^ " is not between " ^^ tlo ^^ " and " ^^ thi)))).
  { intros bad (b1 & a1 & _ & _ & NG). rewrite <- G in NG. specialize (RB bad). revert NG. unfold err_minmax, quoted. destruct (istream_dbl bad) as [x |] eqn:EX; intro NG.
    - assert (RD : readable bad) by (apply RB; discriminate). destruct (dbl_ltb x _ || dbl_ltb _ x); [| elim NG; reflexivity].
      pose proof (less_iff b a Na Nb) as LI. split.
      + intro E. injection E as <-. right. split; [exact RD |]. destruct (dbl_ltb b a).
        * exists b, a, (show_double b), (show_double a). split; [left; split; [apply LI; reflexivity | auto] |]. rewrite !C74_text by assumption. auto.
        * exists a, b, (show_double a), (show_double b). split; [right; split; [intro K; apply LI in K; discriminate K | auto] |]. rewrite !C74_text by assumption. auto.
      + intros [[K _] | (_ & lo & hi & tlo & thi & C & S1 & S2 & ->)]; [contradiction |]. destruct C as [(L & -> & ->) | (L & -> & ->)].
        * apply LI in L. rewrite L. apply (C74_text _ _ Mb) in S1. apply (C74_text _ _ Ma) in S2. now rewrite S1, S2.
        * destruct (dbl_ltb b a) eqn:E; [elim L; apply LI; reflexivity |]. apply (C74_text _ _ Ma) in S1. apply (C74_text _ _ Mb) in S2. now rewrite S1, S2.
    - assert (RD : ~ readable bad) by (intro K; apply RB in K; elim K; reflexivity). rewrite !app_assoc_s. split.
      + intro E. injection E as <-. left. auto.
      + intros [[_ ->] | [K _]]; [reflexivity | contradiction]. }
  split; intros (bad & F & E); exists bad; (split; [exact F |]); apply (R bad F); exact E.
Qed.
Print Assumptions C74_message.

(** ** What the text says of the bound *)
Lemma written_signed_eq : forall neg y y' t, (y == y')%Q -> written_signed neg y t -> written_signed neg y' t.
Proof. intros neg y y' t E (u & -> & W). exists u. split; [reflexivity | exact (written_eq _ _ _ E W)]. Qed.
(** A bound given as a decimal of at most six digits is shown as that decimal. *)
Theorem C74_exact : forall neg m e x t, 0 <= m -> decimal6 x -> (0 <= x)%Q -> ((x == 0)%Q \/ (2 ^ (-1022) <= x)%Q) ->
  nearest_double x (inject_Z m * 2 ^ e) -> (written_signed neg x t <-> t = show_double (DFin neg m e)).
Proof.
  intros neg m e x t M D P R N. destruct (show_written neg m e M) as (y & N6 & W).
  pose proof (nearest6_double x _ y D P R N N6) as E. split.
  - intro W'. exact (written_signed_unique neg _ _ _ _ (Qeq_sym _ _ E) W' W).
  - intros ->. exact (written_signed_eq neg _ _ _ E W).
Qed.
Print Assumptions C74_exact.
(** In particular the whole numbers below a million are shown by their digits. *)
Theorem C74_whole : forall neg m e ds, 0 <= m -> digits ds -> ds <> "" -> (ds = "0" \/ not_first (Ascii.eqb "0") ds) -> digits_value 0 ds < 10 ^ 6 ->
  (inject_Z m * 2 ^ e == inject_Z (digits_value 0 ds))%Q -> show_double (DFin neg m e) = (if neg then "-" else "") ^^ ds.
Proof.
  intros neg m e ds M D N F L E. pose proof (digits_value_range ds D) as [R _]. set (z := digits_value 0 ds) in *. symmetry.
  assert (C : z = 0 \/ 1 <= z) by lia.
  apply (C74_exact neg m e (inject_Z z)); [exact M | | | | |].
  - exists z, 0. split; [rewrite Z.abs_eq by exact R; exact L |]. change (10 ^ 0)%Q with 1%Q. ring.
  - change 0%Q with (inject_Z 0). rewrite <- Zle_Qle. exact R.
  - destruct C as [-> | C]; [left; reflexivity | right]. apply Qle_trans with (2 ^ 0)%Q; [apply pow2_mono; lia |]. change (2 ^ 0)%Q with (inject_Z 1). rewrite <- Zle_Qle. exact C.
  - apply (nearest_eq 53 (-1074) (inject_Z z) _ (inject_Z z) _ (Qeq_refl _) (Qeq_sym _ _ E)).
    assert (B : binary 53 (-1074) (inject_Z z)). { apply integer_binary. rewrite Z.abs_eq by exact R. assert (10 ^ 6 < 2 ^ 53) by reflexivity. lia. }
    destruct (nearest_exists 53 (-1074) (inject_Z z) ltac:(lia)) as [w W]. exact (nearest_eq _ _ _ _ _ _ (Qeq_refl _) (nearest_self _ _ _ _ B W) W).
  - exists ds. split; [reflexivity |]. rewrite <- (app_nil_s ds). apply (W_plain _ ds ""); try assumption; [exact Logic.I | left; auto | | rewrite app_nil_s; fold z; change (10 ^ (- Z.of_nat (String.length "")))%Q with 1%Q; ring].
    destruct C as [-> | C]; [left; reflexivity | right]. split.
    + apply Qle_trans with (inject_Z 1); [discriminate |]. rewrite <- Zle_Qle. exact C.
    + rewrite <- pow10_Z by lia. rewrite <- Zlt_Qlt. exact L.
Qed.
Print Assumptions C74_whole.

(** ** Read back *)
(** the whole text is a number, of value [x] *)
Definition denotes (t : str) (x : Q) : Prop := exists d, number_text t /\ begins_with_number t d /\ (dec_value d == x)%Q.
Definition minus_sign (neg : bool) : str := if neg then "-" else "".
Lemma signed_value_Q : forall neg v e, (inject_Z (signed (minus_sign neg) v) * 10 ^ e == with_sign neg (inject_Z v * 10 ^ e))%Q.
Proof. intros [] v e; cbn [with_sign]; unfold signed, minus_sign; cbn [String.eqb Ascii.eqb Bool.eqb]; [rewrite inject_Z_opp; ring | reflexivity]. Qed.
Lemma point_mantissa : forall a b fr, digits a -> digits b -> a <> "" -> point_digits b fr -> exists dot,
  fr = dot ^^ b /\ (dot = "." \/ (dot = "" /\ b = "")) /\ mantissa is_digit (a ^^ fr).
Proof.
  intros a b fr Da Db Na [[-> ->] | (b' & c & E & _ & ->)].
  - exists "". split; [reflexivity |]. split; [right; auto |]. exists a, "". rewrite app_nil_s. split; [exact Da |]. split; [exact Logic.I |]. split; [left; exact Na |]. left. auto.
  - exists ".". split; [reflexivity |]. split; [left; reflexivity |]. exists a, b. split; [exact Da |]. split; [exact Db |]. split; [left; exact Na |]. right. reflexivity.
Qed.
Lemma written_denotes : forall neg y t, written_signed neg y t -> denotes t (with_sign neg y).
Proof.
  intros neg y t (u & -> & W). fold (minus_sign neg). set (sg := minus_sign neg). assert (Sg : sign sg) by (unfold sg, minus_sign, sign; destruct neg; auto).
  destruct W as [a b fr D1 D2 D3 D4 D5 D6 D7 | c b fr es ed C1 C2 C3 C4 C5 C6 C7 C8 C9].
  - destruct (point_mantissa a b fr D1 D2 D3 D5) as (dot & -> & Hd & Mm).
    exists (signed sg (digits_value 0 (a ^^ b)), - Z.of_nat (String.length b)). split; [| split].
    + exists "", sg, (a ^^ dot ^^ b). split; [exact Logic.I |]. split; [exact Sg |]. split; [| reflexivity]. rewrite <- (app_nil_s (a ^^ dot ^^ b)). apply NB_dec; [exact Mm | left; reflexivity].
    + exists "", sg, a, dot, b, "", "". rewrite app_nil_s. split; [reflexivity |]. split; [exact Logic.I |]. split; [exact Sg |]. split; [exact D1 |]. split; [exact D2 |]. split; [left; exact D3 |].
      split; [destruct Hd as [-> | [-> ->]]; [left; auto | right; split; [reflexivity | split; [reflexivity | exact Logic.I]]] |]. split; [exact Logic.I |]. left. split; [reflexivity |]. split; [exact Logic.I | reflexivity].
    + unfold dec_value. cbn [fst snd]. unfold sg. rewrite signed_value_Q. apply with_sign_eq. now rewrite D7.
  - assert (Dc : digits (String c "")) by (split; [exact C1 | exact Logic.I]).
    destruct (point_mantissa (String c "") b fr Dc C3 ltac:(discriminate) C5) as (dot & -> & Hd & Mm).
    assert (Se : sign es) by (unfold sign; destruct C8 as [[-> _] | [-> _]]; auto).
    assert (Ne : ed <> "") by (intros ->; cbn [String.length] in C6; lia).
    change (String c (dot ^^ b) ^^ "e" ^^ es ^^ ed) with ((String c "" ^^ dot ^^ b) ^^ String "e" (es ^^ ed)).
    exists (signed sg (digits_value 0 (String c "" ^^ b)), signed es (digits_value 0 ed) - Z.of_nat (String.length b)). split; [| split].
    + exists "", sg, ((String c "" ^^ dot ^^ b) ^^ String "e" (es ^^ ed)). split; [exact Logic.I |]. split; [exact Sg |]. split; [| reflexivity].
      apply NB_dec; [exact Mm | right]. exists "e"%char, es, ed. split; [reflexivity |]. split; [exact Se |]. split; [exact C4 |]. split; [exact Ne | reflexivity].
    + exists "", sg, (String c ""), dot, b, (String "e" (es ^^ ed)), "". rewrite !app_nil_s. split; [now rewrite !app_assoc_s |]. split; [exact Logic.I |]. split; [exact Sg |]. split; [exact Dc |]. split; [exact C3 |]. split; [left; discriminate |].
      split; [destruct Hd as [-> | [-> ->]]; [left; auto | right; split; [reflexivity | split; [reflexivity | reflexivity]]] |]. split; [reflexivity |]. right.
      exists "e"%char, es, ed. split; [reflexivity |]. split; [exact Se |]. split; [exact C4 |]. split; [exact Ne |]. split; [reflexivity |]. split; [exact Logic.I | reflexivity].
    + unfold dec_value. cbn [fst snd]. unfold sg. rewrite signed_value_Q. apply with_sign_eq. change (String c "" ^^ b) with (String c b). now rewrite C9.
Qed.
(** The text is a number; it differs from the bound by at most 1/200000 of the bound. *)
Theorem C74_close : forall neg m e, 0 <= m -> exists x, denotes (show_double (DFin neg m e)) x /\
  (Qabs (with_sign neg (inject_Z m * 2 ^ e) - x) <= inject_Z m * 2 ^ e * (1 # 200000))%Q.
Proof.
  intros neg m e M. destruct (show_written neg m e M) as (y & N & W). exists (with_sign neg y). split; [exact (written_denotes _ _ _ W) |].
  pose proof (nearest6_error _ _ N) as E. set (v := (inject_Z m * 2 ^ e)%Q) in *.
  assert (Pv : (0 <= v)%Q). { unfold v. apply Qmult_le_0_compat; [change 0%Q with (inject_Z 0); rewrite <- Zle_Qle; exact M | apply Qlt_le_weak, pow2_pos]. }
  rewrite (Qabs_pos v Pv) in E. destruct neg; cbn [with_sign]; [| exact E].
  assert (T : (- v - - y == - (v - y))%Q) by ring. rewrite T, Qabs_opp. exact E.
Qed.
Print Assumptions C74_close.

(** ** Is the message true?
    Full property: if the message says that the value is not between the two bounds, then it
    is not between the two numbers that the message shows.  Refuted: 1234568 is refused by
    the bounds 0 and 1234567 with the text "1234568 is not between 0 and 1.23457e+06". *)
Theorem C74_true_refuted : exists a b v msg d xa xb ta tb, magnitude a /\ magnitude b /\ throws (validMinMax_double a b) [v] msg /\
  msg = v ^^ " is not between " ^^ ta ^^ " and " ^^ tb /\ begins_with_number v d /\ denotes ta xa /\ denotes tb xb /\ (xa <= dec_value d /\ dec_value d <= xb)%Q.
Proof.
  exists (DFin false 0 0), (DFin false 1234567 0), "1234568", "1234568 is not between 0 and 1.23457e+06", (1234568, 0), 0%Q, (1234570 # 1)%Q, "0", "1.23457e+06".
  split; [discriminate |]. split; [discriminate |]. split; [vm_compute; reflexivity |]. split; [reflexivity |]. split; [| split; [| split]].
  - apply istream_grammar. vm_compute. reflexivity.
  - destruct (show_written false 0 0 ltac:(lia)) as (y & N & W). apply (written_denotes false 0). exists "0". split; [reflexivity |].
    change "0" with ("0" ^^ ""). apply (W_plain 0 "0" ""); [repeat split | exact Logic.I | discriminate | left; reflexivity | left; auto | left; reflexivity | reflexivity].
  - apply (written_denotes false (1234570 # 1)). exists "1.23457e+06". split; [reflexivity |].
    change "1.23457e+06" with (String "1" ".23457" ^^ "e" ^^ "+" ^^ "06"). apply (W_exp _ "1"%char "23457"); [reflexivity | discriminate | repeat split | repeat split | right | cbn [String.length]; lia | left; reflexivity | right; split; [reflexivity | discriminate] | vm_compute; reflexivity].
    exists "2345", "7"%char. split; [reflexivity |]. split; [discriminate | reflexivity].
  - unfold dec_value. cbn [fst snd]. change (inject_Z 1234568 * 10 ^ 0)%Q with (1234568 # 1)%Q. split; discriminate.
Qed.
Print Assumptions C74_true_refuted.
(** It is true if the bounds are given as decimals of at most six digits: [d] is the double
    of the decimal [x]. *)
Definition six_digit_bound (d : dbl) (x : Q) : Prop :=
  exists neg m e u, d = DFin neg m e /\ 0 <= m /\ (x == with_sign neg u)%Q /\ (0 <= u)%Q /\ decimal6 u /\ ((u == 0)%Q \/ (2 ^ (-1022) <= u)%Q) /\ nearest_double u (inject_Z m * 2 ^ e).
Lemma bound_facts : forall d x, six_digit_bound d x -> d <> DNan /\ magnitude d /\ denotes (show_double d) x /\
  exists y, has_value d y /\ nearest_double x y.
Proof.
  intros d x (neg & m & e & u & -> & M & X & P & D & R & N). split; [discriminate |]. split; [exact M |]. split.
  - pose proof (proj2 (C74_exact neg m e u _ M D P R N) eq_refl) as W. destruct (written_denotes _ _ _ W) as (dd & A & B & C). exists dd. split; [exact A |]. split; [exact B |]. rewrite C, X. reflexivity.
  - exists (with_sign neg (inject_Z m * 2 ^ e)). split; [exists neg, m, e; split; reflexivity |]. exact (nearest_eq _ _ _ _ _ _ (Qeq_sym _ _ X) (Qeq_refl _) (nearest_with_sign _ _ neg _ _ N)).
Qed.
Lemma value_at_most : forall d y z, has_value d y -> ((at_most d z <-> (y <= z)%Q) /\ (at_least d z <-> (z <= y)%Q)).
Proof. intros d y z (neg & m & e & -> & E). cbn [at_most at_least]. rewrite E. split; reflexivity. Qed.
Theorem C74_true_partial : forall a b xa xb vs msg, six_digit_bound a xa -> six_digit_bound b xb -> (xa <= xb)%Q ->
  throws (validMinMax_double a b) vs msg ->
  exists bad, In bad vs /\
    ((~ readable bad /\ msg = dquote ^^ bad ^^ dquote ^^ " is not a number") \/
     (exists d ta tb, begins_with_number bad d /\ msg = bad ^^ " is not between " ^^ ta ^^ " and " ^^ tb /\ denotes ta xa /\ denotes tb xb /\ ~ (xa <= dec_value d /\ dec_value d <= xb)%Q)).
Proof.
  intros a b xa xb vs msg A B L T. destruct (bound_facts a xa A) as (Na & Ma & Da & ya & Va & Ya). destruct (bound_facts b xb B) as (Nb & Mb & Db & yb & Vb & Yb).
  apply (C74_message a b vs msg Na Nb Ma Mb) in T. destruct T as (bad & F & C). exists bad. assert (F' := F). destruct F' as (b1 & a1 & -> & _ & NG). split; [apply in_elt |].
  destruct C as [C | ((d & Bd & Rd) & lo & hi & tlo & thi & O & S1 & S2 & E)]; [left; exact C | right].
  assert (LV : (ya <= yb)%Q) by (eapply nearest_mono; [exact Ya | exact Yb | lia | exact L]).
  assert (NL : ~ less b a). { intros (y & Y1 & Y2). apply Y2. apply (value_at_most a ya y Va). apply (value_at_most b yb y Vb) in Y1. lra. }
  destruct O as [(K & _) | (_ & -> & ->)]; [contradiction |]. apply (C74_text _ _ Ma) in S1. apply (C74_text _ _ Mb) in S2. subst tlo thi.
  exists d, (show_double a), (show_double b). split; [exact Bd |]. split; [exact E |]. split; [exact Da |]. split; [exact Db |]. intros [K1 K2]. apply NG.
  destruct (nearest_exists 53 (-1074) (dec_value d) ltac:(lia)) as [y Y]. exists d, y. split; [exact Bd |]. split; [exact Rd |]. split; [exact Y |]. left.
  rewrite (proj1 (value_at_most a ya y Va)), (proj2 (value_at_most b yb y Vb)). split; eapply nearest_mono; try eassumption; lia.
Qed.
Print Assumptions C74_true_partial.

(** ** Examples *)
Definition tenth : dbl := DFin false 3602879701896397 (-55).
Definition thousand : dbl := DFin false 1000 0.
Lemma tenth_bound : six_digit_bound tenth (1 # 10).
Proof.
  exists false, 3602879701896397, (-55), (1 # 10)%Q. split; [reflexivity |]. split; [lia |]. split; [reflexivity |]. split; [discriminate |]. split; [exists 1, (-1); split; reflexivity |]. split.
  - right. apply Qle_trans with (2 ^ (-4))%Q; [apply pow2_mono; lia | discriminate].
  - pose proof (round_nearest 53 (-1074) 1 10 ltac:(lia) ltac:(lia) ltac:(lia)) as RN. assert (ER : round_to 53 (-1074) 1 10 = (7205759403792794, -56)) by (vm_compute; reflexivity). rewrite ER in RN.
      destruct RN as (_ & _ & RN & _). eapply nearest_eq; [| | exact RN]; [reflexivity | vm_compute; reflexivity].
Qed.
Example C74_example : show_double tenth = "0.1" /\ show_double (DInf true) = "-inf" /\ show_double (strtod "-2.5e-7") = "-2.5e-07" /\
  throws (validMinMax_double tenth thousand) ["5"; "0.1"; "1000.5"; "x"] "1000.5 is not between 0.1 and 1000" /\
  throws (validMinMax_double thousand tenth) ["0.05"] "0.05 is not between 0.1 and 1000" /\
  accepts (validMinMax_double thousand tenth) ["0.1"; "999"] /\ six_digit_bound tenth (1 # 10) /\ magnitude tenth /\ ~ less thousand tenth.
Proof.
  split; [vm_compute; reflexivity |]. split; [reflexivity |]. split; [vm_compute; reflexivity |]. split; [vm_compute; reflexivity |]. split; [vm_compute; reflexivity |]. split; [vm_compute; reflexivity |].
  split; [exact tenth_bound |]. split; [unfold magnitude, tenth; lia |]. intro K. apply less_iff in K; [vm_compute in K; discriminate K | discriminate | discriminate].
Qed.
