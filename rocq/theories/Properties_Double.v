(** Properties_Double.v -- C53 (arithmetic destinations) and C54 (exactness of integer
    destinations).  What the destination holds is [strTo_num t v] for a value given as text
    and [boolTo_num t b] for a flag (Model_Double.v); floating point numbers, rounding and
    the reading of texts are specified in Spec_Double.v. *)
From Coq Require Import Qround Lqa Lia.
From Verif Require Import Base Model_Utils Model_Number Model_Types Model_Argument Model_Usage Model_Args Model_Api Model_Double
  Spec_Reading Spec_Parse Spec_History Spec_Api Spec_Result Spec_Number Spec_Double
  Proofs_Base Proofs_Inv Proofs_Central Proofs_Check Demo Proofs_Number Proofs_Shape Proofs_Double Properties_Views.
Local Open Scope Z_scope.

(** the number held by a floating point destination *)
Definition holds_number (v : num_value) (x : Q) : Prop :=
  exists neg m e, v = NvDouble (DFin neg m e) /\ 0 <= m /\ (with_sign neg (inject_Z m * 2 ^ e) == x)%Q.

Lemma with_sign_eq : forall neg x y, (x == y -> with_sign neg x == with_sign neg y)%Q.
Proof. intros [] x y E; cbn; rewrite E; reflexivity. Qed.
Lemma nearest_with_sign : forall prec emin neg x y, nearest prec emin x y -> nearest prec emin (with_sign neg x) (with_sign neg y).
Proof. intros prec emin [] x y N; cbn; [apply nearest_opp, N | exact N]. Qed.
Lemma with_sign_inv : forall neg x, (with_sign neg (with_sign neg x) == x)%Q.
Proof. intros [] x; cbn; ring. Qed.
Lemma nearest_unsigned : forall prec emin neg x y, nearest prec emin (with_sign neg x) y -> nearest prec emin x (with_sign neg y).
Proof. intros prec emin neg x y N. apply (nearest_with_sign _ _ neg) in N. eapply nearest_eq; [apply with_sign_inv | reflexivity | exact N]. Qed.
Lemma Qabs_with_sign : forall neg x, (Qabs (with_sign neg x) == Qabs x)%Q.
Proof. intros [] x; cbn; [apply Qabs_opp | reflexivity]. Qed.
Lemma number_nonneg : forall v neg x, number_at v neg x -> (0 <= x)%Q.
Proof.
  intros v neg x N. destruct (strtod_reads v neg x N) as (p & q & _ & P & Q & E). rewrite <- E. pose proof (inj_pos q Q) as Qq.
  apply Qdiv_cross_le; [exact Qq |]. rewrite Qmult_0_l. change 0%Q with (inject_Z 0). rewrite <- Zle_Qle. exact P.
Qed.

(** the double that strtod gives *)
Lemma strtod_value : forall v neg x y, number_at v neg x -> nearest_double (with_sign neg x) y ->
  ((Qabs y < 2 ^ 1024)%Q -> exists m e, strtod v = DFin neg m e /\ 0 <= m /\ (with_sign neg (inject_Z m * 2 ^ e) == y)%Q) /\
  ((2 ^ 1024 <= Qabs y)%Q -> strtod v = DInf neg).
Proof.
  intros v neg x y NA N. pose proof (number_nonneg v neg x NA) as X0. destruct (strtod_reads v neg x NA) as (p & q & E & P & Q & EX).
  apply nearest_unsigned in N. pose proof (nearest_sign 53 (-1074) _ _ ltac:(lia) N X0) as Y0.
  assert (A : (Qabs y == with_sign neg y)%Q). { rewrite <- (Qabs_with_sign neg y). apply Qabs_pos, Y0. }
  rewrite E. unfold to_double.
  destruct (rounded_spec 53 (-1074) 1024 neg p q (with_sign neg y) ltac:(lia) ltac:(lia) P Q) as [R1 R2].
  { eapply nearest_eq; [symmetry; exact EX | reflexivity | exact N]. }
  split; intro H; rewrite A in H.
  - destruct (R1 H) as (m & e & R & M & _ & V). exists m, e. split; [exact R |]. split; [exact M |]. rewrite (with_sign_eq neg _ _ V). apply with_sign_inv.
  - exact (R2 H).
Qed.

(** A double (or long double) destination holds the double next to the number written at
    the beginning of the value, an infinity exactly if the number is too large. *)
Theorem C53_double : forall v neg x y, number_at v neg x -> nearest_double (with_sign neg x) y ->
  ((x < 2 ^ 1024 - 2 ^ 970)%Q -> holds_number (strTo_num NtDouble v) y) /\
  ((2 ^ 1024 - 2 ^ 970 <= x)%Q -> strTo_num NtDouble v = NvDouble (DInf neg)).
Proof.
  intros v neg x y NA N. destruct (strtod_value v neg x y NA N) as [A B]. pose proof (number_nonneg v neg x NA) as X0.
  pose proof (nearest_unsigned _ _ _ _ _ N) as N'. pose proof (nearest_sign 53 (-1074) _ _ ltac:(lia) N' X0) as Y0.
  assert (AB : (Qabs y == with_sign neg y)%Q). { rewrite <- (Qabs_with_sign neg y). apply Qabs_pos, Y0. }
  pose proof (nearest_overflow 53 (-1074) 1024 x _ ltac:(lia) ltac:(lia) N' X0) as O. change (1024 - 53 - 1) with 970 in O. rewrite AB in A, B.
  unfold strTo_num, convert, holds_number. split; intro H.
  - destruct A as (m & e & E & M & V). { apply Qnot_le_lt. intro L. apply O in L. lra. }
    exists neg, m, e. rewrite E. auto.
  - rewrite B; [reflexivity |]. apply O, H.
Qed.
Print Assumptions C53_double.
(** ... and there is always exactly one such double. *)
Theorem C53_nearest : forall x, (exists y, nearest_double x y) /\ forall y z, nearest_double x y -> nearest_double x z -> (y == z)%Q.
Proof. intro x. split; [apply nearest_exists; lia | intros y z; apply nearest_unique; lia]. Qed.
Print Assumptions C53_nearest.

(** A float holds the float next to that double, an infinity of the same sign if that is
    too large (or the double is infinite). *)
Theorem C53_float : forall v neg x y z, number_at v neg x -> nearest_double (with_sign neg x) y -> nearest_float y z ->
  ((Qabs y < 2 ^ 1024)%Q -> (Qabs z < 2 ^ 128)%Q -> holds_number (strTo_num NtFloat v) z) /\
  ((2 ^ 1024 <= Qabs y)%Q \/ (2 ^ 128 <= Qabs z)%Q -> strTo_num NtFloat v = NvDouble (DInf neg)).
Proof.
  intros v neg x y z NA N F. destruct (strtod_value v neg x y NA N) as [A B].
  assert (G : (Qabs y < 2 ^ 1024)%Q -> ((Qabs z < 2 ^ 128)%Q -> holds_number (strTo_num NtFloat v) z) /\ ((2 ^ 128 <= Qabs z)%Q -> strTo_num NtFloat v = NvDouble (DInf neg))).
  { intros Y. destruct (A Y) as (m & e & E & M & V).
    unfold strTo_num, convert, holds_number. rewrite E. pose proof (fraction_spec 2 m e ltac:(lia) M) as FS. destruct (fraction 2 m e) as [p q]. destruct FS as (P & Q & PQ).
    pose proof (nearest_eq _ _ _ _ _ _ (Qeq_sym _ _ V) (Qeq_refl z) F) as F'. apply nearest_unsigned in F'.
    assert (M0 : (0 <= inject_Z m * 2 ^ e)%Q). { apply Qmult_le_0_compat; [change 0%Q with (inject_Z 0); rewrite <- Zle_Qle; exact M | apply Qlt_le_weak, pow2_pos]. }
    pose proof (nearest_sign 24 (-149) _ _ ltac:(lia) F' M0) as Z0.
    assert (AB : (Qabs z == with_sign neg z)%Q). { rewrite <- (Qabs_with_sign neg z). apply Qabs_pos, Z0. }
    destruct (rounded_spec 24 (-149) 128 neg p q (with_sign neg z) ltac:(lia) ltac:(lia) P Q) as [R1 R2].
    { eapply nearest_eq; [symmetry; exact PQ | reflexivity | exact F']. }
    split; intros Z; rewrite AB in Z.
    - destruct (R1 Z) as (m' & e' & R & M' & _ & V'). exists neg, m', e'. rewrite R. split; [reflexivity |]. split; [exact M' |].
      rewrite (with_sign_eq neg _ _ V'). apply with_sign_inv.
    - rewrite (R2 Z). reflexivity. }
  destruct (Qlt_le_dec (Qabs y) (2 ^ 1024)) as [Y|Y].
  - destruct (G Y) as [G1 G2]. split; [auto|]. intros [H|H]; [|exact (G2 H)]. exfalso. apply (Qlt_not_le _ _ Y H).
  - split; [intros H; exfalso; apply (Qlt_not_le _ _ H Y)|]. intros _. unfold strTo_num, convert. rewrite (B Y). reflexivity.
Qed.
Print Assumptions C53_float.

(** the integer part *)
Lemma integer_part_unique : forall x y z z', (x == y)%Q -> integer_part x z -> integer_part y z' -> z = z'.
Proof.
  intros x y z z' E A B. unfold integer_part in *. rewrite <- E in B.
  assert (L : forall a b, (inject_Z a < inject_Z b + 1)%Q -> a <= b).
  { intros a b H. change 1%Q with (inject_Z 1) in H. rewrite <- inject_Z_plus, <- Zlt_Qlt in H. lia. }
  assert (L0 : forall a, (-(1) < inject_Z a)%Q -> (inject_Z a < 1)%Q -> a = 0).
  { intros a H1 H2. change (-(1))%Q with (inject_Z (-1)) in H1. change 1%Q with (inject_Z 1) in H2. rewrite <- Zlt_Qlt in H1, H2. lia. }
  destruct A as [(A1 & A2 & A3) | (A1 & A2 & A3)], B as [(B1 & B2 & B3) | (B1 & B2 & B3)];
    solve [apply Z.le_antisymm; apply L; lra | rewrite (L0 z), (L0 z') by lra; reflexivity].
Qed.
Lemma truncate_part : forall neg m e, 0 <= m -> integer_part (with_sign neg (inject_Z m * 2 ^ e)) (truncate neg m e).
Proof.
  intros neg m e M. unfold truncate.
  set (a := m * 2 ^ Z.max 0 e). set (b := 2 ^ Z.max 0 (- e)). assert (B : 0 < b) by apply Zpow_pos. pose proof (inj_pos b B) as Qb.
  assert (A : 0 <= a) by (unfold a; pose proof (Zpow_pos e); nia).
  assert (E : (inject_Z m * 2 ^ e == inject_Z a / inject_Z b)%Q).
  { unfold a, b. rewrite inject_Z_mult. destruct (Z.leb_spec 0 e) as [L | L].
    - rewrite (Z.max_r 0 e), (Z.max_l 0 (- e)) by lia. rewrite (pow2_Z e) by lia. change (inject_Z (2 ^ 0)) with 1%Q. field.
    - rewrite (Z.max_l 0 e), (Z.max_r 0 (- e)) by lia. rewrite (pow2_Z (- e)) by lia. change (inject_Z (2 ^ 0)) with 1%Q. pose proof (pow2_opp e) as O2. pose proof (pow2_pos (- e)) as W.
      set (u := (2 ^ e)%Q) in *. set (w := (2 ^ (- e))%Q) in *.
      assert (U : (u == 1 / w)%Q) by (rewrite <- O2; field; intro X; rewrite X in W; apply Qlt_irrefl in W; exact W).
      rewrite U. field. intro X; rewrite X in W; apply Qlt_irrefl in W; exact W. }
  pose proof (Z.div_mod a b ltac:(lia)) as D. pose proof (Z.mod_pos_bound a b B) as R.
  assert (K0 : (0 <= inject_Z a / inject_Z b)%Q). { apply Qdiv_cross_le; [exact Qb |]. rewrite Qmult_0_l. change 0%Q with (inject_Z 0). rewrite <- Zle_Qle. exact A. }
  assert (K1 : (inject_Z (a / b) <= inject_Z a / inject_Z b)%Q). { apply Qdiv_cross_le; [exact Qb |]. rewrite <- inject_Z_mult, <- Zle_Qle. lia. }
  assert (K2 : (inject_Z a / inject_Z b < inject_Z (a / b) + 1)%Q).
  { apply Qdiv_cross_lt; [exact Qb |]. change 1%Q with (inject_Z 1). rewrite <- inject_Z_plus, <- inject_Z_mult, <- Zlt_Qlt. lia. }
  unfold integer_part. destruct neg; cbn [with_sign].
  - right. rewrite inject_Z_opp, E. split; [lra |]. split; lra.
  - left. rewrite E. split; [exact K0 |]. split; lra.
Qed.
Lemma pow_big : (inject_Z (2 ^ 64) + 1 <= 2 ^ 1024)%Q.
Proof. vm_compute. discriminate. Qed.
(** An integer destination holds the integer part of that double, provided that it is in
    the range of the type; otherwise the assignment is undefined behaviour.  (All integer
    types of the library are within 64 bits.) *)
Theorem C53_integer_part : forall v neg x y z lo hi, number_at v neg x -> nearest_double (with_sign neg x) y -> integer_part y z ->
  - 2 ^ 64 <= lo -> hi <= 2 ^ 64 ->
  (lo <= z <= hi -> strTo_num (NtInt lo hi) v = NvInt z) /\ (~ lo <= z <= hi -> strTo_num (NtInt lo hi) v = NvUndefined).
Proof.
  intros v neg x y z lo hi NA N IP Lo Hi. destruct (strtod_value v neg x y NA N) as [A B]. unfold strTo_num, convert.
  destruct (Qlt_le_dec (Qabs y) (2 ^ 1024)) as [L | L].
  - destruct (A L) as (m & e & E & M & V). rewrite E. pose proof (truncate_part neg m e M) as T. rewrite (integer_part_unique _ _ _ _ V T IP) in *.
    destruct (Z.leb_spec lo z); destruct (Z.leb_spec z hi); cbn [andb]; split; intro H1; try reflexivity; lia.
  - rewrite (B L). split; [| reflexivity]. intro H. exfalso.
    pose proof pow_big as PB. set (big := (2 ^ 1024)%Q) in *.
    assert (H1 : (inject_Z z <= inject_Z (2 ^ 64))%Q) by (rewrite <- Zle_Qle; lia).
    assert (H2 : (inject_Z (- 2 ^ 64) <= inject_Z z)%Q) by (rewrite <- Zle_Qle; lia). rewrite inject_Z_opp in H2.
    set (w := inject_Z (2 ^ 64)) in *.
    destruct IP as [(A1 & A2 & A3) | (A1 & A2 & A3)]; [rewrite Qabs_pos in L by exact A1 | rewrite Qabs_neg in L by exact A1]; lra.
Qed.
Print Assumptions C53_integer_part.

(** Hence a whole number of at most 2^53 that fits the type is stored exactly ... *)
Lemma p53 : 2 ^ 53 = 2 * 2 ^ 52. Proof. reflexivity. Qed.
Lemma p52 : 0 < 2 ^ 52. Proof. reflexivity. Qed.
Lemma integer_binary : forall z, Z.abs z <= 2 ^ 53 -> binary 53 (-1074) (inject_Z z).
Proof.
  intros z H. destruct (Z.eq_dec (Z.abs z) (2 ^ 53)) as [E | E].
  - exists (Z.sgn z * 2 ^ 52), 1. pose proof p52 as P. rewrite p53 in *. remember (2 ^ 52) as q eqn:Q. clear Q. split; [lia |]. split; [lia |].
    change (2 ^ 1)%Q with (inject_Z 2). rewrite <- inject_Z_mult. replace (Z.sgn z * q * 2) with z; [reflexivity |]. lia.
  - exists z, 0. split; [clear - H E; remember (2 ^ 53) as q eqn:Q; clear Q; lia |]. split; [lia |]. change (2 ^ 0)%Q with 1%Q. symmetry. apply Qmult_1_r.
Qed.
Theorem C53_exact : forall v neg x z lo hi, number_at v neg x -> (with_sign neg x == inject_Z z)%Q -> Z.abs z <= 2 ^ 53 ->
  - 2 ^ 64 <= lo -> hi <= 2 ^ 64 -> lo <= z <= hi -> strTo_num (NtInt lo hi) v = NvInt z.
Proof.
  intros v neg x z lo hi NA E H Lo Hi R. destruct (nearest_exists 53 (-1074) (with_sign neg x) ltac:(lia)) as [y N].
  assert (Y : (y == inject_Z z)%Q). { rewrite <- E. apply (nearest_self 53 (-1074)); [| exact N]. apply (binary_eq _ _ _ _ (Qeq_sym _ _ E)), integer_binary, H. }
  apply (C53_integer_part v neg x y z lo hi NA N); try assumption.
  unfold integer_part. rewrite Y. clear - z. destruct (Z.le_gt_cases 0 z) as [L | L].
  - left. assert (L' : (0 <= inject_Z z)%Q) by (change 0%Q with (inject_Z 0); rewrite <- Zle_Qle; exact L). split; [exact L' |]. split; lra.
  - right. assert (L' : (inject_Z z <= 0)%Q) by (change 0%Q with (inject_Z 0); rewrite <- Zle_Qle; lia). split; [exact L' |]. split; lra.
Qed.
Print Assumptions C53_exact.
(** ... in particular the value of the text "123", "-7", "+0042" *)
Lemma integer_text : forall sg ds, sign sg -> digits ds -> ds <> "" -> number_at (sg ^^ ds) (String.eqb sg "-") (inject_Z (digits_value 0 ds)).
Proof.
  intros sg ds S D NE. exists "", sg, ds. repeat split; auto.
  assert (E : (inject_Z (digits_value 0 ds) = inject_Z (digits_value 0 (ds ^^ "")) * 10 ^ (0 - Z.of_nat (String.length "")))%Q).
  { rewrite app_nil_s. change (10 ^ (0 - Z.of_nat (String.length "")))%Q with 1%Q. unfold Qmult, inject_Z. cbn [Qnum Qden]. now rewrite Z.mul_1_r. }
  rewrite E. apply (BV_dec ds ds "" "" 0).
  - exists "". cbn [append]. rewrite app_nil_s. split; [reflexivity |]. split; [exact D |]. split; [exact Logic.I |]. split; [left; exact NE |]. split; [right; split; [reflexivity |]; split; [reflexivity |] |]; exact Logic.I.
  - intros (x & t & a & b & r & E' & X & _). destruct x as [| c1 [| c2 x]]; try (cbn in X; tauto).
    cbn in X. destruct X as (_ & X & _). subst ds. cbn in D. destruct D as (_ & D & _). destruct c2 as [[] [] [] [] [] [] [] []]; try discriminate D; discriminate X.
  - right. split; [intros; discriminate | reflexivity].
Qed.
Theorem C53_whole_numbers : forall sg ds lo hi, sign sg -> digits ds -> ds <> "" ->
  let z := signed sg (digits_value 0 ds) in Z.abs z <= 2 ^ 53 -> - 2 ^ 64 <= lo -> hi <= 2 ^ 64 -> lo <= z <= hi ->
  strTo_num (NtInt lo hi) (sg ^^ ds) = NvInt z.
Proof.
  intros sg ds lo hi S D NE z. apply (C53_exact _ _ _ z lo hi (integer_text sg ds S D NE)).
  unfold z, signed. destruct (String.eqb sg "-"); cbn [with_sign]; [rewrite inject_Z_opp |]; reflexivity.
Qed.
Print Assumptions C53_whole_numbers.

(** A bool destination is true exactly if that double is not 0. *)
Theorem C53_bool : forall v neg x y, number_at v neg x -> nearest_double (with_sign neg x) y ->
  exists b, strTo_num NtBool v = NvBool b /\ (b = true <-> ~ (y == 0)%Q).
Proof.
  intros v neg x y NA N. destruct (strtod_value v neg x y NA N) as [A B]. unfold strTo_num, convert.
  destruct (Qlt_le_dec (Qabs y) (2 ^ 1024)) as [L | L].
  - destruct (A L) as (m & e & E & M & V). rewrite E. eexists. split; [reflexivity |]. pose proof (pow2_pos e) as W.
    assert (Z0 : (y == 0)%Q <-> m = 0).
    { rewrite <- V. split.
      - intro H. assert (H2 : (inject_Z m * 2 ^ e == 0 * 2 ^ e)%Q) by (destruct neg; cbn in H; lra).
        apply Qmult_inj_r in H2; [| intro X; rewrite X in W; apply Qlt_irrefl in W; exact W]. unfold Qeq in H2. cbn in H2. lia.
      - intros ->. destruct neg; cbn [with_sign]; change (inject_Z 0) with 0%Q; ring. }
    rewrite Z0. destruct (Z.eqb_spec m 0); cbn; split; intro H; try discriminate; auto; now elim H.
  - rewrite (B L). exists true. split; [reflexivity |]. split; [| reflexivity]. intros _ H. rewrite H in L. change (Qabs 0) with 0%Q in L. pose proof (pow2_pos 1024). lra.
Qed.
Print Assumptions C53_bool.

(** A value no beginning of which is a number gives 0 (false). *)
Theorem C53_no_number : forall v, (forall a b, v = a ^^ b -> ~ number_text a) ->
  strTo_num NtBool v = NvBool false /\ (forall lo hi, lo <= 0 <= hi -> strTo_num (NtInt lo hi) v = NvInt 0) /\
  holds_number (strTo_num NtDouble v) 0 /\ holds_number (strTo_num NtFloat v) 0.
Proof.
  intros v H. assert (E : strtod v = DFin false 0 0).
  { unfold strtod. destruct (skip_space_out v) as (sp & Es & Bs & _). pose proof (take_sign_out (skip_space v)) as T.
    destruct (take_sign (skip_space v)) as [neg s1]. destruct T as (sg & Sg & E1 & _).
    assert (NB : forall a b, s1 = a ^^ b -> ~ number_body a).
    { intros a b E2 B. apply (H (sp ^^ sg ^^ a) b); [rewrite !app_assoc_s, <- E2, <- E1; exact Es |]. exists sp, sg, a. auto. }
    destruct (strip_ci "inf" s1) as [r |] eqn:Q1. { exfalso. apply strip_ci_out in Q1. destruct Q1 as (w & E2 & S). apply (NB w r E2), NB_inf, S. }
    destruct (strip_ci "nan" s1) as [r |] eqn:Q2. { exfalso. apply strip_ci_out in Q2. destruct Q2 as (w & E2 & S). apply (NB w r E2), NB_nan, S. }
    assert (D : strtod_dec_value neg s1 = DFin false 0 0).
    { unfold strtod_dec_value. pose proof (take_mantissa_out s1) as M. destruct (take_mantissa s1) as [[[v0 nd] nf] r]. destruct M as (a & dot & b & E2 & Da & Db & Hn & _ & _ & _ & C).
      destruct nd as [| nd]; [reflexivity |]. exfalso. apply (NB (a ^^ dot ^^ b) r); [now rewrite !app_assoc_s |].
      rewrite <- (app_nil_s (a ^^ dot ^^ b)). apply NB_dec; [| now left]. exists a, b. repeat split; auto.
      - destruct a; [right; intros ->; discriminate Hn | left; discriminate].
      - destruct C as [-> | (-> & -> & _)]; [now right | left; split; [now rewrite !app_nil_s | reflexivity]]. }
    destruct (strip_ci "0x" s1) as [r |] eqn:Q3; [| exact D]. destruct (strtod_hex_value neg r) as [d |] eqn:Q4; [| exact D]. exfalso.
    apply strip_ci_out in Q3. destruct Q3 as (w & E2 & S). destruct (strtod_hex_out_some neg r d Q4) as (a & b & t & dot & E3 & Da & Db & NE & C & _).
    apply (NB (w ^^ a ^^ dot ^^ b) t); [rewrite E2, E3, !app_assoc_s; reflexivity |].
    rewrite <- (app_nil_s (a ^^ dot ^^ b)). apply NB_hex; [exact S | | now left]. exists a, b. repeat split; auto.
    destruct C as [-> | (-> & -> & _)]; [now right | left; split; [now rewrite !app_nil_s | reflexivity]]. }
  unfold strTo_num. rewrite E. split; [reflexivity |]. split; [| split].
  - intros lo hi R. cbn. destruct (Z.leb_spec lo 0); destruct (Z.leb_spec 0 hi); try lia. reflexivity.
  - exists false, 0, 0. split; [reflexivity |]. split; [lia | reflexivity].
  - eexists false, 0, _. split; [vm_compute; reflexivity |]. split; [lia | reflexivity].
Qed.
Print Assumptions C53_no_number.

(** "inf" (also as the beginning of "infinity", of "information") and "nan", in any case,
    behind blanks and a sign. *)
Theorem C53_infinity : forall sp sg w r, blanks sp -> sign sg -> same_ci "inf" w ->
  let v := sp ^^ sg ^^ w ^^ r in
  strTo_num NtDouble v = NvDouble (DInf (String.eqb sg "-")) /\ strTo_num NtFloat v = NvDouble (DInf (String.eqb sg "-")) /\
  strTo_num NtBool v = NvBool true /\ forall lo hi, strTo_num (NtInt lo hi) v = NvUndefined.
Proof.
  intros sp sg w r Bs Sg S v.
  assert (FC : forall p : ascii -> bool, p "i"%char = false -> p "I"%char = false -> not_first p (w ^^ r)).
  { intros p P1 P2. destruct w as [|c w]; [destruct S|]. destruct S as [S _]. cbn. unfold lower in S.
    destruct c as [[] [] [] [] [] [] [] []]; try discriminate S; assumption. }
  assert (E : strtod v = DInf (String.eqb sg "-")).
  { unfold strtod, v. rewrite skip_space_in; [| exact Bs |].
    2:{ apply first_of; [apply sign_first; auto | intros _; apply FC; reflexivity]. }
    rewrite take_sign_in; [| exact Sg | apply FC; reflexivity]. rewrite (strip_self _ _ r S). reflexivity. }
  unfold strTo_num. rewrite E. repeat split.
Qed.
Print Assumptions C53_infinity.
Theorem C53_nan : forall sp sg w r, blanks sp -> sign sg -> same_ci "nan" w ->
  let v := sp ^^ sg ^^ w ^^ r in
  strTo_num NtDouble v = NvDouble DNan /\ strTo_num NtFloat v = NvDouble DNan /\
  strTo_num NtBool v = NvBool true /\ forall lo hi, strTo_num (NtInt lo hi) v = NvUndefined.
Proof.
  intros sp sg w r Bs Sg S v.
  assert (FC : forall p : ascii -> bool, p "n"%char = false -> p "N"%char = false -> not_first p (w ^^ r)).
  { intros p P1 P2. destruct w as [|c w]; [destruct S|]. destruct S as [S _]. cbn. unfold lower in S.
    destruct c as [[] [] [] [] [] [] [] []]; try discriminate S; assumption. }
  assert (E : strtod v = DNan).
  { unfold strtod, v. rewrite skip_space_in; [| exact Bs |].
    2:{ apply first_of; [apply sign_first; auto | intros _; apply FC; reflexivity]. }
    rewrite take_sign_in; [| exact Sg | apply FC; reflexivity].
    rewrite (strip_first "i" "nf" (w ^^ r)) by (apply FC; reflexivity). rewrite (strip_self _ _ r S). reflexivity. }
  unfold strTo_num. rewrite E. repeat split.
Qed.
Print Assumptions C53_nan.

(** The ranges of the C++ types on the platform of the model (LP64, char signed). *)
Definition cpp_types : list (num_type * bool * Z) :=
  [(nt_char, true, 8); (nt_uchar, false, 8); (nt_short, true, 16); (nt_ushort, false, 16);
   (nt_int, true, 32); (nt_uint, false, 32); (nt_long, true, 64); (nt_ulong, false, 64)].
Definition in_range (is_signed : bool) (bits z : Z) : Prop :=
  if is_signed then - 2 ^ (bits - 1) <= z < 2 ^ (bits - 1) else 0 <= z < 2 ^ bits.
Theorem C53_types : forall t is_signed bits v neg x y z, In (t, is_signed, bits) cpp_types ->
  number_at v neg x -> nearest_double (with_sign neg x) y -> integer_part y z ->
  (in_range is_signed bits z -> strTo_num t v = NvInt z) /\ (~ in_range is_signed bits z -> strTo_num t v = NvUndefined).
Proof.
  intros t sg bits v neg x y z I NA N P.
  assert (G : exists lo hi, t = NtInt lo hi /\ - 2 ^ 64 <= lo /\ hi <= 2 ^ 64 /\ (in_range sg bits z <-> lo <= z <= hi)).
  { unfold cpp_types in I. cbn [In] in I.
    destruct I as [I|[I|[I|[I|[I|[I|[I|[I|[]]]]]]]]]; injection I as <- <- <-; do 2 eexists; (split; [reflexivity|]); (split; [lia|]); (split; [lia|]);
    unfold in_range; lia. }
  destruct G as (lo & hi & -> & L & H & R). destruct (C53_integer_part v neg x y z lo hi NA N P L H) as [A B]. rewrite R. auto.
Qed.
Print Assumptions C53_types.

(** Flags: 1 (true) or 0 (false). *)
Theorem C53_flags : forall b lo hi,
  boolTo_num NtBool b = NvBool b /\ boolTo_num (NtInt lo hi) b = NvInt (if b then 1 else 0) /\
  holds_number (boolTo_num NtDouble b) (if b then 1 else 0) /\ holds_number (boolTo_num NtFloat b) (if b then 1 else 0).
Proof.
  intros b lo hi. repeat split; try reflexivity; destruct b; eexists false, _, 0; (split; [reflexivity | split; [lia | reflexivity]]).
Qed.
Print Assumptions C53_flags.

(** ** What the program's variables hold after parseArguments *)
(** no other argument writes to the same variable *)
Definition owner (s : state) (a : argument) (d : dest) : Prop :=
  c_dest (a_cfg a) = Some d /\
  forall b d', In b (arguments s) -> c_dest (a_cfg b) = Some d' -> d_cell d' = d_cell d -> b = a.

Definition cell_of (e : devent) : nat :=
  match e with EvAssign c _ | EvPush c _ | EvPushVec c _ | EvCall c _ _ | EvCallV c _ _ | EvCallVV c _ _ => c end.
Lemma scalar_app : forall t c l1 l2 w, scalar_after t c w (l1 ++ l2) = scalar_after t c (scalar_after t c w l1) l2.
Proof. intros t c l1 l2. induction l1 as [| e l1 IH]; intro w; [reflexivity |]. destruct e; cbn [app scalar_after]; apply IH. Qed.
Lemma vector_app : forall t c l1 l2 w, vector_after t c w (l1 ++ l2) = vector_after t c (vector_after t c w l1) l2.
Proof. intros t c l1 l2. induction l1 as [| e l1 IH]; intro w; [reflexivity |]. destruct e; cbn [app vector_after]; apply IH. Qed.
Lemma vectors_app : forall t c l1 l2 w, vectors_after t c w (l1 ++ l2) = vectors_after t c (vectors_after t c w l1) l2.
Proof. intros t c l1 l2. induction l1 as [| e l1 IH]; intro w; [reflexivity |]. destruct e; cbn [app vectors_after]; apply IH. Qed.
Lemma other_cells : forall t c l, (forall e, In e l -> cell_of e <> c) ->
  (forall w, scalar_after t c w l = w) /\ (forall w, vector_after t c w l = w) /\ (forall w, vectors_after t c w l = w).
Proof.
  intros t c l. induction l as [| e l IH]; intro H; [repeat split |]. destruct IH as (I1 & I2 & I3); [intros; apply H; now right |].
  pose proof (H e (or_introl eq_refl)) as N. apply Nat.eqb_neq in N.
  destruct e; cbn [cell_of] in N; cbn [scalar_after vector_after vectors_after]; rewrite ?N; auto.
Qed.
Lemma delivery_cell : forall a d e, In e (delivery a d) -> cell_of e = d_cell d.
Proof.
  intros a d e. unfold delivery. destruct (d_custom d), (d_kind d), (flag_value a); cbn [In]; intro H;
    try (destruct H as [<- | []]; reflexivity); apply in_map_iff in H; destruct H as (x & <- & _); reflexivity.
Qed.
Lemma only_one : forall (A : Type) (f : A -> nat) (W : A -> list devent) c l (a : A), NoDup (map f l) -> In a l ->
  (forall b e, In b l -> b <> a -> In e (W b) -> cell_of e <> c) ->
  exists l1 l2, flat_map W l = l1 ++ W a ++ l2 /\ (forall e, In e l1 -> cell_of e <> c) /\ (forall e, In e l2 -> cell_of e <> c).
Proof.
  intros A f W c l a ND Ia H. apply in_split in Ia. destruct Ia as (p & q & ->). exists (flat_map W p), (flat_map W q).
  split; [rewrite flat_map_app; reflexivity |].
  rewrite map_app in ND. cbn [map] in ND. apply NoDup_remove_2 in ND.
  split; intros e Ie; apply in_flat_map in Ie; destruct Ie as (b & Ib & Ie);
    (apply (H b e); [apply in_or_app; cbn; auto | intros ->; apply ND, in_or_app; auto using in_map | exact Ie]).
Qed.
Lemma delivered : forall s argv ws s' a d, usable s -> interprets s -> command_line argv ws -> parseArguments argv s = (s', Ok tt) ->
  (forall b, In b (arguments s') -> c_dest (a_cfg b) <> None -> was_shaped s b) -> In a (arguments s') -> owner s' a d ->
  exists l1 l2, s_dlog s' = s_dlog s ++ l1 ++ delivery a d ++ l2 /\
    (forall e, In e l1 -> cell_of e <> d_cell d) /\ (forall e, In e l2 -> cell_of e <> d_cell d).
Proof.
  intros s argv ws s' a d U I C E SH Ia [D OW]. destruct (C45_exact s argv ws s' U I C E SH) as [H _].
  assert (W' : wf s') by (eapply wf_parse; [apply (usable_wf s U) | exact E | exact Logic.I]).
  destruct (only_one _ a_id (fun a => match c_dest (a_cfg a) with Some d => delivery a d | None => [] end) (d_cell d) (arguments s') a) as (l1 & l2 & L & L1 & L2).
  - apply W'.
  - exact Ia.
  - intros b e Ib N Ie. destruct (c_dest (a_cfg b)) as [d' |] eqn:D'; [| destruct Ie]. rewrite (delivery_cell _ _ _ Ie). intro X. apply N, (OW b d' Ib D' X).
  - cbv beta in L. rewrite D in L. exists l1, l2. rewrite H, L. auto.
Qed.

Lemma no_flag : forall a vs, to_vector a = Ok vs -> flag_value a = None.
Proof. intros a vs T. unfold to_vector, flag_value in *. destruct (c_type (a_cfg a)); try reflexivity; discriminate T. Qed.
Lemma no_flag2 : forall a vs, to_vector_vector a = Ok vs -> flag_value a = None.
Proof. intros a vs T. unfold to_vector_vector, flag_value in *. destruct (c_type (a_cfg a)); try reflexivity; discriminate T. Qed.

(** After a successful parseArguments, the variable of an option with one value holds
    strTo_num of this value, that of a flag boolTo_num, whatever it held before and
    whatever was parsed before ... *)
Theorem C53_scalar : forall s argv ws s' a d t old, usable s -> interprets s -> command_line argv ws -> parseArguments argv s = (s', Ok tt) ->
  (forall b, In b (arguments s') -> c_dest (a_cfg b) <> None -> was_shaped s b) -> In a (arguments s') -> owner s' a d ->
  d_custom d = false -> d_kind d = DScalar ->
  (forall v, one_valued (c_type (a_cfg a)) = true -> to_vector a = Ok [v] -> scalar_after t (d_cell d) old (s_dlog s') = strTo_num t v) /\
  (forall b, flag_value a = Some b -> scalar_after t (d_cell d) old (s_dlog s') = boolTo_num t b).
Proof.
  intros s argv ws s' a d t old U I C E SH Ia OW CU K. destruct (delivered s argv ws s' a d U I C E SH Ia OW) as (l1 & l2 & L & L1 & L2).
  rewrite L, !scalar_app. destruct (other_cells t (d_cell d) l2 L2) as [O2 _]. rewrite O2.
  unfold delivery. rewrite CU. split.
  - intros v O T. rewrite (no_flag _ _ T), K. cbn [scalar_after]. rewrite Nat.eqb_refl. unfold text_of. rewrite O, T. reflexivity.
  - intros b ->. rewrite K. cbn [scalar_after]. rewrite Nat.eqb_refl. reflexivity.
Qed.
Print Assumptions C53_scalar.
Lemma pushes : forall t c vs w, vector_after t c w (map (fun v => EvPush c (CvStr v)) vs) = w ++ map (strTo_num t) vs.
Proof.
  intros t c vs. induction vs as [| v vs IH]; intro w; [now rewrite app_nil_r |]. cbn [map vector_after]. rewrite Nat.eqb_refl, IH, <- app_assoc. reflexivity.
Qed.
Lemma pushes2 : forall t c gs w, vectors_after t c w (map (fun g => EvPushVec c (map CvStr g)) gs) = w ++ map (map (strTo_num t)) gs.
Proof.
  intros t c gs. induction gs as [| v vs IH]; intro w; [now rewrite app_nil_r |]. cbn [map vectors_after]. rewrite Nat.eqb_refl, IH, <- app_assoc.
  cbn [app]. rewrite map_map. reflexivity.
Qed.
(** ... the values of the option are appended, converted one by one and in order, to a
    vector, its groups to a vector of vectors. *)
Theorem C53_vector : forall s argv ws s' a d t old, usable s -> interprets s -> command_line argv ws -> parseArguments argv s = (s', Ok tt) ->
  (forall b, In b (arguments s') -> c_dest (a_cfg b) <> None -> was_shaped s b) -> In a (arguments s') -> owner s' a d ->
  d_custom d = false -> d_ty d = TyValue ->
  (forall vs, d_kind d = DVector -> to_vector a = Ok vs -> vs <> [] ->
     vector_after t (d_cell d) old (s_dlog s') = vector_after t (d_cell d) old (s_dlog s) ++ map (strTo_num t) vs) /\
  (forall gs, d_kind d = DVectorVector -> to_vector_vector a = Ok gs -> gs <> [] ->
     forall old, vectors_after t (d_cell d) old (s_dlog s') = vectors_after t (d_cell d) old (s_dlog s) ++ map (map (strTo_num t)) gs).
Proof.
  intros s argv ws s' a d t old U I C E SH Ia OW CU TY. destruct (delivered s argv ws s' a d U I C E SH Ia OW) as (l1 & l2 & L & L1 & L2).
  destruct (other_cells t (d_cell d) l1 L1) as (_ & O1 & O1'). destruct (other_cells t (d_cell d) l2 L2) as (_ & O2 & O2').
  unfold delivery in L. rewrite CU in L. split.
  - intros vs K T N. rewrite L, !vector_app, O1, O2, (no_flag _ _ T), K.
    assert (X : dest_words a = vs) by (unfold dest_words; rewrite T; destruct vs; [now elim N | reflexivity]). rewrite X.
    unfold vector_cell. rewrite TY. apply pushes.
  - intros gs K T N old'. rewrite L, !vectors_app, O1', O2', (no_flag2 _ _ T), K.
    assert (X : dest_groups a = gs) by (unfold dest_groups; rewrite T; destruct gs; [now elim N | reflexivity]). rewrite X.
    etransitivity; [| apply pushes2]. f_equal. apply map_ext. intros g. unfold vector_cell. rewrite TY. reflexivity.
Qed.
Print Assumptions C53_vector.

(** ** Examples *)
(** the hypotheses of C53_double, C53_float, C53_integer_part and C53_bool, met *)
Example C53_read : number_at "-12.5e1 km" true (inject_Z 125 * 10 ^ (1 - 1)) /\
  nearest_double (with_sign true (inject_Z 125 * 10 ^ (1 - 1))) (- (125)) /\ nearest_float (- (125)) (- (125)) /\ integer_part (- (125)) (-125).
Proof.
  assert (S : forall prec x, 7 <= prec -> (x == - (125))%Q -> nearest prec (-149) x (- (125)) /\ nearest prec (-1074) x (- (125))).
  { intros prec x P X. assert (B : forall e, e <= 0 -> binary prec e (- (125))).
    { intros e He. exists (-125), 0. split; [| split; [exact He | reflexivity]]. apply (Z.lt_le_trans _ (2 ^ 7)); [reflexivity | apply Z.pow_le_mono_r; lia]. }
    assert (Z : (Qabs (x - - (125)) == 0)%Q) by (rewrite X; reflexivity).
    split; (split; [apply B; lia |]; split; intros z _; [rewrite Z; apply Qabs_nonneg | rewrite Z; intro H; left]).
    all: assert (H0 : (Qabs (x - z) <= 0)%Q) by (rewrite H; apply Qle_refl); apply Qabs_Qle_condition in H0; lra. }
  split; [| split; [| split]].
  - exists "", "-", "12.5e1 km". repeat split; try exact Logic.I; try (right; right; reflexivity).
    apply (BV_dec "12.5e1 km" "12" "5" "e1 km" 1).
    + exists ".". repeat split; try exact Logic.I; try (left; (reflexivity || discriminate)).
    + intros (x & t & a & b & r & E & X & _). destruct x as [| c1 [| c2 x]]; try (cbn in X; tauto).
      injection E as <- <- _. cbn in X. destruct X as (_ & X & _). discriminate X.
    + left. exists "e"%char, "", "1", " km". repeat split; try exact Logic.I; try discriminate. now left.
  - apply S; [lia | reflexivity].
  - apply S; [lia | reflexivity].
  - right. repeat split; try discriminate; reflexivity.
Qed.
Definition numeric : state := history [OpAdd ["-n"] [MDefaults ["7"]; MDest (Dest 1 DScalar false TyValue)];
  OpAdd ["-v"] [MAction STORE_TRUE; MDest (Dest 2 DScalar false TyValue)];
  OpAdd ["-i"] [MAction INFINITE; MDest (Dest 3 DVector false TyValue)];
  OpAdd ["-e"] [MAction EXTEND; MNargs 2; MDest (Dest 4 DVectorVector false TyValue)]].
Lemma numeric_usable : usable numeric /\ interprets numeric /\ forall a, was_shaped numeric a.
Proof.
  split; [apply careful_usable, careful_history; vm_compute; reflexivity|]. split; [right; vm_compute; discriminate|].
  assert (X : forall b, In b (arguments (ready numeric)) -> shaped b); [|intros a b Ib _; exact (X b Ib)].
  apply (forall_arguments (ready numeric) (fun b => match d_elems (a_dyn b) with [] => true | _ => false end)); [vm_compute; reflexivity|].
  intros a H. unfold shaped. destruct (d_elems (a_dyn a)); [apply elems_nil | discriminate H].
Qed.
Lemma owner_check : forall s a d, c_dest (a_cfg a) = Some d ->
  forallb (fun b => match c_dest (a_cfg b) with Some d' => negb (Nat.eqb (d_cell d') (d_cell d)) || Nat.eqb (a_id b) (a_id a) | None => true end) (arguments s) = true ->
  NoDup (map a_id (arguments s)) -> In a (arguments s) -> owner s a d.
Proof.
  intros s a d D H ND Ia. split; [exact D |]. intros b d' Ib Db Q. rewrite forallb_forall in H. specialize (H b Ib). rewrite Db in H.
  rewrite Q, Nat.eqb_refl in H. cbn [negb orb] in H. apply Nat.eqb_eq in H. clear - ND Ia Ib H.
  induction (arguments s) as [| x l IH]; [destruct Ia |]. cbn [map] in ND. apply NoDup_cons_iff in ND. destruct ND as [N ND].
  destruct Ia as [<- | Ia], Ib as [<- | Ib]; auto.
  - elim N. rewrite <- H. now apply in_map.
  - elim N. rewrite H. now apply in_map.
Qed.
Example C53_example : exists s', parseArguments ["prog"; "-n"; "-12.5e1"; "-v"; "-i"; "0x1p-1"; "3"; "-e"; "1"; "2"; "3"; "4"] numeric = (s', Ok tt) /\
  (exists d, owner s' (pick "-n" s') d /\ d_cell d = 1%nat) /\ to_vector (pick "-n" s') = Ok ["-12.5e1"] /\
  scalar_after nt_int 1 NvUndefined (s_dlog s') = NvInt (-125) /\
  scalar_after NtDouble 1 NvUndefined (s_dlog s') = NvDouble (DFin true 8796093022208000 (-46)) /\
  scalar_after nt_uchar 2 NvUndefined (s_dlog s') = NvInt 1 /\
  vector_after NtDouble 3 [] (s_dlog s') = [NvDouble (DFin false 4503599627370496 (-53)); NvDouble (DFin false 6755399441055744 (-51))] /\
  vector_after nt_int 3 [] (s_dlog s') = [NvInt 0; NvInt 3] /\
  vectors_after nt_int 4 [] (s_dlog s') = [[NvInt 1; NvInt 2]; [NvInt 3; NvInt 4]].
Proof.
  eexists. split; [vm_compute; reflexivity |]. split; [| repeat split; vm_compute; reflexivity].
  eexists. split; [apply owner_check; [vm_compute; reflexivity | vm_compute; reflexivity | | apply pick_In; vm_compute; reflexivity] | reflexivity].
  vm_compute. repeat constructor; cbn [In]; intuition discriminate.
Qed.

(* ------------------------------------------------------------------ *)
(** * C54: does an integer variable receive the integer that was typed? *)
(** Expected: a whole number that fits the type of the variable is stored exactly, one that
    does not fit is refused.  True of the types of at most 32 bits: whatever digits are
    given, with or without sign and leading zeros ... *)
Theorem C54_partial : forall sg ds lo hi, sign sg -> digits ds -> ds <> "" -> - 2 ^ 32 <= lo -> hi <= 2 ^ 32 ->
  let z := signed sg (digits_value 0 ds) in lo <= z <= hi -> strTo_num (NtInt lo hi) (sg ^^ ds) = NvInt z.
Proof.
  intros sg ds lo hi S D NE Lo Hi z R. apply C53_whole_numbers; auto; fold z.
  - assert (B : 2 ^ 32 <= 2 ^ 53) by (vm_compute; discriminate). remember (2 ^ 32) as p eqn:P. remember (2 ^ 53) as q eqn:Q. clear P Q. lia.
  - assert (B : 2 ^ 32 <= 2 ^ 64) by (vm_compute; discriminate). remember (2 ^ 32) as p eqn:P. remember (2 ^ 64) as q eqn:Q. clear P Q. lia.
  - assert (B : 2 ^ 32 <= 2 ^ 64) by (vm_compute; discriminate). remember (2 ^ 32) as p eqn:P. remember (2 ^ 64) as q eqn:Q. clear P Q. lia.
Qed.
Print Assumptions C54_partial.
Lemma integer_part_int : forall z, integer_part (inject_Z z) z.
Proof.
  intro z. unfold integer_part. destruct (Z.le_gt_cases 0 z) as [L | L].
  - left. assert (L' : (0 <= inject_Z z)%Q) by (change 0%Q with (inject_Z 0); rewrite <- Zle_Qle; exact L). split; [exact L' |]. split; lra.
  - right. assert (L' : (inject_Z z <= 0)%Q) by (change 0%Q with (inject_Z 0); rewrite <- Zle_Qle; lia). split; [exact L' |]. split; lra.
Qed.
Lemma integer_part_abs : forall y z, integer_part y z -> (inject_Z (Z.abs z) <= Qabs y)%Q.
Proof.
  intros y z [(A1 & A2 & A3) | (A1 & A2 & A3)].
  - assert (Z0 : 0 <= z). { assert (X : (inject_Z 0 < inject_Z (z + 1))%Q) by (rewrite inject_Z_plus; change (inject_Z 1) with 1%Q; change (inject_Z 0) with 0%Q; lra). rewrite <- Zlt_Qlt in X. lia. }
    rewrite (Z.abs_eq z Z0), (Qabs_pos y A1). exact A2.
  - assert (Z0 : z <= 0). { assert (X : (inject_Z (z - 1) < inject_Z 0)%Q) by (unfold Z.sub; rewrite inject_Z_plus; change (inject_Z (-(1))) with (-(1))%Q; change (inject_Z 0) with 0%Q; lra). rewrite <- Zlt_Qlt in X. lia. }
    rewrite (Z.abs_neq z Z0), (Qabs_neg y A1), inject_Z_opp. lra.
Qed.
(** ... but of the types with 64 bits only for the numbers that are doubles (all up to 2^53,
    every 2nd up to 2^54, ...): exactly these are stored as typed. *)
Theorem C54_exactly : forall sg ds lo hi, sign sg -> digits ds -> ds <> "" -> - 2 ^ 64 <= lo -> hi <= 2 ^ 64 ->
  let z := signed sg (digits_value 0 ds) in lo <= z <= hi ->
  (strTo_num (NtInt lo hi) (sg ^^ ds) = NvInt z <-> binary 53 (-1074) (inject_Z z)).
Proof.
  intros sg ds lo hi S D NE Lo Hi z R. pose proof (integer_text sg ds S D NE) as NA.
  assert (EZ : (with_sign (String.eqb sg "-") (inject_Z (digits_value 0 ds)) == inject_Z z)%Q).
  { unfold z, signed. destruct (String.eqb sg "-"); cbn [with_sign]; [rewrite inject_Z_opp |]; reflexivity. }
  destruct (nearest_exists 53 (-1074) (with_sign (String.eqb sg "-") (inject_Z (digits_value 0 ds))) ltac:(lia)) as [y N].
  assert (IPE : exists z', integer_part y z').
  { destruct (Qlt_le_dec y 0) as [L | L].
    - exists (- Qfloor (- y)). right. pose proof (Qfloor_le (- y)). pose proof (Qlt_floor (- y)). rewrite inject_Z_plus in H0. rewrite inject_Z_opp. change (inject_Z 1) with 1%Q in H0. lra.
    - exists (Qfloor y). left. pose proof (Qfloor_le y). pose proof (Qlt_floor y). rewrite inject_Z_plus in H0. change (inject_Z 1) with 1%Q in H0. lra. }
  destruct IPE as [z' IP]. destruct (C53_integer_part _ _ _ y z' lo hi NA N IP Lo Hi) as [A B]. split.
  - intro E. assert (Z' : z' = z).
    { destruct (Z_le_dec lo z') as [L1 | L1]; [destruct (Z_le_dec z' hi) as [L2 | L2] |].
      - rewrite (A (conj L1 L2)) in E. now injection E.
      - rewrite B in E by tauto. discriminate E.
      - rewrite B in E by tauto. discriminate E. }
    subst z'. destruct (Z.le_gt_cases (Z.abs z) (2 ^ 53)) as [L | L]; [apply integer_binary, L |].
    destruct N as [BY _]. destruct BY as (m & e & M & Em & Y).
    assert (E0 : 0 < e).
    { destruct (Z.le_gt_cases e 0) as [Le | Le]; [exfalso | exact Le].
      assert (P1 : (2 ^ e <= 1)%Q) by (change 1%Q with (2 ^ 0)%Q; apply pow2_mono, Le). pose proof (pow2_pos e) as P0.
      assert (AM : (Qabs y <= inject_Z (Z.abs m))%Q).
      { rewrite Y, Qabs_Qmult, (Qabs_pos (2 ^ e)) by (apply Qlt_le_weak, P0). assert (AB : (Qabs (inject_Z m) == inject_Z (Z.abs m))%Q) by (unfold Qabs, inject_Z; reflexivity).
        rewrite AB. assert (NN : (0 <= inject_Z (Z.abs m))%Q) by (change 0%Q with (inject_Z 0); rewrite <- Zle_Qle; lia). nra. }
      pose proof (integer_part_abs y z IP) as AZ.
      pose proof (Qle_trans _ _ _ AZ AM) as X. rewrite <- Zle_Qle in X. lia. }
    assert (YI : (y == inject_Z (m * 2 ^ e))%Q) by (rewrite inject_Z_mult, pow2_Z by lia; exact Y).
    rewrite (integer_part_unique y _ z (m * 2 ^ e) YI IP (integer_part_int _)).
    exists m, e. split; [exact M |]. split; [exact Em |]. rewrite <- YI. exact Y.
  - intro BZ. assert (Y : (y == inject_Z z)%Q). { rewrite <- EZ. apply (nearest_self 53 (-1074)); [| exact N]. apply (binary_eq _ _ _ _ (Qeq_sym _ _ EZ)), BZ. }
    assert (Z' : z' = z); [| subst z'; apply A, R]. apply (integer_part_unique y (inject_Z z)); [exact Y | exact IP |].
    apply integer_part_int.
Qed.
Print Assumptions C54_exactly.

(** So the expectation fails in each of its parts, in a real use of the library: an object
    with one option -n whose destination is the variable, of the given type. *)
Definition one_number : state := history [OpAdd ["-n"] [MDest (Dest 1 DScalar false TyValue)]].
Definition typed (t : num_type) (v : str) (w : num_value) : Prop :=
  exists s', parseArguments ["prog"; "-n"; v] one_number = (s', Ok tt) /\ forall old, scalar_after t 1 old (s_dlog s') = w.
Ltac type_it := eexists; split; [vm_compute; reflexivity | intro old; vm_compute; reflexivity].
(** a long does not receive the long that was typed *)
Theorem C54_long_refuted : typed nt_long "9007199254740993" (NvInt 9007199254740992) /\
  typed nt_ulong "18446744073709549568" (NvInt 18446744073709549568) /\ typed nt_ulong "18446744073709551615" NvUndefined.
Proof. repeat split; type_it. Qed.
(** a number beyond the range of the type is not refused: the call succeeds, with undefined
    behaviour *)
Theorem C54_range_refuted : typed nt_uchar "300" NvUndefined /\ typed nt_uint "-1" NvUndefined /\ typed nt_int "2147483648" NvUndefined /\
  typed nt_int "inf" NvUndefined.
Proof. repeat split; type_it. Qed.
(** a text that is no number is not refused either: 0; also "true" given to a bool *)
Theorem C54_text_refuted : typed nt_int "abc" (NvInt 0) /\ typed nt_int "12abc" (NvInt 12) /\ typed NtBool "true" (NvBool false) /\ typed nt_char "x" (NvInt 0).
Proof. repeat split; type_it. Qed.
(** the integer part of a number is not stored if rounding the number to a double reaches
    the next integer *)
Theorem C54_part_refuted : typed nt_int "0.99999999999999999999" (NvInt 1).
Proof. type_it. Qed.
(** the variable and getNumber() may disagree about the same argument *)
Theorem C54_number_refuted : exists s', parseArguments ["prog"; "-n"; "0x10"] one_number = (s', Ok tt) /\
  (forall old, scalar_after nt_int 1 old (s_dlog s') = NvInt 16) /\ exists d, getNumber (pick "-n" s') = Ok d /\ fst d = 0.
Proof. eexists. split; [vm_compute; reflexivity |]. split; [intro old; vm_compute; reflexivity |]. eexists. split; [vm_compute; reflexivity | reflexivity]. Qed.
