(** Proofs_Print.v -- the printing of doubles of Model_Print.v: rounding to six digits and
    the notation. *)
From Coq Require Import Lqa Lia.
From Verif Require Import Base Model_Number Model_Double Model_Print Spec_Number Spec_Double Spec_Print Proofs_Number Proofs_Double.
Local Open Scope Z_scope.

Lemma ten_nz : ~ (10 == 0)%Q. Proof. intro H; discriminate H. Qed.
Lemma pow10_pos : forall e, (0 < 10 ^ e)%Q. Proof. intro e. apply Qpower_0_lt. reflexivity. Qed.
Lemma pow10_plus : forall a b, (10 ^ (a + b) == 10 ^ a * 10 ^ b)%Q. Proof. intros. apply Qpower_plus, ten_nz. Qed.
Lemma pow10_Z : forall e, 0 <= e -> (inject_Z (10 ^ e) == 10 ^ e)%Q. Proof. intros e H. now rewrite Qpower.Zpower_Qpower by exact H. Qed.
Lemma pow10_mono : forall a b, a <= b -> (10 ^ a <= 10 ^ b)%Q.
Proof. intros a b L. apply Qpower_le_compat_l; [exact L | discriminate]. Qed.
Lemma pow10_S : forall e, (10 ^ (e + 1) == 10 * 10 ^ e)%Q. Proof. intro e. rewrite pow10_plus. change (10 ^ 1)%Q with 10%Q. ring. Qed.
Lemma pow10_lt : forall a b, a < b -> (10 ^ a < 10 ^ b)%Q.
Proof.
  intros a b L. pose proof (pow10_mono (a + 1) b ltac:(lia)) as M. rewrite pow10_S in M. pose proof (pow10_pos a). lra.
Qed.
Lemma Zpow10_pos : forall e, 0 < 10 ^ Z.max 0 e. Proof. intro e. apply Z.pow_pos_nonneg; lia. Qed.
Lemma pow10_lt_inv : forall a b, (10 ^ a < 10 ^ b)%Q -> a < b.
Proof. intros a b H. apply Z.nle_gt. intro L. pose proof (pow10_mono b a L). lra. Qed.

Lemma ilog10_aux_spec : forall f n, 0 < n -> n < 10 ^ Z.of_nat (S f) -> let l := ilog10_aux f n in 0 <= l /\ 10 ^ l <= n < 10 ^ (l + 1).
Proof.
  induction f as [| f IH]; intros n P U l.
  - unfold l. cbn [ilog10_aux]. change (Z.of_nat 1) with 1 in U. change (10 ^ 0) with 1. change (10 ^ (0 + 1)) with (10 ^ 1). lia.
  - unfold l. cbn [ilog10_aux]. destruct (Z.ltb_spec n 10) as [L | L]; [change (10 ^ 0) with 1; change (10 ^ (0 + 1)) with 10; lia |].
    assert (P' : 0 < n / 10) by (apply Z.div_str_pos; lia).
    assert (U' : n / 10 < 10 ^ Z.of_nat (S f)).
    { apply Z.div_lt_upper_bound; [lia |]. rewrite <- Z.pow_succ_r by lia. now replace (Z.succ (Z.of_nat (S f))) with (Z.of_nat (S (S f))) by lia. }
    destruct (IH _ P' U') as [I0 [I1 I2]]. set (k := ilog10_aux f (n / 10)) in *. split; [lia |].
    replace (1 + k) with (Z.succ k) by lia. replace (Z.succ k + 1) with (Z.succ (k + 1)) by lia. rewrite !Z.pow_succ_r by lia.
    pose proof (Z.div_mod n 10 ltac:(lia)). pose proof (Z.mod_pos_bound n 10 ltac:(lia)). lia.
Qed.
Lemma ilog10_spec : forall n, 0 < n -> 0 <= ilog10 n /\ 10 ^ ilog10 n <= n < 10 ^ (ilog10 n + 1).
Proof.
  intros n P. apply ilog10_aux_spec; [exact P |]. destruct (Z.log2_spec n P) as [_ U]. pose proof (Z.log2_nonneg n).
  rewrite Nat2Z.inj_succ, Z2Nat.id by exact H. eapply Z.lt_le_trans; [exact U |]. apply Z.pow_le_mono_l. lia.
Qed.

Lemma scaled10 : forall p q e, 0 < q -> let n := p * 10 ^ Z.max 0 (- e) in let d := q * 10 ^ Z.max 0 e in
  0 < d /\ (inject_Z n / inject_Z d * 10 ^ e == inject_Z p / inject_Z q)%Q.
Proof.
  intros p q e Hq n d. pose proof (Zpow10_pos e) as A. pose proof (Zpow10_pos (- e)) as B.
  assert (D : 0 < d) by (unfold d; nia). split; [exact D |].
  pose proof (inj_pos q Hq) as Qq. pose proof (inj_pos d D) as Qd. unfold n, d in *.
  rewrite !inject_Z_mult in *. rewrite !pow10_Z in * by lia. pose proof (pow10_pos (Z.max 0 e)) as PA.
  assert (E : (10 ^ Z.max 0 (- e) * 10 ^ e == 10 ^ Z.max 0 e)%Q) by (rewrite <- pow10_plus; replace (Z.max 0 (- e) + e) with (Z.max 0 e) by lia; reflexivity).
  transitivity (inject_Z p * (10 ^ Z.max 0 (- e) * 10 ^ e) / (inject_Z q * 10 ^ Z.max 0 e))%Q.
  - field. split; intro Z; lra.
  - rewrite E. field. split; intro Z; lra.
Qed.
Lemma flog10_spec : forall p q, 0 < p -> 0 < q -> let l := flog10 p q in (10 ^ l <= inject_Z p / inject_Z q)%Q /\ (inject_Z p / inject_Z q < 10 ^ (l + 1))%Q.
Proof.
  intros p q Hp Hq l. pose proof (inj_pos p Hp) as Qp. pose proof (inj_pos q Hq) as Qq.
  destruct (ilog10_spec p Hp) as (A0 & P1 & P2). destruct (ilog10_spec q Hq) as (B0 & R1 & R2).
  set (a := ilog10 p) in *. set (b := ilog10 q) in *.
  rewrite Zle_Qle, pow10_Z in P1, R1 by lia. rewrite Zlt_Qlt, pow10_Z in P2, R2 by lia.
  rewrite <- Qdiv_cross_le by exact Qq. rewrite <- Qdiv_cross_lt by exact Qq.
  assert (T : forall c, (p * 10 ^ Z.max 0 (- c) <? q * 10 ^ Z.max 0 c) = true <-> (inject_Z p < 10 ^ c * inject_Z q)%Q).
  { intro c. destruct (scaled10 p q c Hq) as [D E]. rewrite Z.ltb_lt. set (n := p * 10 ^ Z.max 0 (- c)) in *. set (d := q * 10 ^ Z.max 0 c) in *.
    rewrite (Qdiv_cross_lt (10 ^ c) _ _ Qq). rewrite <- E. pose proof (inj_pos d D) as Qd. pose proof (pow10_pos c) as Qc.
    rewrite Zlt_Qlt. split; intro X.
    - assert (Y : (inject_Z n / inject_Z d < 1)%Q) by (apply Qlt_shift_div_r; [exact Qd | lra]). rewrite <- (Qmult_lt_r _ _ (10 ^ c) Qc) in Y. lra.
    - assert (Y : (inject_Z n / inject_Z d < 1)%Q) by (rewrite <- (Qmult_lt_r _ _ (10 ^ c) Qc); lra). rewrite <- Qdiv_cross_lt in Y by exact Qd. lra. }
  unfold flog10 in l. fold a b in l. specialize (T (a - b)).
  pose proof (pow10_pos (a - b)) as W1. pose proof (pow10_pos b) as W2. pose proof (pow10_pos a) as W3.
  assert (Eab : (10 ^ a == 10 ^ (a - b) * 10 ^ b)%Q) by (rewrite <- pow10_plus; now replace (a - b + b) with a by ring).
  rewrite pow10_S in P2, R2.
  destruct (p * 10 ^ Z.max 0 (- (a - b)) <? q * 10 ^ Z.max 0 (a - b)).
  - assert (X : (inject_Z p < 10 ^ (a - b) * inject_Z q)%Q) by (apply T; reflexivity). subst l.
    assert (E2 : (10 ^ (a - b) == 10 * 10 ^ (a - b - 1))%Q) by (rewrite <- pow10_S; now replace (a - b - 1 + 1) with (a - b) by ring).
    replace (a - b - 1 + 1) with (a - b) by ring. split; [| exact X].
    pose proof (pow10_pos (a - b - 1)) as W4.
    apply Qle_trans with (10 ^ (a - b - 1) * (10 * 10 ^ b))%Q.
    + apply Qmult_le_l; [exact W4 | apply Qlt_le_weak; exact R2].
    + assert (E3 : (10 ^ (a - b - 1) * (10 * 10 ^ b) == 10 ^ a)%Q) by (rewrite Eab, E2; ring). rewrite E3. exact P1.
  - assert (X : ~ (inject_Z p < 10 ^ (a - b) * inject_Z q)%Q) by (intro X; apply T in X; discriminate X). subst l.
    split; [apply Qnot_lt_le; exact X |]. rewrite pow10_S.
    apply Qlt_le_trans with (10 * 10 ^ a)%Q; [exact P2 |]. rewrite Eab.
    assert (Y : (10 ^ (a - b) * 10 ^ b <= 10 ^ (a - b) * inject_Z q)%Q) by (apply Qmult_le_l; [exact W1 | exact R1]). lra.
Qed.

Lemma decimal6_eq : forall x y, (x == y)%Q -> decimal6 x -> decimal6 y.
Proof. intros x y E (m & e & M & Em). exists m, e. split; [exact M |]. now rewrite <- E. Qed.
Lemma even6_eq : forall x y, (x == y)%Q -> even6 x -> even6 y.
Proof. intros x y E (m & e & M & Em). exists m, e. split; [exact M |]. now rewrite <- E. Qed.
Lemma nearest6_eq : forall x x' y y', (x == x')%Q -> (y == y')%Q -> nearest6 x y -> nearest6 x' y'.
Proof.
  intros x x' y y' Ex Ey (N1 & N2 & N3). split; [exact (decimal6_eq _ _ Ey N1) | split].
  - intros z Hz. specialize (N2 z Hz). now rewrite <- Ex, <- Ey.
  - intros z Hz T. rewrite <- Ex, <- Ey in T. destruct (N3 z Hz T) as [L | L]; [left; now rewrite <- Ey | right; exact (even6_eq _ _ Ey L)].
Qed.

(** the decimal next to a positive number, at its scale *)
Lemma six_nearest : forall x X k, (10 ^ X <= x)%Q -> (x < 10 ^ (X + 1))%Q ->
  (Qabs (x * 10 ^ (5 - X) - inject_Z k) <= 1 # 2)%Q -> ((Qabs (x * 10 ^ (5 - X) - inject_Z k) == 1 # 2)%Q -> Z.even k = true) ->
  10 ^ 5 <= k <= 10 ^ 6 /\ nearest6 x (inject_Z k * 10 ^ (X - 5)).
Proof.
  intros x X k U1 U2 H1 H2. set (s := (x * 10 ^ (5 - X))%Q) in *. set (e := X - 5).
  pose proof (pow10_pos (5 - X)) as Q1. pose proof (pow10_pos e) as Qe.
  assert (E : (s * 10 ^ e == x)%Q). { unfold s, e. rewrite <- Qmult_assoc, <- pow10_plus. replace (5 - X + (X - 5)) with 0 by ring. change (10 ^ 0)%Q with 1%Q. ring. }
  assert (S1 : (inject_Z (10 ^ 5) <= s)%Q).
  { rewrite <- (Qmult_le_r _ _ _ Qe), E, pow10_Z, <- pow10_plus by lia. unfold e. now replace (5 + (X - 5)) with X by ring. }
  assert (S2 : (s < inject_Z (10 ^ 6))%Q).
  { rewrite <- (Qmult_lt_r _ _ _ Qe), E, pow10_Z, <- pow10_plus by lia. unfold e. now replace (6 + (X - 5)) with (X + 1) by ring. }
  assert (Kup : k <= 10 ^ 6).
  { apply Z.nlt_ge. intro L. pose proof (proj1 (next_integer s k H1 (10 ^ 6))) as A.
    assert (L2 : (inject_Z (10 ^ 6) < inject_Z k)%Q) by (rewrite <- Zlt_Qlt; exact L).
    rewrite (Qabs_neg (s - inject_Z k)), (Qabs_neg (s - inject_Z (10 ^ 6))) in A by lra. lra. }
  assert (Klow : 10 ^ 5 <= k).
  { apply Z.nlt_ge. intro L. pose proof (proj1 (next_integer s k H1 (10 ^ 5))) as A.
    assert (L2 : (inject_Z k < inject_Z (10 ^ 5))%Q) by (rewrite <- Zlt_Qlt; exact L).
    rewrite (Qabs_pos (s - inject_Z k)), (Qabs_pos (s - inject_Z (10 ^ 5))) in A by lra. lra. }
  split; [lia |].
  assert (D : forall j, (Qabs (x - inject_Z j * 10 ^ e) == Qabs (s - inject_Z j) * 10 ^ e)%Q) by (intro j; rewrite <- E; apply Qabs_scale, Qe).
  assert (Z0 : forall z, decimal6 z -> (exists j, z == inject_Z j * 10 ^ e)%Q \/ (z < inject_Z (10 ^ 5) * 10 ^ e)%Q).
  { intros z (j & f & J1 & J3). destruct (Z.leb_spec e f) as [L | L].
    - left. exists (j * 10 ^ (f - e)). rewrite J3, inject_Z_mult, pow10_Z by lia. rewrite <- Qmult_assoc, <- pow10_plus. now replace (f - e + e) with f by ring.
    - right. rewrite J3.
      assert (A : (inject_Z j * 10 ^ f < inject_Z (10 ^ 6) * 10 ^ f)%Q) by (apply Qmult_lt_r; [apply pow10_pos | rewrite <- Zlt_Qlt; lia]).
      eapply Qlt_le_trans; [exact A |]. rewrite !pow10_Z by lia. rewrite <- !pow10_plus. apply pow10_mono. lia. }
  split; [| split].
  - destruct (Z.eq_dec k (10 ^ 6)) as [-> | N].
    + exists (10 ^ 5), (e + 1). split; [reflexivity |]. rewrite pow10_S. change (inject_Z (10 ^ 6)) with (inject_Z (10 ^ 5 * 10)). rewrite inject_Z_mult. change (inject_Z 10) with 10%Q. ring.
    + exists k, e. split; [rewrite Z.abs_eq by lia; lia | reflexivity].
  - intros z B. fold e. rewrite D. destruct (Z0 z B) as [[j J] | J].
    + rewrite J, D. apply Qmult_le_r; [exact Qe |]. apply (next_integer s k H1 j).
    + apply Qle_trans with (Qabs (s - inject_Z (10 ^ 5)) * 10 ^ e)%Q.
      * apply Qmult_le_r; [exact Qe |]. apply (next_integer s k H1).
      * rewrite <- D. assert (S3 := S1). rewrite <- (Qmult_le_r _ _ _ Qe), E in S3.
        rewrite (Qabs_pos (x - inject_Z (10 ^ 5) * 10 ^ e)), (Qabs_pos (x - z)) by lra. lra.
  - intros z B. fold e. intro T. rewrite D in T. destruct (Z0 z B) as [[j J] | J].
    + rewrite J, D in T. apply Qmult_inj_r in T; [| intro Y; rewrite Y in Qe; apply Qlt_irrefl in Qe; exact Qe].
      destruct (Z.eq_dec j k) as [-> | Nj]; [left; exact J |]. right.
      destruct (proj2 (next_integer s k H1 j) T) as [Y | Half]; [contradiction |]. specialize (H2 Half).
      rewrite Z.even_spec in H2. destruct H2 as [h ->].
      destruct (Z.eq_dec (2 * h) (10 ^ 6)) as [K | K].
      * exists (5 * 10 ^ 4), (e + 1). split; [split; [reflexivity | reflexivity] |]. rewrite K, pow10_S. change (inject_Z (10 ^ 6)) with (inject_Z (2 * (5 * 10 ^ 4) * 10)). rewrite inject_Z_mult. change (inject_Z 10) with 10%Q. ring.
      * exists h, e. split; [rewrite Z.abs_eq by lia; lia | reflexivity].
    + exfalso. assert (S3 := S1). rewrite <- (Qmult_le_r _ _ _ Qe), E in S3.
      pose proof (proj1 (next_integer s k H1 (10 ^ 5))) as A. rewrite <- (Qmult_le_r _ _ _ Qe), <- T, <- D in A.
      rewrite (Qabs_pos (x - inject_Z (10 ^ 5) * 10 ^ e)), (Qabs_pos (x - z)) in A by lra. lra.
Qed.
Theorem six_digits_spec : forall p q, 0 < p -> 0 < q -> let (n, x) := six_digits p q in
  10 ^ 5 <= n < 10 ^ 6 /\ nearest6 (inject_Z p / inject_Z q) (inject_Z n * 10 ^ (x - 5)).
Proof.
  intros p q Hp Hq. unfold six_digits. destruct (flog10_spec p q Hp Hq) as [U1 U2]. set (X := flog10 p q) in *.
  destruct (scaled10 p q (X - 5) Hq) as [Hd Ex]. replace (- (X - 5)) with (5 - X) in * by ring.
  set (n := p * 10 ^ Z.max 0 (5 - X)) in *. set (d := q * 10 ^ Z.max 0 (X - 5)) in *.
  pose proof (half_even_spec n d Hd) as HE. cbv zeta in HE. set (k := half_even n d) in *. destruct HE as [HE1 HE2].
  assert (ES : (inject_Z n / inject_Z d == inject_Z p / inject_Z q * 10 ^ (5 - X))%Q).
  { rewrite <- Ex, <- Qmult_assoc, <- pow10_plus. replace (X - 5 + (5 - X)) with 0 by ring. change (10 ^ 0)%Q with 1%Q. ring. }
  rewrite ES in HE1, HE2. destruct (six_nearest _ X k U1 U2 HE1 HE2) as [B N].
  destruct (Z.eqb_spec k (10 ^ 6)) as [K | K].
  - split; [lia |]. replace (X + 1 - 5) with (X - 5 + 1) by ring.
    assert (EE : (inject_Z (10 ^ 5) * 10 ^ (X - 5 + 1) == inject_Z k * 10 ^ (X - 5))%Q).
    { rewrite K, pow10_S. change (inject_Z (10 ^ 6)) with (inject_Z (10 ^ 5 * 10)). rewrite inject_Z_mult. change (inject_Z 10) with 10%Q. ring. }
    exact (nearest6_eq _ _ _ _ (Qeq_refl _) (Qeq_sym _ _ EE) N).
  - split; [lia | exact N].
Qed.

(** * the text *)
Lemma digit_char_spec : forall n, 0 <= n < 10 -> is_digit (digit_char n) = true /\ digit_val (digit_char n) = n /\ (digit_char n = "0"%char -> n = 0).
Proof.
  intros n H. assert (C : n = 0 \/ n = 1 \/ n = 2 \/ n = 3 \/ n = 4 \/ n = 5 \/ n = 6 \/ n = 7 \/ n = 8 \/ n = 9) by lia.
  repeat (destruct C as [-> | C]; [split; [reflexivity | split; [reflexivity | first [reflexivity | discriminate]]] |]).
  subst n. split; [reflexivity | split; [reflexivity | discriminate]].
Qed.
Lemma digits_fix_digits : forall k n, digits (digits_fix k n).
Proof.
  induction k as [| k IH]; intro n; [exact Logic.I |]. split; [| apply IH]. apply digit_char_spec, Z.mod_pos_bound. lia.
Qed.
Lemma digits_fix_length : forall k n, String.length (digits_fix k n) = k.
Proof. induction k as [| k IH]; intro n; [reflexivity |]. cbn [digits_fix String.length]. now rewrite IH. Qed.
Lemma digits_fix_value : forall k n acc, digits_value acc (digits_fix k n) = acc * 10 ^ Z.of_nat k + n mod 10 ^ Z.of_nat k.
Proof.
  induction k as [| k IH]; intros n acc; cbn [digits_fix digits_value].
  - change (10 ^ Z.of_nat 0) with 1. rewrite Z.mod_1_r. lia.
  - rewrite IH. destruct (digit_char_spec (n / 10 ^ Z.of_nat k mod 10)) as (_ & -> & _); [apply Z.mod_pos_bound; lia |].
    rewrite Nat2Z.inj_succ, Z.pow_succ_r by lia. set (t := 10 ^ Z.of_nat k). assert (T : 0 < t) by (apply Z.pow_pos_nonneg; lia).
    rewrite (Z.mul_comm 10 t), (Z.rem_mul_r n t 10) by lia. ring.
Qed.
Lemma digits_fix_first : forall k n, 10 ^ Z.of_nat k <= n < 10 ^ Z.of_nat (S k) -> not_first (Ascii.eqb "0") (digits_fix (S k) n).
Proof.
  intros k n H. cbn [digits_fix not_first]. rewrite Nat2Z.inj_succ, Z.pow_succ_r in H by lia. set (t := 10 ^ Z.of_nat k) in *. assert (T : 0 < t) by (apply Z.pow_pos_nonneg; lia).
  assert (B1 : 1 <= n / t) by (apply Z.div_le_lower_bound; lia). assert (B2 : n / t < 10) by (apply Z.div_lt_upper_bound; lia).
  rewrite Z.mod_small by lia. destruct (digit_char_spec (n / t)) as (_ & _ & Z0); [lia |].
  destruct (Ascii.eqb_spec "0" (digit_char (n / t))) as [E | N]; [| reflexivity]. rewrite <- E in Z0. specialize (Z0 eq_refl). lia.
Qed.
Lemma digits_fix_snoc : forall k n, digits_fix (S k) n = digits_fix k (n / 10) ^^ String (digit_char (n mod 10)) "".
Proof.
  induction k as [| k IH]; intro n.
  - cbn [digits_fix]. change (10 ^ Z.of_nat 0) with 1. now rewrite Z.div_1_r.
  - change (digits_fix (S (S k)) n) with (String (digit_char (n / 10 ^ Z.of_nat (S k) mod 10)) (digits_fix (S k) n)). rewrite IH.
    cbn [digits_fix]. change (String (digit_char (n / 10 / 10 ^ Z.of_nat k mod 10)) (digits_fix k (n / 10)) ^^ String (digit_char (n mod 10)) "")
      with (String (digit_char (n / 10 / 10 ^ Z.of_nat k mod 10)) (digits_fix k (n / 10) ^^ String (digit_char (n mod 10)) "")).
    f_equal. f_equal. rewrite Nat2Z.inj_succ, Z.pow_succ_r by lia. rewrite Z.div_div by (try apply Z.pow_pos_nonneg; lia). reflexivity.
Qed.
Lemma point_text_spec : forall k f, 0 <= f < 10 ^ Z.of_nat k -> exists b, point_digits b (point_text k f) /\ digits b /\
  (inject_Z (digits_value 0 b) * 10 ^ (- Z.of_nat (String.length b)) == inject_Z f * 10 ^ (- Z.of_nat k))%Q.
Proof.
  induction k as [| k IH]; intros f H.
  - exists "". split; [left; auto |]. split; [exact Logic.I |]. change (10 ^ Z.of_nat 0) with 1 in H. replace f with 0 by lia. reflexivity.
  - cbn [point_text]. destruct (Z.eqb_spec (f mod 10) 0) as [E | N].
    + rewrite Nat2Z.inj_succ, Z.pow_succ_r in H by lia. pose proof (Z.div_mod f 10 ltac:(lia)) as DM.
      destruct (IH (f / 10)) as (b & B1 & B2 & B3); [lia |]. exists b. split; [exact B1 |]. split; [exact B2 |]. rewrite B3.
      rewrite DM at 2. rewrite E, Z.add_0_r, inject_Z_mult. change (inject_Z 10) with 10%Q.
      replace (- Z.of_nat k) with (- Z.of_nat (S k) + 1) by lia. rewrite pow10_S. ring.
    + exists (digits_fix (S k) f). split; [right | split].
      * exists (digits_fix k (f / 10)), (digit_char (f mod 10)). split; [apply digits_fix_snoc |]. split; [| reflexivity].
        intro Z0. apply N. apply digit_char_spec; [apply Z.mod_pos_bound; lia | exact Z0].
      * apply digits_fix_digits.
      * rewrite digits_fix_length, digits_fix_value, Z.mod_small by exact H. reflexivity.
Qed.
Lemma inject_plus_scaled : forall a b l y, (inject_Z (digits_value 0 b) * 10 ^ (- Z.of_nat (String.length b)) == y)%Q -> digits_value 0 a = l ->
  (inject_Z (digits_value 0 (a ^^ b)) * 10 ^ (- Z.of_nat (String.length b)) == inject_Z l + y)%Q.
Proof.
  intros a b l y H <-. rewrite digits_value_app.
  assert (A : forall s acc, digits_value acc s = acc * 10 ^ Z.of_nat (String.length s) + digits_value 0 s).
  { induction s as [| c s IH]; intro acc; cbn [digits_value String.length].
    - change (10 ^ Z.of_nat 0) with 1. lia.
    - rewrite (IH (acc * 10 + digit_val c)), (IH (0 * 10 + digit_val c)), Nat2Z.inj_succ, Z.pow_succ_r by lia. ring. }
  rewrite A, inject_Z_plus, inject_Z_mult, Qmult_plus_distr_l, H, pow10_Z by lia.
  rewrite <- Qmult_assoc, <- pow10_plus. replace (Z.of_nat (String.length b) + - Z.of_nat (String.length b)) with 0 by ring. change (10 ^ 0)%Q with 1%Q. ring.
Qed.
Lemma split_scaled : forall n k, 0 <= k -> (inject_Z (n / 10 ^ k) + inject_Z (n mod 10 ^ k) * 10 ^ (- k) == inject_Z n * 10 ^ (- k))%Q.
Proof.
  intros n k K. assert (T : 0 < 10 ^ k) by (apply Z.pow_pos_nonneg; lia). rewrite (Z.div_mod n (10 ^ k)) at 3 by lia.
  rewrite inject_Z_plus, inject_Z_mult, pow10_Z by lia. assert (E : (10 ^ k * 10 ^ (- k) == 1)%Q) by (rewrite <- pow10_plus; replace (k + - k) with 0 by ring; reflexivity).
  transitivity (inject_Z (n / 10 ^ k) * (10 ^ k * 10 ^ (- k)) + inject_Z (n mod 10 ^ k) * 10 ^ (- k))%Q; [rewrite E |]; ring.
Qed.
Lemma scale_bounds : forall n x, 10 ^ 5 <= n < 10 ^ 6 -> (10 ^ x <= inject_Z n * 10 ^ (x - 5))%Q /\ (inject_Z n * 10 ^ (x - 5) < 10 ^ (x + 1))%Q.
Proof.
  intros n x [L U]. pose proof (pow10_pos (x - 5)) as P. rewrite Zle_Qle, pow10_Z in L by lia. rewrite Zlt_Qlt, pow10_Z in U by lia. split.
  - replace x with (5 + (x - 5)) at 1 by ring. rewrite pow10_plus. apply Qmult_le_r; [exact P | exact L].
  - replace (x + 1) with (6 + (x - 5)) by ring. rewrite pow10_plus. apply Qmult_lt_r; [exact P | exact U].
Qed.
Lemma show_exp_written : forall n x, 10 ^ 5 <= n < 10 ^ 6 -> x < -4 \/ 6 <= x -> written (inject_Z n * 10 ^ (x - 5)) (show_exp n x).
Proof.
  intros n x H C. destruct (scale_bounds n x H) as [B1 B2]. set (y := (inject_Z n * 10 ^ (x - 5))%Q) in *. unfold show_exp.
  destruct (point_text_spec 5 (n mod 10 ^ 5)) as (b & P1 & P2 & P3); [apply Z.mod_pos_bound; reflexivity |]. change (Z.of_nat 5) with 5 in P3.
  assert (V : 1 <= n / 10 ^ 5 < 10). { split; [apply Z.div_le_lower_bound; lia | apply Z.div_lt_upper_bound; lia]. }
  set (ed := digits_fix (Z.to_nat (Z.max 2 (ilog10 (Z.abs x) + 1))) (Z.abs x)).
  assert (Ax : 0 < Z.abs x) by lia. destruct (ilog10_spec (Z.abs x) Ax) as (I0 & I1 & I2).
  assert (EV : digits_value 0 ed = Z.abs x).
  { unfold ed. rewrite digits_fix_value, Z.mul_0_l, Z.add_0_l. apply Z.mod_small. split; [lia |]. eapply Z.lt_le_trans; [apply I2 |]. apply Z.pow_le_mono_r; lia. }
  destruct (digit_char_spec (n / 10 ^ 5)) as (D1 & D2 & D3); [lia |].
  replace (digits_fix 1 (n / 10 ^ 5)) with (String (digit_char (n / 10 ^ 5)) "").
  2:{ cbn [digits_fix]. change (10 ^ Z.of_nat 0) with 1. rewrite Z.div_1_r, (Z.mod_small (n / 10 ^ 5)) by lia. reflexivity. }
  set (c := digit_char (n / 10 ^ 5)) in *. set (es := if x <? 0 then "-" else "+").
  assert (SV : signed es (digits_value 0 ed) = x). { rewrite EV. unfold es, signed. destruct (Z.ltb_spec x 0); cbn [String.eqb Ascii.eqb Bool.eqb]; lia. }
  apply (W_exp y c b (point_text 5 (n mod 10 ^ 5)) es ed).
  - exact D1.
  - intro E. apply D3 in E. lia.
  - exact P2.
  - apply digits_fix_digits.
  - exact P1.
  - unfold ed. rewrite digits_fix_length. lia.
  - unfold ed. rewrite digits_fix_length. destruct (Z.leb_spec (ilog10 (Z.abs x) + 1) 2) as [L | L]; [left; lia | right].
    replace (Z.to_nat (Z.max 2 (ilog10 (Z.abs x) + 1))) with (S (Z.to_nat (ilog10 (Z.abs x)))) by lia. apply digits_fix_first.
    rewrite Nat2Z.inj_succ, Z2Nat.id by lia. split; [exact I1 | exact I2].
  - unfold es. destruct C as [C | C].
    + left. destruct (Z.ltb_spec x 0); [| lia]. split; [reflexivity |]. split; [eapply Qlt_le_trans; [apply pow10_pos | exact B1] |]. eapply Qlt_le_trans; [exact B2 |]. apply pow10_mono. lia.
    + right. destruct (Z.ltb_spec x 0); [lia |]. split; [reflexivity |]. eapply Qle_trans; [| exact B1]. apply pow10_mono. lia.
  - rewrite SV. change (String c b) with (String c "" ^^ b). unfold y. replace (x - Z.of_nat (String.length b)) with (- Z.of_nat (String.length b) + x) by ring.
    rewrite pow10_plus, Qmult_assoc, (inject_plus_scaled _ _ (n / 10 ^ 5) _ P3).
    + rewrite split_scaled by lia. rewrite <- Qmult_assoc, <- pow10_plus. now replace (- (5) + x) with (x - 5) by ring.
    + cbn [digits_value]. rewrite D2. reflexivity.
Qed.
Theorem show_digits_written : forall n x, 10 ^ 5 <= n < 10 ^ 6 -> written (inject_Z n * 10 ^ (x - 5)) (show_digits n x).
Proof.
  intros n x H. destruct (scale_bounds n x H) as [B1 B2]. set (y := (inject_Z n * 10 ^ (x - 5))%Q) in *. unfold show_digits.
  destruct (Z.leb_spec (-4) x) as [L1 | L1]; [destruct (Z.ltb_spec x 6) as [L2 | L2] |]; cbn [andb].
  - unfold show_plain. set (k := Z.to_nat (5 - x)). assert (K : Z.of_nat k = 5 - x) by (unfold k; lia). rewrite K.
    assert (T : 0 < 10 ^ (5 - x)) by (apply Z.pow_pos_nonneg; lia).
    destruct (point_text_spec k (n mod 10 ^ (5 - x))) as (b & P1 & P2 & P3); [rewrite K; apply Z.mod_pos_bound, T |]. rewrite K in P3.
    assert (V : 0 <= n / 10 ^ (5 - x) < 10 ^ Z.max 1 (x + 1)).
    { split; [apply Z.div_pos; lia |]. apply Z.div_lt_upper_bound; [exact T |]. rewrite <- Z.pow_add_r by lia. eapply Z.lt_le_trans; [apply H |]. apply Z.pow_le_mono_r; lia. }
    apply (W_plain y (digits_fix (Z.to_nat (Z.max 1 (x + 1))) (n / 10 ^ (5 - x))) b).
    + apply digits_fix_digits.
    + exact P2.
    + intro E. apply (f_equal String.length) in E. rewrite digits_fix_length in E. cbn [String.length] in E. lia.
    + destruct (Z.ltb_spec x 0) as [N | N].
      * left. replace (Z.max 1 (x + 1)) with 1 in * by lia. assert (E : n / 10 ^ (5 - x) = 0).
        { apply Z.div_small. split; [lia |]. eapply Z.lt_le_trans; [apply H |]. apply Z.pow_le_mono_r; lia. }
        rewrite E. reflexivity.
      * right. replace (Z.to_nat (Z.max 1 (x + 1))) with (S (Z.to_nat x)) by lia. apply digits_fix_first.
        rewrite Nat2Z.inj_succ, Z2Nat.id by lia. split; [| replace (Z.succ x) with (Z.max 1 (x + 1)) by lia; apply V].
        apply Z.div_le_lower_bound; [exact T |]. rewrite <- Z.pow_add_r by lia. replace (5 - x + x) with 5 by ring. apply H.
    + exact P1.
    + right. split; [eapply Qle_trans; [| exact B1]; apply pow10_mono; lia | eapply Qlt_le_trans; [exact B2 |]; apply pow10_mono; lia].
    + rewrite (inject_plus_scaled _ _ (n / 10 ^ (5 - x)) _ P3).
      * rewrite split_scaled by lia. unfold y. now replace (- (5 - x)) with (x - 5) by ring.
      * rewrite digits_fix_value, Z.mul_0_l, Z.add_0_l. apply Z.mod_small. rewrite Z2Nat.id by lia. exact V.
  - apply show_exp_written; [exact H | right; exact L2].
  - apply show_exp_written; [exact H | left; exact L1].
Qed.
(** ** what is printed *)
Theorem show_written : forall neg m e, 0 <= m -> exists y, nearest6 (inject_Z m * 2 ^ e) y /\ written_signed neg y (show_double (DFin neg m e)).
Proof.
  intros neg m e Hm. unfold show_double. destruct (Z.eqb_spec m 0) as [-> | N].
  - exists 0%Q. assert (E : (inject_Z 0 * 2 ^ e == 0)%Q) by (change (inject_Z 0) with 0%Q; ring). split.
    + apply (nearest6_eq 0 _ 0 _ (Qeq_sym _ _ E) (Qeq_refl _)). split; [| split].
      * exists 0, 0. split; reflexivity.
      * intros z _. change (Qabs (0 - 0)) with 0%Q. apply Qabs_nonneg.
      * intros z _ T. left. change (Qabs (0 - 0)) with 0%Q in T. assert (A : (Qabs (0 - z) <= 0)%Q) by lra. apply Qabs_Qle_condition in A. lra.
    + exists "0". split; [reflexivity |]. change "0" with ("0" ^^ ""). apply (W_plain 0 "0" ""); [repeat split | exact Logic.I | discriminate | left; reflexivity | left; auto | left; reflexivity | reflexivity].
  - pose proof (fraction_spec 2 m e ltac:(lia) Hm) as F. destruct (fraction 2 m e) as [p q] eqn:EF. destruct F as (F1 & F2 & F3).
    assert (Pp : 0 < p).
    { destruct (Z.eq_dec p 0) as [-> | Np]; [| lia]. exfalso. pose proof (pow2_pos e) as P. pose proof (inj_pos m ltac:(lia)) as Q. change (inject_Z 2) with 2%Q in F3. pose proof (Qmult_lt_0_compat _ _ Q P) as R. rewrite <- F3 in R. unfold Qdiv in R. change (inject_Z 0) with 0%Q in R. rewrite Qmult_0_l in R. discriminate R. }
    pose proof (six_digits_spec p q Pp F2) as SD. destruct (six_digits p q) as [n x]. destruct SD as [S1 S2].
    exists (inject_Z n * 10 ^ (x - 5))%Q. split; [exact (nearest6_eq _ _ _ _ F3 (Qeq_refl _) S2) |].
    eexists. split; [reflexivity |]. apply show_digits_written, S1.
Qed.

(** * the specification determines the text *)
Lemma half_way : forall x y z, (Qabs (x - y) == Qabs (x - z))%Q -> (y < z)%Q -> (2 * x == y + z)%Q.
Proof.
  intros x y z E L. destruct (Qlt_le_dec x y) as [A | A].
  - rewrite (Qabs_neg (x - y)), (Qabs_neg (x - z)) in E by lra. lra.
  - destruct (Qlt_le_dec x z) as [B | B].
    + rewrite (Qabs_pos (x - y)), (Qabs_neg (x - z)) in E by lra. lra.
    + rewrite (Qabs_pos (x - y)), (Qabs_pos (x - z)) in E by lra. lra.
Qed.
Lemma between_closer : forall x y z w, (2 * x == y + z)%Q -> (y < w)%Q -> (w < z)%Q -> (Qabs (x - w) < Qabs (x - y))%Q.
Proof.
  intros x y z w E A B. rewrite (Qabs_pos (x - y)) by lra. destruct (Qlt_le_dec x w) as [C | C].
  - rewrite (Qabs_neg (x - w)) by lra. lra.
  - rewrite (Qabs_pos (x - w)) by lra. lra.
Qed.
Lemma even6_apart : forall y z, even6 y -> even6 z -> (y < z)%Q -> exists w, decimal6 w /\ (y < w)%Q /\ (w < z)%Q.
Proof.
  intros y z (m & f & M & Y) (m' & f' & M' & Ez) L. rewrite Y, Ez in L.
  assert (A : forall c (a b : Z), (inject_Z a * 10 ^ c < inject_Z b * 10 ^ c)%Q <-> a < b).
  { intros c a b. rewrite (Qmult_lt_r _ _ _ (pow10_pos c)), <- Zlt_Qlt. reflexivity. }
  assert (B : forall a c c', c <= c' -> (inject_Z (2 * a) * 10 ^ c' == inject_Z (2 * (a * 10 ^ (c' - c))) * 10 ^ c)%Q).
  { intros a c c' K. rewrite !inject_Z_mult, pow10_Z by lia. replace c' with (c' - c + c) at 1 by ring. rewrite pow10_plus. ring. }
  destruct (Z.leb_spec f f') as [K | K].
  - rewrite (B m' f f' K) in L. apply A in L. exists (inject_Z (2 * m + 1) * 10 ^ f)%Q. split; [| split].
    + exists (2 * m + 1), f. split; [lia | reflexivity].
    + rewrite Y. apply A. lia.
    + rewrite Ez, (B m' f f' K). apply A. lia.
  - rewrite (B m f' f) in L by lia. apply A in L. exists (inject_Z (2 * m' - 1) * 10 ^ f')%Q. split; [| split].
    + exists (2 * m' - 1), f'. split; [lia | reflexivity].
    + rewrite Y, (B m f' f) by lia. apply A. lia.
    + rewrite Ez. apply A. lia.
Qed.
Theorem nearest6_unique : forall x y z, nearest6 x y -> nearest6 x z -> (y == z)%Q.
Proof.
  assert (G : forall x y z, nearest6 x y -> nearest6 x z -> ~ (y < z)%Q).
  { intros x y z (Y1 & Y2 & Y3) (Z1 & Z2 & Z3) L.
    assert (E : (Qabs (x - y) == Qabs (x - z))%Q) by (apply Qle_antisym; [exact (Y2 z Z1) | exact (Z2 y Y1)]).
    destruct (Y3 z Z1 (Qeq_sym _ _ E)) as [T | Ey]; [rewrite T in L; exact (Qlt_irrefl _ L) |].
    destruct (Z3 y Y1 E) as [T | Ez]; [rewrite T in L; exact (Qlt_irrefl _ L) |].
    destruct (even6_apart y z Ey Ez L) as (w & W & W1 & W2).
    pose proof (between_closer x y z w (half_way _ _ _ E L) W1 W2) as C. specialize (Y2 w W). lra. }
  intros x y z Hy Hz. apply Qle_antisym; apply Qnot_lt_le; eapply G; eassumption.
Qed.

Lemma digits_value_acc : forall s acc, digits_value acc s = acc * 10 ^ Z.of_nat (String.length s) + digits_value 0 s.
Proof.
  induction s as [| c s IH]; intro acc; cbn [digits_value String.length].
  - change (10 ^ Z.of_nat 0) with 1. lia.
  - rewrite (IH (acc * 10 + digit_val c)), (IH (0 * 10 + digit_val c)), Nat2Z.inj_succ, Z.pow_succ_r by lia. ring.
Qed.
Lemma digit_small : forall c, is_digit c = true -> 0 <= digit_val c < 10 /\ (digit_val c = 0 -> c = "0"%char).
Proof.
  intro c. unfold is_digit, digit_val. intro H. destruct c as [[] [] [] [] [] [] [] []]; vm_compute in H; try discriminate H; vm_compute; (split; [split; [discriminate | reflexivity] | first [reflexivity | discriminate]]).
Qed.
Lemma digit_inj : forall c c', is_digit c = true -> is_digit c' = true -> digit_val c = digit_val c' -> c = c'.
Proof.
  intros c c' H H' E. unfold is_digit in H, H'. revert H E. destruct c as [[] [] [] [] [] [] [] []]; vm_compute; intro H; try discriminate H;
  revert H'; destruct c' as [[] [] [] [] [] [] [] []]; vm_compute; intros H' E; first [discriminate H' | reflexivity | discriminate E].
Qed.
Lemma digits_value_range : forall s, digits s -> 0 <= digits_value 0 s < 10 ^ Z.of_nat (String.length s).
Proof.
  induction s as [| c s IH]; intro D; [change (0 <= 0 < 1); lia |]. destruct D as [D1 D2]. cbn [digits_value String.length]. rewrite digits_value_acc.
  destruct (digit_small c D1) as [B _]. specialize (IH D2). rewrite Nat2Z.inj_succ, Z.pow_succ_r by lia. nia.
Qed.
Lemma digits_same : forall s s', digits s -> digits s' -> String.length s = String.length s' -> digits_value 0 s = digits_value 0 s' -> s = s'.
Proof.
  induction s as [| c s IH]; intros [| c' s'] D D' L E; try reflexivity; try discriminate L. destruct D as [D1 D2], D' as [D1' D2']. injection L as L.
  cbn [digits_value] in E. rewrite (digits_value_acc s), (digits_value_acc s'), L in E.
  destruct (digit_small c D1) as [B _]. destruct (digit_small c' D1') as [B' _].
  pose proof (digits_value_range s D2) as R. pose proof (digits_value_range s' D2') as R'. rewrite L in R. set (t := 10 ^ Z.of_nat (String.length s')) in *.
  assert (V : digit_val c = digit_val c') by nia. f_equal; [exact (digit_inj _ _ D1 D1' V) | apply IH; [assumption | assumption | assumption | nia]].
Qed.
Lemma digits_value_low : forall s, digits s -> s <> "" -> not_first (Ascii.eqb "0") s -> 10 ^ (Z.of_nat (String.length s) - 1) <= digits_value 0 s.
Proof.
  intros [| c s] D N F; [contradiction |]. destruct D as [D1 D2]. cbn [digits_value String.length not_first] in *. rewrite digits_value_acc.
  destruct (digit_small c D1) as [B Z0]. pose proof (digits_value_range s D2) as R. replace (Z.of_nat (S (String.length s)) - 1) with (Z.of_nat (String.length s)) by lia.
  assert (P : digit_val c <> 0) by (intro E; rewrite (Z0 E) in F; discriminate F). nia.
Qed.
Lemma no_zero_same : forall s s', digits s -> digits s' -> s <> "" -> s' <> "" -> not_first (Ascii.eqb "0") s -> not_first (Ascii.eqb "0") s' ->
  digits_value 0 s = digits_value 0 s' -> s = s'.
Proof.
  intros s s' D D' N N' F F' E. apply digits_same; try assumption.
  pose proof (digits_value_low s D N F). pose proof (digits_value_range s D). pose proof (digits_value_low s' D' N' F'). pose proof (digits_value_range s' D').
  assert (A : Z.of_nat (String.length s) - 1 < Z.of_nat (String.length s')) by (apply (Z.pow_lt_mono_r_iff 10); lia).
  assert (B : Z.of_nat (String.length s') - 1 < Z.of_nat (String.length s)) by (apply (Z.pow_lt_mono_r_iff 10); lia). lia.
Qed.
(** digits with the point removed: a ++ b at the scale of b *)
Lemma point_same_le : forall a b fr a' b' fr', digits a -> digits b -> digits a' -> digits b' -> point_digits b fr -> point_digits b' fr' ->
  (inject_Z (digits_value 0 (a ^^ b)) * 10 ^ (- Z.of_nat (String.length b)) == inject_Z (digits_value 0 (a' ^^ b')) * 10 ^ (- Z.of_nat (String.length b')))%Q ->
  (String.length b <= String.length b')%nat -> b = b' /\ fr = fr' /\ digits_value 0 a = digits_value 0 a'.
Proof.
  intros a b fr a' b' fr' Da Db Da' Db' P P' E L.
  assert (EZ : digits_value 0 (a' ^^ b') = digits_value 0 (a ^^ b) * 10 ^ (Z.of_nat (String.length b') - Z.of_nat (String.length b))).
  { apply inject_Z_injective. rewrite inject_Z_mult, pow10_Z by lia. pose proof (pow10_pos (- Z.of_nat (String.length b'))) as Q.
    apply (Qmult_inj_r _ _ (10 ^ (- Z.of_nat (String.length b')))); [intro Y; rewrite Y in Q; exact (Qlt_irrefl _ Q) |].
    rewrite <- E, <- Qmult_assoc, <- pow10_plus. now replace (Z.of_nat (String.length b') - Z.of_nat (String.length b) + - Z.of_nat (String.length b')) with (- Z.of_nat (String.length b)) by ring. }
  assert (LE : String.length b = String.length b').
  { destruct (Nat.eq_dec (String.length b) (String.length b')) as [Y | Y]; [exact Y |]. exfalso.
    destruct P' as [[-> _] | (b1 & c & Eb & N & _)]; [cbn [String.length] in *; lia |].
    assert (M : digits_value 0 (a' ^^ b') mod 10 = 0).
    { rewrite EZ. replace (Z.of_nat (String.length b') - Z.of_nat (String.length b)) with (Z.succ (Z.of_nat (String.length b') - Z.of_nat (String.length b) - 1)) by lia.
      rewrite Z.pow_succ_r by lia. rewrite (Z.mul_comm 10), Z.mul_assoc. apply Z.mod_mul. lia. }
    rewrite Eb, <- app_assoc_s, digits_value_app in M. cbn [digits_value] in M. rewrite Z.add_comm, Z.mod_add in M by lia.
    assert (Dc : is_digit c = true). { rewrite Eb in Db'. clear - Db'. induction b1 as [| x b1 IH]; [exact (proj1 Db') | exact (IH (proj2 Db'))]. }
    destruct (digit_small c Dc) as [B Z0]. rewrite Z.mod_small in M by lia. apply N, Z0, M. }
  rewrite LE, Z.sub_diag, Z.mul_1_r in EZ. rewrite !digits_value_app, (digits_value_acc b), (digits_value_acc b'), LE in EZ.
  pose proof (digits_value_range b Db) as R. pose proof (digits_value_range b' Db') as R'. rewrite LE in R. set (t := 10 ^ Z.of_nat (String.length b')) in *.
  assert (Va : digits_value 0 a = digits_value 0 a') by nia.
  assert (Eb : b = b') by (apply digits_same; [exact Db | exact Db' | exact LE | nia]). split; [exact Eb |]. split; [| exact Va].
  rewrite <- Eb in P'. clear - P P'. destruct P as [[Eb ->] | (b1 & c & Eb & _ & ->)], P' as [[Eb' ->] | (b1' & c' & Eb' & _ & ->)]; try reflexivity; exfalso; rewrite Eb in Eb'; [destruct b1' | destruct b1]; discriminate Eb'.
Qed.
Lemma point_same : forall a b fr a' b' fr', digits a -> digits b -> digits a' -> digits b' -> point_digits b fr -> point_digits b' fr' ->
  (inject_Z (digits_value 0 (a ^^ b)) * 10 ^ (- Z.of_nat (String.length b)) == inject_Z (digits_value 0 (a' ^^ b')) * 10 ^ (- Z.of_nat (String.length b')))%Q ->
  b = b' /\ fr = fr' /\ digits_value 0 a = digits_value 0 a'.
Proof.
  intros a b fr a' b' fr' Da Db Da' Db' P P' E. destruct (Nat.le_ge_cases (String.length b) (String.length b')) as [L | L].
  - exact (point_same_le a b fr a' b' fr' Da Db Da' Db' P P' E L).
  - destruct (point_same_le a' b' fr' a b fr Da' Db' Da Db P' P (Qeq_sym _ _ E) L) as (A & B & C). auto.
Qed.
Lemma plain_same : forall a a', digits a -> digits a' -> a <> "" -> a' <> "" -> (a = "0" \/ not_first (Ascii.eqb "0") a) -> (a' = "0" \/ not_first (Ascii.eqb "0") a') ->
  digits_value 0 a = digits_value 0 a' -> a = a'.
Proof.
  intros a a' D D' N N' F F' E.
  assert (G : forall s, digits s -> s <> "" -> not_first (Ascii.eqb "0") s -> digits_value 0 s <> 0).
  { intros s Ds Ns Fs. pose proof (digits_value_low s Ds Ns Fs) as L. assert (0 < 10 ^ (Z.of_nat (String.length s) - 1)); [| lia].
    apply Z.pow_pos_nonneg; [lia |]. destruct s; [contradiction | cbn [String.length]; lia]. }
  destruct F as [-> | F], F' as [-> | F']; [reflexivity | | | apply no_zero_same; assumption]; exfalso.
  - apply (G a'); try assumption. rewrite <- E. reflexivity.
  - apply (G a); try assumption.
Qed.
Lemma exp_digits_same : forall s s', digits s -> digits s' -> (2 <= String.length s)%nat -> (2 <= String.length s')%nat ->
  (String.length s = 2%nat \/ not_first (Ascii.eqb "0") s) -> (String.length s' = 2%nat \/ not_first (Ascii.eqb "0") s') ->
  digits_value 0 s = digits_value 0 s' -> s = s'.
Proof.
  assert (G : forall s s', digits s -> digits s' -> (2 <= String.length s')%nat -> String.length s = 2%nat -> not_first (Ascii.eqb "0") s' ->
    digits_value 0 s = digits_value 0 s' -> String.length s = String.length s').
  { intros s s' D D' L' L F E. pose proof (digits_value_range s D) as R. rewrite L in R. change (10 ^ Z.of_nat 2) with 100 in R.
    assert (N : s' <> "") by (intros ->; cbn [String.length] in L'; lia). pose proof (digits_value_low s' D' N F) as B.
    destruct (Nat.eq_dec (String.length s') 2) as [Y | Y]; [lia |].
    assert (10 ^ 2 <= 10 ^ (Z.of_nat (String.length s') - 1)) by (apply Z.pow_le_mono_r; lia). change (10 ^ 2) with 100 in H. lia. }
  intros s s' D D' L L' F F' E. apply digits_same; try assumption. destruct F as [F | F], F' as [F' | F'].
  - lia.
  - apply G; assumption.
  - symmetry. apply G; try assumption. now symmetry.
  - rewrite (no_zero_same s s' D D'); try assumption; [reflexivity | |]; intros ->; cbn [String.length] in *; lia.
Qed.
Lemma exp_scale : forall c b y E, is_digit c = true -> c <> "0"%char -> digits b ->
  (y == inject_Z (digits_value 0 (String c b)) * 10 ^ (E - Z.of_nat (String.length b)))%Q -> (10 ^ E <= y)%Q /\ (y < 10 ^ (E + 1))%Q.
Proof.
  intros c b y E D N Db Y. assert (Dcb : digits (String c b)) by (split; assumption).
  pose proof (digits_value_range _ Dcb) as R. assert (F : not_first (Ascii.eqb "0") (String c b)).
  { cbn [not_first]. destruct (Ascii.eqb_spec "0" c) as [T | T]; [elim N; now symmetry | reflexivity]. }
  pose proof (digits_value_low _ Dcb ltac:(discriminate) F) as L. set (v := digits_value 0 (String c b)) in *. cbn [String.length] in *.
  replace (Z.of_nat (S (String.length b)) - 1) with (Z.of_nat (String.length b)) in L by lia. rewrite Nat2Z.inj_succ in R. destruct R as [_ U].
  rewrite Zle_Qle, pow10_Z in L by lia. rewrite Zlt_Qlt, pow10_Z in U by lia. pose proof (pow10_pos (E - Z.of_nat (String.length b))) as P. rewrite Y. split.
  - replace E with (Z.of_nat (String.length b) + (E - Z.of_nat (String.length b))) at 1 by ring. rewrite pow10_plus. apply Qmult_le_r; [exact P | exact L].
  - replace (E + 1) with (Z.succ (Z.of_nat (String.length b)) + (E - Z.of_nat (String.length b))) by lia. rewrite pow10_plus. apply Qmult_lt_r; [exact P | exact U].
Qed.
Theorem written_unique : forall y y' t t', (y == y')%Q -> written y t -> written y' t' -> t = t'.
Proof.
  intros y y' t t' E W W'.
  destruct W as [a b fr D1 D2 D3 D4 D5 D6 D7 | c b fr es ed C1 C2 C3 C4 C5 C6 C7 C8 C9];
  destruct W' as [a' b' fr' D1' D2' D3' D4' D5' D6' D7' | c' b' fr' es' ed' C1' C2' C3' C4' C5' C6' C7' C8' C9'].
  - rewrite E, D7' in D7. destruct (point_same a' b' fr' a b fr D1' D2' D1 D2 D5' D5 D7) as (-> & -> & V). f_equal. apply plain_same; try assumption. now symmetry.
  - exfalso. rewrite <- E in C8'. destruct D6 as [Z0 | [L U]], C8' as [[_ [A B]] | [_ A]]; lra.
  - exfalso. rewrite E in C8. destruct D6' as [Z0 | [L U]], C8 as [[_ [A B]] | [_ A]]; lra.
  - destruct (exp_scale c b y _ C1 C2 C3 C9) as [L U]. destruct (exp_scale c' b' y' _ C1' C2' C3' C9') as [L' U']. rewrite <- E in L', U'.
    set (x := signed es (digits_value 0 ed)) in *. set (x' := signed es' (digits_value 0 ed')) in *.
    assert (X : x = x'). { pose proof (pow10_lt_inv _ _ (Qle_lt_trans _ _ _ L U')). pose proof (pow10_lt_inv _ _ (Qle_lt_trans _ _ _ L' U)). lia. }
    assert (ES : es = es').
    { rewrite <- E in C8'. destruct C8 as [[-> [A B]] | [-> A]], C8' as [[-> [A' B']] | [-> A']]; try reflexivity; exfalso.
      - assert (K : (10 ^ 6 < 10 ^ (-4))%Q) by lra. discriminate K.
      - assert (K : (10 ^ 6 < 10 ^ (-4))%Q) by lra. discriminate K. }
    subst es'. assert (EV : digits_value 0 ed = digits_value 0 ed') by (unfold x, x', signed in X; destruct (String.eqb es "-"); lia).
    assert (ED : ed = ed') by (apply exp_digits_same; assumption). subst ed'.
    rewrite E, C9' in C9. rewrite <- X in C9. change (String c b) with (String c "" ^^ b) in C9. change (String c' b') with (String c' "" ^^ b') in C9.
    assert (C : (inject_Z (digits_value 0 (String c' "" ^^ b')) * 10 ^ (- Z.of_nat (String.length b')) == inject_Z (digits_value 0 (String c "" ^^ b)) * 10 ^ (- Z.of_nat (String.length b)))%Q).
    { pose proof (pow10_pos x) as P. apply (Qmult_inj_r _ _ (10 ^ x)); [intro Y; rewrite Y in P; exact (Qlt_irrefl _ P) |]. rewrite <- !Qmult_assoc, <- !pow10_plus.
      replace (- Z.of_nat (String.length b') + x) with (x - Z.of_nat (String.length b')) by ring. replace (- Z.of_nat (String.length b) + x) with (x - Z.of_nat (String.length b)) by ring. exact C9. }
    destruct (point_same (String c' "") b' fr' (String c "") b fr) as (_ & -> & V); [split; [assumption | exact Logic.I] | assumption | split; [assumption | exact Logic.I] | assumption | assumption | assumption | exact C |].
    cbn [digits_value] in V. rewrite (digit_inj c c' C1 C1'); [reflexivity | lia].
Qed.
Lemma written_eq : forall y y' t, (y == y')%Q -> written y t -> written y' t.
Proof.
  intros y y' t E W. destruct W as [a b fr D1 D2 D3 D4 D5 D6 D7 | c b fr es ed C1 C2 C3 C4 C5 C6 C7 C8 C9].
  - apply (W_plain y' a b fr); try assumption; [rewrite <- E; exact D6 | rewrite <- E; exact D7].
  - apply (W_exp y' c b fr es ed); try assumption; [rewrite <- E; exact C8 | rewrite <- E; exact C9].
Qed.

(** * how far the text is from the number *)
Lemma six_exists : forall x, (0 < x)%Q -> exists X k, (10 ^ X <= x)%Q /\ (x < 10 ^ (X + 1))%Q /\
  (Qabs (x * 10 ^ (5 - X) - inject_Z k) <= 1 # 2)%Q /\ ((Qabs (x * 10 ^ (5 - X) - inject_Z k) == 1 # 2)%Q -> Z.even k = true).
Proof.
  intros x Px. destruct (as_fraction x (Qlt_le_weak _ _ Px)) as (p & q & Hp & Hq & E).
  assert (Pp : 0 < p). { destruct (Z.eq_dec p 0) as [-> | N]; [| lia]. exfalso. rewrite E in Px. unfold Qdiv in Px. change (inject_Z 0) with 0%Q in Px. rewrite Qmult_0_l in Px. discriminate Px. }
  destruct (flog10_spec p q Pp Hq) as [U1 U2]. set (X := flog10 p q) in *.
  destruct (scaled10 p q (X - 5) Hq) as [Hd Ex]. replace (- (X - 5)) with (5 - X) in * by ring.
  set (n := p * 10 ^ Z.max 0 (5 - X)) in *. set (d := q * 10 ^ Z.max 0 (X - 5)) in *.
  pose proof (half_even_spec n d Hd) as HE. cbv zeta in HE. set (k := half_even n d) in *. destruct HE as [HE1 HE2].
  assert (ES : (inject_Z n / inject_Z d == x * 10 ^ (5 - X))%Q).
  { rewrite E, <- Ex, <- Qmult_assoc, <- pow10_plus. replace (X - 5 + (5 - X)) with 0 by ring. change (10 ^ 0)%Q with 1%Q. ring. }
  rewrite ES in HE1, HE2. rewrite <- E in U1, U2. exists X, k. auto.
Qed.
Lemma nearest6_0 : forall x, (x == 0)%Q -> nearest6 x x.
Proof.
  intros x E. apply (nearest6_eq 0 _ 0 _ (Qeq_sym _ _ E) (Qeq_sym _ _ E)). split; [exists 0, 0; split; reflexivity | split].
  - intros z _. change (Qabs (0 - 0)) with 0%Q. apply Qabs_nonneg.
  - intros z _ T. left. change (Qabs (0 - 0)) with 0%Q in T. assert (A : (Qabs (0 - z) <= 0)%Q) by lra. apply Qabs_Qle_condition in A. lra.
Qed.
Lemma nearest6_opp : forall x y, nearest6 x y -> nearest6 (- x) (- y).
Proof.
  assert (DO : forall x, decimal6 x -> decimal6 (- x)). { intros x (m & e & M & E). exists (- m), e. split; [now rewrite Z.abs_opp |]. rewrite inject_Z_opp, E. ring. }
  assert (EO : forall x, even6 x -> even6 (- x)). { intros x (m & e & M & E). exists (- m), e. split; [now replace (2 * - m) with (- (2 * m)) by ring; rewrite Z.abs_opp |]. replace (2 * - m) with (- (2 * m)) by ring. rewrite inject_Z_opp, E. ring. }
  assert (AO : forall a b, (Qabs (- a - - b) == Qabs (a - b))%Q). { intros a b. rewrite <- (Qabs_opp (a - b)). apply Qabs_wd. ring. }
  assert (AO' : forall a b, (Qabs (- a - b) == Qabs (a - - b))%Q). { intros a b. rewrite <- (Qabs_opp (a - - b)). apply Qabs_wd. ring. }
  intros x y (N1 & N2 & N3). split; [apply DO, N1 | split].
  - intros z Hz. rewrite AO, AO'. apply N2, DO, Hz.
  - intros z Hz T. rewrite AO, AO' in T. destruct (N3 _ (DO _ Hz) T) as [L | L]; [left; rewrite <- L; ring | right; apply EO, L].
Qed.
Theorem nearest6_exists : forall x, exists y, nearest6 x y.
Proof.
  assert (P : forall x, (0 < x)%Q -> exists y, nearest6 x y).
  { intros x Px. destruct (six_exists x Px) as (X & k & A & B & C & D). destruct (six_nearest x X k A B C D) as [_ N]. eexists. exact N. }
  intro x. destruct (Q_dec x 0) as [[L | L] | E].
  - destruct (P (- x)%Q) as [y Y]; [lra |]. exists (- y)%Q. exact (nearest6_eq _ _ _ _ (Qopp_involutive x) (Qeq_refl _) (nearest6_opp _ _ Y)).
  - exact (P x L).
  - exists x. apply nearest6_0, E.
Qed.
Theorem nearest6_error : forall x y, nearest6 x y -> (Qabs (x - y) <= Qabs x * (1 # 200000))%Q.
Proof.
  assert (P : forall x y, (0 < x)%Q -> nearest6 x y -> (Qabs (x - y) <= Qabs x * (1 # 200000))%Q).
  { intros x y Px N. destruct (six_exists x Px) as (X & k & A & B & C & D). destruct (six_nearest x X k A B C D) as [_ N'].
    rewrite (nearest6_unique _ _ _ N N'). rewrite (Qabs_pos x) by lra. pose proof (pow10_pos (X - 5)) as Q.
    assert (E : (x * 10 ^ (5 - X) * 10 ^ (X - 5) == x)%Q) by (rewrite <- Qmult_assoc, <- pow10_plus; replace (5 - X + (X - 5)) with 0 by ring; change (10 ^ 0)%Q with 1%Q; ring).
    assert (E' : (Qabs (x - inject_Z k * 10 ^ (X - 5)) == Qabs (x * 10 ^ (5 - X) - inject_Z k) * 10 ^ (X - 5))%Q) by (rewrite <- E at 1; apply Qabs_scale, Q).
    rewrite E'. rewrite <- (Qmult_le_r _ _ _ Q) in C. eapply Qle_trans; [exact C |].
    replace X with (5 + (X - 5)) in A at 1 by ring. rewrite pow10_plus in A. change (10 ^ 5)%Q with 100000%Q in A. lra. }
  intros x y N. destruct (Q_dec x 0) as [[L | L] | E].
  - pose proof (P (- x)%Q (- y)%Q ltac:(lra) (nearest6_opp _ _ N)) as H. rewrite Qabs_opp in H. assert (T : (- (x - y) == - x - - y)%Q) by ring. rewrite <- (Qabs_opp (x - y)), T. exact H.
  - exact (P x y L N).
  - rewrite (nearest6_unique _ _ _ N (nearest6_0 x E)). rewrite E. change (Qabs (0 - 0)) with 0%Q. change (Qabs 0) with 0%Q. lra.
Qed.

(** * a decimal with six digits survives *)
Lemma double_close : forall x y, (2 ^ (-1022) <= x)%Q -> nearest_double x y -> (Qabs (x - y) <= x * 2 ^ (-53))%Q.
Proof.
  intros x y Lx (_ & N & _). pose proof (pow2_pos (-1022)) as P0. assert (Px : (0 < x)%Q) by (eapply Qlt_le_trans; [exact P0 | exact Lx]). clear P0.
  destruct (as_fraction x (Qlt_le_weak _ _ Px)) as (p & q & Hp & Hq & E).
  assert (Pp : 0 < p). { destruct (Z.eq_dec p 0) as [-> | Np]; [| lia]. exfalso. rewrite E in Px. unfold Qdiv in Px. change (inject_Z 0) with 0%Q in Px. rewrite Qmult_0_l in Px. discriminate Px. }
  destruct (flog2_spec p q Pp Hq) as [U1 U2]. set (l := flog2 p q) in *. rewrite <- E in U1, U2.
  assert (Ll : -1022 <= l). { apply Z.nlt_ge. intro K. pose proof (pow2_mono (l + 1) (-1022) ltac:(lia)) as M. apply (Qlt_irrefl x). eapply Qlt_le_trans; [exact U2 |]. eapply Qle_trans; [exact M | exact Lx]. }
  clear Lx. set (e := l - 52). destruct (scaled p q e Hq) as [Hd Ex]. set (n := p * 2 ^ Z.max 0 (- e)) in *. set (d := q * 2 ^ Z.max 0 e) in *.
  destruct (half_even_spec n d Hd) as [H1 _]. set (k := half_even n d) in *. set (X := (inject_Z n / inject_Z d)%Q) in *. rewrite <- E in Ex.
  pose proof (pow2_pos e) as Qe.
  assert (S1 : (inject_Z (2 ^ 52) <= X)%Q). { rewrite <- (Qmult_le_r _ _ _ Qe), Ex, pow2_Z, <- pow2_plus by lia. unfold e. replace (52 + (l - 52)) with l by ring. exact U1. }
  assert (S2 : (X < inject_Z (2 ^ 53))%Q). { rewrite <- (Qmult_lt_r _ _ _ Qe), Ex, pow2_Z, <- pow2_plus by lia. unfold e. replace (53 + (l - 52)) with (l + 1) by ring. exact U2. }
  assert (K0 : 0 <= k). { apply half_even_nonneg; [| exact Hd]. unfold n. pose proof (Zpow_pos (- e)). nia. }
  assert (K1 : k <= 2 ^ 53).
  { apply Z.nlt_ge. intro L. pose proof (proj1 (next_integer X k H1 (2 ^ 53))) as A.
    assert (L2 : (inject_Z (2 ^ 53) < inject_Z k)%Q) by (rewrite <- Zlt_Qlt; exact L). set (t := inject_Z (2 ^ 53)) in *.
    rewrite (Qabs_neg (X - inject_Z k)), (Qabs_neg (X - t)) in A by lra. lra. }
  assert (B : binary 53 (-1074) (inject_Z k * 2 ^ e)).
  { destruct (Z.eq_dec k (2 ^ 53)) as [-> | Nk].
    - exists (2 ^ 52), (e + 1). split; [reflexivity |]. split; [unfold e; lia |]. rewrite !pow2_Z by lia. rewrite <- !pow2_plus. now replace (52 + (e + 1)) with (53 + e) by ring.
    - exists k, e. split; [rewrite Z.abs_eq by exact K0; lia |]. split; [unfold e; lia | reflexivity]. }
  eapply Qle_trans; [exact (N _ B) |].
  assert (E' : (Qabs (x - inject_Z k * 2 ^ e) == Qabs (X - inject_Z k) * 2 ^ e)%Q) by (rewrite <- Ex; apply Qabs_scale, Qe).
  rewrite E'. rewrite <- (Qmult_le_r _ _ _ Qe) in H1. eapply Qle_trans; [exact H1 |].
  assert (T : ((1 # 2) * 2 ^ e == 2 ^ l * 2 ^ (-53))%Q). { rewrite <- pow2_plus. unfold e. replace (l + -53) with (l - 52 + (-1)) by ring. rewrite (pow2_plus (l - 52) (-1)). change (2 ^ (-1))%Q with (1 # 2)%Q. ring. }
  rewrite T. apply Qmult_le_r; [apply pow2_pos | exact U1].
Qed.
Lemma decimal6_gap : forall y z, (0 < y)%Q -> decimal6 y -> decimal6 z -> ~ (z == y)%Q -> (y * (1 # 10000000) <= Qabs (y - z))%Q.
Proof.
  intros y z Py (m & f & M & Y) (m' & f' & M' & Z0) N. destruct (six_exists y Py) as (X & _ & A & B & _).
  assert (F : X - 5 <= f).
  { assert (L : (10 ^ X < 10 ^ (6 + f))%Q); [| apply pow10_lt_inv in L; lia]. eapply Qle_lt_trans; [exact A |]. rewrite Y, pow10_plus, <- (pow10_Z 6) by lia. apply Qmult_lt_r; [apply pow10_pos |]. rewrite <- Zlt_Qlt. lia. }
  assert (SY : forall c a, c <= f -> a = m * 10 ^ (f - c) -> (y == inject_Z a * 10 ^ c)%Q).
  { intros c a L ->. rewrite Y, inject_Z_mult, pow10_Z by lia. rewrite <- Qmult_assoc, <- pow10_plus. now replace (f - c + c) with f by ring. }
  pose proof (pow10_pos (X - 6)) as P6. replace (X + 1) with (X - 6 + 7) in B by ring. rewrite pow10_plus in B. change (10 ^ 7)%Q with 10000000%Q in B.
  replace X with (X - 6 + 6) in A at 1 by ring. rewrite pow10_plus in A. change (10 ^ 6)%Q with 1000000%Q in A.
  destruct (Z.leb_spec (X - 6) f') as [L | L].
  - pose proof (SY (X - 6) _ ltac:(lia) eq_refl) as EY. set (a := m * 10 ^ (f - (X - 6))) in *.
    assert (EZ : (z == inject_Z (m' * 10 ^ (f' - (X - 6))) * 10 ^ (X - 6))%Q).
    { rewrite Z0, inject_Z_mult, pow10_Z by lia. rewrite <- Qmult_assoc, <- pow10_plus. now replace (f' - (X - 6) + (X - 6)) with f' by ring. }
    set (b := m' * 10 ^ (f' - (X - 6))) in *. assert (NE : a <> b) by (intro T; apply N; rewrite EY, EZ, T; reflexivity).
    pose proof (int_apart a b NE) as I1.
    assert (ED : (Qabs (y - z) == Qabs (inject_Z a - inject_Z b) * 10 ^ (X - 6))%Q) by (rewrite EY, EZ; apply Qabs_scale, P6).
    rewrite ED. apply Qle_trans with (1 * 10 ^ (X - 6))%Q; [lra |]. apply Qmult_le_r; [exact P6 | exact I1].
  - assert (Zs : (z < 10 ^ (X - 6 + 5))%Q).
    { rewrite Z0. apply Qlt_le_trans with (inject_Z (10 ^ 6) * 10 ^ f')%Q; [apply Qmult_lt_r; [apply pow10_pos | rewrite <- Zlt_Qlt; lia] |]. rewrite pow10_Z, <- pow10_plus by lia. apply pow10_mono. lia. }
    rewrite pow10_plus in Zs. change (10 ^ 5)%Q with 100000%Q in Zs. rewrite Qabs_pos by lra. lra.
Qed.
Theorem nearest6_double : forall x y z, decimal6 x -> (0 <= x)%Q -> ((x == 0)%Q \/ (2 ^ (-1022) <= x)%Q) -> nearest_double x y -> nearest6 y z -> (z == x)%Q.
Proof.
  intros x y z Dx Px R ND N6. destruct R as [E0 | R].
  - assert (Y0 : (y == 0)%Q). { rewrite <- E0. apply (nearest_self 53 (-1074) x y); [| exact ND]. apply (binary_eq _ _ 0 x (Qeq_sym _ _ E0)), binary_0. lia. }
    rewrite (nearest6_unique y z y N6 (nearest6_0 y Y0)), Y0, E0. reflexivity.
  - assert (Px' : (0 < x)%Q) by (eapply Qlt_le_trans; [apply (pow2_pos (-1022)) | exact R]).
    pose proof (double_close x y R ND) as C. clear R.
    destruct N6 as (Dz & M & _). specialize (M x Dx). destruct (Qeq_dec z x) as [T | T]; [exact T |]. exfalso.
    pose proof (decimal6_gap x z Px' Dx Dz T) as G. pose proof (Qabs_tri x y z) as TR. rewrite (Qabs_Qminus y x) in M.
    assert (K : (x * 2 ^ (-53) < x * (1 # 40000000))%Q) by (apply Qmult_lt_l; [exact Px' | reflexivity]). lra.
Qed.
