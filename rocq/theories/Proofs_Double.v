(** Proofs_Double.v -- the rounding of Model_Double.v is correct. *)
From Coq Require Import Lqa Lia.
From Verif Require Import Base Model_Number Model_Double Spec_Number Proofs_Number Spec_Double.
Local Open Scope Z_scope.

Lemma two_nz : ~ (2 == 0)%Q. Proof. discriminate. Qed.
Lemma pow2_pos : forall e, (0 < 2 ^ e)%Q. Proof. intro e. apply Qpower_0_lt. reflexivity. Qed.
Lemma pow2_plus : forall a b, (2 ^ (a + b) == 2 ^ a * 2 ^ b)%Q. Proof. intros. apply Qpower_plus, two_nz. Qed.
Lemma pow2_Z : forall e, 0 <= e -> (inject_Z (2 ^ e) == 2 ^ e)%Q. Proof. intros e H. rewrite Zpower_Qpower by exact H. reflexivity. Qed.
Lemma pow2_mono : forall a b, a <= b -> (2 ^ a <= 2 ^ b)%Q. Proof. intros. apply Qpower_le_compat_l; [assumption | discriminate]. Qed.
Lemma pow2_opp : forall a, (2 ^ a * 2 ^ (- a) == 1)%Q.
Proof. intro a. rewrite <- pow2_plus. rewrite Z.add_opp_diag_r. reflexivity. Qed.
Lemma inj_pos : forall z, 0 < z -> (0 < inject_Z z)%Q.
Proof. intros z H. change 0%Q with (inject_Z 0). rewrite <- Zlt_Qlt. exact H. Qed.
Lemma Zpow_pos : forall e, 0 < 2 ^ Z.max 0 e. Proof. intro e. apply Z.pow_pos_nonneg; lia. Qed.

(** scaling *)
Lemma scaled : forall p q e, 0 < q -> let n := p * 2 ^ Z.max 0 (- e) in let d := q * 2 ^ Z.max 0 e in
  0 < d /\ (inject_Z n / inject_Z d * 2 ^ e == inject_Z p / inject_Z q)%Q.
Proof.
  intros p q e Hq n d. pose proof (Zpow_pos e) as H1. split. { unfold d. nia. }
  pose proof (inj_pos q Hq) as Q1. pose proof (pow2_pos e) as Q2. pose proof (pow2_opp e) as Q3. pose proof (pow2_pos (- e)) as Q4.
  unfold n, d. rewrite !inject_Z_mult. destruct (Z.leb_spec 0 e) as [He | He].
  - rewrite (Z.max_l 0 (- e)), (Z.max_r 0 e) by lia. rewrite (pow2_Z e) by exact He. change (inject_Z (2 ^ 0)) with 1%Q.
    field. split; intro X; rewrite X in *; discriminate || (apply Qlt_irrefl in Q1; exact Q1) || (apply Qlt_irrefl in Q2; exact Q2).
  - rewrite (Z.max_r 0 (- e)), (Z.max_l 0 e) by lia. rewrite (pow2_Z (- e)) by lia. change (inject_Z (2 ^ 0)) with 1%Q.
    transitivity (inject_Z p / inject_Z q * (2 ^ e * 2 ^ (- e)))%Q.
    + field. intro X. rewrite X in Q1. apply Qlt_irrefl in Q1. exact Q1.
    + rewrite Q3. field. intro X. rewrite X in Q1. apply Qlt_irrefl in Q1. exact Q1.
Qed.

Lemma Qdiv_cross_le : forall a b c, (0 < c)%Q -> (a * c <= b <-> a <= b / c)%Q.
Proof.
  intros a b c H. split; intro X.
  - apply Qle_shift_div_l; assumption.
  - apply (Qmult_le_r _ _ c H) in X. assert (E : (b / c * c == b)%Q) by (field; intro Y; rewrite Y in H; apply Qlt_irrefl in H; exact H).
    rewrite E in X. exact X.
Qed.
Lemma Qdiv_cross_lt : forall a b c, (0 < c)%Q -> (b < a * c <-> b / c < a)%Q.
Proof.
  intros a b c H. split; intro X.
  - apply Qlt_shift_div_r; assumption.
  - apply (Qmult_lt_r _ _ c H) in X. assert (E : (b / c * c == b)%Q) by (field; intro Y; rewrite Y in H; apply Qlt_irrefl in H; exact H).
    rewrite E in X. exact X.
Qed.

(** flog2 *)
Lemma flog2_spec : forall p q, 0 < p -> 0 < q -> let l := flog2 p q in (2 ^ l <= inject_Z p / inject_Z q)%Q /\ (inject_Z p / inject_Z q < 2 ^ (l + 1))%Q.
Proof.
  intros p q Hp Hq l. pose proof (inj_pos p Hp) as Qp. pose proof (inj_pos q Hq) as Qq.
  destruct (Z.log2_spec p Hp) as [P1 P2]. destruct (Z.log2_spec q Hq) as [R1 R2].
  set (a := Z.log2 p) in *. set (b := Z.log2 q) in *. rewrite <- Z.add_1_r in P2, R2.
  assert (A0 : 0 <= a) by apply Z.log2_nonneg. assert (B0 : 0 <= b) by apply Z.log2_nonneg.
  rewrite Zle_Qle, pow2_Z in P1, R1 by lia. rewrite Zlt_Qlt, pow2_Z in P2, R2 by lia.
  rewrite <- Qdiv_cross_le by exact Qq. rewrite <- Qdiv_cross_lt by exact Qq.
  assert (T : forall c, (p * 2 ^ Z.max 0 (- c) <? q * 2 ^ Z.max 0 c) = true <-> (inject_Z p < 2 ^ c * inject_Z q)%Q).
  { intro c. destruct (scaled p q c Hq) as [D E]. rewrite Z.ltb_lt. set (n := p * 2 ^ Z.max 0 (- c)) in *. set (d := q * 2 ^ Z.max 0 c) in *.
    rewrite (Qdiv_cross_lt (2 ^ c) _ _ Qq). rewrite <- E. pose proof (inj_pos d D) as Qd. pose proof (pow2_pos c) as Qc.
    rewrite Zlt_Qlt. split; intro X.
    - assert (Y : (inject_Z n / inject_Z d < 1)%Q) by (apply Qlt_shift_div_r; [exact Qd | lra]). rewrite <- (Qmult_lt_r _ _ (2 ^ c) Qc) in Y. lra.
    - assert (Y : (inject_Z n / inject_Z d < 1)%Q) by (rewrite <- (Qmult_lt_r _ _ (2 ^ c) Qc); lra). rewrite <- Qdiv_cross_lt in Y by exact Qd. lra. }
  unfold flog2 in l. fold a b in l. specialize (T (a - b)).
  pose proof (pow2_pos (a - b)) as W1. pose proof (pow2_pos b) as W2. pose proof (pow2_pos a) as W3.
  assert (Eab : (2 ^ a == 2 ^ (a - b) * 2 ^ b)%Q) by (rewrite <- pow2_plus; now replace (a - b + b) with a by ring).
  assert (E1 : forall x, (2 ^ (x + 1) == 2 * 2 ^ x)%Q) by (intro x; rewrite pow2_plus; change (2 ^ 1)%Q with 2%Q; ring).
  rewrite E1 in P2, R2.
  destruct (p * 2 ^ Z.max 0 (- (a - b)) <? q * 2 ^ Z.max 0 (a - b)).
  - assert (X : (inject_Z p < 2 ^ (a - b) * inject_Z q)%Q) by (apply T; reflexivity). subst l.
    assert (E2 : (2 ^ (a - b) == 2 * 2 ^ (a - b - 1))%Q) by (rewrite <- E1; now replace (a - b - 1 + 1) with (a - b) by ring).
    replace (a - b - 1 + 1) with (a - b) by ring. split; [| exact X].
    pose proof (pow2_pos (a - b - 1)) as W4.
    apply Qle_trans with (2 ^ (a - b - 1) * (2 * 2 ^ b))%Q.
    + apply Qmult_le_l; [exact W4 | apply Qlt_le_weak; exact R2].
    + assert (E3 : (2 ^ (a - b - 1) * (2 * 2 ^ b) == 2 ^ a)%Q) by (rewrite Eab, E2; ring). rewrite E3. exact P1.
  - assert (X : ~ (inject_Z p < 2 ^ (a - b) * inject_Z q)%Q) by (intro X; apply T in X; discriminate X). subst l.
    split; [apply Qnot_lt_le; exact X |]. rewrite E1.
    apply Qlt_le_trans with (2 * 2 ^ a)%Q; [exact P2 |]. rewrite Eab.
    assert (Y : (2 ^ (a - b) * 2 ^ b <= 2 ^ (a - b) * inject_Z q)%Q) by (apply Qmult_le_l; [exact W1 | exact R1]). lra.
Qed.

(** half_even *)
Lemma half_even_spec : forall n d, 0 < d -> let k := half_even n d in
  (Qabs (inject_Z n / inject_Z d - inject_Z k) <= 1 # 2)%Q /\ ((Qabs (inject_Z n / inject_Z d - inject_Z k) == 1 # 2)%Q -> Z.even k = true).
Proof.
  intros n d Hd k. pose proof (inj_pos d Hd) as Qd. pose proof (Z.div_mod n d ltac:(lia)) as E. pose proof (Z.mod_pos_bound n d Hd) as R.
  set (j := n / d) in *. set (r := n mod d) in *.
  assert (X : (inject_Z n / inject_Z d == inject_Z j + inject_Z r / inject_Z d)%Q).
  { rewrite E at 1. rewrite inject_Z_plus, inject_Z_mult. field. intro Y; rewrite Y in Qd; apply Qlt_irrefl in Qd; exact Qd. }
  assert (F : forall c, (inject_Z r / inject_Z d == c -> inject_Z r == c * inject_Z d)%Q).
  { intros c H. rewrite <- H. field. intro Y; rewrite Y in Qd; apply Qlt_irrefl in Qd; exact Qd. }
  set (f := (inject_Z r / inject_Z d)%Q) in *.
  assert (E0 : (inject_Z r == f * inject_Z d)%Q) by (apply F; reflexivity).
  assert (F0 : (0 <= f)%Q). { apply Qdiv_cross_le; [exact Qd |]. rewrite Qmult_0_l. change 0%Q with (inject_Z 0). rewrite <- Zle_Qle. lia. }
  assert (F1 : (f < 1)%Q). { apply Qdiv_cross_lt; [exact Qd |]. rewrite Qmult_1_l. rewrite <- Zlt_Qlt. lia. }
  assert (C1 : 2 * r < d <-> (f < 1 # 2)%Q).
  { rewrite Zlt_Qlt, inject_Z_mult. change (inject_Z 2) with 2%Q. split; intro H; [apply Qdiv_cross_lt; [exact Qd | lra] |]. apply Qdiv_cross_lt in H; [lra | exact Qd]. }
  assert (C2 : d < 2 * r <-> (1 # 2 < f)%Q).
  { rewrite Zlt_Qlt, inject_Z_mult. change (inject_Z 2) with 2%Q. split; intro H.
    - apply Qnot_le_lt. intro Y. assert (Z1 : (f * inject_Z d <= (1 # 2) * inject_Z d)%Q) by (apply Qmult_le_r; assumption). lra.
    - apply (Qmult_lt_r _ _ _ Qd) in H. lra. }
  unfold k, half_even. fold j r.
  destruct (Z.ltb_spec (2 * r) d) as [H | H].
  - apply C1 in H. assert (A : (Qabs (inject_Z n / inject_Z d - inject_Z j) == f)%Q).
    { rewrite X. assert (A : (inject_Z j + f - inject_Z j == f)%Q) by ring. rewrite A. apply Qabs_pos, F0. }
    rewrite A. split; [lra | intro B; exfalso; lra].
  - assert (A1 : (Qabs (inject_Z n / inject_Z d - inject_Z (j + 1)) == 1 - f)%Q).
    { rewrite X, inject_Z_plus. change (inject_Z 1) with 1%Q. assert (A : (inject_Z j + f - (inject_Z j + 1) == f - 1)%Q) by ring. rewrite A.
      rewrite Qabs_neg by lra. ring. }
    assert (A0 : (Qabs (inject_Z n / inject_Z d - inject_Z j) == f)%Q).
    { rewrite X. assert (A : (inject_Z j + f - inject_Z j == f)%Q) by ring. rewrite A. apply Qabs_pos, F0. }
    destruct (Z.ltb_spec d (2 * r)) as [H2 | H2].
    + apply C2 in H2. rewrite A1. split; [lra | intro B; exfalso; lra].
    + assert (Hf : (f == 1 # 2)%Q). { apply Qle_antisym; apply Qnot_lt_le; intro Y; [apply C2 in Y | apply C1 in Y]; lia. }
      destruct (Z.even j) eqn:Ev.
      * rewrite A0. split; [lra | intros _; exact Ev].
      * rewrite A1. split; [lra | intros _]. rewrite Z.even_add, Ev. reflexivity.
Qed.

Lemma Qabs_tri : forall a b c, (Qabs (a - c) <= Qabs (a - b) + Qabs (b - c))%Q.
Proof. intros. assert (E : (a - c == (a - b) + (b - c))%Q) by ring. rewrite E. apply Qabs_triangle. Qed.
Lemma int_apart : forall j k, j <> k -> (1 <= Qabs (inject_Z j - inject_Z k))%Q.
Proof.
  intros j k H. assert (E : (inject_Z j - inject_Z k == inject_Z (j - k))%Q) by (unfold Z.sub; rewrite inject_Z_plus, inject_Z_opp; ring).
  rewrite E. change (Qabs (inject_Z (j - k))) with (inject_Z (Z.abs (j - k))). change 1%Q with (inject_Z 1). rewrite <- Zle_Qle. lia.
Qed.
(** k is the integer next to X *)
Lemma next_integer : forall X k, (Qabs (X - inject_Z k) <= 1 # 2)%Q -> forall j, (Qabs (X - inject_Z k) <= Qabs (X - inject_Z j))%Q /\
  ((Qabs (X - inject_Z j) == Qabs (X - inject_Z k))%Q -> j = k \/ (Qabs (X - inject_Z k) == 1 # 2)%Q).
Proof.
  intros X k H j. destruct (Z.eq_dec j k) as [-> | N]. { split; [apply Qle_refl | intros _; now left]. }
  pose proof (int_apart j k N) as A. pose proof (Qabs_tri (inject_Z j) X (inject_Z k)) as T. rewrite (Qabs_Qminus (inject_Z j) X) in T.
  set (u := Qabs (X - inject_Z j)) in *. set (v := Qabs (X - inject_Z k)) in *. split; [lra |]. intro E. right. lra.
Qed.

Lemma Qabs_scale : forall a b s, (0 < s)%Q -> (Qabs (a * s - b * s) == Qabs (a - b) * s)%Q.
Proof. intros a b s H. assert (E : (a * s - b * s == (a - b) * s)%Q) by ring. rewrite E, Qabs_Qmult, (Qabs_pos s) by (apply Qlt_le_weak; exact H). reflexivity. Qed.

Lemma half_even_nonneg : forall n d, 0 <= n -> 0 < d -> 0 <= half_even n d.
Proof. intros n d Hn Hd. unfold half_even. pose proof (Z.div_pos n d Hn Hd). destruct (_ <? _); [lia |]. destruct (_ <? _); [lia |]. destruct (Z.even _); lia. Qed.

(** the rounding is correct *)
Theorem round_nearest : forall prec emin p q, 2 <= prec -> 0 <= p -> 0 < q ->
  let (m, e) := round_to prec emin p q in
  0 <= m <= 2 ^ prec /\ emin <= e /\ nearest prec emin (inject_Z p / inject_Z q) (inject_Z m * 2 ^ e) /\
  forall y, nearest prec emin (inject_Z p / inject_Z q) y -> (y == inject_Z m * 2 ^ e)%Q.
Proof.
  intros prec emin p q Hprec Hp Hq. unfold round_to. set (e := Z.max emin (flog2 p q - (prec - 1))).
  destruct (scaled p q e Hq) as [Hd Ex]. set (n := p * 2 ^ Z.max 0 (- e)) in *. set (d := q * 2 ^ Z.max 0 e) in *.
  assert (Hn : 0 <= n) by (unfold n; pose proof (Zpow_pos (- e)); nia).
  pose proof (half_even_spec n d Hd) as HE. pose proof (half_even_nonneg n d Hn Hd) as HN. cbv zeta in HE. set (k := half_even n d) in *. destruct HE as [HE1 HE2].
  set (X := (inject_Z n / inject_Z d)%Q) in *. set (x := (inject_Z p / inject_Z q)%Q) in *.
  pose proof (pow2_pos e) as Qe. pose proof (inj_pos q Hq) as Qq. pose proof (inj_pos d Hd) as Qd.
  assert (He : emin <= e) by (unfold e; lia).
  assert (Epow : (inject_Z (2 ^ prec) == 2 * inject_Z (2 ^ (prec - 1)))%Q).
  { replace (2 ^ prec) with (2 * 2 ^ (prec - 1)). - rewrite inject_Z_mult. reflexivity. - rewrite <- Z.pow_succ_r by lia. f_equal. lia. }
  destruct (Z.eq_dec p 0) as [Zp | Np].
  { assert (K0 : k = 0). { unfold k, half_even, n. rewrite Zp, Z.mul_0_l, Z.div_0_l, Z.mod_0_l by lia. destruct (Z.ltb_spec (2 * 0) d); [reflexivity | lia]. }
    assert (x0 : (x == 0)%Q). { unfold x. rewrite Zp. field. intro Y; rewrite Y in Qq; apply Qlt_irrefl in Qq; exact Qq. }
    rewrite K0. assert (y0 : (inject_Z 0 * 2 ^ e == 0)%Q) by (change (inject_Z 0) with 0%Q; ring).
    pose proof (Z.pow_pos_nonneg 2 prec). split; [lia |]. split; [exact He |].
    assert (B0 : binary prec emin (inject_Z 0 * 2 ^ e)). { exists 0, e. split; [change (Z.abs 0) with 0; lia |]. split; [exact He | reflexivity]. }
    assert (AZ : forall z, (Qabs (0 - z) <= 0 -> z == 0)%Q).
    { intros z T. rewrite Qabs_Qminus in T. pose proof (Qle_Qabs (z - 0)) as T1. pose proof (Qle_Qabs (- (z - 0))) as T3. rewrite Qabs_opp in T3. lra. }
    split; [split; [| split] |].
    - exists 0, e. split; [change (Z.abs 0) with 0; lia |]. split; [exact He | reflexivity].
    - intros z _. rewrite y0, x0. change (Qabs (0 - 0)) with 0%Q. apply Qabs_nonneg.
    - intros z _ T. left. rewrite y0, x0 in *. change (Qabs (0 - 0)) with 0%Q in T. apply AZ. lra.
    - intros y (_ & Y2 & _). specialize (Y2 _ B0). rewrite y0, x0 in *. change (Qabs (0 - 0)) with 0%Q in Y2. apply AZ, Y2. }
  destruct (flog2_spec p q) as [U1 U2]; [lia | lia |]. fold x in U1, U2.
  (* bounds of X *)
  assert (Xup : (X < inject_Z (2 ^ prec))%Q).
  { assert (Y : (x < 2 ^ (prec + e))%Q) by (eapply Qlt_le_trans; [exact U2 | apply pow2_mono; unfold e; lia]).
    rewrite pow2_plus, <- Ex in Y. rewrite (Qmult_lt_r _ _ _ Qe) in Y. rewrite pow2_Z by lia. exact Y. }
  assert (Xlow : emin < e -> (inject_Z (2 ^ (prec - 1)) <= X)%Q).
  { intro L. assert (Y : (2 ^ ((prec - 1) + e) <= x)%Q) by (eapply Qle_trans; [| exact U1]; apply pow2_mono; unfold e in *; lia).
    rewrite pow2_plus, <- Ex in Y. rewrite (Qmult_le_r _ _ _ Qe) in Y. rewrite pow2_Z by lia. exact Y. }
  (* bounds of k: an integer bound of X is a bound of k *)
  assert (Kup : k <= 2 ^ prec).
  { apply Z.nlt_ge. intro L. pose proof (proj1 (next_integer X k HE1 (2 ^ prec))) as A.
    assert (L2 : (inject_Z (2 ^ prec) < inject_Z k)%Q) by (rewrite <- Zlt_Qlt; exact L).
    rewrite (Qabs_neg (X - inject_Z k)), (Qabs_neg (X - inject_Z (2 ^ prec))) in A by lra. lra. }
  assert (Klow : emin < e -> 2 ^ (prec - 1) <= k).
  { intro L. apply Z.nlt_ge. intro L1. pose proof (proj1 (next_integer X k HE1 (2 ^ (prec - 1)))) as A. specialize (Xlow L).
    assert (L2 : (inject_Z k < inject_Z (2 ^ (prec - 1)))%Q) by (rewrite <- Zlt_Qlt; exact L1).
    rewrite (Qabs_pos (X - inject_Z k)), (Qabs_pos (X - inject_Z (2 ^ (prec - 1)))) in A by lra. lra. }
  split; [lia |]. split; [exact He |].
  assert (P0 : 0 < 2 ^ (prec - 1)) by (apply Z.pow_pos_nonneg; lia).
  assert (P1 : 2 ^ prec = 2 * 2 ^ (prec - 1)) by (rewrite <- Z.pow_succ_r by lia; f_equal; lia).
  (* every floating point number is a multiple of 2^e or below the multiple 2^(prec-1) *)
  assert (Z0 : forall z, binary prec emin z -> (exists j, z == inject_Z j * 2 ^ e)%Q \/ (emin < e /\ (z < inject_Z (2 ^ (prec - 1)) * 2 ^ e)%Q)).
  { intros z (j & f & J1 & J2 & J3). destruct (Z.leb_spec e f) as [L | L].
    - left. exists (j * 2 ^ (f - e)). rewrite J3, inject_Z_mult, pow2_Z by lia. rewrite <- Qmult_assoc, <- pow2_plus. now replace (f - e + e) with f by ring.
    - right. split; [lia |]. rewrite J3.
      assert (A : (inject_Z j * 2 ^ f < inject_Z (2 ^ prec) * 2 ^ f)%Q) by (apply Qmult_lt_r; [apply pow2_pos | rewrite <- Zlt_Qlt; lia]).
      eapply Qlt_le_trans; [exact A |]. rewrite Epow. pose proof (pow2_pos f) as Qf.
      assert (B : (2 ^ (f + 1) <= 2 ^ e)%Q) by (apply pow2_mono; lia). rewrite pow2_plus in B. change (2 ^ 1)%Q with 2%Q in B.
      assert (C : (inject_Z (2 ^ (prec - 1)) * (2 ^ f * 2) <= inject_Z (2 ^ (prec - 1)) * 2 ^ e)%Q) by (apply Qmult_le_l; [apply inj_pos, P0 | exact B]). lra. }
  assert (D : forall j, (Qabs (x - inject_Z j * 2 ^ e) == Qabs (X - inject_Z j) * 2 ^ e)%Q) by (intro j; rewrite <- Ex; apply Qabs_scale, Qe).
  assert (By : binary prec emin (inject_Z k * 2 ^ e)).
  { destruct (Z.eq_dec k (2 ^ prec)) as [K | K].
    + exists (2 ^ (prec - 1)), (e + 1). split; [rewrite Z.abs_eq by lia; lia |]. split; [lia |].
      rewrite K, P1, inject_Z_mult, pow2_plus. change (2 ^ 1)%Q with 2%Q. change (inject_Z 2) with 2%Q. ring.
    + exists k, e. split; [rewrite Z.abs_eq by lia; lia |]. split; [exact He | reflexivity]. }
  assert (Dy : forall z, binary prec emin z -> (Qabs (x - inject_Z k * 2 ^ e) <= Qabs (x - z))%Q).
  { intros z B. rewrite D. destruct (Z0 z B) as [[j J] | [L J]].
    + rewrite J, D. apply Qmult_le_r; [exact Qe |]. apply (next_integer X k HE1 j).
    + apply Qle_trans with (Qabs (X - inject_Z (2 ^ (prec - 1))) * 2 ^ e)%Q.
      * apply Qmult_le_r; [exact Qe |]. apply (next_integer X k HE1).
      * rewrite <- D. specialize (Xlow L). rewrite <- (Qmult_le_r _ _ _ Qe), Ex in Xlow.
        rewrite (Qabs_pos (x - inject_Z (2 ^ (prec - 1)) * 2 ^ e)), (Qabs_pos (x - z)) by lra. lra. }
  (* an equally near number is a neighbouring multiple, and k is even *)
  assert (Ty : forall z, binary prec emin z -> (Qabs (x - z) == Qabs (x - inject_Z k * 2 ^ e))%Q ->
     (z == inject_Z k * 2 ^ e)%Q \/ exists j, (z == inject_Z j * 2 ^ e)%Q /\ j <> k /\ (Qabs (X - inject_Z j) == 1 # 2)%Q /\ (Qabs (X - inject_Z k) == 1 # 2)%Q).
  { intros z B T. rewrite D in T. destruct (Z0 z B) as [[j J] | [L J]].
    + rewrite J, D in T. apply Qmult_inj_r in T; [| intro Y; rewrite Y in Qe; apply Qlt_irrefl in Qe; exact Qe].
      destruct (Z.eq_dec j k) as [-> | Nj]; [left; exact J |]. right. exists j.
      destruct (proj2 (next_integer X k HE1 j) T) as [Y | Half]; [contradiction |]. split; [exact J |]. split; [exact Nj |]. split; [rewrite T; exact Half | exact Half].
    + exfalso. specialize (Xlow L). pose proof (proj1 (next_integer X k HE1 (2 ^ (prec - 1)))) as A. rewrite <- (Qmult_le_r _ _ _ Qe), <- !D in A.
      rewrite <- (Qmult_le_r _ _ _ Qe), Ex in Xlow. rewrite <- D in T.
      rewrite (Qabs_pos (x - inject_Z (2 ^ (prec - 1)) * 2 ^ e)) in A by lra. rewrite (Qabs_pos (x - z)) in T by lra. lra. }
  split; [split; [exact By | split; [exact Dy |]] |].
  - intros z B T. destruct (Ty z B T) as [E | (j & J & Nj & Hj & Half)]; [left; exact E |]. right.
    specialize (HE2 Half). apply Z.even_spec in HE2. destruct HE2 as [i I].
    exists i, e. split; [exact He |]. split; [rewrite I; reflexivity |]. rewrite <- I, Z.abs_eq by lia. split; [exact Kup |].
    destruct (Z.eq_dec e emin) as [-> | Ne]; [now left | right]. apply Klow. lia.
  - intros y (Y1 & Y2 & Y3). assert (T : (Qabs (x - y) == Qabs (x - inject_Z k * 2 ^ e))%Q) by (apply Qle_antisym; [apply Y2, By | apply Dy, Y1]).
    destruct (Ty y Y1 T) as [E | (j & J & Nj & Hj & Half)]; [exact E |]. exfalso.
    destruct (Y3 _ By (Qeq_sym _ _ T)) as [E | (i & f & F1 & F2 & F3 & F4)].
    + rewrite J in E. apply Qmult_inj_r in E; [| intro Y; rewrite Y in Qe; apply Qlt_irrefl in Qe; exact Qe]. unfold Qeq in E. cbn in E. lia.
    + specialize (HE2 Half).
      assert (Odd : Z.even j = false).
      { assert (A : j = k + 1 \/ j = k - 1).
        { pose proof (Qabs_tri (inject_Z j) X (inject_Z k)) as Tr. rewrite (Qabs_Qminus (inject_Z j) X), Hj, Half in Tr.
          assert (E : (inject_Z j - inject_Z k == inject_Z (j - k))%Q) by (unfold Z.sub; rewrite inject_Z_plus, inject_Z_opp; ring).
          rewrite E in Tr. change (Qabs (inject_Z (j - k))) with (inject_Z (Z.abs (j - k))) in Tr.
          assert (Tr2 : (inject_Z (Z.abs (j - k)) <= inject_Z 1)%Q) by (change (inject_Z 1) with 1%Q; lra). rewrite <- Zle_Qle in Tr2. lia. }
        destruct A as [-> | ->]; [rewrite Z.even_add, HE2 | rewrite Z.even_sub, HE2]; reflexivity. }
      rewrite J in F2. destruct (Z.leb_spec e f) as [L | L].
      * assert (E : (inject_Z j * 2 ^ e == inject_Z (2 * (i * 2 ^ (f - e))) * 2 ^ e)%Q).
        { rewrite F2, !inject_Z_mult, pow2_Z by lia. assert (E : (2 ^ f == 2 ^ (f - e) * 2 ^ e)%Q) by (rewrite <- pow2_plus; now replace (f - e + e) with f by ring).
          rewrite E. ring. }
        apply Qmult_inj_r in E; [| intro Y; rewrite Y in Qe; apply Qlt_irrefl in Qe; exact Qe].
        assert (E' : j = 2 * (i * 2 ^ (f - e))) by (unfold Qeq in E; cbn [Qnum Qden inject_Z] in E; lia). rewrite E', Z.even_mul in Odd. discriminate Odd.
      * assert (Le : emin < e) by lia. pose proof (Klow Le) as K1. pose proof (Xlow Le) as X1.
        (* |j| <= 2^(prec-1) *)
        assert (Up : (inject_Z j * 2 ^ e <= inject_Z (2 ^ (prec - 1)) * 2 ^ e)%Q).
        { rewrite F2. pose proof (pow2_pos f) as Qf. apply Qle_trans with (inject_Z (2 ^ prec) * 2 ^ f)%Q.
          - apply Qmult_le_r; [exact Qf |]. rewrite <- Zle_Qle. lia.
          - rewrite Epow. assert (B : (2 ^ (f + 1) <= 2 ^ e)%Q) by (apply pow2_mono; lia). rewrite pow2_plus in B. change (2 ^ 1)%Q with 2%Q in B.
            assert (C : (inject_Z (2 ^ (prec - 1)) * (2 ^ f * 2) <= inject_Z (2 ^ (prec - 1)) * 2 ^ e)%Q) by (apply Qmult_le_l; [apply inj_pos, P0 | exact B]). lra. }
        apply Qmult_le_r in Up; [| exact Qe]. rewrite <- Zle_Qle in Up.
        assert (Lo : 2 ^ (prec - 1) <= j).
        { apply Z.nlt_ge. intro Lt. assert (G : (inject_Z j + 1 <= inject_Z (2 ^ (prec - 1)))%Q).
          { change 1%Q with (inject_Z 1). rewrite <- inject_Z_plus, <- Zle_Qle. lia. }
          rewrite Qabs_pos in Hj by lra. lra. }
        assert (Ej : j = 2 * 2 ^ (prec - 1 - 1)) by (rewrite <- Z.pow_succ_r by lia; replace (Z.succ (prec - 1 - 1)) with (prec - 1) by lia; lia).
        rewrite Ej, Z.even_mul in Odd. discriminate Odd.
Qed.

(** symmetry, equality *)
Lemma binary_opp : forall prec emin x, binary prec emin x -> binary prec emin (- x).
Proof. intros prec emin x (m & e & A & B & C). exists (- m), e. rewrite Z.abs_opp. split; [exact A |]. split; [exact B |]. rewrite C, inject_Z_opp. ring. Qed.
Lemma even_opp : forall prec emin x, even_binary prec emin x -> even_binary prec emin (- x).
Proof.
  intros prec emin x (m & e & A & B & C & D). exists (- m), e. replace (2 * - m) with (- (2 * m)) by ring. rewrite Z.abs_opp.
  split; [exact A |]. split; [rewrite B, inject_Z_opp; ring |]. now split.
Qed.
Lemma nearest_opp : forall prec emin x y, nearest prec emin x y -> nearest prec emin (- x) (- y).
Proof.
  intros prec emin x y (A & B & C).
  assert (S : forall z, (Qabs (- x - z) == Qabs (x - - z))%Q). { intro z. rewrite <- Qabs_opp. assert (E : (- (- x - z) == x - - z)%Q) by ring. rewrite E. reflexivity. }
  assert (N : forall z, (- - z == z)%Q) by (intro z; ring).
  split; [apply binary_opp, A |]. split.
  - intros z Z. rewrite !S, N. apply B, binary_opp, Z.
  - intros z Z T. rewrite !S, N in T. destruct (C _ (binary_opp _ _ _ Z) T) as [E | E]; [left | right; apply even_opp, E]. rewrite <- E. ring.
Qed.
Lemma binary_eq : forall prec emin x y, (x == y)%Q -> binary prec emin x -> binary prec emin y.
Proof. intros prec emin x y E (m & e & A & B & C). exists m, e. split; [exact A |]. split; [exact B |]. rewrite <- E. exact C. Qed.
Lemma nearest_eq : forall prec emin x x' y y', (x == x')%Q -> (y == y')%Q -> nearest prec emin x y -> nearest prec emin x' y'.
Proof.
  intros prec emin x x' y y' Ex Ey (A & B & C). split; [exact (binary_eq _ _ _ _ Ey A) |]. split.
  - intros z Z. rewrite <- Ex, <- Ey. apply B, Z.
  - intros z Z T. rewrite <- Ex, <- Ey in T. destruct (C z Z T) as [E | (m & e & E1 & E2 & E3)].
    + left. rewrite <- Ey. exact E.
    + right. exists m, e. split; [exact E1 |]. split; [rewrite <- Ey; exact E2 | exact E3].
Qed.
(** a floating point number is its own nearest one *)
Lemma nearest_self : forall prec emin x y, binary prec emin x -> nearest prec emin x y -> (y == x)%Q.
Proof.
  intros prec emin x y B (_ & N & _). specialize (N x B). assert (E : (x - x == 0)%Q) by ring. rewrite E in N. change (Qabs 0) with 0%Q in N.
  pose proof (Qle_Qabs (x - y)) as T1. pose proof (Qle_Qabs (- (x - y))) as T3. rewrite Qabs_opp in T3. lra.
Qed.

(** every rational is a fraction *)
Lemma as_fraction : forall x, (0 <= x)%Q -> exists p q, 0 <= p /\ 0 < q /\ (x == inject_Z p / inject_Z q)%Q.
Proof.
  intros [p q] H. exists p, (Z.pos q). split; [unfold Qle in H; cbn in H; lia |]. split; [lia |].
  rewrite (Qmake_Qdiv p q). reflexivity.
Qed.
Theorem nearest_exists : forall prec emin x, 2 <= prec -> exists y, nearest prec emin x y.
Proof.
  intros prec emin x Hp.
  assert (P : forall x, (0 <= x)%Q -> exists y, nearest prec emin x y).
  { clear x. intros x Hx. destruct (as_fraction x Hx) as (p & q & A & B & C). pose proof (round_nearest prec emin p q Hp A B) as R.
    destruct (round_to prec emin p q) as [m e]. destruct R as (_ & _ & R & _). eexists. apply (nearest_eq _ _ _ _ _ _ (Qeq_sym _ _ C) (Qeq_refl _) R). }
  destruct (Qlt_le_dec x 0) as [L | L]; [| apply P, L].
  destruct (P (- x)%Q) as [y Y]; [lra |]. exists (- y)%Q. apply nearest_opp in Y. eapply nearest_eq; [| reflexivity | exact Y]. ring.
Qed.
Theorem nearest_unique : forall prec emin x y z, 2 <= prec -> nearest prec emin x y -> nearest prec emin x z -> (y == z)%Q.
Proof.
  intros prec emin x y z Hp.
  assert (P : forall x y z, (0 <= x)%Q -> nearest prec emin x y -> nearest prec emin x z -> (y == z)%Q).
  { clear x y z. intros x y z Hx Y Z. destruct (as_fraction x Hx) as (p & q & A & B & C). pose proof (round_nearest prec emin p q Hp A B) as R.
    destruct (round_to prec emin p q) as [m e]. destruct R as (_ & _ & _ & R).
    rewrite (R y (nearest_eq _ _ _ _ _ _ C (Qeq_refl _) Y)), (R z (nearest_eq _ _ _ _ _ _ C (Qeq_refl _) Z)). reflexivity. }
  intros Y Z. destruct (Qlt_le_dec x 0) as [L | L]; [| exact (P x y z L Y Z)].
  assert (E : (- y == - z)%Q) by (apply (P (- x)%Q); [lra | apply nearest_opp, Y | apply nearest_opp, Z]). lra.
Qed.
Lemma binary_0 : forall prec emin, 0 <= prec -> binary prec emin 0.
Proof. intros prec emin H. exists 0, emin. split; [apply (Z.pow_pos_nonneg 2 prec); lia |]. split; [lia |]. change (inject_Z 0) with 0%Q. ring. Qed.
Lemma nearest_sign : forall prec emin x y, 0 <= prec -> nearest prec emin x y -> (0 <= x -> 0 <= y)%Q.
Proof.
  intros prec emin x y P (B & N & _) H. apply Qnot_lt_le. intro L. specialize (N _ (binary_0 prec emin P)).
  rewrite (Qabs_pos (x - y)), (Qabs_pos (x - 0)) in N by lra. lra.
Qed.
Lemma nearest_mono : forall prec emin x y x' y', nearest prec emin x y -> nearest prec emin x' y' -> 2 <= prec -> (x <= x' -> y <= y')%Q.
Proof.
  intros prec emin x y x' y' N N' P H. apply Qnot_lt_le. intro L. pose proof (proj1 (proj2 N) y' (proj1 N')) as A. pose proof (proj1 (proj2 N') y (proj1 N)) as B.
  destruct (Qlt_le_dec x x') as [S | S].
  - (* y' < y although x < x' *)
    destruct (Qlt_le_dec x y') as [C1 | C1].
    { rewrite (Qabs_neg (x - y)), (Qabs_neg (x - y')) in A by lra. lra. }
    rewrite (Qabs_pos (x - y')) in A by lra. rewrite (Qabs_pos (x' - y')) in B by lra.
    destruct (Qlt_le_dec x' y) as [C2 | C2]; [| rewrite (Qabs_pos (x' - y)), (Qabs_pos (x - y)) in * by lra; lra].
    rewrite (Qabs_neg (x' - y)) in B by lra. rewrite (Qabs_neg (x - y)) in A by lra. lra.
  - assert (E : (x' == x)%Q) by lra. pose proof (nearest_unique _ _ _ _ _ P N (nearest_eq _ _ _ _ _ _ E (Qeq_refl _) N')) as Y. lra.
Qed.

Lemma inject_pred : forall a, (inject_Z (a - 1) == inject_Z a - 1)%Q.
Proof. intro a. unfold Z.sub. rewrite inject_Z_plus, inject_Z_opp. reflexivity. Qed.
(** the largest number below 2^emax *)
Lemma binary_max : forall prec emin emax z, 2 <= prec -> binary prec emin z -> (z < 2 ^ emax)%Q -> (z <= 2 ^ emax - 2 ^ (emax - prec))%Q.
Proof.
  intros prec emin emax z P (j & f & A & B & C) L.
  assert (E : (2 ^ emax == inject_Z (2 ^ prec) * 2 ^ (emax - prec))%Q) by (rewrite pow2_Z by lia; rewrite <- pow2_plus; now replace (prec + (emax - prec)) with emax by ring).
  assert (P0 : 0 < 2 ^ prec) by (apply Z.pow_pos_nonneg; lia).
  destruct (Z.leb_spec (emax - prec) f) as [H | H].
  - assert (F : (z == inject_Z (j * 2 ^ (f - (emax - prec))) * 2 ^ (emax - prec))%Q).
    { rewrite C, inject_Z_mult, pow2_Z by lia. rewrite <- Qmult_assoc, <- pow2_plus. now replace (f - (emax - prec) + (emax - prec)) with f by ring. }
    set (i := j * 2 ^ (f - (emax - prec))) in *. pose proof (pow2_pos (emax - prec)) as W. rewrite F, E in L. rewrite (Qmult_lt_r _ _ _ W), <- Zlt_Qlt in L.
    assert (G : (inject_Z i * 2 ^ (emax - prec) <= inject_Z (2 ^ prec - 1) * 2 ^ (emax - prec))%Q) by (apply Qmult_le_r; [exact W | rewrite <- Zle_Qle; lia]).
    rewrite F, E. eapply Qle_trans; [exact G |]. rewrite inject_pred. lra.
  - pose proof (pow2_pos f) as Wf. pose proof (pow2_pos (emax - prec)) as W.
    assert (G : (inject_Z j * 2 ^ f <= inject_Z (2 ^ prec) * 2 ^ f)%Q) by (apply Qmult_le_r; [exact Wf | rewrite <- Zle_Qle; lia]).
    assert (G2 : (2 ^ (f + 1) <= 2 ^ (emax - prec))%Q) by (apply pow2_mono; lia). rewrite pow2_plus in G2. change (2 ^ 1)%Q with 2%Q in G2.
    assert (G3 : (inject_Z (2 ^ prec) * (2 ^ f * 2) <= inject_Z (2 ^ prec) * 2 ^ (emax - prec))%Q) by (apply Qmult_le_l; [apply inj_pos, P0 | exact G2]).
    assert (G4 : (2 * 2 ^ (emax - prec) <= 2 ^ emax)%Q).
    { rewrite E. apply Qmult_le_r; [exact W |]. change 2%Q with (inject_Z 2). rewrite <- Zle_Qle. change 2 with (2 ^ 1) at 1. apply Z.pow_le_mono_r; lia. }
    rewrite C. rewrite <- E in G3. lra.
Qed.
(** where rounding reaches 2^emax *)
Lemma nearest_overflow : forall prec emin emax x y, 2 <= prec -> emin + prec <= emax -> nearest prec emin x y -> (0 <= x)%Q ->
  ((2 ^ emax <= y)%Q <-> (2 ^ emax - 2 ^ (emax - prec - 1) <= x)%Q).
Proof.
  intros prec emin emax x y P Em N Hx. set (u := (2 ^ (emax - prec - 1))%Q). pose proof (pow2_pos (emax - prec - 1)) as Wu. fold u in Wu.
  assert (Eu : (2 ^ (emax - prec) == 2 * u)%Q) by (unfold u; replace (emax - prec) with ((emax - prec - 1) + 1) at 1 by ring; rewrite pow2_plus; change (2 ^ 1)%Q with 2%Q; ring).
  assert (P0 : 0 < 2 ^ prec) by (apply Z.pow_pos_nonneg; lia).
  assert (E : (2 ^ emax == inject_Z (2 ^ prec) * 2 ^ (emax - prec))%Q) by (rewrite pow2_Z by lia; rewrite <- pow2_plus; now replace (prec + (emax - prec)) with emax by ring).
  set (M := (2 ^ emax - 2 * u)%Q).
  assert (BM : binary prec emin M).
  { exists (2 ^ prec - 1), (emax - prec). split; [lia |]. split; [lia |]. unfold M. rewrite E, <- Eu, inject_pred. ring. }
  assert (BT : binary prec emin (2 ^ emax)).
  { exists 1, emax. split; [change (Z.abs 1) with 1; change 1 with (2 ^ 0); apply Z.pow_lt_mono_r; lia |]. split; [lia |]. change (inject_Z 1) with 1%Q. ring. }
  destruct N as (B & D & T). split; intro H.
  - apply Qnot_lt_le. intro L. specialize (D M BM). unfold M in *. rewrite (Qabs_neg (x - y)) in D by lra.
    destruct (Qlt_le_dec x (2 ^ emax - 2 * u)) as [C | C]; [rewrite (Qabs_neg (x - (2 ^ emax - 2 * u))) in D by lra | rewrite (Qabs_pos (x - (2 ^ emax - 2 * u))) in D by lra]; lra.
  - apply Qnot_lt_le. intro L. pose proof (binary_max prec emin emax y P B L) as Y. rewrite Eu in Y. pose proof (D _ BT) as D2.
    rewrite (Qabs_pos (x - y)) in D2 by lra.
    destruct (Qlt_le_dec x (2 ^ emax)) as [C | C]; [| rewrite (Qabs_pos (x - 2 ^ emax)) in D2 by lra; lra].
    rewrite (Qabs_neg (x - 2 ^ emax)) in D2 by lra.
    assert (x1 : (x == 2 ^ emax - u)%Q) by lra. assert (y1 : (y == M)%Q) by (unfold M; lra).
    destruct (T _ BT) as [F | (i & f & F1 & F2 & F3 & F4)]; [rewrite (Qabs_neg (x - 2 ^ emax)), (Qabs_pos (x - y)) by lra; lra | lra |].
    (* the largest number is odd *)
    assert (EM : (y == inject_Z (2 ^ prec - 1) * 2 ^ (emax - prec))%Q).
    { rewrite y1. unfold M. rewrite E, <- Eu, inject_pred. ring. }
    rewrite EM in F2. pose proof (pow2_pos (emax - prec)) as W. pose proof (pow2_pos f) as Wf.
    assert (P1 : 2 ^ prec = 2 * 2 ^ (prec - 1)) by (rewrite <- Z.pow_succ_r by lia; f_equal; lia).
    assert (P2 : 2 <= 2 ^ (prec - 1)) by (change 2 with (2 ^ 1) at 1; apply Z.pow_le_mono_r; lia).
    destruct (Z.leb_spec f (emax - prec)) as [H1 | H1].
    + (* then 2 i = (2^prec - 1) * 2^k: k = 0 contradicts parity, k > 0 the size *)
      assert (G : 2 * i = (2 ^ prec - 1) * 2 ^ (emax - prec - f)).
      { assert (G : (inject_Z (2 * i) * 2 ^ f == inject_Z ((2 ^ prec - 1) * 2 ^ (emax - prec - f)) * 2 ^ f)%Q).
        { rewrite <- F2, inject_Z_mult, (pow2_Z (emax - prec - f)) by lia. rewrite <- Qmult_assoc, <- pow2_plus. now replace (emax - prec - f + f) with (emax - prec) by ring. }
        apply Qmult_inj_r in G; [| intro Z1; rewrite Z1 in Wf; apply Qlt_irrefl in Wf; exact Wf]. unfold Qeq in G. cbn [Qnum Qden inject_Z] in G. lia. }
      destruct (Z.eq_dec f (emax - prec)) as [-> | Nf].
      * rewrite Z.sub_diag in G. change (2 ^ 0) with 1 in G. lia.
      * assert (2 <= 2 ^ (emax - prec - f)) by (change 2 with (2 ^ 1) at 1; apply Z.pow_le_mono_r; lia). nia.
    + (* 2^prec - 1 = 2 i * 2^k *)
      assert (G : 2 ^ prec - 1 = 2 * i * 2 ^ (f - (emax - prec))).
      { assert (G : (inject_Z (2 ^ prec - 1) * 2 ^ (emax - prec) == inject_Z (2 * i * 2 ^ (f - (emax - prec))) * 2 ^ (emax - prec))%Q).
        { rewrite F2, (inject_Z_mult (2 * i)), (pow2_Z (f - (emax - prec))) by lia. rewrite <- Qmult_assoc, <- pow2_plus. now replace (f - (emax - prec) + (emax - prec)) with f by ring. }
        apply Qmult_inj_r in G; [| intro Z1; rewrite Z1 in W; apply Qlt_irrefl in W; exact W]. unfold Qeq in G. cbn [Qnum Qden inject_Z] in G. lia. }
      assert (Z.even (2 ^ prec - 1) = true) by (rewrite G, !Z.even_mul; reflexivity).
      rewrite Z.even_sub, P1, Z.even_mul in H0. discriminate H0.
Qed.

Lemma below_iff : forall emax m e, 0 <= emax -> below emax m e = true <-> (inject_Z m * 2 ^ e < 2 ^ emax)%Q.
Proof.
  intros emax m e H. unfold below. rewrite Z.ltb_lt. pose proof (pow2_pos e) as W.
  destruct (Z.leb_spec 0 e) as [L | L].
  - rewrite (Z.max_r 0 e), (Z.max_l 0 (- e)) by lia. rewrite Z.mul_1_r, Zlt_Qlt, inject_Z_mult, !pow2_Z by lia. reflexivity.
  - rewrite (Z.max_l 0 e), (Z.max_r 0 (- e)) by lia. rewrite Z.mul_1_r, Zlt_Qlt, inject_Z_mult, !pow2_Z by lia.
    pose proof (pow2_opp e) as O. rewrite <- (Qmult_lt_r (inject_Z m) _ _ W). rewrite <- Qmult_assoc, (Qmult_comm (2 ^ (- e)) (2 ^ e)), O, Qmult_1_r. reflexivity.
Qed.
Theorem rounded_spec : forall prec emin emax neg p q y, 2 <= prec -> 0 <= emax -> 0 <= p -> 0 < q ->
  nearest prec emin (inject_Z p / inject_Z q) y ->
  ((y < 2 ^ emax)%Q -> exists m e, rounded prec emin emax neg p q = DFin neg m e /\ 0 <= m /\ emin <= e /\ (inject_Z m * 2 ^ e == y)%Q) /\
  ((2 ^ emax <= y)%Q -> rounded prec emin emax neg p q = DInf neg).
Proof.
  intros prec emin emax neg p q y P Em Hp Hq N. pose proof (round_nearest prec emin p q P Hp Hq) as R. unfold rounded.
  destruct (round_to prec emin p q) as [m e]. destruct R as (R1 & R2 & R3 & R4). specialize (R4 y N). pose proof (below_iff emax m e Em) as BI. split; intro H.
  - rewrite (proj2 BI) by (rewrite <- R4; exact H). exists m, e. split; [reflexivity |]. split; [lia |]. split; [exact R2 | symmetry; exact R4].
  - destruct (below emax m e); [| reflexivity]. assert (X : (inject_Z m * 2 ^ e < 2 ^ emax)%Q) by (apply BI; reflexivity). rewrite <- R4 in X. lra.
Qed.
(** fractions *)
Lemma pow_Z : forall b e, 0 <= e -> (inject_Z (b ^ e) == inject_Z b ^ e)%Q. Proof. intros b e H. apply Zpower_Qpower, H. Qed.
Lemma fraction_spec : forall b m e, 0 < b -> 0 <= m -> let (p, q) := fraction b m e in 0 <= p /\ 0 < q /\ (inject_Z p / inject_Z q == inject_Z m * inject_Z b ^ e)%Q.
Proof.
  intros b m e Hb Hm. unfold fraction. pose proof (inj_pos b Hb) as Qb. assert (Nb : ~ (inject_Z b == 0)%Q) by (intro X; rewrite X in Qb; apply Qlt_irrefl in Qb; exact Qb).
  destruct (Z.leb_spec e 0) as [L | L].
  - assert (H : 0 < b ^ (- e)) by (apply Z.pow_pos_nonneg; lia). split; [exact Hm |]. split; [exact H |].
    rewrite pow_Z by lia. rewrite Qpower_opp. unfold Qdiv. rewrite Qinv_involutive. reflexivity.
  - assert (H : 0 < b ^ e) by (apply Z.pow_pos_nonneg; lia). split; [nia |]. split; [lia |]. rewrite inject_Z_mult, pow_Z by lia. change (inject_Z 1) with 1%Q. field.
Qed.

(** * reading the text *)
Lemma exp_value_spec : forall x r, exponent_at x r (exp_value x r).
Proof.
  intros x r. unfold exp_value. destruct r as [| c r]; [right; split; [intros; discriminate | reflexivity] |].
  destruct (x c) eqn:Ex; [| right; split; [intros c0 sg ds rest E X; injection E as -> _; rewrite Ex in X; discriminate X | reflexivity]].
  pose proof (take_sign_out r) as T. destruct (take_sign r) as [neg r1] eqn:Et. destruct T as (sg & Sg & E & En).
  pose proof (take_digits_out r1 0 0) as D. destruct (take_digits 0 0 r1) as [[v n] r2]. destruct D as (ds & E2 & Dd & N & V & K).
  destruct n as [| n].
  - right. split; [| reflexivity]. intros c0 sg0 ds0 rest0 E0 _ Sg0 Dd0. injection E0 as _ E0. destruct ds0 as [| d0 ds0]; [reflexivity |]. exfalso.
    (* the digits of ds0 would have been read *)
    assert (F : not_first is_sign (String d0 ds0 ^^ rest0)) by (cbn; apply digit_not, Dd0).
    rewrite E0, (take_sign_in _ _ Sg0 F) in Et. injection Et as _ Et. rewrite <- Et in E2.
    destruct ds as [| x0 ds]; [| discriminate K]. cbn in E2. rewrite <- E2 in N. cbn in N. destruct Dd0 as [D0 _]. rewrite D0 in N. discriminate N.
  - left. exists c, sg, ds, r2. rewrite E, E2. repeat split; auto; [intros ->; discriminate K |].
    unfold signed. rewrite <- En, V. reflexivity.
Qed.
Lemma exp_value_det : forall x r e e', exponent_at x r e -> exponent_at x r e' -> e = e'.
Proof.
  intros x r e e' [(c & sg & ds & t & E & X & S & D & N & F & V) | [A V]] [(c' & sg' & ds' & t' & E' & X' & S' & D' & N' & F' & V') | [A' V']].
  - rewrite E in E'. injection E' as _ E'.
    assert (G : forall ds t, digits ds -> ds <> "" -> not_first is_sign (ds ^^ t)) by (intros [| d0 l] t0 Dl Nl; [now elim Nl | cbn; apply digit_not, Dl]).
    pose proof (take_sign_in sg (ds ^^ t) S (G _ _ D N)) as T. rewrite E' in T. rewrite (take_sign_in sg' (ds' ^^ t') S' (G _ _ D' N')) in T. injection T as T1 T2.
    pose proof (take_digits_in ds t 0 0 D F) as U. rewrite <- T2 in U. rewrite (take_digits_in ds' t' 0 0 D' F') in U. injection U as U _ _.
    subst e e'. unfold signed. now rewrite T1, U.
  - exfalso. apply N. eapply A'; eauto.
  - exfalso. apply N'. eapply A; eauto.
  - congruence.
Qed.

Lemma hex_val_eq : forall c, is_hex c = true -> hex_val c = hexdigit c.
Proof. intros c. destruct c as [[] [] [] [] [] [] [] []]; try discriminate; intros _; reflexivity. Qed.
Lemma take_hex_in : forall a r acc n, hexdigits a -> not_first is_hex r -> take_hex acc n (a ^^ r) = (hex_value acc a, (n + String.length a)%nat, r).
Proof.
  induction a as [| c a IH]; intros r acc n D F; cbn [append take_hex hex_value String.length] in *.
  - destruct r as [| c r]; cbn [take_hex]; [| cbn in F; rewrite F]; now rewrite Nat.add_0_r.
  - destruct D as [D1 D2]. rewrite D1, (IH r _ _ D2 F), (hex_val_eq c D1). now rewrite <- plus_n_Sm.
Qed.
Lemma take_hex_out : forall s acc n, let '(v, k, r) := take_hex acc n s in exists a, s = a ^^ r /\ hexdigits a /\ not_first is_hex r /\ v = hex_value acc a /\ k = (n + String.length a)%nat.
Proof.
  induction s as [| c s IH]; intros acc n; cbn [take_hex].
  - exists "". cbn. repeat split; auto.
  - destruct (is_hex c) eqn:Ec.
    + specialize (IH (acc * 16 + hex_val c) (S n)). destruct (take_hex _ _ s) as [[v k] r]. destruct IH as (a & E & D & F & V & K).
      exists (String c a). cbn. rewrite <- E, <- (hex_val_eq c Ec). repeat split; auto; lia.
    + exists "". cbn. repeat split; auto.
Qed.
Lemma hex_value_app : forall a b acc, hex_value acc (a ^^ b) = hex_value (hex_value acc a) b.
Proof. induction a as [| c a IH]; intros; cbn; auto. Qed.
Lemma digit_range : forall c, is_digit c = true -> 0 <= digit_val c. Proof. intros c. destruct c as [[] [] [] [] [] [] [] []]; try discriminate; intros _; vm_compute; discriminate. Qed.
Lemma hex_range : forall c, is_hex c = true -> 0 <= hexdigit c. Proof. intros c. destruct c as [[] [] [] [] [] [] [] []]; try discriminate; intros _; vm_compute; discriminate. Qed.
Lemma digits_nonneg : forall s acc, digits s -> 0 <= acc -> 0 <= digits_value acc s.
Proof. induction s as [| c s IH]; intros acc D H; cbn; [exact H |]. destruct D as [D1 D2]. apply IH; [exact D2 |]. pose proof (digit_range c D1). lia. Qed.
Lemma hex_nonneg : forall s acc, hexdigits s -> 0 <= acc -> 0 <= hex_value acc s.
Proof. induction s as [| c s IH]; intros acc D H; cbn [hex_value]; [exact H |]. destruct D as [D1 D2]. apply IH; [exact D2 |]. pose proof (hex_range c D1). lia. Qed.
Lemma all_app : forall p a b, all_chars p a -> all_chars p b -> all_chars p (a ^^ b).
Proof. induction a as [| c a IH]; intros b A B; cbn; [exact B |]. destruct A as [A1 A2]. split; [exact A1 | now apply IH]. Qed.

Lemma strtod_hex_in : forall neg s a b r e, mantissa_at is_hex s a b r -> exponent_at is_p r e ->
  exists p q, strtod_hex_value neg s = Some (to_double neg p q) /\ 0 <= p /\ 0 < q /\
    (inject_Z p / inject_Z q == inject_Z (hex_value 0 (a ^^ b)) * 2 ^ (e - 4 * Z.of_nat (String.length b)))%Q.
Proof.
  intros neg s a b r e (dot & E & Da & Db & NE & C & F) X. pose proof (exp_value_det _ _ _ _ (exp_value_spec is_p r) X) as EX.
  assert (V0 : 0 <= hex_value 0 (a ^^ b)) by (apply hex_nonneg; [apply all_app; assumption | lia]).
  assert (H : strtod_hex_value neg s = let (p, q) := fraction 2 (hex_value 0 (a ^^ b)) (e - 4 * Z.of_nat (String.length b)) in Some (to_double neg p q)).
  { unfold strtod_hex_value. rewrite E. change (fun c : ascii => Ascii.eqb (lower c) "p") with is_p. destruct C as [-> | (-> & -> & Nd)].
    - rewrite (take_hex_in a ("." ^^ b ^^ r) 0 0 Da) by reflexivity. cbn [append]. rewrite (take_hex_in b r _ 0 Db F).
      destruct (0 + String.length a + (0 + String.length b))%nat eqn:K.
      { exfalso. assert (Ka : String.length a = 0%nat) by lia. assert (Kb : String.length b = 0%nat) by lia. apply len0 in Ka, Kb. tauto. }
      rewrite EX, hex_value_app. rewrite Nat.add_0_l. reflexivity.
    - cbn [append]. rewrite (take_hex_in a r 0 0 Da F). destruct (dot_dec r) as [[r2 ->] | [_ M]]; [discriminate Nd |].
      rewrite (M _ (fun r => take_hex (hex_value 0 a) 0 r) (hex_value 0 a, 0%nat, r)).
      destruct (0 + String.length a + 0)%nat eqn:K; [exfalso; assert (Ka : String.length a = 0%nat) by lia; apply len0 in Ka; tauto |].
      rewrite EX, app_nil_s. reflexivity. }
  pose proof (fraction_spec 2 (hex_value 0 (a ^^ b)) (e - 4 * Z.of_nat (String.length b)) ltac:(lia) V0) as FS.
  destruct (fraction 2 (hex_value 0 (a ^^ b)) _) as [p q]. exists p, q. destruct FS as (F1 & F2 & F3). auto.
Qed.
Lemma strtod_hex_out_some : forall neg s d, strtod_hex_value neg s = Some d -> exists a b r, mantissa_at is_hex s a b r.
Proof.
  intros neg s d H. unfold strtod_hex_value in H. pose proof (take_hex_out s 0 0) as T. destruct (take_hex 0 0 s) as [[v1 n1] r1]. destruct T as (a & E & Da & N1 & V & K1).
  destruct (dot_dec r1) as [[r ->] | [Nd M]].
  + pose proof (take_hex_out r v1 0) as T. destruct (take_hex v1 0 r) as [[v2 n2] r2]. destruct T as (b & E2 & Db & N2 & V2 & K2).
    destruct (n1 + n2)%nat eqn:Q; [discriminate H |]. exists a, b, r2, ".". cbn [append]. rewrite E, E2. repeat split; auto.
    destruct a; [right; intros ->; cbn in *; lia | left; discriminate].
  + rewrite (M _ (fun r => take_hex v1 0 r) (v1, 0%nat, r1)) in H. destruct (n1 + 0)%nat eqn:Q; [discriminate H |]. exists a, "", r1, "". cbn [append]. repeat split; auto.
    left. intros ->. cbn in *. lia.
Qed.
Lemma strtod_dec_in : forall neg s a b r e, mantissa_at is_digit s a b r -> exponent_at is_e r e ->
  exists p q, strtod_dec_value neg s = to_double neg p q /\ 0 <= p /\ 0 < q /\
    (inject_Z p / inject_Z q == inject_Z (digits_value 0 (a ^^ b)) * 10 ^ (e - Z.of_nat (String.length b)))%Q.
Proof.
  intros neg s a b r e (dot & E & Da & Db & NE & C & F) X. pose proof (exp_value_det _ _ _ _ (exp_value_spec is_e r) X) as EX.
  assert (V0 : 0 <= digits_value 0 (a ^^ b)) by (apply digits_nonneg; [apply all_app; assumption | lia]).
  pose proof (fraction_spec 10 (digits_value 0 (a ^^ b)) (e - Z.of_nat (String.length b)) ltac:(lia) V0) as FS.
  unfold strtod_dec_value. rewrite E, (take_mantissa_in a dot b r Da Db F C).
  destruct (String.length (a ^^ b)) as [| k] eqn:K. { exfalso. apply len0, app_nil_inv in K. tauto. }
  rewrite EX. destruct (fraction 10 (digits_value 0 (a ^^ b)) _) as [p q]. exists p, q. destruct FS as (F1 & F2 & F3). auto.
Qed.
(** what a mantissa begins with *)
Lemma mantissa_first : forall s a b r p, mantissa_at is_digit s a b r -> (forall c, c = "."%char \/ is_digit c = true -> p c = false) -> not_first p s.
Proof.
  intros s a b r p (dot & E & Da & Db & NE & C & F) P. rewrite E. apply mantissa_nb; auto. destruct C as [C | (C & C' & _)]; auto.
Qed.
Lemma zero_x_first : forall x t p, same_ci "0x" x -> p "0"%char = false -> not_first p (x ^^ t).
Proof.
  intros [| c x] t p S P; [elim S |]. cbn in *. destruct S as [S _]. assert (E : c = "0"%char); [| now rewrite E].
  destruct c as [[] [] [] [] [] [] [] []]; try discriminate S; reflexivity.
Qed.
(** strtod reads the number *)
Theorem strtod_reads : forall v neg x, number_at v neg x -> exists p q, strtod v = to_double neg p q /\ 0 <= p /\ 0 < q /\ (inject_Z p / inject_Z q == x)%Q.
Proof.
  intros v neg x (sp & sg & s & E & Bs & Sg & Hn & B).
  assert (FC : forall p : ascii -> bool, (forall c, c = "."%char \/ is_digit c = true -> p c = false) -> not_first p s).
  { intros p P. destruct B as [s a b r e M _ _ | y s a b r e S M _]; [eapply mantissa_first; eauto | apply zero_x_first; [exact S | apply P; right; reflexivity]]. }
  assert (PC : forall c, c = "."%char \/ is_digit c = true -> is_space c = false /\ is_sign c = false /\ Ascii.eqb "i" (lower c) = false /\ Ascii.eqb "n" (lower c) = false).
  { intros c [-> | D]; [vm_compute; auto |]. destruct c as [[] [] [] [] [] [] [] []]; try discriminate D; vm_compute; auto. }
  unfold strtod. rewrite E, skip_space_in; [| exact Bs |].
  2:{ apply first_of; [apply sign_first; auto | intros _; apply FC; intros c Hc; apply PC, Hc]. }
  rewrite take_sign_in; [| exact Sg | apply FC; intros c Hc; apply PC, Hc]. rewrite <- Hn.
  rewrite (strip_first "i" "nf" s), (strip_first "n" "an" s); [| apply FC; intros c Hc; apply PC, Hc | apply FC; intros c Hc; apply PC, Hc].
  destruct B as [s a b r e M NH X | y s a b r e S M X].
  - destruct (strtod_dec_in neg s a b r e M X) as (p & q & D). exists p, q. destruct (strip_ci "0x" s) as [t |] eqn:St; [| exact D].
    destruct (strtod_hex_value neg t) as [d |] eqn:Hv; [| exact D]. exfalso. apply NH. apply strip_ci_out in St. destruct St as (w & Ew & Sw).
    destruct (strtod_hex_out_some neg t d Hv) as (a' & b' & r' & M'). exists w, t, a', b', r'. auto.
  - rewrite (strip_self _ _ s S). destruct (strtod_hex_in neg s a b r e M X) as (p & q & D & R). rewrite D. exists p, q. auto.
Qed.
