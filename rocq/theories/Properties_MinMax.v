(** Properties_MinMax.v -- the double returned by getNumber() (C51) and ValidMinMax on
    doubles (C56): the number read is rounded to the nearest double. *)
From Coq Require Import Lqa Lia.
From Verif Require Import Base Model_Number Model_Types Model_Argument Model_Valid Model_Double
  Spec_Number Spec_Double Proofs_Base Proofs_Number Proofs_Double Properties_Valid Properties_Double.
Local Open Scope Z_scope.

(** the value of the decimal m * 10^e *)
Definition dec_value (d : dec) : Q := (inject_Z (fst d) * 10 ^ (snd d))%Q.
(** the double [d] has the value [y] *)
Definition has_value (d : dbl) (y : Q) : Prop := exists neg m e, d = DFin neg m e /\ (with_sign neg (inject_Z m * 2 ^ e) == y)%Q.

Lemma pow10_pos : forall e, (0 < 10 ^ e)%Q. Proof. intro e. apply Qpower_0_lt. reflexivity. Qed.
Lemma abs_value : forall m e, (Qabs (inject_Z m * 10 ^ e) == inject_Z (Z.abs m) * 10 ^ e)%Q.
Proof. intros m e. rewrite Qabs_Qmult, (Qabs_pos (10 ^ e)) by (apply Qlt_le_weak, pow10_pos). reflexivity. Qed.
Lemma representable_bound : forall d, representable d -> (Qabs (dec_value d) < 2 ^ 1024 - 2 ^ 970)%Q.
Proof.
  intros [m e] R. unfold dec_value. cbn [fst snd]. rewrite abs_value. unfold representable in R.
  assert (B : (2 ^ 1024 - 2 ^ 970 == inject_Z dbl_bound)%Q).
  { unfold dbl_bound, Z.sub. rewrite inject_Z_plus, inject_Z_opp, !pow2_Z by lia. ring. }
  rewrite B. assert (P : 0 < dbl_bound) by reflexivity. remember dbl_bound as bd eqn:Eb. clear Eb B.
  destruct (Z.leb_spec e 0) as [L | L].
  - assert (O10 : (10 ^ e * 10 ^ (- e) == 1)%Q) by (rewrite <- Qpower_plus by discriminate; rewrite Z.add_opp_diag_r; reflexivity).
    assert (Z10 : (inject_Z (10 ^ (- e)) == 10 ^ (- e))%Q) by (rewrite (pow_Z 10 (- e)) by lia; reflexivity).
    rewrite Zlt_Qlt, inject_Z_mult, Z10 in R. pose proof (pow10_pos e) as W.
    apply (Qmult_lt_compat_r _ _ (10 ^ e) W) in R. setoid_replace (inject_Z bd * 10 ^ (- e) * 10 ^ e)%Q with (inject_Z bd * (10 ^ e * 10 ^ (- e)))%Q in R by ring.
    rewrite O10, Qmult_1_r in R. exact R.
  - rewrite Zlt_Qlt, inject_Z_mult in R. rewrite (pow_Z 10 e) in R by lia. exact R.
Qed.
Lemma number_value : forall d y, representable d -> nearest_double (dec_value d) y ->
  (exists neg m e, number_double d = DFin neg m e /\ 0 <= m /\ (with_sign neg (inject_Z m * 2 ^ e) == y)%Q) /\ (Qabs y < 2 ^ 1024)%Q.
Proof.
  intros [m e] y R N. pose proof (representable_bound _ R) as B. unfold number_double.
  pose proof (fraction_spec 10 (Z.abs m) e ltac:(lia) (Z.abs_nonneg m)) as FS. destruct (fraction 10 (Z.abs m) e) as [p q]. destruct FS as (P & Q & PQ).
  change (inject_Z 10) with 10%Q in PQ. set (neg := m <? 0).
  assert (XE : (with_sign neg (dec_value (m, e)) == inject_Z (Z.abs m) * 10 ^ e)%Q).
  { unfold dec_value, neg. cbn [fst snd]. destruct (Z.ltb_spec m 0); cbn [with_sign]; [rewrite Z.abs_neq, inject_Z_opp by lia; ring | rewrite Z.abs_eq by lia; reflexivity]. }
  assert (N' : nearest_double (inject_Z p / inject_Z q) (with_sign neg y)).
  { unfold nearest_double. eapply nearest_eq; [rewrite PQ; exact XE | reflexivity |]. destruct neg; cbn [with_sign]; [now apply nearest_opp | exact N]. }
  assert (X0 : (0 <= inject_Z p / inject_Z q)%Q) by (rewrite PQ, <- abs_value; apply Qabs_nonneg).
  pose proof (nearest_overflow 53 (-1074) 1024 _ _ ltac:(lia) ltac:(lia) N' X0) as OV.
  assert (Y : (with_sign neg y < 2 ^ 1024)%Q).
  { apply Qnot_le_lt. intro H. apply OV in H. rewrite PQ, <- abs_value in H. unfold dec_value in B. cbn [fst snd] in B. change (1024 - 53 - 1) with 970 in H. lra. }
  pose proof (nearest_sign 53 (-1074) _ _ ltac:(lia) N' X0) as Y0. split.
  - destruct (rounded_spec 53 (-1074) 1024 neg p q (with_sign neg y) ltac:(lia) ltac:(lia) P Q N') as [A _].
    destruct (A Y) as (m' & e' & E & M' & _ & V). exists neg, m', e'. split; [exact E |]. split; [exact M' |]. rewrite (with_sign_eq neg _ _ V). apply with_sign_inv.
  - rewrite <- (Qabs_with_sign neg y), (Qabs_pos _ Y0). exact Y.
Qed.
(** A number that is read is the double next to the decimal that was given: also what
    getNumber() returns (C51_numbers gives the decimal). *)
Theorem C51_double : forall d y, representable d -> nearest_double (dec_value d) y -> has_value (number_double d) y /\ (Qabs y < 2 ^ 1024)%Q.
Proof. intros d y R N. destruct (number_value d y R N) as [(neg & m & e & E & _ & V) B]. split; [exists neg, m, e; auto | exact B]. Qed.
Print Assumptions C51_double.

(** d <= y, y <= d for a bound d, which may be infinite, and a number y *)
Definition at_most (d : dbl) (y : Q) : Prop :=
  match d with DFin neg m e => (with_sign neg (inject_Z m * 2 ^ e) <= y)%Q | DInf neg => neg = true | DNan => False end.
Definition at_least (d : dbl) (y : Q) : Prop :=
  match d with DFin neg m e => (y <= with_sign neg (inject_Z m * 2 ^ e))%Q | DInf neg => neg = false | DNan => False end.

Lemma signed_inj : forall neg m e, (with_sign neg (inject_Z m * 2 ^ e) == inject_Z (signed_value neg m) * 2 ^ e)%Q.
Proof. intros [] m e; cbn [with_sign signed_value]; [rewrite inject_Z_opp; ring | reflexivity]. Qed.
Lemma fin_ltb : forall n1 m1 e1 n2 m2 e2, dbl_ltb (DFin n1 m1 e1) (DFin n2 m2 e2) = true <->
  (with_sign n1 (inject_Z m1 * 2 ^ e1) < with_sign n2 (inject_Z m2 * 2 ^ e2))%Q.
Proof.
  intros n1 m1 e1 n2 m2 e2. cbn [dbl_ltb]. set (e := Z.min e1 e2). rewrite !signed_inj.
  assert (S : forall z k, e <= k -> (inject_Z z * 2 ^ k == inject_Z (z * 2 ^ (k - e)) * 2 ^ e)%Q).
  { intros z k L. rewrite inject_Z_mult, pow2_Z by lia. rewrite <- Qmult_assoc, <- pow2_plus. replace (k - e + e) with k by lia. reflexivity. }
  rewrite (S _ e1) by lia. rewrite (S _ e2) by lia. pose proof (pow2_pos e) as W. rewrite Z.ltb_lt, Zlt_Qlt. split; intro H.
  - apply Qmult_lt_compat_r; assumption.
  - apply (Qmult_lt_r _ _ (2 ^ e) W). exact H.
Qed.
Lemma ltb_at_most : forall x y lo, has_value x y -> lo <> DNan -> (dbl_ltb x lo = false <-> at_most lo y).
Proof.
  intros x y lo (n & m & e & -> & V) N. destruct lo as [n' m' e' | [] |]; [| cbn; tauto | cbn; split; discriminate | now elim N].
  cbn [at_most]. rewrite <- V. pose proof (fin_ltb n m e n' m' e') as F. destruct (dbl_ltb (DFin n m e) (DFin n' m' e')).
  - split; [discriminate |]. intro H. destruct F as [F _]. specialize (F eq_refl). lra.
  - split; [intros _ | reflexivity]. apply Qnot_lt_le. intro H. apply F in H. discriminate H.
Qed.
Lemma ltb_at_least : forall x y hi, has_value x y -> hi <> DNan -> (dbl_ltb hi x = false <-> at_least hi y).
Proof.
  intros x y hi (n & m & e & -> & V) N. destruct hi as [n' m' e' | [] |]; [| cbn; split; discriminate | cbn; tauto | now elim N].
  cbn [at_least]. rewrite <- V. pose proof (fin_ltb n' m' e' n m e) as F. destruct (dbl_ltb (DFin n' m' e') (DFin n m e)).
  - split; [discriminate |]. intro H. destruct F as [F _]. specialize (F eq_refl). lra.
  - split; [intros _ | reflexivity]. apply Qnot_lt_le. intro H. apply F in H. discriminate H.
Qed.
(** [y] is between the bounds, in either order *)
Definition within (a b : dbl) (y : Q) : Prop := (at_most a y /\ at_least b y) \/ (at_most b y /\ at_least a y).
Lemma bounds_order : forall a b y, a <> DNan -> b <> DNan ->
  let (lo, hi) := minmax_bounds dbl_ltb a b in (at_most lo y /\ at_least hi y <-> within a b y).
Proof.
  intros a b y Na Nb. unfold minmax_bounds, within. destruct (dbl_ltb b a) eqn:E.
  - split; [tauto |]. intros [[H1 H2] | H]; [exfalso | exact H].
    destruct a as [n1 m1 e1 | [] |], b as [n2 m2 e2 | [] |]; cbn in H1, H2, E; try discriminate; try contradiction.
    apply (fin_ltb n2 m2 e2 n1 m1 e1) in E. lra.
  - split; [tauto |]. intros [H | [H1 H2]]; [exact H |].
    destruct a as [n1 m1 e1 | [] |], b as [n2 m2 e2 | [] |]; try (now elim Na); try (now elim Nb); cbn [at_most at_least dbl_ltb] in H1, H2, E |- *; try discriminate; try (split; auto; fail).
    assert (F : ~ (with_sign n2 (inject_Z m2 * 2 ^ e2) < with_sign n1 (inject_Z m1 * 2 ^ e1))%Q) by (intro F; apply (fin_ltb n2 m2 e2 n1 m1 e1) in F; cbn [dbl_ltb] in F; congruence).
    apply Qnot_lt_le in F. split; lra.
Qed.

(** With bounds that are no NaN, exactly the lists are accepted whose values all begin with a
    number (within the range of double) the nearest double of which lies between the bounds. *)
Definition good_double (a b : dbl) (v : str) : Prop :=
  exists d y, begins_with_number v d /\ representable d /\ nearest_double (dec_value d) y /\ within a b y.
Lemma double_good : forall show a b v, a <> DNan -> b <> DNan ->
  let (lo, hi) := minmax_bounds dbl_ltb a b in err_minmax dbl_ltb istream_dbl show lo hi v = None <-> good_double a b v.
Proof.
  intros show a b v Na Nb. pose proof (fun y => bounds_order a b y Na Nb) as BO. assert (ND : let (lo, hi) := minmax_bounds dbl_ltb a b in lo <> DNan /\ hi <> DNan) by (unfold minmax_bounds; destruct (dbl_ltb b a); auto).
  destruct (minmax_bounds dbl_ltb a b) as [lo hi]. destruct ND as [Nl Nh].
  unfold err_minmax, istream_dbl. pose proof (istream_grammar v) as G. destruct (istream_double v) as [d |] eqn:R; cbn [option_map].
  - destruct (proj1 (G d) eq_refl) as [B RP]. destruct (nearest_exists 53 (-1074) (dec_value d) ltac:(lia)) as [y N]. destruct (C51_double d y RP N) as [HV _].
    pose proof (ltb_at_most _ _ _ HV Nl) as A1. pose proof (ltb_at_least _ _ _ HV Nh) as A2. split.
    + intro H. exists d, y. split; [exact B |]. split; [exact RP |]. split; [exact N |]. apply BO.
      destruct (dbl_ltb (number_double d) lo); [discriminate H |]. destruct (dbl_ltb hi (number_double d)); [discriminate H |]. tauto.
    + intros (d' & y' & B' & RP' & N' & WI). assert (ED : Some d = Some d') by (apply G; auto). injection ED as <-.
      destruct (C51_double d y' RP' N') as [HV' _]. apply BO in WI. destruct WI as [W1 W2].
      apply (ltb_at_most _ _ _ HV' Nl) in W1. apply (ltb_at_least _ _ _ HV' Nh) in W2. rewrite W1, W2. reflexivity.
  - split; [discriminate |]. intros (d' & y' & B' & RP' & _). assert (ED : None = Some d') by (apply G; auto). discriminate ED.
Qed.
Theorem C56_accepts : forall show a b vs, a <> DNan -> b <> DNan ->
  (accepts (validMinMax dbl_ltb istream_dbl show a b) vs <-> forall v, In v vs -> good_double a b v).
Proof.
  intros show a b vs Na Nb. rewrite <- Forall_forall. unfold validMinMax. pose proof (fun v => double_good show a b v Na Nb) as G.
  destruct (minmax_bounds dbl_ltb a b) as [lo hi]. now apply check_accepts.
Qed.
Print Assumptions C56_accepts.

(** the bounds are doubles *)
Definition is_double (d : dbl) : Prop :=
  match d with DFin neg m e => binary 53 (-1074) (inject_Z m * 2 ^ e) | DInf _ => True | DNan => False end.
Lemma round_at_most : forall a x y, is_double a -> nearest_double x y -> at_most a x -> at_most a y.
Proof.
  intros a x y D N. destruct a as [n m e | n |]; cbn [at_most is_double] in *; auto. intro H.
  assert (B : binary 53 (-1074) (with_sign n (inject_Z m * 2 ^ e))) by (destruct n; cbn [with_sign]; [now apply binary_opp | exact D]).
  destruct (nearest_exists 53 (-1074) (with_sign n (inject_Z m * 2 ^ e)) ltac:(lia)) as [z Nz]. rewrite <- (nearest_self _ _ _ _ B Nz).
  exact (nearest_mono 53 (-1074) _ _ _ _ Nz N ltac:(lia) H).
Qed.
Lemma round_at_least : forall a x y, is_double a -> nearest_double x y -> at_least a x -> at_least a y.
Proof.
  intros a x y D N. destruct a as [n m e | n |]; cbn [at_least is_double] in *; auto. intro H.
  assert (B : binary 53 (-1074) (with_sign n (inject_Z m * 2 ^ e))) by (destruct n; cbn [with_sign]; [now apply binary_opp | exact D]).
  destruct (nearest_exists 53 (-1074) (with_sign n (inject_Z m * 2 ^ e)) ltac:(lia)) as [z Nz]. rewrite <- (nearest_self _ _ _ _ B Nz).
  exact (nearest_mono 53 (-1074) _ _ _ _ N Nz ltac:(lia) H).
Qed.
(** Hence every number between the bounds is accepted ... *)
Theorem C56_inside : forall show a b vs, is_double a -> is_double b ->
  (forall v, In v vs -> exists d, begins_with_number v d /\ representable d /\ within a b (dec_value d)) ->
  accepts (validMinMax dbl_ltb istream_dbl show a b) vs.
Proof.
  intros show a b vs Da Db H. apply C56_accepts; [intros ->; exact Da | intros ->; exact Db |]. intros v Iv. destruct (H v Iv) as (d & B & R & W).
  destruct (nearest_exists 53 (-1074) (dec_value d) ltac:(lia)) as [y N]. exists d, y. split; [exact B |]. split; [exact R |]. split; [exact N |].
  destruct W as [[W1 W2] | [W1 W2]]; [left | right]; split; try (eapply round_at_most; eassumption); eapply round_at_least; eassumption.
Qed.
Print Assumptions C56_inside.
(** ... and a number outside only if it is rounded to one of the bounds. *)
Lemma bound_touch : forall a x y, is_double a -> nearest_double x y ->
  (at_most a y -> at_most a x \/ has_value a y) /\ (at_least a y -> at_least a x \/ has_value a y).
Proof.
  intros a x y D N. pose proof (round_at_most a x y D N) as M. pose proof (round_at_least a x y D N) as L.
  destruct a as [n m e | n |]; cbn [at_most at_least is_double] in *; try tauto.
  set (z := with_sign n (inject_Z m * 2 ^ e)) in *.
  assert (HV : (z == y)%Q -> has_value (DFin n m e) y) by (intro V; exists n, m, e; split; [reflexivity | exact V]).
  split; intro H; destruct (Qlt_le_dec x z) as [X | X].
  - right. apply HV. apply Qle_antisym; [exact H | apply L, Qlt_le_weak, X].
  - left. exact X.
  - left. apply Qlt_le_weak, X.
  - destruct (Qlt_le_dec z x) as [X' | X']; [| left; exact X']. right. apply HV. apply Qle_antisym; [apply M, X | exact H].
Qed.
Theorem C56_outside : forall show a b vs v d, is_double a -> is_double b -> accepts (validMinMax dbl_ltb istream_dbl show a b) vs -> In v vs ->
  begins_with_number v d -> representable d -> ~ within a b (dec_value d) -> exists y, nearest_double (dec_value d) y /\ (has_value a y \/ has_value b y).
Proof.
  intros show a b vs v d Da Db AC Iv B R NW.
  assert (Na : a <> DNan) by (intros ->; exact Da). assert (Nb : b <> DNan) by (intros ->; exact Db).
  destruct (proj1 (C56_accepts show a b vs Na Nb) AC v Iv) as (d' & y & B' & R' & N & W).
  assert (ED : Some d' = Some d). { rewrite <- (proj2 (istream_grammar v d') (conj B' R')). apply istream_grammar. split; assumption. }
  injection ED as ->. exists y. split; [exact N |].
  destruct (bound_touch a _ y Da N) as [Ma La], (bound_touch b _ y Db N) as [Mb Lb].
  unfold within in NW. destruct W as [[W1 W2] | [W1 W2]].
  - destruct (Ma W1) as [H1 | H1]; [| now left]. destruct (Lb W2) as [H2 | H2]; [| now right]. elim NW. left. now split.
  - destruct (Mb W1) as [H1 | H1]; [| now right]. destruct (La W2) as [H2 | H2]; [| now left]. elim NW. right. now split.
Qed.
Print Assumptions C56_outside.
(** So a number that lies outside the bounds can be accepted: 2.0000000000000000001 by [1, 2]. *)
Definition two : dbl := DFin false 2 0.
Definition one : dbl := DFin false 1 0.
Theorem C56_rounding : exists v d, begins_with_number v d /\ representable d /\ ~ within one two (dec_value d) /\
  forall show, accepts (validMinMax dbl_ltb istream_dbl show one two) [v].
Proof.
  exists "2.0000000000000000001"%string, (20000000000000000001, -19).
  assert (G : istream_double "2.0000000000000000001" = Some (20000000000000000001, -19)) by (vm_compute; reflexivity).
  apply istream_grammar in G. destruct G as [B R]. split; [exact B |]. split; [exact R |]. split.
  - intros [[_ H] | [_ H]]; revert H; vm_compute; intro H; apply H; reflexivity.
  - intro show. vm_compute. reflexivity.
Qed.
Print Assumptions C56_rounding.
(** A NaN as a bound is no bound: [min, NaN] accepts every number from min on, [NaN, max]
    every number up to max, [NaN, NaN] every number. *)
Definition good_number (p : Q -> Prop) (v : str) : Prop :=
  exists d y, begins_with_number v d /\ representable d /\ nearest_double (dec_value d) y /\ p y.
Lemma nan_good : forall show lo hi v, err_minmax dbl_ltb istream_dbl show lo hi v = None <->
  good_number (fun y => (lo = DNan \/ at_most lo y) /\ (hi = DNan \/ at_least hi y)) v.
Proof.
  intros show lo hi v. unfold err_minmax, istream_dbl. pose proof (istream_grammar v) as G. destruct (istream_double v) as [d |] eqn:R; cbn [option_map].
  - destruct (proj1 (G d) eq_refl) as [B RP]. destruct (nearest_exists 53 (-1074) (dec_value d) ltac:(lia)) as [y N].
    assert (DL : forall b : dbl, b = DNan \/ b <> DNan) by (intros []; [right | right | left]; congruence).
    assert (A1 : forall y, nearest_double (dec_value d) y -> (dbl_ltb (number_double d) lo = false <-> lo = DNan \/ at_most lo y)).
    { intros z Nz. destruct (C51_double d z RP Nz) as [HV _]. destruct (DL lo) as [-> | Nl].
      - destruct HV as (n & m & e & -> & _). cbn. tauto.
      - rewrite (ltb_at_most _ _ _ HV Nl). tauto. }
    assert (A2 : forall y, nearest_double (dec_value d) y -> (dbl_ltb hi (number_double d) = false <-> hi = DNan \/ at_least hi y)).
    { intros z Nz. destruct (C51_double d z RP Nz) as [HV _]. destruct (DL hi) as [-> | Nl].
      - destruct HV as (n & m & e & -> & _). cbn. tauto.
      - rewrite (ltb_at_least _ _ _ HV Nl). tauto. }
    split.
    + intro H. exists d, y. split; [exact B |]. split; [exact RP |]. split; [exact N |].
      destruct (dbl_ltb (number_double d) lo) eqn:L1; [discriminate H |]. destruct (dbl_ltb hi (number_double d)) eqn:L2; [discriminate H |].
      split; [now apply A1 | now apply A2].
    + intros (d' & y' & B' & RP' & N' & W1 & W2). assert (ED : Some d = Some d') by (apply G; auto). injection ED as <-.
      apply (A1 _ N') in W1. apply (A2 _ N') in W2. rewrite W1, W2. reflexivity.
  - split; [discriminate |]. intros (d' & y' & B' & RP' & _). assert (ED : None = Some d') by (apply G; auto). discriminate ED.
Qed.
Lemma good_number_iff : forall (p q : Q -> Prop) v, (forall y, p y <-> q y) -> (good_number p v <-> good_number q v).
Proof. intros p q v H. split; intros (d & y & A & B & C & D); exists d, y; (split; [exact A | split; [exact B | split; [exact C | apply H, D]]]). Qed.
Theorem C56_nan : forall show b vs, b <> DNan ->
  (accepts (validMinMax dbl_ltb istream_dbl show b DNan) vs <-> forall v, In v vs -> good_number (at_most b) v) /\
  (accepts (validMinMax dbl_ltb istream_dbl show DNan b) vs <-> forall v, In v vs -> good_number (at_least b) v) /\
  (accepts (validMinMax dbl_ltb istream_dbl show DNan DNan) vs <-> forall v, In v vs -> good_number (fun _ => True) v).
Proof.
  intros show b vs Nb. rewrite <- !Forall_forall. unfold validMinMax.
  assert (E1 : minmax_bounds dbl_ltb b DNan = (b, DNan)) by reflexivity.
  assert (E2 : minmax_bounds dbl_ltb DNan b = (DNan, b)) by (unfold minmax_bounds; destruct b as [| [] |]; reflexivity).
  assert (E3 : minmax_bounds dbl_ltb DNan DNan = (DNan, DNan)) by reflexivity.
  rewrite E1, E2, E3. split; [| split]; apply check_accepts; intro v; rewrite nan_good; apply good_number_iff; intro y; intuition congruence.
Qed.
Print Assumptions C56_nan.

(** ** Examples *)
Lemma accepts_good : forall a b v, a <> DNan -> b <> DNan -> (accepts (validMinMax dbl_ltb istream_dbl (fun _ => EmptyString) a b) [v] <-> good_double a b v).
Proof. intros a b v Na Nb. pose proof (C56_accepts (fun _ => EmptyString) a b [v] Na Nb) as H. split; [intro A; apply (proj1 H A); now left | intro A; apply H; intros w [<- | []]; exact A]. Qed.
Example C56_example : is_double one /\ is_double two /\ is_double (DInf true) /\
  good_double one two "1.5kg" /\ ~ good_double one two "2.5" /\ ~ good_double one two "abc" /\ good_double two one "2" /\ good_double (DInf true) one "-1e300".
Proof.
  assert (NI : forall n, DInf n <> DNan) by discriminate. assert (NF : forall n m e, DFin n m e <> DNan) by discriminate.
  split; [exists 1, 0; split; [reflexivity | split; [lia | reflexivity]] |]. split; [exists 2, 0; split; [reflexivity | split; [lia | reflexivity]] |]. split; [exact Logic.I |].
  split; [apply (accepts_good _ _ _ (NF _ _ _) (NF _ _ _)); vm_compute; reflexivity |].
  split; [intro H; apply (accepts_good _ _ _ (NF _ _ _) (NF _ _ _)) in H; revert H; vm_compute; discriminate |].
  split; [intro H; apply (accepts_good _ _ _ (NF _ _ _) (NF _ _ _)) in H; revert H; vm_compute; discriminate |].
  split; [apply (accepts_good _ _ _ (NF _ _ _) (NF _ _ _)); vm_compute; reflexivity |].
  apply (accepts_good _ _ _ (NI _) (NF _ _ _)); vm_compute; reflexivity.
Qed.
Example C56_outside_example : begins_with_number "2.0000000000000000001" (20000000000000000001, -19) /\ nearest_double (dec_value (20000000000000000001, -19)) 2.
Proof.
  assert (G : istream_double "2.0000000000000000001" = Some (20000000000000000001, -19)) by (vm_compute; reflexivity).
  apply istream_grammar in G. destruct G as [B R]. split; [exact B |].
  destruct (nearest_exists 53 (-1074) (dec_value (20000000000000000001, -19)) ltac:(lia)) as [y N].
  destruct (C51_double _ y R N) as [(n & m & e & E & V) _].
  assert (E2 : number_double (20000000000000000001, -19) = DFin false (2 ^ 52) (-51)) by (vm_compute; reflexivity).
  rewrite E2 in E. injection E as E3 E4 E5. subst n m e. unfold nearest_double. eapply nearest_eq; [reflexivity | | exact N]. rewrite <- V. vm_compute. reflexivity.
Qed.
