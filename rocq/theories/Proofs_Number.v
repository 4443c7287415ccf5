(** Proofs_Number.v -- the scanners of Model_Number accept exactly the grammar of Spec_Number. *)
From Verif Require Import Base Model_Number Spec_Number.

Lemma app_assoc_s : forall a b c : str, (a ^^ b) ^^ c = a ^^ b ^^ c.
Proof. induction a as [|x a IH]; intros; [reflexivity|]. cbn. now rewrite IH. Qed.
Lemma app_nil_s : forall a : str, a ^^ "" = a.
Proof. induction a as [|x a IH]; [reflexivity|]. cbn. now rewrite IH. Qed.
Lemma app_nil_inv : forall a b : str, a ^^ b = "" -> a = "" /\ b = "".
Proof. intros [|x a] b H; [now split | discriminate H]. Qed.
Lemma length_app_s : forall a b : str, String.length (a ^^ b) = String.length a + String.length b.
Proof. induction a as [|x a IH]; intros; [reflexivity|]. cbn. now rewrite IH. Qed.

(** skipping *)
Lemma skip_space_out : forall s, exists sp, s = sp ^^ skip_space s /\ blanks sp /\ not_first is_space (skip_space s).
Proof.
  induction s as [|c s [sp [E [B F]]]]; [exists ""; now repeat split|]. cbn [skip_space]. destruct (is_space c) eqn:Ec.
  - exists (String c sp). cbn. rewrite <- E. now repeat split.
  - exists "". cbn. now repeat split.
Qed.
Lemma skip_space_in : forall sp s, blanks sp -> not_first is_space s -> skip_space (sp ^^ s) = s.
Proof.
  induction sp as [|c sp IH]; intros s B F; cbn in *.
  - destruct s as [|c s]; [reflexivity|]. cbn in *. now rewrite F.
  - destruct B as [B1 B2]. rewrite B1. now apply IH.
Qed.

Lemma take_sign_out : forall s, let '(n, r) := take_sign s in exists sg, sign sg /\ s = sg ^^ r /\ n = String.eqb sg "-".
Proof.
  intros s. destruct s as [|c s]; [now exists ""; repeat split; left|].
  destruct (ascii_dec c "-") as [->|N1]; [exists "-"; repeat split; now right; right|].
  destruct (ascii_dec c "+") as [->|N2]; [exists "+"; repeat split; now right; left|].
  assert (E : take_sign (String c s) = (false, String c s)).
  { destruct c as [[] [] [] [] [] [] [] []]; try reflexivity; exfalso; auto. }
  rewrite E. exists "". now repeat split; left.
Qed.
Definition is_sign (c : ascii) : bool := Ascii.eqb c "-" || Ascii.eqb c "+".
Lemma take_sign_in : forall sg r, sign sg -> not_first is_sign r -> take_sign (sg ^^ r) = (String.eqb sg "-", r).
Proof.
  intros sg r [-> | [-> | ->]] F; try reflexivity. cbn [append]. destruct r as [|c r]; [reflexivity|]. cbn in F.
  destruct c as [[] [] [] [] [] [] [] []]; try reflexivity; discriminate F.
Qed.

Lemma take_digits_out : forall s acc n, let '(v, k, r) := take_digits acc n s in
  exists a, s = a ^^ r /\ digits a /\ not_first is_digit r /\ v = digits_value acc a /\ k = n + String.length a.
Proof.
  induction s as [|c s IH]; intros acc n; cbn [take_digits].
  - exists "". cbn. repeat split; auto.
  - destruct (is_digit c) eqn:Ec.
    + specialize (IH (acc * 10 + digit_val c)%Z (S n)). destruct (take_digits _ _ s) as [[v k] r].
      destruct IH as [a [E [D [F [V K]]]]]. exists (String c a). cbn. rewrite <- E. repeat split; auto; lia.
    + exists "". cbn. repeat split; auto.
Qed.
Lemma take_digits_in : forall a r acc n, digits a -> not_first is_digit r ->
  take_digits acc n (a ^^ r) = (digits_value acc a, n + String.length a, r).
Proof.
  induction a as [|c a IH]; intros r acc n D F; cbn in *.
  - destruct r as [|c r]; cbn in *; [|rewrite F]; now rewrite Nat.add_0_r.
  - destruct D as [D1 D2]. rewrite D1, (IH r _ _ D2 F). now rewrite <- plus_n_Sm.
Qed.
Lemma digits_value_app : forall a b acc, digits_value acc (a ^^ b) = digits_value (digits_value acc a) b.
Proof. induction a as [|c a IH]; intros; cbn; auto. Qed.

Lemma dot_dec : forall s, (exists r, s = String "." r) \/ (not_first (Ascii.eqb ".") s /\ forall A (x : str -> A) (y : A), match s with String "." r => x r | _ => y end = y).
Proof.
  intros [|c s]; [right; now split|]. destruct (ascii_dec c ".") as [->|N]; [left; now exists s|]. right. split.
  - cbn [not_first]. now apply Ascii.eqb_neq, not_eq_sym.
  - intros. destruct c as [[] [] [] [] [] [] [] []]; try reflexivity; exfalso; auto.
Qed.
Lemma take_mantissa_out : forall s, let '(v, nd, nf, r) := take_mantissa s in
  exists a dot b, s = a ^^ dot ^^ b ^^ r /\ digits a /\ digits b /\ nd = String.length (a ^^ b) /\ nf = String.length b /\
    v = digits_value 0 (a ^^ b) /\ not_first is_digit r /\ (dot = "." \/ (dot = "" /\ b = "" /\ not_first (Ascii.eqb ".") r)).
Proof.
  intros s. unfold take_mantissa. pose proof (take_digits_out s 0 0) as H. destruct (take_digits 0 0 s) as [[v1 n1] r1].
  destruct H as [a [E [D [F [V K]]]]]. destruct (dot_dec r1) as [[r2 ->]|[Nd M]].
  - pose proof (take_digits_out r2 v1 0) as H. destruct (take_digits v1 0 r2) as [[v2 n2] r3]. destruct H as [b [E2 [D2 [F2 [V2 K2]]]]].
    exists a, ".", b. rewrite length_app_s, digits_value_app. cbn. subst. cbn. repeat split; auto; lia.
  - rewrite (M _ (fun r2 => let '(v2, n2, r3) := take_digits v1 0 r2 in (v2, n1 + n2, n2, r3)) (v1, n1, 0, r1)).
    exists a, "", "". rewrite app_nil_s. cbn. subst. repeat split; auto.
Qed.
Lemma take_mantissa_in : forall a dot b r, digits a -> digits b -> not_first is_digit r ->
  (dot = "." \/ (dot = "" /\ b = "" /\ not_first (Ascii.eqb ".") r)) ->
  take_mantissa (a ^^ dot ^^ b ^^ r) = (digits_value 0 (a ^^ b), String.length (a ^^ b), String.length b, r).
Proof.
  intros a dot b r Da Db F C. unfold take_mantissa. destruct C as [-> | [-> [-> Nd]]].
  - rewrite (take_digits_in a ("." ^^ b ^^ r) 0 0 Da) by reflexivity. cbn [append]. rewrite (take_digits_in b r _ 0 Db F).
    rewrite digits_value_app, length_app_s. now rewrite !Nat.add_0_l.
  - cbn [append]. rewrite (take_digits_in a r 0 0 Da F). rewrite app_nil_s. cbn [String.length].
    destruct (dot_dec r) as [[r2 ->]|[_ M]]; [discriminate Nd|].
    now rewrite (M _ (fun r2 => let '(v2, n2, r3) := take_digits (digits_value 0 a) 0 r2 in (v2, 0 + String.length a + n2, n2, r3)) (digits_value 0 a, 0 + String.length a, 0, r)).
Qed.

(** the first character of a text of digits, "." and what follows *)
Lemma digit_not : forall c, is_digit c = true -> is_space c = false /\ is_sign c = false /\ Ascii.eqb "." c = false.
Proof. intros c. destruct c as [[] [] [] [] [] [] [] []]; try discriminate; intros _; now vm_compute. Qed.
Lemma first_of : forall p a b, not_first p a -> (a = "" -> not_first p b) -> not_first p (a ^^ b).
Proof. intros p [|c a] b H1 H2; [now apply H2 | exact H1]. Qed.
Lemma digits_first : forall p a r, digits a -> (forall c, is_digit c = true -> p c = false) -> (a = "" -> not_first p r) -> not_first p (a ^^ r).
Proof. intros p a r D P N. apply first_of; [destruct a as [|c a]; [exact Logic.I | now apply P, D] | exact N]. Qed.
Lemma len0 : forall s, String.length s = 0 -> s = "".
Proof. intros [|c s] H; [reflexivity | discriminate H]. Qed.

Lemma overflow_rep : forall d, dec_overflow d = false <-> representable d.
Proof.
  intros [m e]. unfold dec_overflow, representable. destruct (e <=? 0)%Z; rewrite Z.leb_gt; reflexivity.
Qed.
Lemma sign_first : forall p sg, sign sg -> p "+"%char = false -> p "-"%char = false -> not_first p sg.
Proof. intros p sg [-> | [-> | ->]] P M; cbn; auto. Qed.
Lemma mantissa_nb : forall p a dot b r, digits a -> digits b -> (a <> "" \/ b <> "") -> (dot = "." \/ (dot = "" /\ b = "")) ->
  (forall c, is_digit c = true -> p c = false) -> p "."%char = false -> not_first p (a ^^ dot ^^ b ^^ r).
Proof.
  intros p a dot b r Da Db NE C P Pd. apply (digits_first p a _ Da P). intros ->.
  destruct C as [-> | [-> ->]]; [exact Pd | destruct NE as [N|N]; now elim N].
Qed.

Theorem istream_grammar : forall s d, istream_double s = Some d <-> begins_with_number s d /\ representable d.
Proof.
  intros s d. split.
  - unfold istream_double. destruct (skip_space_out s) as [sp [Es [Bs Ns]]]. pose proof (take_sign_out (skip_space s)) as T.
    destruct (take_sign (skip_space s)) as [neg s1]. destruct T as [sg [Sg [E1 En]]]. pose proof (take_mantissa_out s1) as M.
    destruct (take_mantissa s1) as [[[v nd] nf] s2]. destruct M as [a [dot [b [E2 [Da [Db [Hn [Hf [Hv [Nd C]]]]]]]]]].
    destruct nd as [|nd]; [discriminate|].
    assert (NE : a <> "" \/ b <> "").
    { destruct a; [right; intros ->; discriminate Hn | left; discriminate]. }
    assert (SG : forall z : Z, (if neg then (- z)%Z else z) = signed sg z) by (intros; unfold signed; now rewrite <- En).
    assert (FIN : forall x, (if dec_overflow x then None else Some x) = Some d -> d = x /\ representable d).
    { intros x H. destruct (dec_overflow x) eqn:O; [discriminate H|]. injection H as <-. split; [reflexivity | now apply overflow_rep]. }
    rewrite !SG.
    assert (PLAIN : not_first is_e s2 -> d = (signed sg v, - Z.of_nat nf)%Z -> begins_with_number s d).
    { intros Ne Ed. exists sp, sg, a, dot, b, "", s2. cbn [append]. rewrite Es, E1, E2. repeat split; auto.
      - destruct C as [C|C]; [left; auto | right; exact C].
      - left. rewrite Ed, Hv, Hf. auto. }
    destruct s2 as [|c s3].
    + intros H. apply FIN in H. destruct H as [Ed R]. split; [apply PLAIN; [exact Logic.I | exact Ed] | exact R].
    + destruct (is_e c) eqn:Ec; [|intros H; apply FIN in H; destruct H as [Ed R]; split; [apply PLAIN; [exact Ec | exact Ed] | exact R]].
      pose proof (take_sign_out s3) as T2. destruct (take_sign s3) as [eneg s4]. destruct T2 as [esg [Seg [E4 Een]]].
      pose proof (take_digits_out s4 0 0) as D4. destruct (take_digits 0 0 s4) as [[ev en] s5]. destruct D4 as [ds [E5 [Dd [N5 [Ve Ke]]]]].
      destruct en as [|en]; [discriminate|]. intros H. apply FIN in H. destruct H as [Ed R]. split; [|exact R].
      exists sp, sg, a, dot, b, (String c (esg ^^ ds)), s5.
      assert (Q : String c s3 = String c (esg ^^ ds) ^^ s5) by (cbn [append]; rewrite app_assoc_s, E4, E5; reflexivity).
      rewrite <- Q. rewrite Es, E1, E2. repeat split; auto.
      * destruct C as [C|C]; [left; auto | right; exact C].
      * right. exists c, esg, ds. repeat split; auto; [intros ->; discriminate Ke|].
        assert (EG : forall z : Z, (if eneg then (- z)%Z else z) = signed esg z) by (intros; unfold signed; now rewrite <- Een).
        now rewrite Ed, EG, Hv, Hf, Ve.
  - intros [[sp [sg [a [dot [b [ex [rest [Es [Bs [Sg [Da [Db [NE [C [Nd X]]]]]]]]]]]]]]] R].
    assert (C' : dot = "." \/ (dot = "" /\ b = "" /\ not_first (Ascii.eqb ".") (ex ^^ rest))) by (destruct C as [[C _]|C]; auto).
    assert (C2 : dot = "." \/ (dot = "" /\ b = "")) by tauto.
    unfold istream_double. rewrite Es, skip_space_in, take_sign_in; auto.
    + rewrite (take_mantissa_in a dot b (ex ^^ rest) Da Db Nd C'). destruct (String.length (a ^^ b)) as [|k] eqn:K.
      { exfalso. apply len0, app_nil_inv in K. tauto. }
      assert (SG : forall (s0 : str) (z : Z), (if String.eqb s0 "-" then (- z)%Z else z) = signed s0 z) by reflexivity.
      assert (FIN : (if dec_overflow d then None else Some d) = Some d).
      { destruct (dec_overflow d) eqn:O; [|reflexivity]. apply overflow_rep in R. rewrite R in O. discriminate O. }
      rewrite !SG. destruct X as [[-> [Ne Ed]]|[c [esg [ds [Ec [Seg [Dd [NEd [-> [Nr Ed]]]]]]]]]].
      * cbn [append]. rewrite <- Ed. destruct rest as [|c rest]; [exact FIN|]. cbn in Ne. rewrite Ne. exact FIN.
      * cbn [append]. rewrite Ec. rewrite app_assoc_s, take_sign_in; auto.
        -- rewrite (take_digits_in ds rest 0 0 Dd Nr). destruct ds as [|d0 ds]; [now elim NEd|]. cbn [String.length Nat.add].
           rewrite SG. rewrite <- Ed. exact FIN.
        -- apply (digits_first is_sign ds _ Dd); [intros; now apply digit_not | now intros ->].
    + apply (mantissa_nb is_sign a dot b _ Da Db NE C2); [intros; now apply digit_not | reflexivity].
    + apply first_of; [apply sign_first; auto | intros ->]. apply (mantissa_nb is_space a dot b _ Da Db NE C2); [intros; now apply digit_not | reflexivity].
Qed.

(** strtod *)
Lemma strip_ci_out : forall p s r, strip_ci p s = Some r <-> exists w, s = w ^^ r /\ same_ci p w.
Proof.
  induction p as [|a p IH]; intros s r; cbn [strip_ci].
  - split; [intros H; injection H as ->; exists ""; now split | intros [w [-> S]]; destruct w; [reflexivity | elim S]].
  - destruct s as [|b s].
    + split; [discriminate | intros [w [E S]]]. destruct w; [elim S | discriminate E].
    + destruct (Ascii.eqb a (lower b)) eqn:E.
      * rewrite IH. split; intros [w [H S]].
        -- subst s. exists (String b w). split; [reflexivity|]. split; [now apply Ascii.eqb_eq | exact S].
        -- destruct w as [|b' w]; [elim S|]. destruct S as [S1 S2]. cbn in H. injection H as -> ->. now exists w.
      * split; [discriminate|]. intros [w [Ew S]]. destruct w as [|b' w]; [elim S|]. destruct S as [S1 S2]. cbn in Ew. injection Ew as <- ->.
        apply Ascii.eqb_neq in E. contradiction.
Qed.

Lemma skip_hex_out : forall s n, let '(k, r) := skip_hex n s in
  exists a, s = a ^^ r /\ hexdigits a /\ not_first is_hex r /\ k = n + String.length a.
Proof.
  induction s as [|c s IH]; intros n; cbn [skip_hex].
  - exists "". cbn. repeat split; auto.
  - destruct (is_hex c) eqn:Ec.
    + specialize (IH (S n)). destruct (skip_hex _ s) as [k r].
      destruct IH as [a [E [D [F K]]]]. exists (String c a). cbn. rewrite <- E. repeat split; auto; lia.
    + exists "". cbn. repeat split; auto.
Qed.
Lemma skip_hex_in : forall a r n, hexdigits a -> not_first is_hex r -> skip_hex n (a ^^ r) = (n + String.length a, r).
Proof.
  induction a as [|c a IH]; intros r n D F; cbn in *.
  - destruct r as [|c r]; cbn in *; [|rewrite F]; now rewrite Nat.add_0_r.
  - destruct D as [D1 D2]. rewrite D1, (IH r _ D2 F). now rewrite <- plus_n_Sm.
Qed.
Lemma skip_nchar_in : forall q r, all_chars is_nchar q -> not_first is_nchar r -> skip_nchar (q ^^ r) = r.
Proof.
  induction q as [|c q IH]; intros r D F; cbn in *.
  - destruct r as [|c r]; cbn in *; [|rewrite F]; reflexivity.
  - destruct D as [D1 D2]. rewrite D1. now apply IH.
Qed.
Lemma skip_nchar_out : forall s, exists q, s = q ^^ skip_nchar s /\ all_chars is_nchar q.
Proof.
  induction s as [|c s [q [E Q]]]; [now exists ""|]. cbn [skip_nchar]. destruct (is_nchar c) eqn:Ec.
  - exists (String c q). cbn. rewrite <- E. now repeat split.
  - now exists "".
Qed.

Lemma skip_exp_all : forall x s, skip_exp x s = "" <-> exponent x s.
Proof.
  intros x s. split.
  - destruct s as [|c r]; [now left|]. cbn [skip_exp]. destruct (x c) eqn:Xc; [|discriminate].
    pose proof (take_sign_out r) as T. destruct (take_sign r) as [n r1]. destruct T as [sg [Sg [E _]]].
    pose proof (take_digits_out r1 0 0) as D. destruct (take_digits 0 0 r1) as [[v k] r2]. destruct D as [ds [E1 [Dd [_ [_ K]]]]].
    destruct k as [|k]; [discriminate|]. intros ->. right. exists c, sg, ds. rewrite app_nil_s in E1. subst r1.
    repeat split; auto; [intros ->; discriminate K | now rewrite E].
  - intros [-> | [c [sg [ds [Xc [Sg [Dd [NE ->]]]]]]]]; [reflexivity|]. cbn [skip_exp]. rewrite Xc, take_sign_in; auto.
    + pose proof (take_digits_in ds "" 0 0 Dd Logic.I) as T. rewrite app_nil_s in T. rewrite T. destruct ds; [now elim NE | reflexivity].
    + rewrite <- (app_nil_s ds). apply (digits_first is_sign ds "" Dd); [intros; now apply digit_not | now intros _].
Qed.
Lemma exponent_first : forall x p e, exponent x e -> (forall c, x c = true -> p c = false) -> not_first p e.
Proof. intros x p e [-> | [c [sg [ds [Xc [_ [_ [_ ->]]]]]]]] H; [exact Logic.I | now apply H]. Qed.

Lemma strtod_dec_all : forall s, strtod_dec s = Some "" <-> exists m e, mantissa is_digit m /\ exponent is_e e /\ s = m ^^ e.
Proof.
  intros s. unfold strtod_dec. split.
  - pose proof (take_mantissa_out s) as M. destruct (take_mantissa s) as [[[v nd] nf] r].
    destruct M as [a [dot [b [E [Da [Db [Hn [_ [_ [_ C]]]]]]]]]]. destruct nd as [|nd]; [discriminate|]. intros H. injection H as H.
    exists (a ^^ dot ^^ b), r. split; [|split; [now apply skip_exp_all | now rewrite !app_assoc_s]].
    exists a, b. repeat split; auto.
    + destruct a; [right; intros ->; discriminate Hn | left; discriminate].
    + destruct C as [-> | [-> [-> _]]]; [now right | left; split; [cbn; now rewrite app_nil_s | reflexivity]].
  - intros [m [e [[a [b [Da [Db [NE Em]]]]] [X ->]]]].
    assert (N1 : not_first is_digit e).
    { apply (exponent_first is_e _ _ X). intros c. destruct c as [[] [] [] [] [] [] [] []]; try discriminate; reflexivity. }
    assert (N2 : not_first (Ascii.eqb ".") e).
    { apply (exponent_first is_e _ _ X). intros c. destruct c as [[] [] [] [] [] [] [] []]; try discriminate; reflexivity. }
    assert (Q : take_mantissa (m ^^ e) = (digits_value 0 (a ^^ b), String.length (a ^^ b), String.length b, e)).
    { destruct Em as [[-> ->] | ->].
      - rewrite <- (take_mantissa_in a "" "" e Da Logic.I N1); auto.
      - rewrite !app_assoc_s. rewrite <- (take_mantissa_in a "." b e Da Db N1); auto. }
    rewrite Q. destruct (String.length (a ^^ b)) eqn:K; [apply len0, app_nil_inv in K; tauto|]. f_equal. now apply skip_exp_all.
Qed.
Lemma strtod_hex_all : forall s, strtod_hex s = Some "" <-> exists m e, mantissa is_hex m /\ exponent is_p e /\ s = m ^^ e.
Proof.
  intros s. unfold strtod_hex. split.
  - pose proof (skip_hex_out s 0) as M. destruct (skip_hex 0 s) as [n1 r1]. destruct M as [a [E [Da [N1 K1]]]].
    destruct (dot_dec r1) as [[r ->]|[Nd M]].
    + pose proof (skip_hex_out r 0) as M. destruct (skip_hex 0 r) as [n2 r2]. destruct M as [b [E2 [Db [N2 K2]]]].
      destruct (n1 + n2) as [|k] eqn:Q; [discriminate|]. intros H. injection H as H. exists (a ^^ "." ^^ b), r2.
      split; [|split; [now apply skip_exp_all | cbn; rewrite !app_assoc_s; cbn; now rewrite E, E2]].
      exists a, b. repeat split; auto. destruct a; [right; intros ->; cbn in *; lia | left; discriminate].
    + rewrite (M _ (fun r => skip_hex 0 r) (0, r1)). destruct (n1 + 0) as [|k] eqn:Q; [discriminate|]. intros H. injection H as H.
      exists a, r1. split; [|split; [now apply skip_exp_all | exact E]]. exists a, "". repeat split; auto. left. intros ->. cbn in *. lia.
  - intros [m [e [[a [b [Da [Db [NE Em]]]]] [X ->]]]].
    assert (N1 : not_first is_hex e).
    { apply (exponent_first is_p _ _ X). intros c. destruct c as [[] [] [] [] [] [] [] []]; try discriminate; reflexivity. }
    assert (N2 : not_first (Ascii.eqb ".") e).
    { apply (exponent_first is_p _ _ X). intros c. destruct c as [[] [] [] [] [] [] [] []]; try discriminate; reflexivity. }
    destruct Em as [[-> ->] | ->].
    + rewrite (skip_hex_in a e 0 Da N1). destruct (dot_dec e) as [[r ->]|[_ M]]; [discriminate N2|].
      rewrite (M _ (fun r => skip_hex 0 r) (0, e)). destruct a; [destruct NE as [N|N]; now elim N|]. cbn [String.length Nat.add].
      f_equal. now apply skip_exp_all.
    + rewrite !app_assoc_s. rewrite (skip_hex_in a _ 0 Da) by reflexivity. cbn [append]. rewrite (skip_hex_in b e 0 Db N1).
      destruct (0 + String.length a + (0 + String.length b)) eqn:K.
      { assert (Ka : String.length a = 0) by lia. assert (Kb : String.length b = 0) by lia. apply len0 in Ka, Kb. tauto. }
      f_equal. now apply skip_exp_all.
Qed.

Lemma strip_none : forall p s, strip_ci p s = None <-> forall w r, s = w ^^ r -> ~ same_ci p w.
Proof.
  intros p s. split.
  - intros H w r E S. assert (X : strip_ci p s = Some r) by (apply strip_ci_out; now exists w). congruence.
  - intros H. destruct (strip_ci p s) as [r|] eqn:X; [|reflexivity]. apply strip_ci_out in X. destruct X as [w [E S]]. now elim (H w r E).
Qed.
Lemma strip_first : forall a p s, not_first (fun c => Ascii.eqb a (lower c)) s -> strip_ci (String a p) s = None.
Proof. intros a p [|c s] H; [reflexivity|]. cbn in *. now rewrite H. Qed.
Lemma strip_self : forall p w r, same_ci p w -> strip_ci p (w ^^ r) = Some r.
Proof. intros. apply strip_ci_out. now exists w. Qed.
Lemma strip_self0 : forall p w, same_ci p w -> strip_ci p w = Some "".
Proof. intros. apply strip_ci_out. exists w. now rewrite app_nil_s. Qed.
Lemma ci_length : forall p w, same_ci p w -> String.length w = String.length p.
Proof. induction p as [|a p IH]; intros [|b w] S; try elim S; [reflexivity|]. intros _ S2. cbn. f_equal. now apply IH. Qed.

(** after the blanks and the sign *)
Definition subject_body (s1 : str) : option str :=
  match strip_ci "infinity" s1 with
  | Some r => Some r
  | None =>
  match strip_ci "inf" s1 with
  | Some r => Some r
  | None =>
  match strip_ci "nan" s1 with
  | Some r =>
      match r with
      | String "(" r1 => match skip_nchar r1 with
                         | String ")" r2 => Some r2
                         | _ => Some r
                         end
      | _ => Some r
      end
  | None =>
  match strip_ci "0x" s1 with
  | Some r => match strtod_hex r with
              | Some q => Some q
              | None => strtod_dec s1
              end
  | None => strtod_dec s1
  end end end end.
Lemma ci_first : forall p w a, same_ci (String a p) w -> exists c r, w = String c r /\ a = lower c.
Proof. intros p [|c r] a S; [elim S|]. exists c, r. split; [reflexivity | apply S]. Qed.
Lemma body_first : forall b, number_body b -> exists c r, b = String c r /\ (c = "." \/ is_digit c = true \/ "i" = lower c \/ "n" = lower c)%char.
Proof.
  intros b B. destruct B as [m e [a [b [Da [Db [NE Em]]]]] X|x m e S _ _|w S|w S|w S|w q S _].
  - destruct Em as [[-> ->] | ->]; destruct a as [|c a]; try (destruct NE as [N|N]; now elim N).
    + exists c, (a ^^ e). split; [reflexivity | right; left; apply Da].
    + exists "."%char, (b ^^ e). split; [reflexivity | now left].
    + exists c, ((a ^^ "." ^^ b) ^^ e). split; [reflexivity | right; left; apply Da].
  - apply ci_first in S. destruct S as [c [r [-> L]]]. exists c, (r ^^ m ^^ e). split; [reflexivity|]. right. left.
    revert L. destruct c as [[] [] [] [] [] [] [] []]; try discriminate; reflexivity.
  - apply ci_first in S. destruct S as [c [r [-> L]]]. exists c, r. auto.
  - apply ci_first in S. destruct S as [c [r [-> L]]]. exists c, r. auto.
  - apply ci_first in S. destruct S as [c [r [-> L]]]. exists c, r. auto.
  - apply ci_first in S. destruct S as [c [r [-> L]]]. exists c, (r ^^ "(" ^^ q ^^ ")"). auto.
Qed.
Lemma first_lower : forall c, (c = "." \/ is_digit c = true \/ "i" = lower c \/ "n" = lower c)%char -> is_space c = false /\ is_sign c = false.
Proof.
  intros c [-> | [H|[H|H]]]; [now split| | |]; revert H; destruct c as [[] [] [] [] [] [] [] []]; try discriminate; now split.
Qed.
Lemma dec_first : forall m e p, mantissa is_digit m -> (forall c, c = "."%char \/ is_digit c = true -> p c = false) -> not_first p (m ^^ e).
Proof.
  intros m e p [a [b [Da [Db [NE Em]]]]] P. destruct Em as [[-> ->] | ->]; destruct a as [|c a]; try (destruct NE as [N|N]; now elim N); cbn;
    apply P; [right; apply Da | now left | right; apply Da].
Qed.

Lemma body_in : forall b, number_body b -> subject_body b = Some "".
Proof.
  intros b B. unfold subject_body. destruct B as [m e M X|x m e S M X|w S|w S|w S|w q S Q].
  - rewrite !strip_first by (apply (dec_first m e _ M); intros c [-> | H]; [reflexivity|]; revert H; destruct c as [[] [] [] [] [] [] [] []]; try discriminate; reflexivity).
    assert (R : strtod_dec (m ^^ e) = Some "") by (apply strtod_dec_all; now exists m, e).
    destruct (strip_ci "0x" (m ^^ e)) as [r|] eqn:X0; [exfalso | exact R].
    apply strip_ci_out in X0. destruct X0 as [w [E S]]. destruct w as [|c1 [|c2 w]]; try (cbn in S; tauto). destruct S as [_ [S2 _]].
    destruct M as [a [b [Da [Db [NE Em]]]]].
    assert (Ex : is_e c2 = false /\ is_digit c2 = false /\ c2 <> "."%char).
    { revert S2. destruct c2 as [[] [] [] [] [] [] [] []]; try discriminate; repeat split; discriminate. }
    destruct Ex as [X1 [X2 X3]]. assert (XE : not_first (fun c => Ascii.eqb c c2) e).
    { apply (exponent_first is_e _ _ X). intros c Hc. apply Ascii.eqb_neq. intros ->. congruence. }
    destruct Em as [[-> ->] | ->].
    + destruct a as [|a1 [|a2 a]]; cbn in E; [destruct NE as [N|N]; now elim N| |].
      * injection E as _ E. rewrite E in XE. cbn in XE. now rewrite Ascii.eqb_refl in XE.
      * injection E as _ -> _. destruct Da as [_ [Da2 _]]. congruence.
    + destruct a as [|a1 [|a2 a]]; cbn in E.
      * destruct b as [|b1 b]; [destruct NE as [N|N]; now elim N|]. cbn in E. injection E as _ -> _. destruct Db as [Db1 _]. congruence.
      * injection E as _ E. congruence.
      * injection E as _ -> _. destruct Da as [_ [Da2 _]]. congruence.
  - pose proof (ci_first _ _ _ S) as [c [r [-> L]]].
    rewrite !strip_first by (cbn [append not_first]; rewrite <- L; reflexivity).
    rewrite (strip_self _ _ (m ^^ e) S). assert (R : strtod_hex (m ^^ e) = Some "") by (apply strtod_hex_all; now exists m, e). now rewrite R.
  - assert (H : strip_ci "infinity" w = None).
    { apply strip_none. intros v r -> S2. apply ci_length in S, S2. rewrite length_app_s in S. cbn in *. lia. }
    rewrite H, (strip_self0 _ _ S). reflexivity.
  - now rewrite (strip_self0 _ _ S).
  - pose proof (ci_first _ _ _ S) as [c [r [-> L]]]. rewrite !strip_first by (cbn [append not_first]; rewrite <- L; reflexivity).
    now rewrite (strip_self0 _ _ S).
  - pose proof (ci_first _ _ _ S) as [c [r [-> L]]]. rewrite !strip_first by (cbn [append not_first]; rewrite <- L; reflexivity).
    rewrite (strip_self _ _ ("(" ^^ q ^^ ")") S). cbn [append]. now rewrite (skip_nchar_in q ")" Q).
Qed.
Lemma paren_dec : forall c0 s, (c0 = "("%char \/ c0 = ")"%char) -> (exists r, s = String c0 r) \/ (forall r, s <> String c0 r).
Proof.
  intros c0 [|c s] _; [right; discriminate|]. destruct (ascii_dec c c0) as [->|N]; [left; now exists s | right]. intros r E. congruence.
Qed.
Lemma body_out : forall b, subject_body b = Some "" -> number_body b.
Proof.
  intros b. unfold subject_body.
  destruct (strip_ci "infinity" b) as [r|] eqn:X1.
  { intros H. injection H as ->. apply strip_ci_out in X1. destruct X1 as [w [-> S]]. rewrite app_nil_s. now apply NB_infinity. }
  destruct (strip_ci "inf" b) as [r|] eqn:X2.
  { intros H. injection H as ->. apply strip_ci_out in X2. destruct X2 as [w [-> S]]. rewrite app_nil_s. now apply NB_inf. }
  assert (D : strtod_dec b = Some "" -> number_body b).
  { intros H. apply strtod_dec_all in H. destruct H as [m [e [M [X ->]]]]. now apply NB_dec. }
  destruct (strip_ci "nan" b) as [r|] eqn:X3.
  { apply strip_ci_out in X3. destruct X3 as [w [-> S]]. intros H. destruct r as [|c r]; [rewrite app_nil_s; now apply NB_nan|].
    destruct (ascii_dec c "(") as [->|N].
    - destruct (skip_nchar_out r) as [q [E Q]]. destruct (skip_nchar r) as [|c r2]; [discriminate H|].
      destruct (ascii_dec c ")") as [->|N]; [injection H as ->; rewrite E; now apply NB_nan_seq|].
      exfalso. destruct c as [[] [] [] [] [] [] [] []]; try discriminate H; auto.
    - exfalso. destruct c as [[] [] [] [] [] [] [] []]; try discriminate H; auto. }
  destruct (strip_ci "0x" b) as [r|] eqn:X4; [|exact D].
  destruct (strtod_hex r) as [q|] eqn:X5; [|exact D]. intros H. injection H as ->.
  apply strip_ci_out in X4. destruct X4 as [w [-> S]]. apply strtod_hex_all in X5. destruct X5 as [m [e [M [X ->]]]]. now apply NB_hex.
Qed.

Theorem strtod_grammar : forall s, strtod_subject s = Some "" <-> number_text s.
Proof.
  intros s. assert (EQ : strtod_subject s = subject_body (snd (take_sign (skip_space s)))).
  { unfold strtod_subject. destruct (take_sign (skip_space s)) as [n r]. reflexivity. }
  rewrite EQ. split.
  - destruct (skip_space_out s) as [sp [Es [Bs _]]]. pose proof (take_sign_out (skip_space s)) as T.
    destruct (take_sign (skip_space s)) as [neg s1]. destruct T as [sg [Sg [E1 _]]]. intros H. apply body_out in H.
    exists sp, sg, s1. repeat split; auto. now rewrite <- E1.
  - intros [sp [sg [b [Bs [Sg [B ->]]]]]]. pose proof (body_first b B) as [c [r [Eb Fc]]]. destruct (first_lower c Fc) as [F1 F2].
    rewrite skip_space_in, take_sign_in; auto.
    + now apply body_in.
    + rewrite Eb. exact F2.
    + apply first_of; [apply sign_first; auto | intros ->; rewrite Eb; exact F1].
Qed.
