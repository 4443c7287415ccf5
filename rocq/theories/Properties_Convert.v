(** Properties_Convert.v -- C57: the conversion of an Argument to an arithmetic type
    (argument.h operator T(): [int n = args["-n"];]).  [to_arith t a] is the outcome of
    the conversion to type [t]; the numbers are those of Spec_Number.v and Spec_Double.v. *)
From Coq Require Import Lqa Lia.
From Verif Require Import Base Model_Utils Model_Number Model_Types Model_Argument Model_Usage Model_Args Model_Api Model_Double
  Spec_Reading Spec_Parse Spec_History Spec_Api Spec_Result Spec_Finish Spec_Number Spec_Double
  Proofs_Base Proofs_Inv Proofs_Central Proofs_Check Demo Proofs_Number Proofs_Shape Proofs_Double
  Properties_Views Properties_Double Properties_Number Properties_MinMax.
Local Open Scope Z_scope.

Lemma number_type : forall t a d, t <> NtBool -> getNumber a = Ok d -> to_arith t a = Ok (convert t (number_double d)).
Proof. intros [] a d T G; unfold to_arith; rewrite ?G; try reflexivity. now elim T. Qed.

(** After a successful parse, an argument with one value that begins with the number [d]
    converts to double as the double next to [d], to float as the float next to this double,
    to an integer type as the integer part of this double if it fits (otherwise the
    conversion is undefined behaviour) ... *)
Theorem C57_conversion : forall s argv ws s' a d y, usable s -> interprets s -> command_line argv ws -> parseArguments argv s = (s', Ok tt) ->
  In a (arguments s') -> has_values (a_cfg a) = true -> d_elems (a_dyn a) = [] ->
  begins_with_number (getString a) d -> representable d -> nearest_double (dec_value d) y ->
  (exists v, to_arith NtDouble a = Ok v /\ holds_number v y) /\
  (forall z, nearest_float y z -> (Qabs z < 2 ^ 128)%Q -> exists v, to_arith NtFloat a = Ok v /\ holds_number v z) /\
  (forall z lo hi, integer_part y z ->
     (lo <= z <= hi -> to_arith (NtInt lo hi) a = Ok (NvInt z)) /\ (~ lo <= z <= hi -> to_arith (NtInt lo hi) a = Ok NvUndefined)).
Proof.
  intros s argv ws s' a d y U I C P IA HV E B R N. pose proof (C51_numbers s argv ws s' a U I C P IA HV) as NU. rewrite E in NU.
  destruct NU as [NU _]. specialize (NU d). apply proj2 in NU. specialize (NU (conj B R)). change (getNumber a = Ok d) in NU.
  destruct (number_value d y R N) as [(neg & m & e & ED & M & V) BD]. split; [| split].
  - exists (NvDouble (DFin neg m e)). split; [rewrite (number_type _ a d) by (exact NU || discriminate); cbn [convert]; now rewrite ED |].
    exists neg, m, e. auto.
  - intros z F ZB. pose proof (fraction_spec 2 m e ltac:(lia) M) as FS.
    eexists. split; [rewrite (number_type _ a d) by (exact NU || discriminate); cbn [convert]; rewrite ED; reflexivity |].
    destruct (fraction 2 m e) as [p q]. destruct FS as (PP & QQ & PQ).
    pose proof (nearest_eq _ _ _ _ _ _ (Qeq_sym _ _ V) (Qeq_refl z) F) as F'. apply nearest_unsigned in F'.
    assert (M0 : (0 <= inject_Z m * 2 ^ e)%Q). { apply Qmult_le_0_compat; [change 0%Q with (inject_Z 0); rewrite <- Zle_Qle; exact M | apply Qlt_le_weak, pow2_pos]. }
    pose proof (nearest_sign 24 (-149) _ _ ltac:(lia) F' M0) as Z0.
    assert (AB : (Qabs z == with_sign neg z)%Q). { rewrite <- (Qabs_with_sign neg z). apply Qabs_pos, Z0. }
    destruct (rounded_spec 24 (-149) 128 neg p q (with_sign neg z) ltac:(lia) ltac:(lia) PP QQ) as [R1 _].
    { eapply nearest_eq; [symmetry; exact PQ | reflexivity | exact F']. }
    destruct R1 as (m' & e' & R' & M' & _ & V'). { rewrite <- AB. exact ZB. }
    exists neg, m', e'. rewrite R'. split; [reflexivity |]. split; [exact M' |]. rewrite (with_sign_eq neg _ _ V'). apply with_sign_inv.
  - intros z lo hi IP. rewrite (number_type _ a d) by (exact NU || discriminate). cbn [convert]. rewrite ED.
    pose proof (truncate_part neg m e M) as T. rewrite (integer_part_unique _ _ _ _ V T IP) in *.
    destruct (Z.leb_spec lo z); destruct (Z.leb_spec z hi); cbn [andb]; split; intro H1; try reflexivity; lia.
Qed.
Print Assumptions C57_conversion.

(** ... and one whose value does not begin with such a number, a flag, or an argument with
    several values cannot be converted: the exception says so, for every type but bool. *)
Theorem C57_no_number : forall s argv ws s' a t, usable s -> interprets s -> command_line argv ws -> parseArguments argv s = (s', Ok tt) ->
  In a (arguments s') -> t <> NtBool ->
  (c_type (a_cfg a) = BOOLEAN_OPTION \/ c_type (a_cfg a) = REVERSE_BOOLEAN_OPTION) \/
  (has_values (a_cfg a) = true /\ (d_elems (a_dyn a) <> [] \/ forall d, begins_with_number (getString a) d -> ~ representable d)) ->
  to_arith t a = Throw not_number.
Proof.
  intros s argv ws s' a t U I C P IA T H. assert (G : getNumber a = Throw not_number).
  { destruct H as [H | [HV [H | H]]].
    - exact (proj2 (C51_not_numbers s argv ws s' a U I C P IA (or_introl H))).
    - exact (proj2 (C51_not_numbers s argv ws s' a U I C P IA (or_intror (conj HV H)))).
    - destruct (d_elems (a_dyn a)) as [| e es] eqn:E.
      + pose proof (C51_numbers s argv ws s' a U I C P IA HV) as NU. rewrite E in NU. destruct NU as [_ [(d & B & R) | NU]]; [exact (False_ind _ (H d B R)) | exact NU].
      + apply (C51_not_numbers s argv ws s' a U I C P IA). right. split; [exact HV | rewrite E; discriminate]. }
  unfold to_arith. rewrite G. destruct t; try reflexivity. now elim T.
Qed.
Print Assumptions C57_no_number.

(** The conversion to bool does not look at the value: it tells whether the argument was
    given (for STORE_FALSE, whether it was not). *)
Theorem C57_bool : forall a, (to_arith NtBool a = Ok (NvBool true) <-> (isExists a = true <-> c_type (a_cfg a) <> REVERSE_BOOLEAN_OPTION)) /\
  (to_arith NtBool a = Ok (NvBool false) <-> (isExists a = true <-> c_type (a_cfg a) = REVERSE_BOOLEAN_OPTION)).
Proof.
  intro a. unfold to_arith, to_bool. destruct (d_exist (a_dyn a)) eqn:D; destruct (c_type (a_cfg a)) eqn:T; cbn [negb];
    split; split; intro H; try reflexivity; try discriminate H; try (split; [intros _; first [reflexivity | discriminate] | intros _; reflexivity]);
    try (split; intro X; [discriminate X | first [discriminate X | now elim X]]);
    destruct H as [H1 H2]; try (specialize (H1 eq_refl)); try discriminate H1; try (now elim H1); try (specialize (H2 eq_refl)); try discriminate H2;
    try (discriminate (H2 ltac:(discriminate))).
Qed.
Print Assumptions C57_bool.

(** The conversion and a destination of the same integer type agree on every value that
    begins with a decimal number ... *)
Definition hexadecimal (v : str) : Prop := exists sp sg s, v = sp ^^ sg ^^ s /\ blanks sp /\ sign sg /\ hex_at s.
Lemma decimal_number : forall v d, begins_with_number v d -> ~ hexadecimal v ->
  exists neg x, number_at v neg x /\ (with_sign neg x == dec_value d)%Q.
Proof.
  intros v d (sp & sg & a & dot & b & ex & rest & EV & BL & SG & DA & DB & AB & DOT & NF & EX) H.
  assert (X : exists e, exponent_at is_e (ex ^^ rest) e /\ d = (signed sg (digits_value 0 (a ^^ b)), e - Z.of_nat (String.length b))).
  { destruct EX as [(-> & NE & ->) | (c & esg & ds & IE & ES & DS & DN & -> & ND & ->)].
    - exists 0. split; [| reflexivity]. right. split; [| reflexivity]. intros c sg' ds r E C. cbn in E. rewrite E in NE. cbn in NE. congruence.
    - exists (signed esg (digits_value 0 ds)). split; [| reflexivity]. left. exists c, esg, ds, rest. split; [cbn; now rewrite app_assoc_s |]. auto 8. }
  destruct X as (e & EA & ->).
  exists (String.eqb sg "-"), (inject_Z (digits_value 0 (a ^^ b)) * 10 ^ (e - Z.of_nat (String.length b)))%Q. split.
  - exists sp, sg, (a ^^ dot ^^ b ^^ ex ^^ rest). split; [exact EV |]. split; [exact BL |]. split; [exact SG |]. split; [reflexivity |].
    apply (BV_dec _ a b (ex ^^ rest)); [| | exact EA].
    + exists dot. split; [reflexivity |]. split; [exact DA |]. split; [exact DB |]. split; [exact AB |]. split; [| exact NF]. tauto.
    + intro HX. apply H. exists sp, sg, (a ^^ dot ^^ b ^^ ex ^^ rest). auto.
  - unfold dec_value, signed. cbn [fst snd]. destruct (String.eqb sg "-"); cbn [with_sign]; [rewrite inject_Z_opp; ring | reflexivity].
Qed.
Theorem C57_agrees : forall s argv ws s' a d lo hi, usable s -> interprets s -> command_line argv ws -> parseArguments argv s = (s', Ok tt) ->
  In a (arguments s') -> has_values (a_cfg a) = true -> d_elems (a_dyn a) = [] ->
  begins_with_number (getString a) d -> representable d -> ~ hexadecimal (getString a) -> - 2 ^ 64 <= lo -> hi <= 2 ^ 64 ->
  to_arith (NtInt lo hi) a = Ok (strTo_num (NtInt lo hi) (getString a)).
Proof.
  intros s argv ws s' a d lo hi U I C P IA HV E B R H Lo Hi. destruct (decimal_number _ _ B H) as (neg & x & NA & X).
  destruct (nearest_exists 53 (-1074) (dec_value d) ltac:(lia)) as [y N].
  assert (N' : nearest_double (with_sign neg x) y) by (unfold nearest_double; eapply nearest_eq; [symmetry; exact X | reflexivity | exact N]).
  destruct (number_value d y R N) as [(neg' & m & e & ED & M & V) BD].
  pose proof (truncate_part neg' m e M) as T. assert (IP : integer_part y (truncate neg' m e)).
  { unfold integer_part in *. rewrite <- V. exact T. }
  destruct (C57_conversion s argv ws s' a d y U I C P IA HV E B R N) as (_ & _ & K). specialize (K _ lo hi IP).
  destruct (C53_integer_part _ _ _ _ _ lo hi NA N' IP Lo Hi) as [K1 K2].
  destruct (Z_le_dec lo (truncate neg' m e)) as [L1 | L1]; [destruct (Z_le_dec (truncate neg' m e) hi) as [L2 | L2] |].
  - rewrite K1 by auto. apply K. auto.
  - rewrite K2 by lia. apply K. lia.
  - rewrite K2 by lia. apply K. lia.
Qed.
Print Assumptions C57_agrees.
(** ... in particular on every whole number in decimal digits. *)
Lemma not_hex_digits : forall sg ds, sign sg -> digits ds -> ds <> "" -> ~ hexadecimal (sg ^^ ds).
Proof.
  intros sg ds S D N (sp & sg' & s & E & B & S' & (x & t & a & b & r & -> & X & _)).
  destruct x as [| x0 [| x1 x]]; cbn in X; try tauto. destruct X as (X0 & X1 & X2). destruct x; [| contradiction].
  assert (In "x"%char (map lower (list_ascii_of_string (sg ^^ ds)))).
  { rewrite E. rewrite X1. apply in_map.
    assert (IA : forall u v c, In c (list_ascii_of_string v) -> In c (list_ascii_of_string (u ^^ v))).
    { induction u as [| k u IH]; intros v c H; [exact H | right; apply IH, H]. }
    apply IA, IA. right. left. reflexivity. }
  apply in_map_iff in H. destruct H as (c & LC & IC).
  assert (AL : forall k, In k (list_ascii_of_string ds) -> is_digit k = true).
  { clear -D. induction ds as [| k ds IH]; intros c [] ; destruct D as [D0 D]; [subst; exact D0 | now apply IH]. }
  assert (CC : is_digit c = true \/ c = "+"%char \/ c = "-"%char).
  { destruct S as [-> | [-> | ->]]; cbn in IC; [left; now apply AL | destruct IC as [IC | IC]; [right; left; now rewrite IC | left; now apply AL] |
      destruct IC as [IC | IC]; [right; right; now rewrite IC | left; now apply AL]]. }
  destruct CC as [CC | [-> | ->]]; [| vm_compute in LC; discriminate LC | vm_compute in LC; discriminate LC].
  clear -CC LC. destruct c as [[] [] [] [] [] [] [] []]; vm_compute in LC; try discriminate LC; vm_compute in CC; discriminate CC.
Qed.
Lemma integer_begins : forall sg ds, sign sg -> digits ds -> ds <> "" -> begins_with_number (sg ^^ ds) (signed sg (digits_value 0 ds), 0).
Proof.
  intros sg ds S D N. exists "", sg, ds, "", "", "", "". rewrite !app_nil_s. cbn. split; [reflexivity |]. split; [exact Logic.I |]. split; [exact S |]. split; [exact D |].
  split; [exact Logic.I |]. split; [auto |]. split; [right; auto |]. split; [exact Logic.I |]. left. auto.
Qed.
Theorem C57_whole_numbers : forall s argv ws s' a sg ds lo hi, usable s -> interprets s -> command_line argv ws -> parseArguments argv s = (s', Ok tt) ->
  In a (arguments s') -> has_values (a_cfg a) = true -> d_elems (a_dyn a) = [] ->
  getString a = sg ^^ ds -> sign sg -> digits ds -> ds <> "" ->
  let z := signed sg (digits_value 0 ds) in Z.abs z <= 2 ^ 53 -> - 2 ^ 64 <= lo -> hi <= 2 ^ 64 -> lo <= z <= hi ->
  to_arith (NtInt lo hi) a = Ok (NvInt z).
Proof.
  intros s argv ws s' a sg ds lo hi U I C P IA HV E G S D N z Z Lo Hi R. subst z.
  pose proof (integer_begins sg ds S D N) as B. rewrite <- (C53_whole_numbers sg ds lo hi S D N Z Lo Hi R), <- G. rewrite <- G in B.
  apply (C57_agrees s argv ws s' a _ lo hi U I C P IA HV E B); [| rewrite G; now apply not_hex_digits | exact Lo | exact Hi].
  unfold representable. set (w := signed sg (digits_value 0 ds)) in *. change (0 <=? 0) with true. cbv iota. change (10 ^ (- 0)) with 1. rewrite Z.mul_1_r.
  apply Z.le_lt_trans with (2 ^ 53); [exact Z | reflexivity].
Qed.
Print Assumptions C57_whole_numbers.

(** ** Examples and surprises *)
(** [converted t v w]: with an option -n and the command line "-n v", the conversion of the
    argument to [t] gives [w] *)
Definition converted (t : num_type) (v : str) (w : res num_value) : Prop :=
  exists s', parseArguments ["prog"; "-n"; v] one_number = (s', Ok tt) /\ to_arith t (pick "-n" s') = w.
Ltac conv := eexists; split; [vm_compute; reflexivity | vm_compute; reflexivity].
Example C57_example : converted nt_int "-12.5e1" (Ok (NvInt (-125))) /\ converted nt_int "42km" (Ok (NvInt 42)) /\
  converted NtDouble "0.5" (Ok (NvDouble (DFin false 4503599627370496 (-53)))) /\ converted nt_uchar "300" (Ok NvUndefined) /\ converted nt_int "abc" (Throw not_number).
Proof. split; [conv |]. split; [conv |]. split; [conv |]. split; conv. Qed.
(** the hypotheses of C57_conversion, met *)
Example C57_hypotheses : usable one_number /\ interprets one_number /\ command_line ["prog"; "-n"; "-12.5e1"] ["-n"; "-12.5e1"] /\
  exists s', parseArguments ["prog"; "-n"; "-12.5e1"] one_number = (s', Ok tt) /\ In (pick "-n" s') (arguments s') /\ has_values (a_cfg (pick "-n" s')) = true /\
    d_elems (a_dyn (pick "-n" s')) = [] /\ getString (pick "-n" s') = "-12.5e1" /\ begins_with_number "-12.5e1" (-125, 0) /\ representable (-125, 0) /\
    nearest_double (dec_value (-125, 0)) (- (125)) /\ integer_part (- (125)) (-125).
Proof.
  split; [apply careful_usable, careful_history; vm_compute; reflexivity |]. split; [right; vm_compute; discriminate |].
  split; [line |].
  destruct (parseArguments ["prog"; "-n"; "-12.5e1"] one_number) as [s' r] eqn:E. exists s'.
  assert (ER : s' = fst (parseArguments ["prog"; "-n"; "-12.5e1"] one_number) /\ r = snd (parseArguments ["prog"; "-n"; "-12.5e1"] one_number)) by (rewrite E; auto).
  clear E. destruct ER as [-> ->].
  split; [vm_compute; reflexivity |]. split; [apply pick_In; vm_compute; reflexivity |].
  split; [vm_compute; reflexivity |]. split; [vm_compute; reflexivity |]. split; [vm_compute; reflexivity |].
  split; [apply (istream_grammar "-12.5e1" (-125, 0)); vm_compute; reflexivity |]. split; [vm_compute; reflexivity |].
  destruct C53_read as (_ & N & _ & IP). split; [| exact IP]. unfold nearest_double. eapply nearest_eq; [| reflexivity | exact N]. vm_compute. reflexivity.
Qed.
(** The conversion and the destination of the same option differ: on a hexadecimal number
    (16 or 0), on a number followed by the letter e (5 or an exception), on a text that is no
    number (0 or an exception), and for bool (false or true). *)
Theorem C57_disagreement :
  (typed nt_int "0x10" (NvInt 16) /\ converted nt_int "0x10" (Ok (NvInt 0))) /\
  (typed nt_int "5em" (NvInt 5) /\ converted nt_int "5em" (Throw not_number)) /\
  (typed nt_int "abc" (NvInt 0) /\ converted nt_int "abc" (Throw not_number)) /\
  (typed NtBool "0" (NvBool false) /\ converted NtBool "0" (Ok (NvBool true))).
Proof. split; [split; [type_it | conv] |]. split; [split; [type_it | conv] |]. split; [split; [type_it | conv] |]. split; [type_it | conv]. Qed.
Print Assumptions C57_disagreement.
