(** Properties_Words.v -- C38 (name=value) and C39 (classification of words). *)
From Verif Require Import Base Model_Utils Model_Types Spec_Names Spec_Reading Proofs_Base Proofs_Inv Proofs_Reading.

(* ------------------------------------------------------------------ *)
(** * C38 *)
(** the characters of a string *)
Fixpoint has_char (c : ascii) (s : str) : Prop :=
  match s with EmptyString => False | String d r => d = c \/ has_char c r end.

(** [takeArg w] = (is there an '=', name, value) *)
Theorem C38_split : forall w hasArg name value, takeArg w = (hasArg, name, value) ->
  ~ has_char "=" name /\
  (hasArg = true -> w = name ^^ "=" ^^ value) /\
  (hasArg = false -> name = w /\ value = "").
Proof.
  induction w as [|c w IH]; intros hasArg name value E; unfold takeArg in *; simpl in E.
  - injection E as <- <- <-. repeat split; try discriminate. simpl. tauto.
  - destruct (Ascii.eqb c equal_sign) eqn:Q.
    + injection E as <- <- <-. apply Ascii.eqb_eq in Q. subst c. repeat split; try discriminate. simpl. tauto.
    + apply Ascii.eqb_neq in Q. destruct (split_eq w) as [[n v]|].
      * injection E as <- <- <-. destruct (IH true n v eq_refl) as [A [B _]]. repeat split; try discriminate.
        -- simpl. intros [D|D]; [exact (Q D) | exact (A D)].
        -- intros _. rewrite (B eq_refl) at 1. reflexivity.
      * injection E as <- <- <-. destruct (IH false w "" eq_refl) as [A _]. repeat split; try discriminate.
        simpl. intros [D|D]; [exact (Q D) | exact (A D)].
Qed.
Print Assumptions C38_split.
(** hence the first '=' decides: any decomposition with a name without '=' is the one found *)
Theorem C38_unique : forall name value, ~ has_char "=" name ->
  takeArg (name ^^ "=" ^^ value) = (true, name, value).
Proof.
  intros name value. unfold takeArg. induction name as [|c n IH]; simpl; intros H; [reflexivity|].
  destruct (Ascii.eqb c equal_sign) eqn:Q; [apply Ascii.eqb_eq in Q; exfalso; apply H; now left|].
  specialize (IH (fun X => H (or_intror X))). simpl in IH. destruct (split_eq (n ^^ String "=" value)) as [[a b]|]; [|discriminate].
  now injection IH as -> ->.
Qed.
Print Assumptions C38_unique.
Theorem C38_none : forall w, ~ has_char "=" w -> takeArg w = (false, w, "").
Proof.
  intros w H. destruct (takeArg w) as [[b n] v] eqn:E. destruct (C38_split w b n v E) as [A [B C]]. destruct b.
  - exfalso. apply H. rewrite (B eq_refl). clear. induction n as [|c n IH]; simpl; [now left | now right].
  - destruct (C eq_refl) as [-> ->]. reflexivity.
Qed.
Print Assumptions C38_none.
Example C38_example : takeArg "--name=a=b" = (true, "--name", "a=b") /\ takeArg "-n" = (false, "-n", "") /\ takeArg "--name=" = (true, "--name", "").
Proof. now vm_compute. Qed.

(* ------------------------------------------------------------------ *)
(** * C39 *)
Definition short_word (w : str) : Prop := exists c r, w = String "-" (String c r) /\ c <> "-"%char.
Definition long_word (w : str) : Prop := exists c r, w = String "-" (String "-" (String c r)).
Definition end_word (w : str) : Prop := w = "--".
Definition plain_word (w : str) : Prop := w = "" \/ w = "-" \/ exists c r, w = String c r /\ c <> "-"%char.

(** every word is in exactly one class ... *)
Theorem C39_partition : forall w,
  (short_word w \/ long_word w \/ end_word w \/ plain_word w) /\
  ~ (short_word w /\ long_word w) /\ ~ (short_word w /\ end_word w) /\ ~ (short_word w /\ plain_word w) /\
  ~ (long_word w /\ end_word w) /\ ~ (long_word w /\ plain_word w) /\ ~ (end_word w /\ plain_word w).
Proof.
  intros w. unfold short_word, long_word, end_word, plain_word. split.
  - destruct w as [|a w]; [tauto|]. destruct (ascii_dec a "-") as [->|A].
    + destruct w as [|b w]; [tauto|]. destruct (ascii_dec b "-") as [->|B].
      * destruct w as [|c w]; [tauto|]. right; left. eauto.
      * left. eauto.
    + right; right; right; right; right. eauto.
  - repeat split.
    + intros [[c [r [-> H]]] [c' [r' X]]]. injection X as -> _. now apply H.
    + intros [[c [r [-> H]]] X]. injection X as -> _. now apply H.
    + intros [[c [r [-> H]]] [X|[X|[c' [r' [X Y]]]]]]; try discriminate. injection X as <- _. now apply Y.
    + intros [[c [r ->]] X]. discriminate.
    + intros [[c [r ->]] [X|[X|[c' [r' [X Y]]]]]]; try discriminate. injection X as <- _. now apply Y.
    + intros [-> [X|[X|[c' [r' [X Y]]]]]]; try discriminate. injection X as <- _. now apply Y.
Qed.
Print Assumptions C39_partition.
Lemma kind_class : forall w, match word_kind w with WShort => short_word w | WLong => long_word w | WEnd => end_word w | WPlain => plain_word w end.
Proof.
  intros w. unfold short_word, long_word, end_word, plain_word. destruct w as [|a w]; [now left|]. unfold word_kind.
  destruct (Ascii.eqb a "-") eqn:A; [apply Ascii.eqb_eq in A; subst a|apply Ascii.eqb_neq in A; right; right; eauto].
  destruct w as [|b w]; [now right; left|]. destruct (Ascii.eqb b "-") eqn:B; [apply Ascii.eqb_eq in B; subst b|apply Ascii.eqb_neq in B; eauto].
  destruct w as [|c w]; eauto.
Qed.
(** ... and the three tests of the library tell which (on C strings) *)
Theorem C39_meaning : forall w, cstr w = true ->
  (isShortOption w = true <-> short_word w) /\
  (isLongOption w = true <-> long_word w) /\
  (isEndOption w = true <-> end_word w) /\
  (isShortOption w = false /\ isLongOption w = false /\ isEndOption w = false <-> plain_word w).
Proof.
  intros w H. destruct (kind_spec w H) as [-> [-> ->]]. pose proof (kind_class w) as K. pose proof (C39_partition w) as P.
  destruct (word_kind w); intuition discriminate.
Qed.
Print Assumptions C39_meaning.
Example C39_example : short_word "-x" /\ long_word "--x" /\ end_word "--" /\ plain_word "-" /\ plain_word "" /\ short_word "-1" /\ plain_word "a-b".
Proof.
  unfold short_word, long_word, end_word, plain_word. repeat split; eauto.
  - exists "x"%char, "". split; [reflexivity|discriminate].
  - exists "1"%char, "". split; [reflexivity|discriminate].
  - right; right. exists "a"%char, "-b". split; [reflexivity|discriminate].
Qed.
