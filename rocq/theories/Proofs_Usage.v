(** Proofs_Usage.v -- wrapping and layout of the usage text. *)
From Verif Require Import Base Model_Utils Model_Types Model_Argument Model_Usage Model_Args Spec_Reading Spec_Finish Spec_Api Spec_Usage Proofs_Number.

(** split *)
Lemma split_nonempty : forall p s, split_at p s <> [].
Proof. intros p [|c s]; cbn; [discriminate|]. destruct (p c); [discriminate|]. now destruct (split_at p s). Qed.
Lemma split_app : forall p a c b, p c = true -> split_at p (a ^^ String c b) = split_at p a ++ split_at p b.
Proof.
  intros p a c b Pc. induction a as [|x a IH]; cbn [append split_at].
  - now rewrite Pc.
  - destruct (p x); [now rewrite IH|]. rewrite IH. pose proof (split_nonempty p a). destruct (split_at p a); [contradiction | reflexivity].
Qed.
Lemma words_app : forall a c b, blank c = true -> words (a ^^ String c b) = words a ++ words b.
Proof. intros. unfold words. rewrite split_app by auto. apply filter_app. Qed.
Lemma words_blank : forall c b, blank c = true -> words (String c b) = words b.
Proof. intros c b B. exact (words_app "" c b B). Qed.
Lemma words_spaces : forall n b, words (spaces n ^^ b) = words b.
Proof. induction n as [|n IH]; intros b; [reflexivity|]. cbn [spaces append]. rewrite words_blank by reflexivity. apply IH. Qed.
Lemma words_gap : forall a n b, words (a ^^ spaces (S n) ^^ b) = words a ++ words b.
Proof. intros. cbn [spaces append]. rewrite words_app by reflexivity. now rewrite words_spaces. Qed.
Lemma words_nl : forall a b, words (a ^^ nl ^^ b) = words a ++ words b.
Proof. intros. apply words_app. reflexivity. Qed.
Lemma words_nl_spaces : forall a n b, words (a ^^ nl ^^ spaces n ^^ b) = words a ++ words b.
Proof. intros. rewrite words_nl. now rewrite words_spaces. Qed.
Lemma words_sp : forall a b, words (a ^^ " " ^^ b) = words a ++ words b.
Proof. intros. apply words_app. reflexivity. Qed.
Lemma words_skip : forall s, words (skip_sp s) = words s.
Proof.
  induction s as [|c s IH]; [reflexivity|]. cbn [skip_sp]. destruct (Ascii.eqb_spec c space) as [->|]; [|reflexivity].
  rewrite IH. symmetry. now apply words_blank.
Qed.
Lemma words_nl0 : forall b, words (nl ^^ b) = words b.
Proof. intros. exact (words_nl "" b). Qed.

(** cutting *)
Lemma stake_sdrop : forall n s, stake n s ^^ sdrop n s = s.
Proof. induction n as [|n IH]; intros [|c s]; cbn; try reflexivity. now rewrite IH. Qed.
Lemma rfind_none : forall c s w, rfind c s w = None -> forall q, q <= w -> String.get q s <> Some c.
Proof.
  intros c. induction s as [|x s IH]; intros w R q Q; cbn [rfind] in R; [destruct q; discriminate|].
  destruct w as [|w].
  - replace q with 0 by lia. cbn. destruct (Ascii.eqb_spec x c); [discriminate R | congruence].
  - destruct (rfind c s w) eqn:E; [discriminate R|]. destruct (Ascii.eqb_spec x c); [discriminate R|].
    destruct q as [|q]; cbn; [congruence|]. apply (IH w E). lia.
Qed.
Lemma rfind_some : forall c s w p, rfind c s w = Some p -> p <= w /\ p < String.length s /\ String.get p s = Some c /\
  (forall q, p < q <= w -> String.get q s <> Some c) /\ exists r, sdrop p s = String c r.
Proof.
  intros c. induction s as [|x s IH]; intros w p H; cbn [rfind] in H; [discriminate H|]. destruct w as [|w].
  - destruct (Ascii.eqb_spec x c) as [->|]; [|discriminate H]. injection H as <-. cbn. repeat split; try lia. now exists s.
  - destruct (rfind c s w) as [q|] eqn:R.
    + injection H as <-. apply IH in R. destruct R as [R1 [R2 [R3 [R4 R5]]]]. cbn. repeat split; auto; try lia.
      intros [|k] K; [lia|]. apply R4. lia.
    + destruct (Ascii.eqb_spec x c) as [->|]; [|discriminate H]. injection H as <-. cbn. repeat split; try lia; [|now exists s].
      intros [|k] K; [lia|]. apply (rfind_none c s w R). lia.
Qed.
Lemma stake_length : forall n s, n <= String.length s -> String.length (stake n s) = n.
Proof. induction n as [|n IH]; intros [|c s] L; cbn in *; try lia. rewrite IH; lia. Qed.
Lemma sdrop_length : forall n s, String.length (sdrop n s) = String.length s - n.
Proof. induction n as [|n IH]; intros [|c s]; cbn; auto. Qed.
Lemma skip_length : forall s, String.length (skip_sp s) <= String.length s.
Proof. induction s as [|c s IH]; cbn; [lia|]. destruct (Ascii.eqb c space); cbn; lia. Qed.
Lemma cut_shorter : forall w s p, rfind space s w = Some p -> String.length (skip_sp (sdrop p s)) < String.length s.
Proof.
  intros w s p H. apply rfind_some in H. destruct H as [_ [H [_ [_ [r E]]]]]. pose proof (sdrop_length p s) as L. rewrite E in *.
  cbn [skip_sp]. rewrite Ascii.eqb_refl. pose proof (skip_length r). cbn in L. lia.
Qed.
(** the loop finishes: with enough fuel the result does not depend on it *)
Theorem wrap_line_fuel : forall f f' w s, String.length s < f -> String.length s < f' -> wrap_line f w s = wrap_line f' w s.
Proof.
  induction f as [|f IH]; intros [|f'] w s H H'; try lia. cbn [wrap_line]. destruct (Nat.leb w (String.length s)); [|reflexivity].
  destruct (rfind space s w) as [p|] eqn:R; [|reflexivity]. f_equal. pose proof (cut_shorter w s p R). apply IH; lia.
Qed.
Lemma wrap_words : forall f w s, flat_map words (wrap_line f w s) = words s.
Proof.
  induction f as [|f IH]; intros w s; cbn [wrap_line]; [apply app_nil_r|]. destruct (Nat.leb w (String.length s)); [|apply app_nil_r].
  destruct (rfind space s w) as [p|] eqn:R; [|apply app_nil_r]. cbn [flat_map]. rewrite IH, words_skip.
  apply rfind_some in R. destruct R as [_ [_ [_ [_ [r E]]]]]. rewrite E, words_blank by reflexivity.
  rewrite <- (stake_sdrop p s) at 2. rewrite E. symmetry. apply words_app. reflexivity.
Qed.
Lemma wrap_width : forall f w s, String.length s < f ->
  Forall (fun l => String.length l <= w \/ forall q, q <= w -> ~ space_at l q) (wrap_line f w s).
Proof.
  induction f as [|f IH]; intros w s L; [lia|]. cbn [wrap_line]. destruct (Nat.leb_spec w (String.length s)).
  - destruct (rfind space s w) as [p|] eqn:R.
    + pose proof (cut_shorter w s p R) as CS. constructor; [|apply IH; lia]. left. apply rfind_some in R. destruct R as [R1 [R2 _]]. rewrite stake_length; lia.
    + constructor; [|constructor]. right. intros q Q. exact (rfind_none space s w R q Q).
  - constructor; [left; lia | constructor].
Qed.
(** a line is cut at the last space that leaves at most [w] characters; the text between two lines is spaces *)
Inductive wrapped (w : nat) : str -> list str -> Prop :=
| W_last : forall s, String.length s < w \/ (forall q, q <= w -> ~ space_at s q) -> wrapped w s [s]
| W_cut : forall l n rest ls, w <= String.length (l ^^ spaces (S n) ^^ rest) -> String.length l <= w ->
    (forall q, String.length l < q <= w -> ~ space_at (l ^^ spaces (S n) ^^ rest) q) -> ~ space_at rest 0 ->
    wrapped w rest ls -> wrapped w (l ^^ spaces (S n) ^^ rest) (l :: ls).
Lemma skip_spaces : forall s, exists n, s = spaces n ^^ skip_sp s /\ ~ space_at (skip_sp s) 0.
Proof.
  induction s as [|c s [n [E N]]]; [exists 0; split; [reflexivity | discriminate]|]. cbn [skip_sp].
  destruct (Ascii.eqb_spec c space) as [->|Nc].
  - exists (S n). split; [cbn; now rewrite <- E | exact N].
  - exists 0. split; [reflexivity|]. unfold space_at. cbn. intros Q. injection Q as ->. now apply Nc.
Qed.
Lemma wrap_wrapped : forall f w s, String.length s < f -> wrapped w s (wrap_line f w s).
Proof.
  induction f as [|f IH]; intros w s L; [lia|]. cbn [wrap_line]. destruct (Nat.leb_spec w (String.length s)).
  - destruct (rfind space s w) as [p|] eqn:R.
    + pose proof (cut_shorter w s p R) as CS. pose proof (rfind_some _ _ _ _ R) as [R1 [R2 [R3 [R4 [r E]]]]].
      destruct (skip_spaces r) as [n [Er Nr]]. rewrite E in *. cbn [skip_sp] in *. rewrite Ascii.eqb_refl in *.
      assert (ES : s = stake p s ^^ spaces (S n) ^^ skip_sp r).
      { rewrite <- (stake_sdrop p s) at 1. rewrite E. cbn [spaces append]. now rewrite <- Er. }
      assert (LS : String.length (stake p s) = p) by (apply stake_length; lia).
      rewrite ES at 1. constructor; rewrite <- ?ES, ?LS; auto. apply IH. lia.
    + constructor. right. intros q Q. exact (rfind_none space s w R q Q).
  - constructor. now left.
Qed.

(** the lines of the text *)
Lemma getlines_words : forall s cur, flat_map words (getlines_aux cur s) = words (cur ^^ s).
Proof.
  induction s as [|c s IH]; intros cur; cbn [getlines_aux].
  - rewrite app_nil_s. destruct cur; [reflexivity | cbn [flat_map]; apply app_nil_r].
  - destruct (Ascii.eqb_spec c newline) as [->|N].
    + cbn [flat_map]. rewrite IH. cbn [append]. symmetry. apply words_app. reflexivity.
    + rewrite IH. unfold str1. now rewrite app_assoc_s.
Qed.
Lemma multiline_words : forall s w, flat_map words (multilineWrap s w) = words s.
Proof.
  intros s w. unfold multilineWrap. change (words s) with (words ("" ^^ s)). rewrite <- (getlines_words s ""). fold (getlines s). induction (getlines s) as [|l ls IH]; [reflexivity|].
  cbn [flat_map]. rewrite flat_map_app, IH, wrap_words. reflexivity.
Qed.
Lemma multiline_width : forall s w, Forall (fun l => String.length l <= w \/ forall q, q <= w -> ~ space_at l q) (multilineWrap s w).
Proof.
  intros s w. unfold multilineWrap. induction (getlines s) as [|l ls IH]; [constructor|]. cbn [flat_map]. apply Forall_app. split; [apply wrap_width; lia | exact IH].
Qed.
Lemma words_join_nl : forall n ls, words (join (nl ^^ spaces n) ls) = flat_map words ls.
Proof.
  intros n. induction ls as [|l ls IH]; [reflexivity|]. destruct ls as [|k ls]; [cbn [join flat_map]; now rewrite app_nil_r|].
  change (join (nl ^^ spaces n) (l :: k :: ls)) with (l ^^ (nl ^^ spaces n) ^^ join (nl ^^ spaces n) (k :: ls)).
  rewrite app_assoc_s, words_nl_spaces, IH. reflexivity.
Qed.
Lemma words_join_lines : forall ls, words (join nl ls) = flat_map words ls.
Proof.
  induction ls as [|l ls IH]; [reflexivity|]. destruct ls as [|k ls]; [cbn [join flat_map]; now rewrite app_nil_r|].
  change (join nl (l :: k :: ls)) with (l ^^ nl ^^ join nl (k :: ls)). rewrite words_nl, IH. reflexivity.
Qed.

(** the synopsis: lines with a beginning and items *)
Definition render_line (x : str * list str) : str := fst x ^^ String.concat "" (map (fun i => " " ^^ i) (snd x)).
Definition render (ls : list (str * list str)) : str := join nl (map render_line ls).
Definition well_laid (imax : nat) (x : str * list str) : Prop := String.length (render_line x) <= imax \/ length (snd x) <= 1.
Lemma concat_app : forall l i, String.concat "" (l ++ [i]) = String.concat "" l ^^ i.
Proof.
  induction l as [|x l IH]; intros i; [reflexivity|]. cbn [app]. destruct l as [|y l]; [reflexivity|].
  change (String.concat "" (x :: y :: l)) with (x ^^ "" ^^ String.concat "" (y :: l)).
  change (String.concat "" (x :: (y :: l) ++ [i])) with (x ^^ "" ^^ String.concat "" ((y :: l) ++ [i])).
  rewrite IH. cbn [append]. now rewrite app_assoc_s.
Qed.
Lemma render_line_add : forall h is i, render_line (h, is ++ [i]) = render_line (h, is) ^^ " " ^^ i.
Proof. intros. unfold render_line. cbn [fst snd]. rewrite map_app. cbn [map]. rewrite concat_app. now rewrite app_assoc_s. Qed.
Lemma join_last : forall ls x, ls <> [] -> join nl (ls ++ [x]) = join nl ls ^^ nl ^^ x.
Proof.
  induction ls as [|l ls IH]; intros x N; [now elim N|]. destruct ls as [|k ls]; [reflexivity|].
  change (join nl ((l :: k :: ls) ++ [x])) with (l ^^ nl ^^ join nl ((k :: ls) ++ [x])). rewrite IH by discriminate.
  change (join nl (l :: k :: ls)) with (l ^^ nl ^^ join nl (k :: ls)). now rewrite !app_assoc_s.
Qed.
Lemma render_add : forall ls h is i, render (ls ++ [(h, is ++ [i])]) = render (ls ++ [(h, is)]) ^^ " " ^^ i.
Proof.
  intros. unfold render. rewrite !map_app. cbn [map]. rewrite render_line_add. destruct ls as [|l ls]; [reflexivity|].
  rewrite !join_last by discriminate. now rewrite !app_assoc_s.
Qed.
Lemma render_new : forall ls x, ls <> [] -> render (ls ++ [x]) = render ls ^^ nl ^^ render_line x.
Proof. intros ls x N. unfold render. rewrite map_app. cbn [map]. apply join_last. now destruct ls. Qed.
Lemma spaces_S : forall n, spaces (n + 1) = spaces n ^^ " ".
Proof. induction n as [|n IH]; [reflexivity|]. cbn [Nat.add spaces append]. now rewrite IH. Qed.
Lemma spaces_length : forall n, String.length (spaces n) = n.
Proof. induction n as [|n IH]; cbn; auto. Qed.
Lemma render_line_nil : forall h, render_line (h, []) = h.
Proof. intros h. unfold render_line. cbn. apply app_nil_s. Qed.

(** [laid head pad imax items acc]: the items so far *)
Record laid (head : str) (pad imax : nat) (items : list str) (acc : str * nat) (ls : list (str * list str)) (x : str * list str) : Prop := Laid {
  la_text : fst acc = render (ls ++ [x]);
  la_index : snd acc = String.length (render_line x);
  la_items : flat_map snd (ls ++ [x]) = items;
  la_heads : exists is0 rest, ls ++ [x] = (head, is0) :: rest /\ Forall (fun y => fst y = spaces pad) rest;
  la_width : Forall (well_laid imax) (ls ++ [x]) }.
Lemma laid_head : forall head pad imax, laid head pad imax [] (head, String.length head) [] (head, []).
Proof.
  intros. constructor; cbn [fst snd app].
  - unfold render. cbn [map join]. now rewrite render_line_nil.
  - now rewrite render_line_nil.
  - reflexivity.
  - exists [], []. split; [reflexivity | constructor].
  - constructor; [right; cbn; lia | constructor].
Qed.
Lemma laid_same : forall head pad imax items out idx ls h is i, laid head pad imax items (out, idx) ls (h, is) -> idx + String.length i < imax ->
  laid head pad imax (items ++ [i]) (out ^^ " " ^^ i, idx + String.length i + 1) ls (h, is ++ [i]).
Proof.
  intros head pad imax items out idx ls h is i [T X IT [is0 [rest [E F]]] W] L. cbn [fst snd] in *. constructor; cbn [fst snd].
  - rewrite T. symmetry. apply render_add.
  - rewrite render_line_add, !length_app_s, X. cbn [String.length]. lia.
  - rewrite flat_map_app in *. cbn [flat_map snd] in *. rewrite app_nil_r in *. rewrite app_assoc. now rewrite IT.
  - destruct ls as [|y ls]; cbn [app] in *.
    + injection E as -> -> _. exists (is0 ++ [i]), []. split; [reflexivity | constructor].
    + injection E as -> E. rewrite <- E in F. apply Forall_app in F. destruct F as [F1 F2]. exists is0, (ls ++ [(h, is ++ [i])]). split; [reflexivity|].
      apply Forall_app. split; [exact F1 | constructor; [|constructor]]. inversion F2; subst. assumption.
  - apply Forall_app in W. destruct W as [W1 W2]. apply Forall_app. split; [exact W1 | constructor; [|constructor]].
    left. rewrite render_line_add, !length_app_s, <- X. cbn [String.length]. lia.
Qed.
Lemma laid_new : forall head pad imax items out idx ls x is, laid head pad imax items (out, idx) ls x -> length is <= 1 ->
  laid head pad imax (items ++ is) (out ^^ nl ^^ render_line (spaces pad, is), String.length (render_line (spaces pad, is))) (ls ++ [x]) (spaces pad, is).
Proof.
  intros head pad imax items out idx ls x is [T X IT [is0 [rest [E F]]] W] L. cbn [fst snd] in *. constructor; cbn [fst snd].
  - rewrite T. symmetry. apply render_new. now destruct ls.
  - reflexivity.
  - rewrite flat_map_app. rewrite IT. cbn [flat_map snd]. now rewrite app_nil_r.
  - exists is0, (rest ++ [(spaces pad, is)]). split; [now rewrite E|]. apply Forall_app. split; [exact F | constructor; [reflexivity | constructor]].
  - apply Forall_app. split; [exact W | constructor; [right; exact L | constructor]].
Qed.
Lemma emit_laid : forall head pad imax l items out idx m ls x, laid head pad imax items (out, idx) ls x ->
  let '(out', idx', m') := fold_left (emit_item pad imax) l (out, idx, m) in
  exists ls' x', laid head pad imax (items ++ l) (out', idx') ls' x'.
Proof.
  intros head pad imax. induction l as [|i l IH]; intros items out idx m ls x H; cbn [fold_left].
  - exists ls, x. now rewrite app_nil_r.
  - unfold emit_item at 2. destruct (Nat.leb_spec imax (idx + String.length i)).
    + assert (Q : nl ^^ spaces (pad + 1) ^^ i = nl ^^ render_line (spaces pad, [i])) by (unfold render_line; cbn; now rewrite spaces_S, app_assoc_s).
      pose proof (laid_new head pad imax items out idx ls x [i] H (le_n 1)) as N. rewrite <- Q in N.
      replace (String.length (render_line (spaces pad, [i]))) with (pad + String.length i + 1) in N.
      * specialize (IH _ _ _ true _ _ N). destruct (fold_left _ _ _) as [[o' i'] m']. destruct IH as [ls' [x' IH]]. exists ls', x'. now rewrite <- app_assoc in IH.
      * unfold render_line. cbn. rewrite length_app_s, spaces_length. cbn. lia.
    + destruct x as [h is]. pose proof (laid_same head pad imax items out idx ls h is i H H0) as N.
      specialize (IH _ _ _ m _ _ N). destruct (fold_left _ _ _) as [[o' i'] m']. destruct IH as [ls' [x' IH]]. exists ls', x'. now rewrite <- app_assoc in IH.
Qed.
Lemma synopsis_laid : forall s, let head := "usage: " ^^ basename (s_bin s) in
  let opts := options_of (s_args s) in let poss := positionals_of (s_args s) in
  exists ls x, laid head (String.length head) (index_max (s_usage s))
    (map option_item opts ++ (if nonempty opts && nonempty poss then ["--"] else []) ++ map positional_item poss)
    (synopsis s, String.length (render_line x)) ls x.
Proof.
  intros s head opts poss. unfold synopsis. fold head. fold opts. fold poss. set (pad := String.length head). set (imax := index_max (s_usage s)).
  pose proof (emit_laid head pad imax (map option_item opts) [] head pad false [] (head, []) (laid_head head pad imax)) as H1.
  destruct (fold_left (emit_item pad imax) (map option_item opts) (head, pad, false)) as [[o1 i1] m1]. destruct H1 as [l1 [x1 H1]]. cbn [app] in H1.
  assert (H2 : exists l2 x2, laid head pad imax (map option_item opts ++ (if nonempty opts && nonempty poss then ["--"] else []))
     (if nonempty opts && nonempty poss then if m1 || Nat.leb imax (i1 + 3) then (o1 ^^ nl ^^ spaces (pad + 1) ^^ "--" ^^ nl ^^ spaces pad, pad) else (o1 ^^ " --", i1 + 3) else (o1, i1)) l2 x2).
  { destruct (nonempty opts && nonempty poss); [|exists l1, x1; now rewrite app_nil_r]. destruct (m1 || Nat.leb imax (i1 + 3)) eqn:E.
    - pose proof (laid_new head pad imax _ _ _ _ _ ["--"] H1 (le_n 1)) as H2. pose proof (laid_new head pad imax _ _ _ _ _ [] H2 (Nat.le_0_l 1)) as H3.
      exists ((l1 ++ [x1]) ++ [(spaces pad, ["--"])]), (spaces pad, []). rewrite app_nil_r in H3. rewrite render_line_nil, spaces_length in H3.
      replace (o1 ^^ nl ^^ spaces (pad + 1) ^^ "--" ^^ nl ^^ spaces pad) with ((o1 ^^ nl ^^ render_line (spaces pad, ["--"])) ^^ nl ^^ spaces pad); [exact H3|].
      unfold render_line. cbn [fst snd map String.concat]. rewrite spaces_S. rewrite !app_assoc_s. reflexivity.
    - apply orb_false_elim in E. destruct E as [_ E]. apply Nat.leb_gt in E. destruct x1 as [h is].
      exists l1, (h, is ++ ["--"]). replace (i1 + 3) with (i1 + String.length "--" + 1) by (cbn; lia). apply (laid_same head pad imax _ o1 i1 l1 h is "--" H1). cbn. lia. }
  destruct H2 as [l2 [x2 H2]]. destruct (if nonempty opts && nonempty poss then _ else (o1, i1)) as [o2 i2].
  pose proof (emit_laid head pad imax (map positional_item poss) _ o2 i2 m1 _ _ H2) as H3.
  destruct (fold_left (emit_item pad imax) (map positional_item poss) (o2, i2, m1)) as [[o3 i3] m3]. destruct H3 as [l3 [x3 H3]].
  exists l3, x3. rewrite app_assoc. destruct H3 as [T X IT HH W]. cbn [fst snd] in *. constructor; auto.
Qed.

(** the model's items are the specified ones *)
Lemma upper_eq : forall s, upper s = uppercase s.
Proof.
  induction s as [|c s IH]; [reflexivity|]. cbn [upper uppercase]. rewrite IH. f_equal. unfold toupper, to_upper.
  destruct c as [[] [] [] [] [] [] [] []]; reflexivity.
Qed.
Lemma sdrop_without : forall n s, sdrop n s = without n s.
Proof. induction n as [|n IH]; intros [|c s]; cbn; auto. Qed.
Lemma long_flag_eq : forall n, Ascii.eqb (cget n 0) dash && Ascii.eqb (cget n 1) dash = long_flag n.
Proof.
  intros [|a [|b n]]; try reflexivity; unfold cget; cbn; destruct a as [[] [] [] [] [] [] [] []]; try reflexivity;
  destruct b as [[] [] [] [] [] [] [] []]; reflexivity.
Qed.
Lemma short_flag_eq : forall n, Ascii.eqb (cget n 0) dash && negb (Ascii.eqb (cget n 1) dash) = short_flag n.
Proof.
  intros [|a [|b n]]; try reflexivity; unfold cget; cbn; destruct a as [[] [] [] [] [] [] [] []]; try reflexivity;
  destruct b as [[] [] [] [] [] [] [] []]; reflexivity.
Qed.
Lemma meta_flag_eq : forall l cur, meta_flag cur l = match find long_flag l with Some f => Some (without 2 f) | None =>
  match cur with Some c => Some c | None => option_map (without 1) (find short_flag l) end end.
Proof.
  induction l as [|n l IH]; intros cur; cbn [meta_flag find]; [now destruct cur|]. rewrite long_flag_eq, short_flag_eq. destruct (long_flag n); [now rewrite sdrop_without|].
  destruct cur as [c|]; [now rewrite IH|]. destruct (short_flag n); rewrite IH; [now rewrite sdrop_without | reflexivity].
Qed.
Lemma metavar_eq : forall a, isPositional a = false -> metavar_part (a_cfg a) = if has_values (a_cfg a) then " " ^^ shown_values a else "".
Proof.
  intros a NP. unfold metavar_part, has_values, arity_of.
  assert (E : (match c_metavar (a_cfg a) with EmptyString => metavarDefault (a_cfg a) | m => m end) = shown_values a).
  { unfold shown_values. destruct (c_metavar (a_cfg a)) eqn:M; [|reflexivity]. cbn [String.eqb]. unfold metavarDefault, value_name. rewrite meta_flag_eq, upper_eq.
    set (u := uppercase _). set (u' := uppercase _). assert (EU : u = u').
    { unfold u, u'. destruct (find long_flag (c_names (a_cfg a))); [reflexivity|]. now destruct (find short_flag (c_names (a_cfg a))). }
    rewrite EU. change plus with 43%N. destruct (action_eqb (c_action (a_cfg a)) INFINITE || (c_nargs (a_cfg a) =? 43)%N); [reflexivity|].
    destruct (N.ltb_spec 1 (c_nargs (a_cfg a))), (N.leb_spec (c_nargs (a_cfg a)) 1); try lia; reflexivity. }
  rewrite E. destruct (c_type (a_cfg a)); try discriminate NP; reflexivity.
Qed.
Lemma option_item_eq : forall a, isPositional a = false -> option_item (a_cfg a) = option_synopsis a.
Proof.
  intros a NP. unfold option_item, option_synopsis, brackets, bracketed, with_values. rewrite (metavar_eq a NP). unfold first_name, main_name.
  destruct (has_values (a_cfg a)); rewrite ?app_nil_s; reflexivity.
Qed.
Lemma positional_item_eq : forall a, isPositional a = true -> positional_item (a_cfg a) = positional_synopsis a.
Proof.
  intros a P. unfold positional_item, positional_synopsis, brackets, bracketed, arity_of, first_name, main_name.
  destruct (c_type (a_cfg a)); try discriminate P; reflexivity.
Qed.
Lemma options_eq : forall s, options_of (s_args s) = map a_cfg (options s).
Proof. reflexivity. Qed.
Lemma positionals_eq : forall s, positionals_of (s_args s) = map a_cfg (positionals s).
Proof. reflexivity. Qed.
Lemma in_options : forall s a, In a (options s) -> isPositional a = false.
Proof. intros s a I. apply filter_In in I. destruct I as [_ I]. now apply negb_true_iff. Qed.
Lemma in_positionals : forall s a, In a (positionals s) -> isPositional a = true.
Proof. intros s a I. now apply filter_In in I. Qed.
Lemma items_eq : forall s, map option_item (options_of (s_args s)) ++
   (if nonempty (options_of (s_args s)) && nonempty (positionals_of (s_args s)) then ["--"] else []) ++ map positional_item (positionals_of (s_args s)) = synopsis_items s.
Proof.
  intros s. rewrite options_eq, positionals_eq. unfold synopsis_items. rewrite !map_map. f_equal; [|f_equal].
  - apply map_ext_in. intros a I. apply option_item_eq. eapply in_options; eassumption.
  - destruct (options s), (positionals s); reflexivity.
  - apply map_ext_in. intros a I. apply positional_item_eq. eapply in_positionals; eassumption.
Qed.
(** words of the rendered synopsis *)
Lemma render_line_words : forall x, words (render_line x) = words (fst x) ++ flat_map words (snd x).
Proof.
  intros [h is]. cbn [fst snd]. revert h. induction is as [|i is IH] using rev_ind; intros h; [rewrite render_line_nil; now rewrite app_nil_r|].
  rewrite render_line_add, words_sp, IH, flat_map_app, <- app_assoc. cbn [flat_map]. now rewrite app_nil_r.
Qed.
Lemma spaces_words : forall n, words (spaces n) = [].
Proof. intros n. rewrite <- (app_nil_s (spaces n)). now rewrite words_spaces. Qed.
Lemma synopsis_words : forall s, words (synopsis s) = words ("usage: " ^^ basename (s_bin s)) ++ flat_map words (synopsis_items s).
Proof.
  intros s. destruct (synopsis_laid s) as [ls [x [T _ IT [is0 [rest [E F]]] _]]]. cbn [fst snd] in T. rewrite items_eq in IT. rewrite T, <- IT, E.
  unfold render. rewrite words_join_lines. cbn [map flat_map]. rewrite render_line_words. cbn [fst snd]. rewrite flat_map_app, <- app_assoc. do 2 f_equal.
  clear - F. induction rest as [|y rest IH]; [reflexivity|]. inversion F; subst. cbn [map flat_map]. rewrite render_line_words, H1, spaces_words, flat_map_app. cbn [app]. now rewrite IH.
Qed.
Lemma words_paragraph : forall t w, words (paragraph t w) = words t.
Proof.
  intros t w. unfold paragraph. destruct t as [|c t]; [reflexivity|]. set (tt := String c t). rewrite words_nl0. rewrite <- (multiline_words tt w).
  assert (H : forall ls o, words (fold_left (fun o l => o ^^ nl ^^ l) ls o) = words o ++ flat_map words ls).
  { induction ls as [|l ls IH]; intros o; cbn [fold_left flat_map]; [now rewrite app_nil_r|]. rewrite IH, words_nl. now rewrite app_assoc. }
  rewrite H. reflexivity.
Qed.
(** the paragraph starts with a newline, so nothing is glued to what is before *)
Lemma words_then_paragraph : forall a t w r, words (a ^^ paragraph t w ^^ r) = words a ++ words (paragraph t w ^^ r) \/ paragraph t w = "".
Proof. intros a t w r. unfold paragraph. destruct t; [now right|]. left. rewrite !app_assoc_s. rewrite words_nl. now rewrite words_nl0. Qed.
Lemma row_words : forall u label c, 0 < u_sep u -> words (row u label c) = words label ++ words (help_text c).
Proof.
  intros u label c S. unfold row. rewrite words_spaces. destruct (Nat.leb_spec (String.length label + u_sep u) (u_args u + u_sep u)).
  - unfold pad_right. rewrite app_assoc_s. replace (u_args u + u_sep u - String.length label) with (Datatypes.S (u_args u + u_sep u - String.length label - 1)) by lia.
    rewrite words_gap, words_join_nl, multiline_words. reflexivity.
  - rewrite !app_assoc_s. rewrite words_nl_spaces, words_join_nl, multiline_words. reflexivity.
Qed.
Lemma help_text_eq : forall a, help_text (a_cfg a) = c_help (a_cfg a) ^^ remark a.
Proof. intros a. unfold help_text, remark. destruct (c_required (a_cfg a)); [reflexivity|]. now destruct (c_default (a_cfg a)). Qed.
Lemma section_words : forall title rows, words (section title rows) = match rows with [] => [] | _ => words title ++ flat_map words rows end.
Proof. intros title [|r rows]; [reflexivity|]. unfold section. rewrite !words_nl0, words_nl, words_join_lines. reflexivity. Qed.
(** parts of the text that begin with a newline *)
Definition starts_nl (x : str) : Prop := x = "" \/ exists r, x = nl ^^ r.
Lemma starts_app : forall x y, starts_nl x -> starts_nl y -> starts_nl (x ^^ y).
Proof. intros x y [-> | [r ->]] Y; [exact Y | right; exists (r ^^ y); now rewrite app_assoc_s]. Qed.
Lemma words_starts : forall a x, starts_nl x -> words (a ^^ x) = words a ++ words x.
Proof. intros a x [-> | [r ->]]; [now rewrite app_nil_s, app_nil_r | rewrite words_nl, words_nl0; reflexivity]. Qed.
Lemma starts_paragraph : forall t w, starts_nl (paragraph t w).
Proof. intros t w. unfold paragraph. destruct t; [now left | right; eexists; reflexivity]. Qed.
Lemma starts_section : forall t rows, starts_nl (section t rows).
Proof. intros t rows. unfold section. destruct rows; [now left | right; eexists; reflexivity]. Qed.
Lemma getlines_lines : forall s cur, getlines_aux cur s = split_at (Ascii.eqb newline) (cur ^^ s) \/ split_at (Ascii.eqb newline) (cur ^^ s) = getlines_aux cur s ++ [""] \/ has_char newline cur.
Proof.
  induction s as [|c s IH]; intros cur; cbn [getlines_aux].
  - rewrite app_nil_s. assert (H : has_char newline cur \/ split_at (Ascii.eqb newline) cur = [cur]).
    { induction cur as [|x cur IH]; [now right|]. cbn [has_char split_at]. destruct (Ascii.eqb_spec newline x) as [->|N]; [left; now left|].
      destruct IH as [H|H]; [left; now right | right; now rewrite H]. }
    destruct H as [H|H]; [right; now right|]. rewrite H. destruct cur; [right; now left | now left].
  - destruct (Ascii.eqb_spec c newline) as [->|N].
    + rewrite split_app by reflexivity. destruct (IH "") as [H|[H|H]]; [| |elim H]; cbn [append] in H.
      * assert (H' : has_char newline cur \/ split_at (Ascii.eqb newline) cur = [cur]).
        { clear. induction cur as [|x cur IH]; [now right|]. cbn [has_char split_at]. destruct (Ascii.eqb_spec newline x) as [->|N]; [left; now left|].
          destruct IH as [H|H]; [left; now right | right; now rewrite H]. }
        destruct H' as [H'|H']; [right; now right|]. left. now rewrite H', H.
      * assert (H' : has_char newline cur \/ split_at (Ascii.eqb newline) cur = [cur]).
        { clear. induction cur as [|x cur IH]; [now right|]. cbn [has_char split_at]. destruct (Ascii.eqb_spec newline x) as [->|N]; [left; now left|].
          destruct IH as [H|H]; [left; now right | right; now rewrite H]. }
        destruct H' as [H'|H']; [right; now right|]. right. left. now rewrite H', H.
    + specialize (IH (cur ^^ str1 c)). rewrite app_assoc_s in IH. cbn [str1 append] in IH. destruct IH as [H|[H|H]]; [now left | right; now left|].
      right. right. revert H. clear - N. induction cur as [|x cur IH]; cbn; [intros [H|[]]; now elim N | intros [H|H]; auto].
Qed.
Lemma getlines_spec : forall s, getlines s = lines_of s \/ lines_of s = getlines s ++ [""].
Proof. intros s. destruct (getlines_lines s "") as [H|[H|H]]; [now left | now right | elim H]. Qed.
Lemma basename_spec : forall b, is_basename b (basename b).
Proof.
  intros b. unfold basename, is_basename.
  assert (HC : forall s, (forall q, q < String.length s -> String.get q s <> Some "/"%char) -> ~ has_char "/" s).
  { induction s as [|c s IH]; intros H; [tauto|]. intros [-> | K]; [apply (H 0); cbn; [lia | reflexivity]|]. revert K. apply IH. intros q Q. apply (H (S q)). cbn. lia. }
  destruct (rfind "/" b (String.length b)) as [p|] eqn:R.
  - apply rfind_some in R. destruct R as [R1 [R2 [R3 [R4 [r E]]]]].
    assert (ER : sdrop (S p) b = r). { clear - E R2. revert b E R2. induction p as [|p IH]; intros [|c b] E L; cbn in L; try lia; [now injection E as -> ->|]. apply (IH b); [exact E | lia]. }
    rewrite ER. split; [|right; exists (stake p b); cbn [append]; rewrite <- E; symmetry; apply stake_sdrop].
    apply HC. intros q Q G. apply (R4 (S p + q)).
    + pose proof (sdrop_length (S p) b) as L. rewrite ER in L. lia.
    + revert ER G. clear. revert b. generalize (S p) as k. induction k as [|k IH]; intros [|c b] E G; cbn in *; subst; auto.
  - split; [|now left]. apply HC. intros q Q. apply (rfind_none _ _ _ R). lia.
Qed.
