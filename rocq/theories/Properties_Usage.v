(** Properties_Usage.v -- C47 wrapping, C48 content and C49 layout of the usage text. *)
From Coq Require Import Permutation.
From Verif Require Import Base Model_Utils Model_Types Model_Argument Model_Usage Model_Args Model_Api Spec_Reading Spec_Finish Spec_History Spec_Api Spec_Result Spec_Usage
  Proofs_Number Proofs_Usage Proofs_Inv Proofs_Finish Demo.

(** ------------------------------ C47 ------------------------------ *)
(** The lines that a text is wrapped to have its words, in its order. *)
Theorem C47_words : forall text width, flat_map words (multilineWrap text width) = words text.
Proof. exact multiline_words. Qed.
(** Every line fits, or has no space at which it could be cut to fit. *)
Theorem C47_width : forall text width l, In l (multilineWrap text width) ->
  String.length l <= width \/ forall q, q <= width -> ~ space_at l q.
Proof. intros text width l I. pose proof (multiline_width text width) as F. rewrite Forall_forall in F. now apply F. Qed.
(** Every line of the text is wrapped on its own: nothing but the spaces at the cuts is
    lost, every cut is at the last space that leaves at most [width] characters before it,
    and a line that is cut was at least [width] long. *)
Theorem C47_cuts : forall text width, exists ls wss,
  (ls = lines_of text \/ lines_of text = ls ++ [""]) /\ Forall2 (wrapped width) ls wss /\ multilineWrap text width = concat wss.
Proof.
  intros text width. exists (getlines text), (map (fun l => wrap_line (S (String.length l)) width l) (getlines text)).
  split; [apply getlines_spec|]. split; [|unfold multilineWrap; now rewrite flat_map_concat_map].
  induction (getlines text) as [|l ls IH]; constructor; [apply wrap_wrapped; lia | exact IH].
Qed.
(** The loop always ends. *)
Theorem C47_terminates : forall width line fuel, String.length line < fuel -> wrap_line fuel width line = wrap_line (S (String.length line)) width line.
Proof. intros. apply wrap_line_fuel; lia. Qed.
Example C47_example : multilineWrap ("the quick  brown fox" ^^ nl ^^ "jumps" ^^ nl ^^ nl ^^ "overthelazydog x" ^^ nl) 10 =
  ["the quick "; "brown fox"; "jumps"; ""; "overthelazydog x"].
Proof. reflexivity. Qed.

(** ------------------------------ C48 ------------------------------ *)
(** A usage text set by the program is returned as it is. *)
Theorem C48_custom : forall s, u_usage (s_usage s) <> "" -> getUsage s = Ok (u_usage (s_usage s)).
Proof. intros s H. unfold getUsage. destruct (u_usage (s_usage s)); [now elim H | reflexivity]. Qed.
(** getUsage never fails. *)
Theorem C48_total : forall s, reach s -> exists t, getUsage s = Ok t.
Proof. intros s R. apply usage_ok. now apply reach_wf. Qed.
(** Otherwise the words of the text are: usage:, the name of the program, the synopsis of
    every option in listing order, "--" if there are both, the synopsis of every
    positional in listing order; the description; the table of positionals and the table
    of options, each with names, help and "(required)" or the default; the epilog. *)
Definition usage_words (s : state) (program : str) : list str :=
  words ("usage: " ^^ program) ++ flat_map words (synopsis_items s) ++
  words (u_description (s_usage s)) ++
  (match positionals s with [] => [] | l => ["positional"; "arguments:"] ++ flat_map positional_entry l end) ++
  (match options s with [] => [] | l => ["optional"; "arguments:"] ++ flat_map option_entry l end) ++
  words (u_epilog (s_usage s)).
Lemma getUsage_text : forall s t, u_usage (s_usage s) = "" -> getUsage s = Ok t -> t = usage_text s.
Proof. intros s t U E. unfold getUsage in E. rewrite U in E. destruct (forallb usage_defined (s_args s)); [now injection E as <- | discriminate E]. Qed.
Lemma positional_rows : forall s l, 0 < u_sep (s_usage s) ->
  flat_map words (map (fun c => row (s_usage s) (positional_label c) c) (map a_cfg l)) = flat_map positional_entry l.
Proof.
  intros s l SE. induction l as [|a l IH]; [reflexivity|]. cbn [map flat_map]. rewrite IH. f_equal. rewrite row_words by exact SE. unfold positional_entry. now rewrite help_text_eq.
Qed.
Lemma option_rows : forall s l, 0 < u_sep (s_usage s) -> (forall a, In a l -> isPositional a = false) ->
  flat_map words (map (fun c => row (s_usage s) (option_label c) c) (map a_cfg l)) = flat_map option_entry l.
Proof.
  intros s l SE. induction l as [|a l IH]; intros P; [reflexivity|]. cbn [map flat_map]. rewrite IH by (intros b I; apply P; now right). f_equal. rewrite row_words by exact SE.
  unfold option_entry, with_values, option_label. rewrite help_text_eq, (metavar_eq a (P a (or_introl eq_refl))). destruct (has_values (a_cfg a)); [reflexivity | now rewrite app_nil_s].
Qed.
Theorem C48_content : forall s t, u_usage (s_usage s) = "" -> 0 < u_sep (s_usage s) -> getUsage s = Ok t ->
  exists program, is_basename (s_bin s) program /\ words t = usage_words s program.
Proof.
  intros s t U SE E. apply (getUsage_text s t U) in E. subst t. exists (basename (s_bin s)). split; [apply basename_spec|].
  unfold usage_text. rewrite words_starts by (repeat apply starts_app; auto using starts_paragraph, starts_section).
  rewrite words_starts by (repeat apply starts_app; auto using starts_paragraph, starts_section).
  rewrite words_starts by (repeat apply starts_app; auto using starts_paragraph, starts_section).
  rewrite words_starts by (repeat apply starts_app; auto using starts_paragraph, starts_section).
  rewrite synopsis_words, !words_paragraph, !section_words, options_eq, positionals_eq. unfold usage_words. rewrite <- app_assoc. do 3 f_equal.
  pose proof (positional_rows s (positionals s) SE) as PR. pose proof (option_rows s (options s) SE (in_options s)) as OR. f_equal; [|f_equal].
  - destruct (positionals s) as [|p ps]; [reflexivity|]. rewrite <- PR. reflexivity.
  - destruct (options s) as [|p ps]; [reflexivity|]. rewrite <- OR. reflexivity.
Qed.
Print Assumptions C48_content.
(** Every argument is an option or a positional of these lists, once, in listing order. *)
Theorem C48_once : forall s, Permutation (options s ++ positionals s) (arguments s) /\
  (forall a, In a (arguments s) -> In a (if isPositional a then positionals s else options s)).
Proof.
  intros s. unfold options, positionals. split.
  - induction (arguments s) as [|a l IH]; [constructor|]. cbn [filter]. destruct (isPositional a); cbn [negb app].
    + apply Permutation_sym, Permutation_cons_app, Permutation_sym, IH.
    + now constructor.
  - intros a I. destruct (isPositional a) eqn:P; apply filter_In; rewrite P; auto.
Qed.
Example C48_example : exists t, getUsage (ready shop) = Ok t /\ u_usage (s_usage shop) = "" /\ 0 < u_sep (s_usage shop) /\
  words t = usage_words (ready shop) "" /\
  synopsis_items (ready shop) = ["[-V]"; "[-a ADD]"; "[-e EDGE EDGE]"; "[-h]"; "[-i ITEMS...]"; "[-n NAME]"; "[-p POINT POINT]"; "[-q]"; "[-v]"; "--"; "SRC"; "[DST]"] /\
  option_entry (pick "-a" (ready shop)) = ["-a,"; "--add"; "ADD"; "(default:"; "d1,"; "d2)"].
Proof. eexists. split; [vm_compute; reflexivity|]. repeat split; vm_compute; auto. Qed.
(** without a separator column names and help can stick together *)
Example C48_needs_separator : exists t, getUsage (history [OpAdd ["x"] [MHelp "y"]; OpSetUsageWidth 0 1 0 50]) = Ok t /\ In "xy" (words t).
Proof. eexists. split; [vm_compute; reflexivity|]. vm_compute. auto 10. Qed.

(** ------------------------------ C49 ------------------------------ *)
(** a line of the synopsis: its beginning and the items on it, each after a space *)
Definition line_text (x : str * list str) : str := fst x ^^ String.concat "" (map (fun i => " " ^^ i) (snd x)).
(** The usage text begins with lines that hold the items of the synopsis in order; the
    first line begins with "usage: program" and the others with as many spaces; a line is
    not longer than the total width unless there is at most one item on it. *)
Theorem C49_layout : forall s t, u_usage (s_usage s) = "" -> getUsage s = Ok t ->
  let u := s_usage s in let width := u_pad u + u_args u + u_sep u + u_help u in
  exists program first more rest, is_basename (s_bin s) program /\
    let head := "usage: " ^^ program in let ls := (head, first) :: more in
    t = join nl (map line_text ls) ^^ rest /\ (rest = "" \/ exists r, rest = nl ^^ r) /\
    flat_map snd ls = synopsis_items s /\
    Forall (fun x => fst x = spaces (String.length head)) more /\
    Forall (fun x => String.length (line_text x) <= width \/ length (snd x) <= 1) ls.
Proof.
  intros s t U E u width. apply (getUsage_text s t U) in E. subst t. exists (basename (s_bin s)).
  destruct (synopsis_laid s) as [ls [x [T _ IT [is0 [rest [EL F]]] W]]]. rewrite items_eq in IT. rewrite EL in *. cbn [fst] in T.
  exists is0, rest. eexists. split; [apply basename_spec|]. cbv zeta. split; [|split; [|split; [|split]]].
  - unfold usage_text. rewrite T. reflexivity.
  - repeat apply starts_app; auto using starts_paragraph, starts_section.
  - exact IT.
  - exact F.
  - exact W.
Qed.
Print Assumptions C49_layout.
(** If no name contains the end of a line, these are lines of the text. *)
Lemma lines_single : forall l, ~ has_char (ascii_of_nat 10) l -> lines_of l = [l].
Proof.
  unfold lines_of. induction l as [|c l IH]; intros N; [reflexivity|]. cbn [split_at]. destruct (Ascii.eqb_spec (ascii_of_nat 10) c) as [Q|_]; [elim N; left; symmetry; exact Q|].
  rewrite IH by (intros H; apply N; now right). reflexivity.
Qed.
Lemma lines_join : forall ls, ls <> [] -> Forall (fun l => ~ has_char (ascii_of_nat 10) l) ls -> lines_of (join nl ls) = ls.
Proof.
  induction ls as [|l ls IH]; intros N F; [now elim N|]. inversion F as [|x y F1 F2]; subst. destruct ls as [|k ls]; [now apply lines_single|].
  change (join nl (l :: k :: ls)) with (l ^^ String (ascii_of_nat 10) (join nl (k :: ls))). unfold lines_of. rewrite split_app by reflexivity.
  fold (lines_of l). fold (lines_of (join nl (k :: ls))). rewrite IH by (auto; discriminate). now rewrite lines_single.
Qed.
Lemma has_char_app : forall c a b, has_char c (a ^^ b) -> has_char c a \/ has_char c b.
Proof. intros c. induction a as [|x a IH]; intros b H; [now right|]. destruct H as [H|H]; [left; now left|]. destruct (IH b H); [left; now right | now right]. Qed.
Lemma line_no_nl : forall x, ~ has_char (ascii_of_nat 10) (fst x) -> Forall (fun i => ~ has_char (ascii_of_nat 10) i) (snd x) -> ~ has_char (ascii_of_nat 10) (line_text x).
Proof.
  intros [h is]. cbn [fst snd]. intros H F. change (line_text (h, is)) with (render_line (h, is)). induction is as [|i is IH] using rev_ind; [now rewrite render_line_nil|].
  apply Forall_app in F. destruct F as [F1 F2]. rewrite render_line_add. intros K. apply has_char_app in K. destruct K as [K|K]; [exact (IH F1 K)|].
  apply has_char_app in K. destruct K as [K|K]; [destruct K as [K|[]]; discriminate K|]. inversion F2; subst. contradiction.
Qed.
Theorem C49_lines : forall s t, u_usage (s_usage s) = "" -> getUsage s = Ok t ->
  ~ has_char (ascii_of_nat 10) (s_bin s) -> (forall i, In i (synopsis_items s) -> ~ has_char (ascii_of_nat 10) i) ->
  let u := s_usage s in let width := u_pad u + u_args u + u_sep u + u_help u in
  exists ls others, flat_map snd ls = synopsis_items s /\ lines_of t = map line_text ls ++ others /\
    Forall (fun x => String.length (line_text x) <= width \/ length (snd x) <= 1) ls.
Proof.
  intros s t U E NB NI u width. destruct (C49_layout s t U E) as [pr [f [m [rest [B [T [R [I [F W]]]]]]]]]. cbv zeta in *.
  set (ls := ("usage: " ^^ pr, f) :: m) in *. 
  assert (NL : lines_of (join nl (map line_text ls)) = map line_text ls).
  { apply lines_join; [discriminate|]. apply Forall_map, Forall_forall. intros x Ix. apply line_no_nl.
    - destruct Ix as [<- | Ix].
      + cbn [fst]. intros K. apply has_char_app in K. destruct K as [K|K].
        * cbn in K. repeat (destruct K as [K|K]; [discriminate K|]). exact K.
        * destruct B as [_ [B|[d B]]]; [rewrite B in NB; contradiction|]. apply NB. rewrite B. clear - K. induction d as [|c d IH]; cbn; [right; exact K | right; exact IH].
      + rewrite Forall_forall in F. rewrite (F x Ix). clear. induction (String.length ("usage: " ^^ pr)) as [|n IH]; cbn; [tauto|]. intros [K|K]; [discriminate K | contradiction].
    - apply Forall_forall. intros i Ii. apply NI. rewrite <- I. apply in_flat_map. now exists x. }
  destruct R as [-> | [r ->]].
  - exists ls, []. split; [exact I|]. split; [|exact W]. rewrite T, app_nil_s, app_nil_r. exact NL.
  - exists ls, (lines_of r). split; [exact I|]. split; [|exact W]. rewrite T. change (nl ^^ r) with (String (ascii_of_nat 10) r). unfold lines_of at 1. rewrite split_app by reflexivity.
    unfold lines_of in NL. rewrite NL. reflexivity.
Qed.
Print Assumptions C49_lines.
Example C49_example : let s := history (OpSetUsageWidth 2 10 2 10 :: OpSetBinaryName "/usr/bin/prog" :: shop_ops) in
  exists t, getUsage s = Ok t /\ u_usage (s_usage s) = "" /\
  firstn 9 (lines_of t) = ["usage: prog [-V]"; "            [-a ADD]"; "            [-e EDGE EDGE]"; "            [-i ITEMS...]"; "            [-n NAME]"; "            [-p POINT POINT]";
    "            [-q] [-v]"; "            --"; "            SRC [DST]"].
Proof. cbv zeta. eexists. split; [vm_compute; reflexivity | split; vm_compute; reflexivity]. Qed.
