(** Properties_Views.v -- C44 (views of the values) and C45 (destinations). *)
From Coq Require Import Permutation Sorted.
From Verif Require Import Base Model_Utils Model_Number Model_Types Model_Argument Model_Usage Model_Args Model_Api
  Spec_Order Spec_Names Spec_Reading Spec_Parse Spec_Decl Spec_Finish Spec_History Spec_Api Spec_Result
  Proofs_Base Proofs_Order Proofs_Frame Proofs_Inv Proofs_ReadFacts Proofs_Reading Proofs_Parse Proofs_Decl Proofs_Finish
  Proofs_Meth Proofs_History Proofs_Config Proofs_Check Proofs_Names Proofs_Central Proofs_Dyn Properties_Parse Proofs_Swap Proofs_Kind
  Proofs_Values Proofs_Quiet Proofs_Fresh Demo Properties_Defaults Properties_Repeat Proofs_Alike Properties_Final Proofs_Shape.

(** Argument::getDefault *)
Definition getDefault (a : argument) : str := c_default (a_cfg a).
(** values separated by ", ", groups in parentheses *)
Definition in_parens (g : list str) : str := "(" ^^ join ", " g ^^ ")".
Definition no_vector : exn := Exn KBase "" "convertion to vector of string not authorized".
Definition no_vector_vector : exn := Exn KBase "" "convertion to vector of vector of string not authorized".

(** The elements of the argument behind [a] had the shape that its kind asks for before the
    parse.  So it is for every argument with values whose declarations were all accepted
    (Proofs_Shape.settled_shaped), and after every successful parse (parse_shaped). *)
Definition was_shaped (s : state) (a : argument) : Prop := forall b, In b (arguments (ready s)) -> a_id b = a_id a -> shaped b.

Lemma groups_nonempty : forall t es, grouped t = true -> elems_shaped t es -> Forall (fun g => g <> []) (map elem_values es) /\ map elem_text es = map in_parens (map elem_values es).
Proof.
  intros t es G H. assert (F : Forall (elem_shaped t) es) by (unfold elems_shaped in H; destruct t; try discriminate G; exact H). clear H.
  induction F as [|e es He _ [IH1 IH2]]; [split; constructor|]. unfold elem_shaped in He. rewrite G in He. cbn [map]. split.
  - constructor; [|exact IH1]. unfold elem_values. destruct (el_subs e); [now elim He | discriminate].
  - rewrite IH2. f_equal. unfold elem_text, in_parens. destruct (el_subs e); [now elim He | reflexivity].
Qed.
Lemma words_text : forall t es, flat t = false -> grouped t = false -> elems_shaped t es -> map elem_text es = map elem_value es.
Proof.
  intros t es F G H. unfold elems_shaped in H. rewrite F in H. induction H as [|e es He _ IH]; [reflexivity|]. cbn [map]. rewrite IH. f_equal.
  unfold elem_shaped in He. rewrite G in He. unfold elem_text. now rewrite He.
Qed.

(** After a parse that returned:
    - an argument without values (flag) has no vector views, and its string is true or false;
    - one with one value has the vector view with this value, which is its string;
    - one with several values has the vector view with these, and its string is these
      values separated by ", ";
    - one with groups of values has the vector of vectors view with these groups, the
      vector view is the concatenation of the groups, and its string shows the groups;
    - where there are no values at all, the string is the declared default. *)
Theorem C44_views : forall s argv ws s' a, usable s -> interprets s -> command_line argv ws -> parseArguments argv s = (s', Ok tt) ->
  In a (arguments s') -> was_shaped s a ->
  if has_values (a_cfg a) then
    if grouped (c_type (a_cfg a)) then
      exists gs, to_vector_vector a = Ok gs /\ to_vector a = Ok (concat gs) /\ Forall (fun g => g <> []) gs /\
        getString a = match gs with [] => getDefault a | _ => join ", " (map in_parens gs) end
    else to_vector_vector a = Throw no_vector_vector /\
      exists vs, to_vector a = Ok vs /\ (arity_of (a_cfg a) = AOne -> accumulates (c_type (a_cfg a)) = false -> exists v, vs = [v]) /\
        getString a = match vs with [] => getDefault a | _ => join ", " vs end
  else to_vector a = Throw no_vector /\ to_vector_vector a = Throw no_vector_vector /\
    (c_type (a_cfg a) = BOOLEAN_OPTION -> getString a = if isExists a then "true" else "false") /\
    (c_type (a_cfg a) = REVERSE_BOOLEAN_OPTION -> getString a = if isExists a then "false" else "true") /\
    (c_type (a_cfg a) = HELP_OPTION \/ c_type (a_cfg a) = VERSION_OPTION -> getString a = getDefault a).
Proof.
  intros s argv ws s' a U I C E Ia SH. destruct (parsed_shaped s argv ws s' a U I C E Ia SH) as [S T].
  unfold has_values, arity_of, getString, to_vector, to_vector_vector, getDefault, shaped in *.
  destruct (c_type (a_cfg a)) eqn:TY; cbn [grouped one_valued accumulates] in *.
  1,2: (split; [reflexivity|]; split; [reflexivity|]; split; [intros Z; discriminate Z|]; split; [intros Z; discriminate Z|]; intros _; unfold elems_shaped in S; cbn [flat] in S; rewrite S; now apply T).
  1,2: (split; [reflexivity|]; split; [reflexivity|]; split; [|split]; try (intros Z; discriminate Z); try reflexivity; intros [Z|Z]; discriminate Z).
  all: try (eexists; split; [reflexivity|]; split; [f_equal; apply flat_map_map|]; pose proof (fun G => groups_nonempty _ _ G S) as GN; destruct (GN eq_refl) as [G1 G2]; clear GN; split; [exact G1|]; rewrite <- G2; destruct (d_elems (a_dyn a)); [now apply T | reflexivity]).

  all: split; [reflexivity|]; eexists; split; [reflexivity|].
  all: try (split; [intros Z Z'; first [discriminate Z | discriminate Z']|]; pose proof (fun F G => words_text _ _ F G S) as WT; rewrite <- (WT eq_refl eq_refl); clear WT; destruct (d_elems (a_dyn a)); [now apply T | reflexivity]).
  all: split; [intros _ _; eexists; reflexivity|]; unfold elems_shaped in S; cbn [flat] in S; now rewrite S.
Qed.
Print Assumptions C44_views.

(** Which of these an argument is depends on its action and its nargs. *)
Theorem C44_kinds : forall s a act n, reach s -> In a (arguments s) -> getAction a = act -> getNargs a = n -> n <> 0%N ->
  (isPositional a = false -> act <> HELP -> act <> VERSION ->
     has_values (a_cfg a) = true /\ (grouped (c_type (a_cfg a)) = true <-> (act = APPEND \/ act = EXTEND) /\ (1 < n)%N)) /\
  (isPositional a = true -> act = NONE \/ act = INFINITE ->
     has_values (a_cfg a) = true /\ (grouped (c_type (a_cfg a)) = true <-> act = INFINITE /\ (1 < n)%N)).
Proof.
  intros s a act n R Ia EA EN N0. split.
  - intros P NH NV. pose proof (option_type s a act n R Ia P EA EN N0 NH NV) as K. rewrite EA, EN in K. unfold option_kind in K.
    assert (KT : c_type (a_cfg a) = fst (fst (option_kind act n)) /\ n = snd (fst (option_kind act n))) by (unfold option_kind; rewrite <- K; split; reflexivity).
    clear K. destruct KT as [KT KN]. unfold has_values, arity_of. rewrite KT. unfold option_kind in *. destruct (N.eqb_spec n 0) as [Z|_]; [contradiction|].
    destruct act; try congruence; try (cbn in KN; contradiction);
      repeat match goal with |- context [N.eqb n ?k] => destruct (N.eqb_spec n k) end; cbn [fst snd grouped] in *;
      (split; [reflexivity|]); (split; [intros X; first [discriminate X | split; [auto | lia]] | intros [[X|X] Y]; first [discriminate X | reflexivity | lia]]).
  - intros P NA. pose proof (positional_type s a act n R Ia P EA EN N0 NA) as K. rewrite EA, EN in K.
    unfold has_values, arity_of, positional_kind in *. destruct NA as [-> | ->]; destruct (N.eqb_spec n 0) as [Z|_]; try contradiction.
    + destruct (N.eqb_spec n 1); [|destruct (N.eqb_spec n 43)]; injection K as <-; cbn [grouped]; (split; [reflexivity|]); split; try (intros X; discriminate X); intros [X _]; discriminate X.
    + destruct (N.eqb_spec n 1); injection K as <-; cbn [grouped]; (split; [reflexivity|]); (split; [intros X; first [discriminate X | split; [reflexivity | lia]] | intros [_ X]; first [reflexivity | lia]]).
Qed.
Print Assumptions C44_kinds.
(** an argument that was declared otherwise before: the views disagree *)
Definition redone : state := history [OpAdd ["-m"] [MAction APPEND; MNargs 2; MDefaults ["a"; "b"]; MDefaults []; MNargs 1]].
Theorem C44_refuted : exists s', parseArguments ["prog"] redone = (s', Ok tt) /\ to_vector (pick "-m" s') = Ok ["a, b"] /\ getString (pick "-m" s') = "(a, b)".
Proof. eexists. split; [vm_compute; reflexivity | split; vm_compute; reflexivity]. Qed.
(** an option that takes any number of values, given with none: no values, but a string *)
Definition loose : state := history [OpAdd ["-i"] [MAction INFINITE; MDefaults ["x"; "y"]]].
Theorem C44_refuted_empty : exists s', parseArguments ["prog"; "-i"] loose = (s', Ok tt) /\ isExists (pick "-i" s') = true /\ to_vector (pick "-i" s') = Ok [] /\ getString (pick "-i" s') = "x, y".
Proof. eexists. split; [vm_compute; reflexivity | repeat split; vm_compute; reflexivity]. Qed.
Lemma shop_was_shaped : forall a, was_shaped shop a.
Proof.
  assert (X : forall b, In b (arguments (ready shop)) -> shaped b); [|intros a b Ib _; exact (X b Ib)].
  apply (forall_arguments (ready shop) (fun b => if flat (c_type (a_cfg b)) then match d_elems (a_dyn b) with [] => true | _ => false end
     else forallb (fun e => if grouped (c_type (a_cfg b)) then match el_subs e with [] => false | _ => true end else match el_subs e with [] => true | _ => false end) (d_elems (a_dyn b)))); [vm_compute; reflexivity|].
  intros a H. unfold shaped, elems_shaped. destruct (flat (c_type (a_cfg a))); [destruct (d_elems (a_dyn a)); [reflexivity | discriminate H]|].
  apply Forall_forall. intros e He. rewrite forallb_forall in H. specialize (H e He). unfold elem_shaped. destruct (grouped (c_type (a_cfg a))), (el_subs e); try discriminate H; [discriminate | reflexivity].
Qed.
Example C44_example : exists s', parseArguments ["prog"; "-e"; "1"; "2"; "3"; "4"; "-v"; "--"; "x"] shop = (s', Ok tt) /\
  to_vector_vector (pick "-e" s') = Ok [["1"; "2"]; ["3"; "4"]] /\ to_vector (pick "-e" s') = Ok ["1"; "2"; "3"; "4"] /\ getString (pick "-e" s') = "(1, 2), (3, 4)" /\
  getString (pick "-a" s') = "d1, d2" /\ getString (pick "-v" s') = "true" /\ to_vector (pick "-v" s') = Throw no_vector.
Proof. eexists. split; [vm_compute; reflexivity | repeat split; vm_compute; reflexivity]. Qed.

(* ------------------------------------------------------------------ *)
(** * C45 *)
(** the value of a flag (operator bool) *)
Definition flag_value (a : argument) : option bool :=
  match c_type (a_cfg a) with
  | BOOLEAN_OPTION | REVERSE_BOOLEAN_OPTION => Some (to_bool a)
  | _ => None
  end.
(** What a destination really gets: an argument with one value gives this value; one with
    several values gives them to a vector, but its default to a scalar, and also to a
    vector if there are no values. *)
Definition text_of (a : argument) : str :=
  if one_valued (c_type (a_cfg a)) then match to_vector a with Ok (v :: _) => v | _ => "" end else getDefault a.
Definition dest_words (a : argument) : list str := match to_vector a with Ok (v :: vs) => v :: vs | _ => [text_of a] end.
Definition dest_groups (a : argument) : list (list str) :=
  match to_vector_vector a with Ok (g :: gs) => g :: gs | Ok [] => [[text_of a]] | _ => map (fun v => [v]) (dest_words a) end.
(** a vector of const char* gets pointers into temporary strings *)
Definition vector_cell (a : argument) (d : dest) (v : str) : cellval :=
  match d_ty d with
  | TyCharPtr => if one_valued (c_type (a_cfg a)) then CvStr v else match to_vector a with Ok (_ :: _) => CvDangling | _ => CvStr v end
  | _ => CvStr v
  end.
Definition delivery (a : argument) (d : dest) : list devent :=
  let cell := d_cell d in
  if d_custom d then
    match d_kind d with
    | DScalar => [EvCall cell (isExists a) (text_of a)]
    | DVector => [EvCallV cell (isExists a) (dest_words a)]
    | DVectorVector => [EvCallVV cell (isExists a) (dest_groups a)]
    end
  else match flag_value a with
  | Some b =>
    match d_kind d with
    | DScalar => [EvAssign cell (CvBool b)]
    | DVector => [EvPush cell (CvBool b)]
    | DVectorVector => [EvPushVec cell [CvBool b]]
    end
  | None =>
    match d_kind d with
    | DScalar => [EvAssign cell (CvStr (text_of a))]
    | DVector => map (fun v => EvPush cell (vector_cell a d v)) (dest_words a)
    | DVectorVector => map (fun g => EvPushVec cell (map (vector_cell a d) g)) (dest_groups a)
    end
  end.


Definition supported (d : dest) : Prop := d_custom d = true \/ d_ty d <> TyUnsupported.
Lemma no_exception : forall a d, snd (dest_events a d) = None -> supported d.
Proof.
  intros a d H. unfold supported. destruct (d_custom d) eqn:CU; [now left|]. right. intros TY. unfold dest_events in H. rewrite CU, TY in H.
  assert (S : single_to TyUnsupported a = Throw (Exn KParse "" "destination method not found for this type")) by (unfold single_to, bool_to, str_to; destruct (c_type (a_cfg a)); reflexivity).
  rewrite S in H. destruct (d_kind d); [discriminate H | |]; destruct (d_elems (a_dyn a)) as [|e es] eqn:E; try discriminate H.
  - cbn [flat_map] in H. unfold elem_strings at 1 in H. destruct (el_subs e) eqn:L; [discriminate H|]. unfold elem_values in H. rewrite L in H. discriminate H.
  - cbn [map] in H. unfold elem_strings at 1 in H. destruct (el_subs e) eqn:L; [discriminate H|]. unfold elem_values in H. rewrite L in H. discriminate H.
Qed.
Lemma seq_all : forall {X} (f : X -> dres) (g : X -> devent) l, (forall x, f x = ([g x], None)) -> fst (ev_seq (map f l)) = map g l.
Proof.
  intros X f g l H. induction l as [|x l IH]; [reflexivity|]. cbn [map ev_seq]. rewrite H. destruct (ev_seq (map f l)) as [es o]. cbn [fst] in *. now rewrite IH.
Qed.
Lemma res_map : forall ty t (h : str -> cellval) l, (forall w, str_to ty t w = Ok (h w)) -> res_all (map (str_to ty t) l) = (map h l, None).
Proof. intros ty t h l H. induction l as [|w l IH]; [reflexivity|]. cbn [map res_all]. now rewrite H, IH. Qed.
Lemma plain_strings : forall t es, flat t = false -> grouped t = false -> elems_shaped t es -> map elem_strings es = map (fun v => [v]) (map elem_value es).
Proof.
  intros t es F G H. unfold elems_shaped in H. rewrite F in H. induction H as [|e es He _ IH]; [reflexivity|]. cbn [map]. rewrite IH. f_equal.
  unfold elem_shaped in He. rewrite G in He. unfold elem_strings. now rewrite He.
Qed.
Lemma group_strings : forall t es, grouped t = true -> elems_shaped t es -> map elem_strings es = map elem_values es.
Proof.
  intros t es G H. assert (F : Forall (elem_shaped t) es) by (unfold elems_shaped in H; destruct t; try discriminate G; exact H). clear H.
  induction F as [|e es He _ IH]; [reflexivity|]. cbn [map]. rewrite IH. f_equal. unfold elem_shaped in He. rewrite G in He. unfold elem_strings. destruct (el_subs e); [now elim He | reflexivity].
Qed.
(** the strings in the elements, and the public views *)
Lemma dest_views : forall a, shaped a -> (one_valued (c_type (a_cfg a)) = false -> d_arg (a_dyn a) = c_default (a_cfg a)) ->
  d_arg (a_dyn a) = text_of a /\
  match d_elems (a_dyn a) with [] => [d_arg (a_dyn a)] | es => flat_map elem_strings es end = dest_words a /\
  match d_elems (a_dyn a) with [] => [[d_arg (a_dyn a)]] | es => map elem_strings es end = dest_groups a.
Proof.
  intros a S T. set (t := c_type (a_cfg a)) in *.
  assert (K : (flat t = true /\ d_elems (a_dyn a) = []) \/
              (grouped t = false /\ one_valued t = false /\ map elem_strings (d_elems (a_dyn a)) = map (fun v => [v]) (map elem_value (d_elems (a_dyn a))) /\ to_vector a = Ok (map elem_value (d_elems (a_dyn a)))) \/
              (grouped t = true /\ one_valued t = false /\ map elem_strings (d_elems (a_dyn a)) = map elem_values (d_elems (a_dyn a)) /\ Forall (fun g => g <> []) (map elem_values (d_elems (a_dyn a))) /\ to_vector a = Ok (concat (map elem_values (d_elems (a_dyn a)))))).
  { unfold to_vector. fold t. destruct (flat t) eqn:F; [left; split; [reflexivity|]; unfold shaped, elems_shaped in S; fold t in S; rewrite F in S; exact S|].
    right. destruct (grouped t) eqn:G; [right | left]; (split; [reflexivity|]).
    - split; [destruct t; try discriminate G; reflexivity|]. split; [exact (group_strings t _ G S)|]. split; [apply (groups_nonempty t _ G S)|]. rewrite <- flat_map_map. destruct t; try discriminate G; reflexivity.
    - split; [destruct t; try discriminate F; reflexivity|]. split; [exact (plain_strings t _ F G S)|]. destruct t; try discriminate F; try discriminate G; reflexivity. }
  destruct K as [[F E]|[[G [O [K1 K2]]]|[G [O [K1 [K2 K3]]]]]].
  - rewrite E. unfold dest_groups, dest_words, text_of, to_vector, to_vector_vector, getDefault. fold t. destruct t; try discriminate F; cbn [one_valued] in *; try (repeat split; reflexivity);
      (assert (T1 := T eq_refl); rewrite T1; repeat split; reflexivity).
  - assert (TX : d_arg (a_dyn a) = text_of a) by (unfold text_of; fold t; rewrite O; now apply T). split; [exact TX|].
    assert (VV : dest_groups a = map (fun v => [v]) (dest_words a)) by (unfold dest_groups, to_vector_vector; fold t; destruct t; try discriminate G; reflexivity). rewrite VV.
    unfold dest_words. rewrite K2. destruct (d_elems (a_dyn a)) as [|e es]; [rewrite TX; split; reflexivity|]. rewrite flat_map_map, K1. cbn [map].
    split; [|reflexivity]. cbn [concat app]. f_equal. clear. generalize (map elem_value es) as vs. induction vs as [|x vs IH]; [reflexivity|]. cbn [map concat app]. now rewrite IH.
  - assert (TX : d_arg (a_dyn a) = text_of a) by (unfold text_of; fold t; rewrite O; now apply T). split; [exact TX|].
    assert (VV : dest_groups a = match map elem_values (d_elems (a_dyn a)) with [] => [[text_of a]] | g :: gs => g :: gs end) by (unfold dest_groups, to_vector_vector; fold t; destruct t; try discriminate G; destruct (d_elems (a_dyn a)); reflexivity).
    rewrite VV. unfold dest_words. rewrite K3. destruct (d_elems (a_dyn a)) as [|e es]; [rewrite TX; split; reflexivity|]. rewrite flat_map_map, K1. cbn [map] in *.
    split; [|reflexivity]. inversion K2; subst. cbn [concat]. destruct (elem_values e); [now elim H1 | reflexivity].
Qed.
Lemma dest_delivery : forall a d, shaped a -> (one_valued (c_type (a_cfg a)) = false -> d_arg (a_dyn a) = c_default (a_cfg a)) -> supported d ->
  fst (dest_events a d) = delivery a d.
Proof.
  intros a d S T SU. destruct (dest_views a S T) as [V1 [V2 V3]]. unfold dest_events, delivery.
  destruct (d_custom d) eqn:CU; [destruct (d_kind d); cbn [fst]; [now rewrite V1 | now rewrite V2 | now rewrite V3]|].
  destruct SU as [Z|SU]; [congruence|].
  assert (FL : forall b, flag_value a = Some b -> single_to (d_ty d) a = Ok (CvBool b) /\ d_elems (a_dyn a) = []).
  { intros b Hb. unfold flag_value, to_bool in Hb. unfold single_to, bool_to, shaped, elems_shaped in *.
    destruct (c_type (a_cfg a)); try discriminate Hb; injection Hb as <-; (split; [destruct (d_ty d); [reflexivity | reflexivity | now elim SU] | exact S]). }
  destruct (flag_value a) as [b|] eqn:FV.
  - destruct (FL b eq_refl) as [F1 F2]. rewrite F1, F2. destruct (d_kind d); reflexivity.
  - assert (SI : single_to (d_ty d) a = Ok (CvStr (text_of a))).
    { unfold single_to, flag_value in *. rewrite <- V1. destruct (c_type (a_cfg a)); try discriminate FV; destruct (d_ty d); try reflexivity; now elim SU. }
    assert (ST : d_elems (a_dyn a) <> [] -> forall w, str_to (d_ty d) true w = Ok (vector_cell a d w)).
    { intros NE w. unfold vector_cell. destruct (d_ty d); try reflexivity; [|now elim SU]. unfold str_to. f_equal.
      unfold shaped, elems_shaped, to_vector in *. destruct (c_type (a_cfg a)); cbn [flat one_valued] in *; try contradiction;
        (destruct (d_elems (a_dyn a)) as [|e es]; [now elim NE|]; cbn [map flat_map]; try reflexivity); inversion S; subst; unfold elem_shaped in H1; cbn [grouped] in H1;
        unfold elem_values at 1; destruct (el_subs e); [now elim H1 | reflexivity | now elim H1 | reflexivity | now elim H1 | reflexivity]. }
    assert (S0 : d_elems (a_dyn a) = [] -> forall w, vector_cell a d w = CvStr w).
    { intros E w. unfold vector_cell, to_vector. rewrite E. destruct (d_ty d); try reflexivity. destruct (c_type (a_cfg a)); reflexivity. }
    rewrite SI. destruct (d_kind d); [reflexivity | |].
    + rewrite <- V2. destruct (d_elems (a_dyn a)) as [|e es] eqn:E.
      * cbn [map ev_of fst]. rewrite S0, V1 by reflexivity. reflexivity.
      * apply seq_all. intros w. rewrite ST by discriminate. reflexivity.
    + rewrite <- V3. destruct (d_elems (a_dyn a)) as [|e es] eqn:E.
      * cbn [map ev_of fst]. rewrite S0, V1 by reflexivity. reflexivity.
      * rewrite map_map. apply (seq_all _ (fun x => EvPushVec (d_cell d) (map (vector_cell a d) (elem_strings x)))). intros x.
        rewrite (res_map _ _ (vector_cell a d)) by (apply ST; discriminate). reflexivity.
Qed.

(** After a parse that returned, each destination was served once, in the order of the
    arguments, with exactly this: *)
Theorem C45_exact : forall s argv ws s', usable s -> interprets s -> command_line argv ws -> parseArguments argv s = (s', Ok tt) ->
  (forall a, In a (arguments s') -> c_dest (a_cfg a) <> None -> was_shaped s a) ->
  s_dlog s' = s_dlog s ++ flat_map (fun a => match c_dest (a_cfg a) with Some d => delivery a d | None => [] end) (arguments s') /\
  (forall a d, In a (arguments s') -> c_dest (a_cfg a) = Some d -> supported d).
Proof.
  intros s argv ws s' U I C E SH. destruct (parse_ok s argv ws s' U C I E) as [pcs [R [ES [_ [_ T]]]]]. cbv zeta in *. set (t := scanned argv pcs s) in *.
  assert (DL : s_dlog t = s_dlog s).
  { unfold t, scanned, named. cbn [s_dlog with_additional with_args]. assert (s_dlog (ready s) = s_dlog s) by (destruct (ready_cases s (usable_wf0 s U)) as [[-> _]|[-> _]]; reflexivity).
    destruct (s_bin (ready s)); exact H. }
  assert (AS : arguments s' = map finished (s_args t)) by (rewrite ES; reflexivity).
  assert (SU : forall a d, In a (arguments s') -> c_dest (a_cfg a) = Some d -> supported d).
  { intros a d Ia D. rewrite AS in Ia. apply in_map_iff in Ia. destruct Ia as [b [<- Ib]]. rewrite Forall_forall in T. specialize (T b Ib). unfold trouble in T.
    destruct (refusal b); [discriminate T|]. unfold arg_events in T. rewrite D in T. eapply no_exception, T. }
  split; [|exact SU]. rewrite ES at 1. cbn [s_dlog with_dlog]. rewrite DL. f_equal. unfold all_events. rewrite AS, flat_map_concat_map, (flat_map_concat_map _ (map _ _)), map_map. f_equal.
  apply map_ext_in. intros b Ib. unfold arg_events. destruct (c_dest (a_cfg (finished b))) as [d|] eqn:D; [|reflexivity].
  assert (Ia : In (finished b) (arguments s')) by (rewrite AS; now apply in_map).
  destruct (parsed_shaped s argv ws s' (finished b) U I C E Ia) as [S1 S2]; [apply SH; [exact Ia | congruence]|].
  apply dest_delivery; [exact S1 | exact S2 | exact (SU _ _ Ia D)].
Qed.
Print Assumptions C45_exact.
(** In words: no destination is served twice or forgotten; flags give their truth value,
    one value is assigned to a scalar, several values are appended to a vector in order,
    groups of values are appended to a vector of vectors, and a callback is called once
    with whether the argument was given and with the values.
    (Missing: several values to a scalar, no values to a vector, vectors of const char*:
    see the refutations and C45_exact.) *)
Theorem C45_partial : forall s argv ws s', usable s -> interprets s -> command_line argv ws -> parseArguments argv s = (s', Ok tt) ->
  (forall a, In a (arguments s') -> c_dest (a_cfg a) <> None -> was_shaped s a) ->
  exists W, s_dlog s' = s_dlog s ++ flat_map W (arguments s') /\ forall a, In a (arguments s') ->
  match c_dest (a_cfg a) with
  | None => W a = []
  | Some d =>
    (d_custom d = false ->
       (forall b, flag_value a = Some b -> W a = match d_kind d with
          | DScalar => [EvAssign (d_cell d) (CvBool b)] | DVector => [EvPush (d_cell d) (CvBool b)] | DVectorVector => [EvPushVec (d_cell d) [CvBool b]] end) /\
       (forall v, one_valued (c_type (a_cfg a)) = true -> to_vector a = Ok [v] -> d_kind d = DScalar -> W a = [EvAssign (d_cell d) (CvStr v)]) /\
       (forall vs, to_vector a = Ok vs -> vs <> [] -> d_kind d = DVector -> d_ty d = TyValue -> W a = map (fun v => EvPush (d_cell d) (CvStr v)) vs) /\
       (forall gs, to_vector_vector a = Ok gs -> gs <> [] -> d_kind d = DVectorVector -> d_ty d = TyValue -> W a = map (fun g => EvPushVec (d_cell d) (map CvStr g)) gs)) /\
    (d_custom d = true ->
       (forall v, one_valued (c_type (a_cfg a)) = true -> to_vector a = Ok [v] -> d_kind d = DScalar -> W a = [EvCall (d_cell d) (isExists a) v]) /\
       (forall vs, to_vector a = Ok vs -> vs <> [] -> d_kind d = DVector -> W a = [EvCallV (d_cell d) (isExists a) vs]) /\
       (forall gs, to_vector_vector a = Ok gs -> gs <> [] -> d_kind d = DVectorVector -> W a = [EvCallVV (d_cell d) (isExists a) gs]))
  end.
Proof.
  intros s argv ws s' U I C E SH. destruct (C45_exact s argv ws s' U I C E SH) as [H _]. eexists. split; [exact H|]. cbv beta. intros a Ia.
  destruct (c_dest (a_cfg a)) as [d|]; [|reflexivity].
  assert (NF : forall vs, to_vector a = Ok vs -> flag_value a = None) by (intros vs T; unfold to_vector, flag_value in *; destruct (c_type (a_cfg a)); try reflexivity; discriminate T).
  assert (NF2 : forall vs, to_vector_vector a = Ok vs -> flag_value a = None) by (intros vs T; unfold to_vector_vector, flag_value in *; destruct (c_type (a_cfg a)); try reflexivity; discriminate T).
  assert (TX : forall v, one_valued (c_type (a_cfg a)) = true -> to_vector a = Ok [v] -> text_of a = v) by (intros v O T; unfold text_of; now rewrite O, T).
  assert (WX : forall vs, to_vector a = Ok vs -> vs <> [] -> dest_words a = vs) by (intros [|v vs] T N; unfold dest_words; rewrite T; [now elim N | reflexivity]).
  assert (GX : forall gs, to_vector_vector a = Ok gs -> gs <> [] -> dest_groups a = gs) by (intros [|v vs] T N; unfold dest_groups; rewrite T; [now elim N | reflexivity]).
  unfold delivery. split; intros CU; rewrite CU.
  - split; [|split; [|split]].
    + intros b ->. reflexivity.
    + intros v O T K. rewrite (NF _ T), K. now rewrite (TX v O T).
    + intros vs T N K TY. rewrite (NF _ T), K, (WX vs T N). unfold vector_cell. now rewrite TY.
    + intros gs T N K TY. rewrite (NF2 _ T), K, (GX gs T N). apply map_ext. intros g. f_equal. apply map_ext. intros v. unfold vector_cell. now rewrite TY.
  - split; [|split].
    + intros v O T K. rewrite K. now rewrite (TX v O T).
    + intros vs T N K. rewrite K. now rewrite (WX vs T N).
    + intros gs T N K. rewrite K. now rewrite (GX gs T N).
Qed.
Print Assumptions C45_partial.

Lemma ready_dlog : forall s, wf0 s -> s_dlog (ready s) = s_dlog s.
Proof. intros s W. destruct (ready_cases s W) as [[-> _]|[-> _]]; reflexivity. Qed.
Lemma scanned_dlog : forall s argv pcs, wf0 s -> s_dlog (scanned argv pcs s) = s_dlog s.
Proof. intros s argv pcs W. unfold scanned, named. cbn [s_dlog with_additional with_args]. rewrite <- (ready_dlog s W). destruct (s_bin (ready s)); reflexivity. Qed.
Lemma rejected_scan : forall s argv ws e, usable s -> command_line argv ws -> interprets s -> rejects s ws e ->
  exists s0, scan (parse_fuel argv s) argv (prepared s) = (s0, Throw e) /\ parseArguments argv s = (s0, Throw e).
Proof.
  intros s argv ws e U C I RJ. pose proof (usable_wf s U) as W. destruct (C14_unique s argv ws U C I) as [_ [X _]]. destruct U as [R [S P]].
  destruct (scan_eq (prepared s) argv ws (parse_fuel argv s) (wf_prepared s W) (opt_nargs_prepared s (reach_opt_nargs s R)) (sensible_prepared s S) C)
    as [[pcs [RD E]]|[e' [s' [RD [F E]]]]].
  - unfold parse_fuel.
    assert (length (s_args (prepared s)) <= length (s_args s) + 1); [|lia].
    unfold prepared. destruct (s_help s); [simpl; rewrite map_length; lia|]. destruct (free_help s); [simpl; rewrite map_length; lia|].
    unfold with_auto_help, registered; simpl. rewrite <- (Permutation_length (sort_perm arg_lt _)), app_length, map_length; simpl; lia.
  - intros a Ia. now apply prepared_absent in Ia.
  - apply pos_left_prepared.
  - exfalso. rewrite (setup_prepared s (proj1 W)) in RD. exact (X pcs e RD RJ).
  - rewrite (setup_prepared s (proj1 W)) in RD. assert (EE : e' = e) by (eapply Fails_det; [exact RD | exact RJ]). subst e'.
    exists s'. split; [exact E|]. unfold parseArguments. rewrite (proj1 (parse_with_eq (parse_fuel argv s) argv s (proj1 W)) I). apply bind_throw. exact E.
Qed.
(** Nothing is written if the command line cannot be read, if help or version was asked
    for, or if a required argument is missing. *)
Theorem C45_untouched : forall s argv ws s' r, usable s -> interprets s -> command_line argv ws -> parseArguments argv s = (s', r) ->
  (exists e, rejects s ws e) \/ (exists out, r = Exit out) \/ (exists e, r = Throw e /\ (x_kind e = KHelp \/ x_kind e = KVersion \/ x_kind e = KRequired)) ->
  s_dlog s' = s_dlog s.
Proof.
  intros s argv ws s' r U I C E H. pose proof (usable_wf0 s U) as W.
  destruct (read_or_reject s argv ws U C I) as [[pcs R]|[e R]].
  - pose proof (parse_finish s argv ws pcs U C I R) as F. rewrite E in F. cbn [fst snd] in F. rewrite <- (scanned_dlog s argv pcs W).
    destruct (C14_unique s argv ws U C I) as [_ [X _]].
    destruct F as [H1|H1 H2|a l H1 H2 H3|before a after e H1 H2 H3 HL H4 H5|H1 H2 H3 H4].
    + destruct (m_helpex _); reflexivity.
    + destruct (m_verex _); reflexivity.
    + reflexivity.
    + exfalso. destruct H as [[e' RJ]|[[out H]|[e' [H K]]]]; [exact (X pcs e' R RJ) | discriminate H | injection H as ->].
      apply trouble_kind in H5. destruct H5 as [Z|[Z|Z]], K as [K|[K|K]]; rewrite Z in K; discriminate K.
    + exfalso. destruct H as [[e' RJ]|[[out H]|[e' [H K]]]]; [exact (X pcs e' R RJ) | discriminate H | discriminate H].
  - assert (UQ : unique (prepared s)).
    { rewrite prepared_ready by exact W. unfold unique, cleared. cbn [s_args with_args]. rewrite map_map. cbn. exact (wf_ids (ready s) (usable_ready_wf s U)). }
    assert (SC : forall fuel, s_dlog (fst (scan fuel argv (prepared s))) = s_dlog s).
    { intros fuel. rewrite (qu_dlog _ _ (quiet_scan fuel argv (prepared s) UQ)), prepared_ready by exact W. exact (ready_dlog s W). }
    destruct (rejected_scan s argv ws e U C I R) as [s0 [E0 E1]]. specialize (SC (parse_fuel argv s)). rewrite E0 in SC. cbn [fst] in SC.
    rewrite E in E1. injection E1 as -> _. exact SC.
Qed.
Print Assumptions C45_untouched.
(** If the last stage fails (a validator refuses, or a destination has a type without
    conversion), just the destinations of the arguments before the one in trouble were
    served. *)
Theorem C45_stopped : forall s argv ws pcs s' e, usable s -> interprets s -> command_line argv ws -> reads s ws pcs -> parseArguments argv s = (s', Throw e) ->
  x_kind e <> KHelp -> x_kind e <> KVersion -> x_kind e <> KRequired ->
  (forall a, In a (arguments s') -> c_dest (a_cfg a) <> None -> was_shaped s a) ->
  exists l1 b l2, arguments s' = l1 ++ b :: l2 /\
    ((exists c, In c (arguments (ready s)) /\ a_id c = a_id b /\ refused pcs c = Some e) \/ exists d, c_dest (a_cfg b) = Some d /\ ~ supported d) /\
    s_dlog s' = s_dlog s ++ flat_map (fun a => match c_dest (a_cfg a) with Some d => delivery a d | None => [] end) l1.
Proof.
  intros s argv ws pcs s' e U I C R E K1 K2 K3 SH. pose proof (usable_wf0 s U) as W. pose proof (parse_finish s argv ws pcs U C I R) as F. rewrite E in F. cbn [fst snd] in F.
  remember (Throw e) as r eqn:Er. destruct F as [H1|H1 H2|a l H1 H2 H3|before a after e' H1 H2 H3 HL H4 H5|H1 H2 H3 H4].
  - exfalso. destruct (m_helpex _); [injection Er as <-; now apply K1 | discriminate Er].
  - exfalso. destruct (m_verex _); [injection Er as <-; now apply K2 | discriminate Er].
  - exfalso. injection Er as <-. now apply K3.
  - injection Er as ->. set (t := scanned argv pcs s) in *.
    assert (DL : s_dlog t = s_dlog s) by (now apply scanned_dlog).
    assert (AT : s_args t = map (read_arg pcs) (s_args (ready s))) by reflexivity.
    assert (Q : forall x, In x before -> exists y, In y (arguments (ready s)) /\ x = read_arg pcs y).
    { intros x Ix. assert (Z : In x (s_args t)) by (rewrite HL; apply in_or_app; now left). rewrite AT in Z. apply in_map_iff in Z. destruct Z as [y [<- Iy]]. now exists y. }
    exists (map finished before), (match refusal a with Some _ => a | None => finished a end), after. split; [reflexivity|].
    assert (Ia : In a (s_args t)) by (rewrite HL; apply in_or_app; right; now left). rewrite AT in Ia. apply in_map_iff in Ia. destruct Ia as [b [Eb Ib]].
    assert (NW : snd (arg_events (finished a)) = Some e -> exists d, c_dest (a_cfg (finished a)) = Some d /\ ~ supported d /\ fst (arg_events (finished a)) = []).
    { intros X. unfold arg_events in *. destruct (c_dest (a_cfg (finished a))) as [d|] eqn:D; [|discriminate X]. exists d. split; [reflexivity|].
      assert (NS : ~ supported d).
      { intros SU. assert (WB : writable (finished a)) by (unfold writable; rewrite D; exact SU).
        apply writable_events in WB. unfold arg_events in WB. rewrite D in WB. congruence. }
      split; [exact NS|]. unfold supported in NS. assert (CU : d_custom d = false) by (destruct (d_custom d); [elim NS; now left | reflexivity]).
      assert (TY : d_ty d = TyUnsupported) by (destruct (d_ty d); [elim NS; right; discriminate | elim NS; right; discriminate | reflexivity]).
      unfold dest_events. rewrite CU, TY.
      assert (ST : single_to TyUnsupported (finished a) = Throw (Exn KParse "" "destination method not found for this type")) by (unfold single_to, bool_to, str_to; destruct (c_type (a_cfg (finished a))); reflexivity).
      rewrite ST. destruct (d_kind d); [reflexivity | |]; destruct (d_elems (a_dyn (finished a))) as [|x es]; try reflexivity.
      - cbn [flat_map]. unfold elem_strings at 1. destruct (el_subs x) eqn:L; [reflexivity|]. unfold elem_values. rewrite L. reflexivity.
      - cbn [map]. unfold elem_strings at 1. destruct (el_subs x) eqn:L; [reflexivity|]. unfold elem_values. rewrite L. reflexivity. }
    split.
    + unfold trouble in H5. destruct (refusal a) as [e'|] eqn:RF.
      * left. injection H5 as <-. subst a. rewrite (refusal_refused s ws pcs b U R Ib) in RF. exists b. split; [exact Ib|]. split; [reflexivity | exact RF].
      * right. destruct (NW H5) as [d [D [NS _]]]. now exists d.
    + unfold stopped. cbn [s_dlog with_dlog]. rewrite DL. f_equal.
      assert (TL : (match refusal a with Some _ => [] | None => fst (arg_events (finished a)) end) = []).
      { unfold trouble in H5. destruct (refusal a); [reflexivity|]. now destruct (NW H5) as [d [_ [_ Z]]]. }
      rewrite TL, app_nil_r. unfold all_events. rewrite flat_map_concat_map, (flat_map_concat_map _ (map _ _)), map_map. f_equal. apply map_ext_in.
      intros x Ix. destruct (Q x Ix) as [y [Iy ->]]. unfold arg_events. destruct (c_dest (a_cfg (finished (read_arg pcs y)))) as [d|] eqn:D; [|reflexivity].
      rewrite Forall_forall in H4. specialize (H4 _ Ix). unfold trouble in H4. destruct (refusal (read_arg pcs y)); [discriminate H4|]. unfold arg_events in H4. rewrite D in H4.
      apply dest_delivery; [|intros O; rewrite finished_cfg; change (a_cfg (read_arg pcs y)) with (a_cfg y); apply parsed_text; rewrite finished_cfg in O; exact O | exact (no_exception _ _ H4)].
      apply finished_shaped, read_shaped. apply (SH (finished (read_arg pcs y))); [| congruence | exact Iy | now rewrite finished_id].
      cbn [stopped s_args with_dlog with_args]. apply in_or_app. left. now apply in_map.
  - discriminate Er.
Qed.
Print Assumptions C45_stopped.

(** several values for a scalar: the destination gets the default instead *)
Definition scalar_dest : state := history [OpAdd ["-p"] [MNargs 2; MDest (Dest 7 DScalar false TyValue)]].
Theorem C45_refuted_scalar : exists s', parseArguments ["prog"; "-p"; "1"; "2"] scalar_dest = (s', Ok tt) /\ to_vector (pick "-p" s') = Ok ["1"; "2"] /\ s_dlog s' = [EvAssign 7 (CvStr "")].
Proof. eexists. split; [vm_compute; reflexivity | split; vm_compute; reflexivity]. Qed.
(** no values for a vector: one is appended nevertheless *)
Definition vector_dest : state := history [OpAdd ["-i"] [MAction INFINITE; MDest (Dest 7 DVector false TyValue)]].
Theorem C45_refuted_empty : exists s', parseArguments ["prog"] vector_dest = (s', Ok tt) /\ to_vector (pick "-i" s') = Ok [] /\ s_dlog s' = [EvPush 7 (CvStr "")].
Proof. eexists. split; [vm_compute; reflexivity | split; vm_compute; reflexivity]. Qed.
(** const char* in a vector: dangling *)
Definition pointer_dest : state := history [OpAdd ["-i"] [MAction INFINITE; MDest (Dest 7 DVector false TyCharPtr)]].
Theorem C45_refuted_pointer : exists s', parseArguments ["prog"; "-i"; "x"] pointer_dest = (s', Ok tt) /\ to_vector (pick "-i" s') = Ok ["x"] /\ s_dlog s' = [EvPush 7 CvDangling].
Proof. eexists. split; [vm_compute; reflexivity | split; vm_compute; reflexivity]. Qed.
(** a good case *)
Definition dests : state := history [OpAdd ["-n"] [MDefaults ["anon"]; MDest (Dest 1 DScalar false TyValue)]; OpAdd ["-v"] [MAction STORE_TRUE; MDest (Dest 2 DScalar false TyValue)];
  OpAdd ["-i"] [MAction INFINITE; MDest (Dest 3 DVector false TyValue)]; OpAdd ["-e"] [MAction EXTEND; MNargs 2; MDest (Dest 4 DVectorVector true TyValue)];
  OpAdd ["-u"] [MValid (Some (Validator 0 (fun vs => VOk true (map (fun v => "<" ^^ v ^^ ">") vs)))) true; MDest (Dest 5 DScalar true TyValue)]].
Example C45_example : usable dests /\ interprets dests /\ (forall a, was_shaped dests a) /\ exists s', parseArguments ["prog"; "-v"; "-u"; "k"; "-i"; "1"; "2"; "-e"; "a"; "b"; "c"; "d"] dests = (s', Ok tt) /\
  s_dlog s' = [EvCallVV 4 true [["a"; "b"]; ["c"; "d"]]; EvPush 3 (CvStr "1"); EvPush 3 (CvStr "2"); EvAssign 1 (CvStr "anon"); EvCall 5 true "<k>"; EvAssign 2 (CvBool true)].
Proof.
  split; [apply careful_usable, careful_history; vm_compute; reflexivity|]. split; [right; vm_compute; discriminate|]. split.
  - assert (X : forall b, In b (arguments (ready dests)) -> shaped b); [|intros a b Ib _; exact (X b Ib)].
    apply (forall_arguments (ready dests) (fun b => match d_elems (a_dyn b) with [] => true | _ => false end)); [vm_compute; reflexivity|].
    intros a H. unfold shaped. destruct (d_elems (a_dyn a)); [apply elems_nil | discriminate H].
  - eexists. split; [vm_compute; reflexivity | vm_compute; reflexivity].
Qed.
