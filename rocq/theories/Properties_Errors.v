(** Properties_Errors.v -- C62 (exceptions: class and argument()). *)
From Coq Require Import Permutation Sorted.
From Verif Require Import Base Model_Utils Model_Number Model_Types Model_Argument Model_Usage Model_Args Model_Api
  Spec_Order Spec_Names Spec_Reading Spec_Extend Spec_Reorder Spec_Errors Spec_Parse Spec_Decl Spec_Finish Spec_History Spec_Api Spec_Result
  Proofs_Base Proofs_Order Proofs_Frame Proofs_Inv Proofs_ReadFacts Proofs_Reading Proofs_Parse Proofs_Decl Proofs_Finish
  Proofs_Meth Proofs_History Proofs_Config Proofs_Names Proofs_Distinct Proofs_Central Proofs_Swap Proofs_Redecl Proofs_Check Proofs_Like Proofs_LikeNew Proofs_Reorder Properties_Parse Demo.

(* ------------------------------------------------------------------ *)
(** * declarations *)
Lemma first_name_In : forall c, c_names c <> [] -> In (first_name c) (c_names c).
Proof. intros c N. unfold first_name. destruct (c_names c); [now destruct N | now left]. Qed.
Lemma defaults_error : forall a e, snd (defaults_arg a) = Some e -> c_names (a_cfg a) <> [] -> x_kind e = KArgument /\ In (x_arg e) (c_names (a_cfg a)).
Proof.
  intros a e E N. unfold defaults_arg in E. repeat match type of E with snd (if ?b then _ else _) = _ => destruct b | snd (match ?x with _ => _ end) = _ => destruct x end; try discriminate;
    injection E as <-; (split; [reflexivity | now apply first_name_In]).
Qed.
Lemma declared_error : forall a s e, snd (declared a s) = Some e -> c_names (a_cfg a) <> [] -> x_kind e = KArgument /\ In (x_arg e) (c_names (a_cfg a)).
Proof.
  intros a s e E N. unfold declared in E. destruct (kind_of (a_cfg a)) as [[[k n] x]|]; [|injection E as <-; split; [reflexivity | now apply first_name_In]].
  assert (D : snd (defaults_arg (arg_cfg a (retyped (a_cfg a) (k, n, x)))) = Some e -> x_kind e = KArgument /\ In (x_arg e) (c_names (a_cfg a))).
  { intros Q. exact (defaults_error _ _ Q N). }
  cbn [fst] in E. destruct k; try (now apply D).
  - destruct (claims _ _); [now apply D|]. injection E as <-. split; [reflexivity | now apply first_name_In].
  - destruct (claims _ _); [now apply D|]. injection E as <-. split; [reflexivity | now apply first_name_In].
Qed.
Lemma meth_error : forall m a s e, snd (meth_state m a s) = Some e -> c_names (a_cfg a) <> [] ->
  x_kind e = KArgument /\ In (x_arg e) (c_names (a_cfg a) ++ Spec_Extend.meth_names m).
Proof.
  intros m a s e E N. destruct m; cbn [meth_state] in E; try discriminate.
  - assert (G : snd (s, Some e) = Some e -> forall msg, e = Exn KArgument f msg -> x_kind e = KArgument /\ In (x_arg e) (c_names (a_cfg a) ++ Spec_Extend.meth_names (MFlag f))).
    { intros _ msg ->. split; [reflexivity|]. apply in_or_app. right. now left. }
    destruct (is_positional _); [injection E as <-; exact (G eq_refl _ eq_refl)|]. destruct (validFormatFlag f); [injection E as <-; exact (G eq_refl _ eq_refl)|].
    destruct (mem_key _ _); [injection E as <-; exact (G eq_refl _ eq_refl) | discriminate].
  - destruct (declared_error _ _ _ E N) as [A B]. split; [exact A|]. apply in_or_app. now left.
  - destruct (declared_error _ _ _ E N) as [A B]. split; [exact A|]. apply in_or_app. now left.
  - destruct (defaults_error _ _ E N) as [A B]. split; [exact A|]. apply in_or_app. now left.
Qed.
Lemma meths_error : forall ms i s s' e N, wf s -> (exists a, In a (s_args s) /\ a_id a = i /\ forall n, In n (c_names (a_cfg a)) -> In n N) ->
  run_meths i ms s = (s', Throw e) -> x_kind e = KArgument /\ In (x_arg e) (N ++ flat_map Spec_Extend.meth_names ms).
Proof.
  induction ms as [|m ms IH]; intros i s s' e N W [a [Ia [<- NN]]] E; [discriminate|].
  assert (NE : c_names (a_cfg a) <> []) by (eapply named_args_ne; [apply W | exact Ia]).
  destruct (meth_state m a s) as [s1 x] eqn:M. destruct x as [x|].
  - rewrite (stop_meths _ _ _ _ _ _ (proj1 W) Ia M) in E. injection E as <- <-. destruct (meth_error m a s x ltac:(now rewrite M) NE) as [A B]. split; [exact A|].
    cbn [flat_map]. apply in_app_or in B. apply in_or_app. destruct B as [B|B]; [left; now apply NN | right; apply in_or_app; now left].
  - rewrite (more_meths _ _ _ _ _ (proj1 W) Ia M) in E. pose proof (meth_wf _ _ _ _ _ W Ia M) as W1.
    destruct (meth_like [] (fun _ => True) false (fun _ => false) (twice s) s s (a, a) m) as [_ [L' [H' [q [Iq [E1 _]]]]]]; try apply W.
    { apply like_self; [apply W | intros k []]. } { apply in_map_iff. now exists a. } { intros f _ []. } { now left. }
    cbn [fst snd] in *. rewrite M in H'. cbn [fst] in H'.
    assert (Iq' : In (fst q) (s_args s1)) by (rewrite (lb_l _ _ _ _ _ _ _ H'); now apply in_map).
    destruct (IH (a_id a) s1 s' e (N ++ Spec_Extend.meth_names m) W1) as [A B]; [|exact E|].
    + exists (fst q). split; [exact Iq'|]. split; [exact E1|]. intros n In1. apply in_or_app.
      destruct (Proofs_Distinct.meth_names m a s Ia) as [[_ EN]|[f [-> [_ [_ EN]]]]]; rewrite M in EN; cbn [fst] in EN; specialize (EN _ Iq').
      * destruct EN as [y [Iy [Ey Ny]]]. left. apply NN. rewrite Ny in In1. rewrite E1 in Ey. rewrite (ids_unique _ y a (wf_ids _ (proj1 W)) Iy Ia Ey) in In1. exact In1.
      * destruct EN as [[_ Ny]|[_ Q]]; [|contradiction]. rewrite Ny in In1. apply (proj1 (sort_flags_In _ _)) in In1. apply in_app_or in In1. destruct In1 as [J|J]; [left; now apply NN | right; exact J].
    + split; [exact A|]. cbn [flat_map]. now rewrite app_assoc.
Qed.
(** the calls that set up the parser: which exceptions they throw *)
Theorem C62_declarations : forall s o s' e, reach s -> sets_up o -> step o s = (s', Throw e) ->
  match o with
  | OpAdd ns ms => x_kind e = KArgument /\ (In (x_arg e) (op_names o) \/ (ns = [] /\ x_arg e = ""))
  | OpUpdate n ms =>
      (argumentExists s n = false /\ e = not_found n) \/
      (x_kind e = KArgument /\ exists a, getArgument s n = Ok a /\ (In (x_arg e) (getNameOrFlags a) \/ In (x_arg e) (flat_map Spec_Extend.meth_names ms)))
  | OpRemove ns => x_kind e = KArgument /\ ((In (x_arg e) ns /\ argumentExists s (x_arg e) = false) \/ (ns = [] /\ x_arg e = ""))
  | _ => False
  end.
Proof.
  intros s o s' e R SU S. pose proof (reach_wf s R) as W. destruct o as [ns ms|k ms|ns| |argv|v|b|b|b|b|b|u|d|x|p a sp h]; cbn [step op_names] in *; try discriminate;
    try (exfalso; eapply SU; reflexivity).
  - pose proof (addArgument_register ns s) as A. destruct (to_register ns (s_map s)) as [x|c] eqn:T.
    + rewrite (bind_throw _ _ _ _ _ A) in S. injection S as <- <-. clear A.
      destruct ns as [|n rest]; [injection T as <-; split; [reflexivity | right; now split]|]. unfold to_register in T.
      assert (G : x_kind x = KArgument /\ In (x_arg x) (n :: rest)).
      { destruct (_ && _).
        - destruct n as [|ch n]; [injection T as <-; split; [reflexivity | now left]|]. destruct (mem_key _ _); [|discriminate]. injection T as <-. split; [reflexivity | now left].
        - destruct (add_flags _ _ _ _) as [y|] eqn:AF; [|discriminate]. injection T as ->.
          assert (F : forall fl acc, (forall f, In f fl -> In f (n :: rest)) -> add_flags n (s_map s) fl acc = inl x -> x_kind x = KArgument /\ In (x_arg x) (n :: rest)).
          { induction fl as [|f fl IH]; intros acc IN Q; [discriminate|]. cbn [add_flags] in Q. destruct (validFormatFlag f); [injection Q as <-; split; [reflexivity | apply IN; now left]|].
            destruct (mem_key n (s_map s)); [injection Q as <-; split; [reflexivity | now left]|]. eapply IH; [|exact Q]. intros g I. apply IN. now right. }
          apply (F (n :: rest) [] (fun f I => I) AF). }
      destruct G as [G1 G2]. split; [exact G1|]. left. apply in_or_app. now left.
    + destruct (to_register_names _ _ _ T) as [NE NI]. rewrite (register_plain s c (proj1 W) NE) in A. rewrite (bind_ok _ _ _ _ _ A) in S.
      assert (W1 : wf (registered s c)). { apply (wf_step (OpAdd ns []) s _ (Ok tt) W); [|exact Logic.I]. cbn [step]. rewrite (bind_ok _ _ _ _ _ A). reflexivity. }
      destruct (meths_error ms (fresh_id s) (registered s c) s' e ns W1) as [B C]; [|exact S | split; [exact B | now left]].
      exists (Arg (fresh_id s) 0 c new_dyn). split; [|split; [reflexivity | exact NI]]. cbn. apply sort_In, in_or_app. right. now left.
  - destruct (argumentExists s k) eqn:AE.
    + right. destruct (assoc k (s_map s)) as [i|] eqn:A; [|unfold argumentExists, mem_key in AE; rewrite A in AE; discriminate].
      destruct (wf_entry _ (proj1 W) k i (assoc_In _ _ _ A)) as [a [Ia [<- _]]].
      assert (E : updateArgument k s = (s, Ok (a_id a))) by (unfold updateArgument, bind, find_name, deref; rewrite A, (In_find_id _ _ (wf_ids _ (proj1 W)) Ia); reflexivity).
      rewrite (bind_ok _ _ _ _ _ E) in S. destruct (meths_error ms (a_id a) s s' e (getNameOrFlags a) W) as [B C]; [now exists a | exact S|].
      split; [exact B|]. exists a. split; [now apply getArgument_by; [apply W|..] | now apply in_app_or].
    + left. split; [reflexivity|]. destruct (getArgument_none s k AE) as [_ A].
      assert (E : updateArgument k s = (s, Throw (not_found k))) by (unfold updateArgument, bind, find_name; rewrite A; reflexivity).
      rewrite (bind_throw _ _ _ _ _ E) in S. now injection S.
  - destruct ns as [|n0 l0]; [injection S as <- <-; split; [reflexivity | right; now split]|]. set (l := n0 :: l0) in *.
    assert (RA : removeArguments l s = match find (fun n => negb (mem_key n (s_map s))) l with Some n => (s, Throw (Exn KArgument n "argument not found")) | None => (remove_loop l ;;; sort_args) s end).
    { unfold removeArguments, l, bind at 1, get. cbv beta iota. destruct (find (fun n => negb (mem_key n (s_map s))) (n0 :: l0)); reflexivity. }
    rewrite RA in S. destruct (find _ l) as [x|] eqn:F.
    + injection S as <- <-. apply find_some in F. destruct F as [F1 F2]. split; [reflexivity|]. left. split; [exact F1|]. apply negb_true_iff in F2. exact F2.
    + exfalso. destruct (remove_loop_cases l s (proj1 W)) as [s2 [W2 [E|E]]].
      * rewrite (bind_ok _ _ _ _ _ E), (sort_args_ok _ W2) in S. discriminate.
      * unfold bind in S. rewrite E in S. discriminate.
Qed.
Print Assumptions C62_declarations.

(* ------------------------------------------------------------------ *)
(** * reading the command line *)
Definition inside (x w : str) : Prop := exists a b, w = a ^^ x ^^ b.
Lemma inside_trans : forall x y z, inside x y -> inside y z -> inside x z.
Proof. intros x y z [a [b ->]] [a' [b' ->]]. exists (a' ^^ a), (b ^^ b'). now rewrite !append_assoc. Qed.
Lemma inside_refl : forall x, inside x x.
Proof. intros x. exists "", "". cbn. now rewrite append_nil_r. Qed.
Lemma inside_tail : forall x c w, inside x w -> inside x (String c w).
Proof. intros x c w [a [b ->]]. now exists (String c a), b. Qed.
Lemma inside_first : forall c w, inside (str1 c) (String c w).
Proof. intros c w. now exists "", w. Qed.
Lemma inside_name : forall w, inside (fst (cut_eq w)) w.
Proof.
  assert (P : forall w, exists b, w = fst (cut_eq w) ^^ b).
  { induction w as [|c w [b IH]]; [now exists ""|]. cbn [cut_eq]. destruct (Ascii.eqb c "="); [now exists (String c w)|]. destruct (cut_eq w) as [n v]. cbn [fst] in *. exists b. cbn. now f_equal. }
  intros w. destruct (P w) as [b E]. now exists "", b.
Qed.
Lemma inside_after1 : forall n, inside (after1 n) n.
Proof. intros [|c n]; [apply inside_refl|]. apply inside_tail, inside_refl. Qed.
Lemma inside_after2 : forall n, inside (after2 n) n.
Proof. intros n. exact (inside_trans _ _ _ (inside_after1 (after1 n)) (inside_after1 n)). Qed.
Lemma bundle_error : forall K v cs bs, cs <> "" ->
  match bundle K v bs cs with
  | MeansError e => x_kind e = KParse /\ inside (x_arg e) cs
  | MeansOption _ _ _ n _ _ => inside n cs
  end.
Proof.
  intros K v. induction cs as [|c r IH]; intros bs N; [now destruct N|]. cbn [bundle]. destruct (k_find K (one_char c)) as [[id cf]|]; [|split; [reflexivity | apply inside_first]].
  destruct r as [|c' r']; [apply inside_first|]. assert (IH' : forall bs, match bundle K v bs (String c' r') with
    | MeansError e => x_kind e = KParse /\ inside (x_arg e) (String c (String c' r')) | MeansOption _ _ _ n _ _ => inside n (String c (String c' r')) end).
  { intros bs'. specialize (IH bs' ltac:(discriminate)). destruct (bundle K v bs' (String c' r')); [destruct IH; split; [assumption | now apply inside_tail] | now apply inside_tail]. }
  destruct v as [v|].
  - destruct (is_flag_type (c_type cf)); [apply IH' | split; [reflexivity | apply inside_first]].
  - destruct (glues cf); [apply inside_first|]. destruct (is_flag_type (c_type cf)); [apply IH' | split; [reflexivity | apply inside_first]].
Qed.
Lemma meaning_error : forall K w, word_kind w = WShort \/ word_kind w = WLong ->
  match word_meaning K w with
  | MeansError e => x_kind e = KParse /\ inside (x_arg e) w
  | MeansOption _ _ _ n _ _ => inside n w
  end.
Proof.
  intros K w D. pose proof (inside_name w) as IW. destruct (name_dash w D) as [r ND]. unfold word_meaning. destruct (cut_eq w) as [name value]. cbn [fst] in *. subst name.
  assert (LONG : match match k_find K (String "-" r) with Some (id, c) => MeansOption [] id c (after2 (String "-" r)) (style_of value) value | None => MeansError (parse_error (after2 (String "-" r)) "invalid option") end with
    | MeansError e => x_kind e = KParse /\ inside (x_arg e) w | MeansOption _ _ _ n _ _ => inside n w end).
  { pose proof (inside_trans _ _ _ (inside_after2 (String "-" r)) IW) as Q. destruct (k_find K (String "-" r)) as [[id c]|]; [exact Q | split; [reflexivity | exact Q]]. }
  assert (SHORT : match match (if k_alt K then k_find K (String "-" (String "-" r)) else None) with Some (id, c) => MeansOption [] id c (after1 (String "-" r)) (style_of value) value | None => bundle K value [] (after1 (String "-" r)) end with
    | MeansError e => x_kind e = KParse /\ inside (x_arg e) w | MeansOption _ _ _ n _ _ => inside n w end).
  { pose proof (inside_trans _ _ _ (inside_after1 (String "-" r)) IW) as Q. destruct (if k_alt K then _ else None) as [[id c]|]; [exact Q|]. cbn [after1] in *.
    destruct r as [|c r]; [cbn; split; [reflexivity | exact IW]|]. pose proof (bundle_error K value (String c r) [] ltac:(discriminate)) as B.
    destruct (bundle K value [] (String c r)); [destruct B as [B1 B2]; split; [exact B1 | exact (inside_trans _ _ _ B2 Q)] | exact (inside_trans _ _ _ B Q)]. }
  destruct D as [-> | ->]; assumption.
Qed.
Lemma option_error : forall K w avail e, word_kind w = WShort \/ word_kind w = WLong -> read_option K w avail = inl e -> x_kind e = KParse /\ inside (x_arg e) w.
Proof.
  intros K w avail e D E. unfold read_option in E. pose proof (meaning_error K w D) as M. destruct (word_meaning K w) as [x|bs id c n st v]; [now injection E as <-|].
  destruct (option_values K c n v avail) as [x|] eqn:O; [|discriminate]. injection E as <-. unfold option_values in O.
  destruct v as [v|]; [destruct (arity_of c); try discriminate; injection O as <-; now split|]. destruct (take_words _ _ _); [discriminate|]. injection O as <-. now split.
Qed.
Lemma fails_end_error : forall K ps ws e, FailsEnd K ps ws e -> x_kind e = KParse /\ (part_of (x_arg e) ws \/ exists id c, In (id, c) ps /\ x_arg e = first_of c).
Proof.
  intros K ps ws e F. induction F as [id c ps w ws T|w ws S|id c ps w ws vs e T F IH|w ws e S F IH].
  - split; [reflexivity|]. right. exists id, c. split; [now left | reflexivity].
  - split; [reflexivity|]. left. exists w, "", "". split; [now left|]. cbn. now rewrite append_nil_r.
  - destruct IH as [A [[x [a [b [I E]]]]|[i [c' [I E]]]]]; (split; [exact A|]); [left; exists x, a, b; split; [exact (In_skipn _ _ _ I) | exact E] | right; exists i, c'; split; [now right | exact E]].
  - destruct IH as [A [[x [a [b [I E]]]]|[i [c' [I E]]]]]; (split; [exact A|]); [left; exists x, a, b; split; [now right | exact E] | destruct I].
Qed.
Lemma fails_error : forall K ps ws e, Fails K ps ws e -> x_kind e = KParse /\ (part_of (x_arg e) ws \/ exists id c, In (id, c) ps /\ x_arg e = first_of c).
Proof.
  intros K ps ws e F. induction F as [ps w ws e D R|id c ps w ws D T|w ws D S|ps w ws occs used e D R F IH|ps w ws e D F|id c ps w ws vs e D T F IH|w ws e D S F IH].
  - destruct (option_error _ _ _ _ D R) as [A [a [b E]]]. split; [exact A|]. left. exists w, a, b. split; [now left | exact E].
  - split; [reflexivity|]. right. exists id, c. split; [now left | reflexivity].
  - split; [reflexivity|]. left. exists w, "", "". split; [now left|]. cbn. now rewrite append_nil_r.
  - destruct IH as [A [[x [a [b [I E]]]]|IH]]; (split; [exact A|]); [left; exists x, a, b; split; [right; exact (In_skipn _ _ _ I) | exact E] | now right].
  - destruct (fails_end_error _ _ _ _ F) as [A [[x [a [b [I E]]]]|IH]]; (split; [exact A|]); [left; exists x, a, b; split; [now right | exact E] | now right].
  - destruct IH as [A [[x [a [b [I E]]]]|[i [c' [I E]]]]]; (split; [exact A|]); [left; exists x, a, b; split; [exact (In_skipn _ _ _ I) | exact E] | right; exists i, c'; split; [now right | exact E]].
  - destruct IH as [A [[x [a [b [I E]]]]|[i [c' [I E]]]]]; (split; [exact A|]); [left; exists x, a, b; split; [now right | exact E] | destruct I].
Qed.

(* ------------------------------------------------------------------ *)
(** * the checks after the reading *)
Definition no_conversion : exn := Exn KParse "" "destination method not found for this type".
Lemma ev_of_error : forall r f e, snd (ev_of r f) = Some e -> r = Throw e.
Proof. intros [v|x|o| |] f e; cbn; try discriminate. now intros [= ->]. Qed.
Lemma str_to_error : forall ty b w e, str_to ty b w = Throw e -> ty = TyUnsupported /\ e = no_conversion.
Proof. intros [| |] b w e; cbn; try discriminate. now intros [= <-]. Qed.
Lemma single_error : forall ty a e, single_to ty a = Throw e -> ty = TyUnsupported /\ e = no_conversion.
Proof.
  intros ty a e. unfold single_to. assert (B : forall b, bool_to ty b = Throw e -> ty = TyUnsupported /\ e = no_conversion) by (intros b; destruct ty; cbn; try discriminate; now intros [= <-]).
  destruct (c_type (a_cfg a)); try apply B; apply str_to_error.
Qed.
Lemma ev_seq_error : forall l e, snd (ev_seq l) = Some e -> exists x, In x l /\ snd x = Some e.
Proof.
  induction l as [|[es [x|]] l IH]; cbn; intros e E; [discriminate| |].
  - exists (es, Some x). split; [now left | exact E].
  - destruct (ev_seq l) as [es' o] eqn:S. cbn in E. subst o. destruct (IH e eq_refl) as [y [I Y]]. exists y. split; [now right | exact Y].
Qed.
Lemma res_all_error : forall l e, snd (res_all l) = Some e -> In (Throw e) l.
Proof.
  induction l as [|[v|x|o| |] l IH]; cbn; intros e E; try discriminate; try (right; now apply IH).
  - destruct (res_all l) as [vs o]. cbn in *. right. now apply IH.
  - injection E as ->. now left.
Qed.
Lemma dest_error : forall a d e, snd (dest_events a d) = Some e -> unsupported d /\ e = no_conversion.
Proof.
  intros a d e. unfold dest_events, unsupported. destruct (d_kind d).
  - destruct (d_custom d); [discriminate|]. intros E. apply ev_of_error in E. now apply single_error in E.
  - destruct (d_custom d); [discriminate|]. destruct (d_elems (a_dyn a)) as [|x es]; intros E.
    + apply ev_of_error in E. now apply single_error in E.
    + apply ev_seq_error in E. destruct E as [y [I Y]]. apply in_map_iff in I. destruct I as [w [<- _]]. apply ev_of_error in Y. now apply str_to_error in Y.
  - destruct (d_custom d); [discriminate|]. destruct (d_elems (a_dyn a)) as [|x es]; intros E.
    + apply ev_of_error in E. now apply single_error in E.
    + apply ev_seq_error in E. destruct E as [y [I Y]]. apply in_map_iff in I. destruct I as [w [<- _]].
      destruct (res_all _) as [vs [q|]] eqn:RA; cbn in Y; [|discriminate]. injection Y as ->. pose proof (res_all_error (map (str_to (d_ty d) true) (elem_strings w)) e) as Q. rewrite RA in Q. specialize (Q eq_refl).
      apply in_map_iff in Q. destruct Q as [u [Q _]]. now apply str_to_error in Q.
Qed.
Lemma trouble_error : forall a e, trouble a = Some e ->
  (exists v, c_valid (a_cfg a) = Some v /\ ((x_kind e = KValid /\ x_arg e = first_of (a_cfg a)) \/ (x_kind e = KForeign /\ throws_foreign v))) \/
  (exists d, c_dest (a_cfg a) = Some d /\ unsupported d /\ e = no_conversion).
Proof.
  intros a e. unfold trouble. destruct (refusal a) as [x|] eqn:R.
  - intros [= <-]. left. unfold refusal in R. destruct (c_valid (a_cfg a)) as [v|]; [|discriminate]. exists v. split; [reflexivity|]. destruct (d_exist (a_dyn a)); [|discriminate].
    destruct (v_fn v (plain_values a)) as [[] vs|msg|] eqn:V.
    + destruct (has_values (a_cfg a)); [discriminate|]. injection R as <-. left. now split.
    + injection R as <-. left. now split.
    + injection R as <-. left. now split.
    + injection R as <-. right. split; [reflexivity | now exists (plain_values a)].
  - intros E. right. unfold arg_events in E. assert (C : a_cfg (finished a) = a_cfg a) by (unfold finished, checked, arg_dyn; destruct (c_valid _); [destruct (d_exist _); [destruct (v_fn _ _) as [[] ?|?|]|]|]; reflexivity).
    rewrite C in E. destruct (c_dest (a_cfg a)) as [d|]; [|discriminate]. exists d. split; [reflexivity|]. now apply dest_error in E.
Qed.

(* ------------------------------------------------------------------ *)
(** * C62: parseArguments *)
Lemma framed_In : forall s s' a, frame s s' -> In a (s_args s) -> exists a', In a' (s_args s') /\ a_cfg a' = a_cfg a.
Proof.
  intros s s' a F I. apply (in_map static) in I. rewrite <- (fr_args _ _ F) in I. apply in_map_iff in I. destruct I as [b [E I]]. exists b. split; [exact I|]. unfold static in E. now injection E.
Qed.
(** Every exception that parseArguments can throw: the help or version text when the
    program asked for exceptions; a word that cannot be read, with a part of a word or the
    name of an argument; a required argument that is missing; a value that its validator
    refused, with the name of the argument; a destination of a type without conversion;
    and what a validator of the program throws of its own. *)
Theorem C62_parse : forall s argv ws s' e, usable s -> command_line argv ws -> parseArguments argv s = (s', Throw e) ->
  (x_kind e = KHelp /\ x_arg e = "" /\ m_helpex (s_modes s) = true) \/
  (x_kind e = KVersion /\ x_arg e = "" /\ m_verex (s_modes s) = true) \/
  (x_kind e = KParse /\ (part_of (x_arg e) ws \/ names_argument (x_arg e) s')) \/
  (x_kind e = KParse /\ x_arg e = "" /\ exists a d, In a (arguments s') /\ c_dest (a_cfg a) = Some d /\ unsupported d) \/
  (x_kind e = KRequired /\ exists a, In a (arguments s') /\ isRequired a = true /\ In (x_arg e) (getNameOrFlags a)) \/
  (x_kind e = KValid /\ exists a v, In a (arguments s') /\ c_valid (a_cfg a) = Some v /\ In (x_arg e) (getNameOrFlags a)) \/
  (x_kind e = KForeign /\ exists a v, In a (arguments s') /\ c_valid (a_cfg a) = Some v /\ throws_foreign v).
Proof.
  intros s argv ws s' e U CL E. pose proof (usable_wf0 _ U) as W.
  pose proof (parse_frame s argv s' _ W E Logic.I) as FR. pose proof (usable_ready_wf s U) as WR.
  destruct (interprets_dec s) as [IN|NI].
  2: { exfalso. unfold parseArguments in E. rewrite (proj2 (parse_with_eq _ argv s W) NI) in E. discriminate. }
  destruct (parse_total s argv ws U CL IN) as [[pcs [R P]]|[x [s2 [R [F2 P]]]]].
  - destruct (parse_verdict s argv ws pcs U CL IN R) as [V _]. rewrite E in V. cbn [snd] in V. set (t := scanned argv pcs s) in *.
    pose proof (frame_scanned s argv pcs) as FS. fold t in FS. pose proof (frame_trans _ _ _ (frame_sym _ _ FS) FR) as FT.
    assert (MO : s_modes t = s_modes s). { rewrite (fr_modes _ _ FS). destruct (ready_cases s W) as [[-> _]|[-> _]]; reflexivity. }
    assert (FN : forall a, In a (s_args t) -> In (first_of (a_cfg a)) (c_names (a_cfg a))).
    { intros a Ia. destruct (framed_In t (ready s) a (frame_sym _ _ FS) Ia) as [b [Ib Cb]]. rewrite <- Cb. pose proof (named_args_ne _ _ WR Ib) as NE. unfold first_of. destruct (c_names (a_cfg b)); [now destruct NE | now left]. }
    unfold verdict in V. destruct (met (s_help t) t).
    { left. rewrite MO in V. destruct (m_helpex (s_modes s)); [|discriminate]. injection V as ->. now split. }
    destruct (met (s_version t) t).
    { right; left. rewrite MO in V. destruct (m_verex (s_modes s)); [|discriminate]. injection V as ->. now split. }
    destruct (missing t) as [|a l] eqn:M.
    + destruct (flat_map _ (s_args t)) as [|x l] eqn:FM; [discriminate|]. injection V as ->.
      assert (I : In x (x :: l)) by now left. rewrite <- FM in I. apply in_flat_map in I. destruct I as [a [Ia Tx]]. destruct (trouble a) as [y|] eqn:T; [|destruct Tx]. destruct Tx as [->|[]].
      destruct (framed_In t s' a FT Ia) as [b [Ib Cb]]. destruct (trouble_error a x T) as [[v [Va [[K A]|[K A]]]]|[d [Da [UD ->]]]].
      * right; right; right; right; right; left. split; [exact K|]. exists b, v. rewrite Cb. split; [exact Ib|]. split; [exact Va|]. rewrite A. now apply FN.
      * right; right; right; right; right; right. split; [exact K|]. exists b, v. rewrite Cb. now repeat split.
      * right; right; right; left. split; [reflexivity|]. split; [reflexivity|]. exists b, d. rewrite Cb. now repeat split.
    + injection V as ->. assert (I : In a (missing t)) by (rewrite M; now left). apply filter_In in I. destruct I as [Ia Q]. apply andb_true_iff in Q.
      destruct (framed_In t s' a FT Ia) as [b [Ib Cb]]. right; right; right; right; left. split; [reflexivity|]. exists b. rewrite Cb. split; [exact Ib|]. split; [apply Q|]. now apply FN.
  - rewrite P in E. injection E as <- <-. right; right; left. destruct (fails_error _ _ _ _ R) as [K [A|[id [c [I A]]]]]; (split; [exact K|]); [now left|]. right.
    unfold setup, positionals in I. apply filter_In in I. destruct I as [I _]. apply in_map_iff in I. destruct I as [a [[= <- <-] Ia]].
    destruct (framed_In _ _ a FR Ia) as [b [Ib Cb]]. exists b. split; [exact Ib|]. rewrite Cb, A. pose proof (named_args_ne _ _ WR Ia) as NE. unfold first_of. destruct (c_names (a_cfg a)); [now destruct NE | now left].
Qed.
Print Assumptions C62_parse.
Lemma derives_inv : forall k c, derives k c -> k = c \/ exists b, base_of k = Some b /\ derives b c.
Proof. intros k c D. destruct D as [k|k b c E D]; [now left | right; now exists b]. Qed.
(** For a program that does not ask for exceptions on help and version and whose
    validators throw nothing of their own, a handler for ParseArgumentException catches
    whatever parseArguments throws; *)
Corollary C62_caught : forall s argv ws s' e, usable s -> command_line argv ws ->
  m_helpex (s_modes s) = false -> m_verex (s_modes s) = false ->
  (forall a v, In a (arguments s) -> c_valid (a_cfg a) = Some v -> ~ throws_foreign v) ->
  parseArguments argv s = (s', Throw e) -> caught KParse e.
Proof.
  intros s argv ws s' e U CL MH MV NF E. unfold caught. pose proof (usable_wf0 _ U) as W.
  destruct (C62_parse s argv ws s' e U CL E) as [[_ [_ Q]]|[[_ [_ Q]]|[[-> _]|[[-> _]|[[-> _]|[[-> _]|[K [a [v [I [V T]]]]]]]]]]].
  - rewrite MH in Q. discriminate.
  - rewrite MV in Q. discriminate.
  - apply dv_same.
  - apply dv_same.
  - eapply dv_base; [reflexivity | apply dv_same].
  - eapply dv_base; [reflexivity | apply dv_same].
  - exfalso. destruct (framed_In s' (ready s) a (frame_sym _ _ (parse_frame s argv s' _ W E Logic.I)) I) as [b [Ib Cb]]. rewrite <- Cb in V.
    destruct (ready_cases s W) as [[Q _]|[Q _]]; rewrite Q in Ib; [exact (NF b v Ib V T)|]. apply (Proofs_Like.registered_In s) in Ib. destruct Ib as [Ib| ->]; [exact (NF b v Ib V T) | discriminate].
Qed.
Print Assumptions C62_caught.
(** and a handler for ParseArgumentException does not catch an error in the declarations,
    which a handler for ArgumentException does. *)
Corollary C62_programming_errors : forall s o s' e, reach s -> sets_up o -> step o s = (s', Throw e) -> caught KArgument e /\ ~ caught KParse e.
Proof.
  intros s o s' e R SU S. pose proof (C62_declarations s o s' e R SU S) as H.
  assert (K : x_kind e = KArgument \/ x_kind e = KAccess).
  { destruct o; try contradiction; try (left; apply H). destruct H as [[_ ->]|[H _]]; [right; reflexivity | now left]. }
  unfold caught. destruct K as [-> | ->]; split.
  - apply dv_same.
  - intros D. apply derives_inv in D. destruct D as [D|[b [E D]]]; [discriminate|]. injection E as <-. apply derives_inv in D. destruct D as [D|[b [E _]]]; discriminate.
  - eapply dv_base; [reflexivity | apply dv_same].
  - intros D. apply derives_inv in D. destruct D as [D|[b [E D]]]; [discriminate|]. injection E as <-. apply derives_inv in D. destruct D as [D|[b [E D]]]; [discriminate|]. injection E as <-.
    apply derives_inv in D. destruct D as [D|[b [E _]]]; discriminate.
Qed.
Print Assumptions C62_programming_errors.
(** each kind of exception occurs *)
Definition err_ops : list op := shop_ops ++ [OpAdd ["-x"] [MValid (Some (Validator 7 (fun vs => match vs with ["bad"] => VThrow "is bad" | ["worse"] => VOther | _ => VOk true vs end))) true]].
Definition err_shop : state := history err_ops.
Definition err_line (ws : list str) : res unit := snd (parseArguments ("prog" :: ws) err_shop).
Example C62_example : usable err_shop /\ interprets err_shop /\
  err_line ["src"; "-vz"] = Throw (Exn KParse "z" "invalid option") /\
  err_line ["src"; "--nam=3"] = Throw (Exn KParse "nam" "invalid option") /\
  err_line ["src"; "-p"; "1"] = Throw (Exn KParse "p" "bad number of argument") /\
  err_line ["-v"] = Throw (Exn KRequired "SRC" "argument is required") /\
  err_line ["src"; "-x"; "bad"] = Throw (Exn KValid "-x" "is bad") /\
  err_line ["src"; "-x"; "worse"] = Throw (Exn KForeign "" "").
Proof.
  assert (CA : reach_with careful err_shop) by (apply careful_history; vm_compute; reflexivity).
  split; [now apply careful_usable|]. split; [right; vm_compute; discriminate|]. repeat (split; [vm_compute; reflexivity|]). vm_compute. reflexivity.
Qed.
Example C62_example_declarations :
  snd (calls [OpAdd ["-n"] [MNargs 2; MDefaults ["x"]]; OpUpdate "-m" []; OpRemove ["-q"]; OpAdd ["P"] [MFlag "-p"]] init) =
  [Throw (Exn KArgument "-n" msg_defaults); Throw (not_found "-m"); Throw (Exn KArgument "-q" "argument not found"); Throw (Exn KArgument "-p" "can't add flag in positionnal argument")].
Proof. vm_compute. reflexivity. Qed.
