(** Properties_Again.v -- C78: saying the same thing twice. *)
From Coq Require Import Permutation Sorted.
From Verif Require Import Base Model_Utils Model_Number Model_Types Model_Argument Model_Usage Model_Args Model_Api
  Spec_Order Spec_Names Spec_Reading Spec_Parse Spec_Decl Spec_Finish Spec_History Spec_Api Spec_Result
  Proofs_Base Proofs_Order Proofs_Frame Proofs_Inv Proofs_ReadFacts Proofs_Reading Proofs_Parse Proofs_Decl Proofs_Finish
  Proofs_Meth Proofs_History Proofs_Config Proofs_Names Proofs_Check Proofs_Central Proofs_Dyn Proofs_Fresh Proofs_Redecl
  Demo Properties_Parse Proofs_Swap Properties_Decl Properties_Failed.

Local Notation getDefaults a := (c_defaults (a_cfg a)).

(** an argument whose values come in groups: APPEND, EXTEND or a variable-length positional,
    with nargs(n), n > 1 *)
Definition grouped_type (t : atype) : bool :=
  match t with INFINITE_NUMBER_POSITIONAL_ARGUMENT | MULTI_NUMBER_OPTION | MULTI_NUMBER_INFINITE_OPTION => true | _ => false end.

(** ** the closed forms, applied twice *)
Lemma defaults_arg_again : forall x d, defaults_arg x = (d, None) -> grouped_type (c_type (a_cfg x)) = false \/ getDefaults x = [] -> defaults_arg d = (d, None).
Proof.
  intros x d E G. unfold defaults_arg in E. destruct (no_defaults (a_cfg x)) eqn:N.
  - injection E as <-. unfold defaults_arg. now rewrite N.
  - destruct (size_fits _ _) eqn:F; [|discriminate E]. injection E as <-.
    destruct G as [G|G]; [|unfold no_defaults in N; rewrite G, orb_true_r in N; discriminate N].
    unfold defaults_arg, no_defaults, size_fits, defaulted in *. destruct x as [id gen c dd]. cbn [a_cfg a_id a_gen a_dyn arg_dyn] in *.
    destruct c as [nm ty rq ng hp mv va vd ac df dt de]. cbn in *. destruct ty; try discriminate G; cbn; rewrite N; cbn; try rewrite F; reflexivity.
Qed.
Lemma defaults_arg_kind : forall x d e, defaults_arg x = (d, e) -> behaviour d = behaviour x /\ getDefaults d = getDefaults x /\ a_gen d = a_gen x.
Proof.
  intros x d e E. unfold defaults_arg in E. destruct (no_defaults _); [injection E as <- _; repeat split|]. destruct (size_fits _ _); injection E as <- _; [|repeat split].
  unfold defaulted, behaviour. destruct (c_type (a_cfg x)) eqn:T; cbn; rewrite ?T; repeat split.
Qed.
Lemma retyped_same : forall d q, behaviour d = q -> retyped (a_cfg d) q = a_cfg d.
Proof. intros d q <-. unfold behaviour, retyped. destruct (a_cfg d); reflexivity. Qed.
Lemma put_same_id : forall d s, put d (put d s) = put d s.
Proof. intros d s. now apply put_put. Qed.
(** [declared] a second time, with an argument that asks for the same kind *)
Lemma declared_again : forall y s s1 q, kind_of (a_cfg y) = Some q -> declared y s = (s1, None) ->
  grouped_type (fst (fst q)) = false \/ getDefaults y = [] ->
  exists d, a_id d = a_id y /\ a_gen d = a_gen y /\ behaviour d = q /\ s_args s1 = s_args (put d s) /\ s_map s1 = s_map s /\
    forall y1, a_id y1 = a_id d -> a_gen y1 = a_gen d -> kind_of (a_cfg y1) = Some q -> arg_cfg y1 (retyped (a_cfg y1) q) = d -> declared y1 s1 = (s1, None).
Proof.
  intros y s s1 q K E G. unfold declared in E. rewrite K in E. set (x := arg_cfg y (retyped (a_cfg y) q)) in *.
  destruct (defaults_arg x) as [d e] eqn:D. cbn [fst snd] in E.
  assert (BX : behaviour x = q) by (destruct q as [[? ?] ?]; reflexivity).
  destruct (defaults_arg_kind x d e D) as [BD [GD GE]].
  assert (ID : a_id d = a_id y). { change (a_id y) with (a_id x). replace d with (fst (defaults_arg x)) by (now rewrite D). apply defaults_arg_id. }
  assert (N : e = None). { destruct (fst (fst q)); try (injection E as _ ->; reflexivity); destruct (claims _ _); try discriminate E; injection E as _ ->; reflexivity. }
  subst e.
  assert (AG : defaults_arg d = (d, None)).
  { apply (defaults_arg_again x d D). destruct G as [G|G]; [left; rewrite <- BX in G; exact G | right; destruct q as [[? ?] ?]; exact G]. }
  exists d. split; [exact ID|]. split; [exact GE|]. split; [now rewrite BD|].
  assert (S1 : (s1 = put d s /\ fst (fst q) <> HELP_OPTION /\ fst (fst q) <> VERSION_OPTION) \/
    (s1 = with_help (put d s) (Some (ptr_of y)) /\ fst (fst q) = HELP_OPTION) \/ (s1 = with_version (put d s) (Some (ptr_of y)) /\ fst (fst q) = VERSION_OPTION)).
  { destruct (fst (fst q)); try (destruct (claims _ _); [|discriminate E]); injection E as <-; auto; left; split; try reflexivity; split; discriminate. }
  split; [destruct S1 as [[-> _]|[[-> _]|[-> _]]]; reflexivity|]. split; [destruct S1 as [[-> _]|[[-> _]|[-> _]]]; reflexivity|].
  intros y1 I1 G1 K1 R1. unfold declared. rewrite K1, R1, AG. cbn [fst snd].
  assert (PT : ptr_of y1 = ptr_of y) by (unfold ptr_of; rewrite I1, G1, ID, GE; reflexivity).
  destruct S1 as [[-> [NH NV]]|[[-> T]|[-> T]]].
  - rewrite put_same_id. destruct (fst (fst q)); try reflexivity; contradiction.
  - rewrite T. cbn [s_help with_help]. rewrite PT. unfold claims. rewrite ptr_eqb_refl. f_equal.
    change (put d (with_help (put d s) (Some (ptr_of y)))) with (with_help (put d (put d s)) (Some (ptr_of y))). rewrite put_same_id. reflexivity.
  - rewrite T. cbn [s_version with_version]. rewrite PT. unfold claims. rewrite ptr_eqb_refl. f_equal.
    change (put d (with_version (put d s) (Some (ptr_of y)))) with (with_version (put d (put d s)) (Some (ptr_of y))). rewrite put_same_id. reflexivity.
Qed.

(** ** when a call can be repeated *)
Definition repeatable (a : argument) (m : meth) : Prop :=
  match m with
  | MHelp _ | MMetavar _ | MRequired _ => True
  | MValid p del => p = None \/ del = false
  | MNargs k => ~ (isPositional a = true /\ getAction a = NONE /\ (k mod 2 ^ 64)%N = 43%N) /\
      (getDefaults a = [] \/ forall t n b, asked_kind a (getAction a) (k mod 2 ^ 64)%N = Some (t, n, b) -> grouped_type t = false)
  | MAction act => act <> STORE_FALSE /\ act <> HELP /\ act <> VERSION /\ ~ (act = NONE /\ getNargs a = 43%N) /\
      (getDefaults a = [] \/ forall t n b, asked_kind a act (getNargs a) = Some (t, n, b) -> grouped_type t = false)
  | MDefaults v => v = [] \/ grouped_type (c_type (a_cfg a)) = false
  | MFlag _ | MDest _ => False
  end.
Lemma then_is : forall s s1 x n a, wf0 s -> wf0 s1 -> getArgument s n = Ok a -> a_id x = a_id a ->
  (forall y, In y (s_args s1) <-> In y (s_args (put x s))) -> s_map s1 = s_map s -> In x (s_args s1) /\ getArgument s1 n = Ok x.
Proof.
  intros s s1 x n a W W1 G E I M. destruct (getArgument_inv s n a W G) as [Ia [_ As]].
  assert (Ix : In x (s_args s1)) by (apply I, (put_In_self x s a Ia); now symmetry).
  split; [exact Ix|]. apply getArgument_by; [exact W1 | exact Ix |]. rewrite M, E. exact As.
Qed.
Lemma kind_nargs_again : forall pos act k t n b, (if pos : bool then positional_kind act k else Some (option_kind act k)) = Some (t, n, b) ->
  ~ (pos = true /\ act = NONE /\ k = 43%N) -> (if pos then positional_kind b k else Some (option_kind b k)) = Some (t, n, b).
Proof.
  intros pos act k t n b E X. destruct pos.
  - unfold positional_kind in *. destruct act; try discriminate E;
      repeat (match type of E with context [N.eqb ?u ?v] => destruct (N.eqb_spec u v) end; try discriminate E); injection E as <- <- <-; try reflexivity; exfalso; apply X; auto.
  - unfold option_kind in *. injection E as E. destruct (N.eqb k 0) eqn:Z; [injection E as <- <- <-; reflexivity|]. 
    destruct act; repeat (match type of E with context [N.eqb ?u ?v] => destruct (N.eqb u v) end); injection E as <- <- <-; reflexivity.
Qed.
Lemma kind_action_again : forall pos act k t n b, (if pos : bool then positional_kind act k else Some (option_kind act k)) = Some (t, n, b) ->
  act <> STORE_FALSE -> act <> HELP -> act <> VERSION -> ~ (act = NONE /\ k = 43%N) ->
  b = act /\ (if pos then positional_kind act n else Some (option_kind act n)) = Some (t, n, act).
Proof.
  intros pos act k t n b E X1 X2 X3 X4. destruct pos.
  - unfold positional_kind in *. destruct act; try discriminate E; try contradiction;
      repeat (match type of E with context [N.eqb ?u ?v] => destruct (N.eqb_spec u v) end; try discriminate E); injection E as <- <- <-;
      try (exfalso; apply X4; auto; fail); (split; [reflexivity|]); try reflexivity;
      repeat (match goal with |- context [N.eqb ?u ?v] => destruct (N.eqb_spec u v) end; try contradiction); reflexivity.
  - unfold option_kind in *. injection E as E. destruct (N.eqb_spec k 0); [injection E as <- <- <-; split; reflexivity|].
    destruct act; try contradiction; repeat (match type of E with context [N.eqb ?u ?v] => destruct (N.eqb_spec u v) end); injection E as <- <- <-;
      try (exfalso; apply X4; auto; fail); (split; [reflexivity|]); try reflexivity;
      repeat (match goal with |- context [N.eqb ?u ?v] => destruct (N.eqb_spec u v) end; try contradiction); reflexivity.
Qed.

(** The full property: a declaration call that was accepted can be made again without any
    effect.  It holds in these cases ([repeatable]); the refutations below show the others. *)
Theorem C78_again_partial : forall s n a m s1, reach s -> getArgument s n = Ok a -> step (OpUpdate n [m]) s = (s1, Ok tt) -> repeatable a m ->
  step (OpUpdate n [m]) s1 = (s1, Ok tt).
Proof.
  intros s n a m s1 R G E P. pose proof (proj1 (reach_wf s R)) as W. destruct (getArgument_inv s n a W G) as [Ia _].
  assert (R1 : reach s1) by (eapply reach_step; [exact R | exact E | exact Logic.I]). pose proof (proj1 (reach_wf s1 R1)) as W1.
  rewrite (update_get s n a _ W G), (one_meth _ s a W Ia) in E.
  destruct (meth_state m a s) as [t [e|]] eqn:M; cbn [outcome] in E; [discriminate E|]. assert (t = s1) as -> by (injection E; auto). clear E.
  assert (GO : forall x, a_id x = a_id a -> (forall y, In y (s_args s1) <-> In y (s_args (put x s))) -> s_map s1 = s_map s ->
             (In x (s_args s1) -> meth_state m x s1 = (s1, None)) -> step (OpUpdate n [m]) s1 = (s1, Ok tt)).
  { intros x Ex Ix Mx H. destruct (then_is s s1 x n a W W1 G Ex Ix Mx) as [I1 G1].
    rewrite (update_get s1 n x _ W1 G1), (one_meth _ s1 x W1 I1), (H I1). reflexivity. }
  assert (SAME : forall x, In x (s_args s1) -> put x s1 = s1) by (intros x Ix; apply put_same; [apply (wf_ids s1 W1) | exact Ix]).
  assert (ARG : forall x, arg_cfg x (a_cfg x) = x) by (intros []; reflexivity).
  destruct m; cbn [meth_state] in M; cbv zeta in M; cbn [repeatable] in P; try contradiction.
  - (* action *)
    destruct P as [P1 [P2 [P3 [P4 P5]]]]. set (y := arg_cfg a (cfg_action (a_cfg a) a0)) in *.
    destruct (kind_of (a_cfg y)) as [q|] eqn:K; [|unfold declared in M; rewrite K in M; discriminate M].
    destruct q as [[t n1] b]. destruct (kind_action_again (isPositional a) a0 (getNargs a) t n1 b K P1 P2 P3 P4) as [-> K2].
    assert (GR : grouped_type (fst (fst (t, n1, a0))) = false \/ getDefaults y = []).
    { destruct P5 as [P5|P5]; [right; exact P5 | left; apply (P5 t n1 a0); exact K]. }
    destruct (declared_again y _ s1 (t, n1, a0) K M GR) as [d [D1 [D2 [D3 [D4 [D5 D6]]]]]].
    assert (RS : s_args (released a s) = s_args s /\ s_map (released a s) = s_map s) by (unfold released; destruct (c_action (a_cfg a)); split; reflexivity).
    apply (GO d); [exact D1 | intros z; rewrite D4; unfold put, with_args; cbn [s_args]; rewrite (proj1 RS); tauto | rewrite D5; apply RS |].
    intros Id. cbn [meth_state]. assert (RL : released d s1 = s1).
    { unfold released. injection D3 as D31 D32 D33. rewrite D33. destruct a0; try reflexivity; contradiction. }
    rewrite RL. apply D6; try reflexivity.
    + injection D3 as D31 D32 D33. unfold kind_of. cbn [a_cfg arg_cfg]. change (c_action (cfg_action (a_cfg d) a0)) with a0.
      change (c_nargs (cfg_action (a_cfg d) a0)) with (getNargs d). change (c_type (cfg_action (a_cfg d) a0)) with (c_type (a_cfg d)). rewrite D31, D32.
      replace (is_positional t) with (isPositional a); [exact K2|]. symmetry. exact (Proofs_Config.kind_pos _ _ K).
    + transitivity (arg_cfg d (retyped (a_cfg d) (t, n1, a0))); [reflexivity|]. rewrite (retyped_same d _ D3). apply ARG.
  - (* required *)
    injection M as <-. set (x := arg_cfg a (cfg_required (a_cfg a) b)) in *.
    apply (GO x); [reflexivity | intros z; apply resorted_In | reflexivity |].
    intros Ix. cbn [meth_state]. change (arg_cfg x (cfg_required (a_cfg x) b)) with x. rewrite (SAME x Ix). f_equal.
    unfold resorted at 1. rewrite sort_id by apply sort_args_sorted. apply with_args_id.
  - injection M as <-. apply (GO (arg_cfg a (cfg_help (a_cfg a) h))); [reflexivity | intros z; reflexivity | reflexivity |]. intros Ix. cbn [meth_state]. f_equal. apply SAME, Ix.
  - injection M as <-. apply (GO (arg_cfg a (cfg_metavar (a_cfg a) m))); [reflexivity | intros z; reflexivity | reflexivity |]. intros Ix. cbn [meth_state]. f_equal. apply SAME, Ix.
  - (* nargs *)
    destruct P as [P1 P2]. change w64 with (2 ^ 64)%N in M. set (J := (n0 mod 2 ^ 64)%N) in *. set (y := arg_cfg a (cfg_nargs (a_cfg a) J)) in *.
    destruct (kind_of (a_cfg y)) as [q|] eqn:K; [|unfold declared in M; rewrite K in M; discriminate M].
    destruct q as [[t n1] b]. pose proof (kind_nargs_again (isPositional a) (getAction a) J t n1 b K P1) as K2.
    assert (GR : grouped_type (fst (fst (t, n1, b))) = false \/ getDefaults y = []).
    { destruct P2 as [P2|P2]; [right; exact P2 | left; apply (P2 t n1 b); exact K]. }
    destruct (declared_again y _ s1 (t, n1, b) K M GR) as [d [D1 [D2 [D3 [D4 [D5 D6]]]]]].
    apply (GO d); [exact D1 | intros z; rewrite D4; reflexivity | exact D5 |].
    intros Id. cbn [meth_state]. change w64 with (2 ^ 64)%N. fold J. apply D6; try reflexivity.
    + injection D3 as D31 D32 D33. unfold kind_of. cbn [a_cfg arg_cfg]. change (c_nargs (cfg_nargs (a_cfg d) J)) with J.
      change (c_action (cfg_nargs (a_cfg d) J)) with (getAction d). change (c_type (cfg_nargs (a_cfg d) J)) with (c_type (a_cfg d)). rewrite D31, D33.
      replace (is_positional t) with (isPositional a); [exact K2|]. symmetry. exact (Proofs_Config.kind_pos _ _ K).
    + transitivity (arg_cfg d (retyped (a_cfg d) (t, n1, b))); [reflexivity|]. rewrite (retyped_same d _ D3). apply ARG.
  - (* defaults *)
    set (y := arg_cfg a (cfg_defaults (a_cfg a) v)) in *. destruct (defaults_arg y) as [d e] eqn:D. injection M as <- ->.
    assert (ID : a_id d = a_id a). { change (a_id a) with (a_id y). replace d with (fst (defaults_arg y)) by (now rewrite D). apply defaults_arg_id. }
    apply (GO d); [exact ID | intros z; reflexivity | reflexivity |]. intros Id. cbn [meth_state].
    destruct (defaults_arg_kind y d None D) as [_ [GD _]].
    assert (SD : arg_cfg d (cfg_defaults (a_cfg d) v) = d). { transitivity (arg_cfg d (a_cfg d)); [|apply ARG]. f_equal. change v with (getDefaults y). rewrite <- GD. destruct (a_cfg d); reflexivity. }
    rewrite SD, (defaults_arg_again y d D) by (destruct P as [P|P]; [right; exact P | left; exact P]). cbn [fst snd]. rewrite put_same_id. reflexivity.
  - (* valid *)
    injection M as <-. set (x := arg_cfg a (cfg_valid (a_cfg a) p isDeletable)) in *.
    apply (GO x); [reflexivity | intros z; reflexivity | reflexivity |]. intros Ix. cbn [meth_state]. change (arg_cfg x (cfg_valid (a_cfg x) p isDeletable)) with x. rewrite (SAME x Ix).
    f_equal. assert (O : owned (a_cfg x) = []) by (unfold x, owned; cbn; destruct P as [->| ->]; [reflexivity | destruct p; reflexivity]).
    rewrite O, app_nil_r. cbn [s_freed with_freed]. reflexivity.
Qed.
Print Assumptions C78_again_partial.
(** a flag cannot be added twice: the second call is refused, without effect *)
Theorem C78_flag : forall s n a f s1, reach s -> getArgument s n = Ok a -> step (OpUpdate n [MFlag f]) s = (s1, Ok tt) ->
  step (OpUpdate n [MFlag f]) s1 = (s1, Throw (Exn KArgument f "invalid flag already exist")).
Proof.
  intros s n a f s1 R G E. pose proof (proj1 (reach_wf s R)) as W. destruct (getArgument_inv s n a W G) as [Ia [_ As]].
  assert (R1 : reach s1) by (eapply reach_step; [exact R | exact E | exact Logic.I]). pose proof (proj1 (reach_wf s1 R1)) as W1.
  rewrite (update_get s n a _ W G), (one_meth _ s a W Ia) in E. cbn [meth_state] in E.
  destruct (is_positional (c_type (a_cfg a))) eqn:PO; [discriminate E|]. destruct (validFormatFlag f) eqn:VF; [discriminate E|]. destruct (mem_key f (s_map s)) eqn:MK; [discriminate E|].
  cbn [outcome] in E. assert (E2 : s1 = with_map (resorted (put (arg_cfg a (cfg_names (a_cfg a) (sort_flags (c_names (a_cfg a) ++ [f])))) s)) (s_map s ++ [(f, a_id a)])) by (injection E as <-; reflexivity).
  set (x := arg_cfg a (cfg_names (a_cfg a) (sort_flags (c_names (a_cfg a) ++ [f])))) in *.
  assert (Ix : In x (s_args s1)). { rewrite E2. cbn [s_args with_map]. apply resorted_In. apply (put_In_self x s a Ia). reflexivity. }
  assert (Gx : getArgument s1 n = Ok x).
  { apply getArgument_by; [exact W1 | exact Ix |]. rewrite E2. cbn [s_map with_map]. change (a_id x) with (a_id a). rewrite assoc_app, As. reflexivity. }
  rewrite (update_get s1 n x _ W1 Gx), (one_meth _ s1 x W1 Ix). cbn [meth_state].
  change (is_positional (c_type (a_cfg x))) with (is_positional (c_type (a_cfg a))). rewrite PO, VF.
  assert (MK1 : mem_key f (s_map s1) = true). { rewrite E2. cbn [s_map with_map]. unfold mem_key in *. rewrite assoc_app. destruct (assoc f (s_map s)); [reflexivity|]. cbn [assoc]. now rewrite String.eqb_refl. }
  rewrite MK1. reflexivity.
Qed.
Print Assumptions C78_flag.
(** dest() with the same variable again: the argument is moved again (references to it end),
    and is otherwise the same *)
Theorem C78_dest : forall s n a d s1 b, reach s -> getArgument s n = Ok a -> step (OpUpdate n [MDest d]) s = (s1, Ok tt) -> getArgument s1 n = Ok b ->
  exists s2, step (OpUpdate n [MDest d]) s1 = (s2, Ok tt) /\ replaced s1 b (Arg (a_id b) (Datatypes.S (a_gen b)) (a_cfg b) (a_dyn b)) s2.
Proof.
  intros s n a d s1 b R G E Gb. pose proof (proj1 (reach_wf s R)) as W. destruct (getArgument_inv s n a W G) as [Ia [_ As]].
  assert (R1 : reach s1) by (eapply reach_step; [exact R | exact E | exact Logic.I]). pose proof (proj1 (reach_wf s1 R1)) as W1.
  rewrite (update_get s n a _ W G), (one_meth _ s a W Ia) in E. cbn [meth_state outcome] in E. injection E as <-.
  destruct (then_is s _ (Arg (a_id a) (Datatypes.S (a_gen a)) (cfg_dest (cfg_defaults (a_cfg a) []) (Some d)) (a_dyn a)) n a W W1 G eq_refl ltac:(intros; reflexivity) eq_refl) as [Ix Gx].
  rewrite Gx in Gb. injection Gb as <-. rewrite (update_get _ n _ _ W1 Gx), (one_meth _ _ _ W1 Ix). cbn [meth_state outcome]. eexists. split; [reflexivity|].
  apply put_replaced; [exact W1 | exact Ix | reflexivity].
Qed.
Print Assumptions C78_dest.
(** settings of the parser *)
Definition setting (o : op) : Prop :=
  match o with OpAdd _ _ | OpUpdate _ _ | OpRemove _ | OpParse _ => False | _ => True end.
Theorem C78_settings : forall s o s1, setting o -> step o s = (s1, Ok tt) -> step o s1 = (s1, Ok tt).
Proof.
  intros s o s1 P E. destruct o; try contradiction; cbn [step] in *; unfold modify in *; injection E as <-; try reflexivity.
  unfold clear, modify. do 2 f_equal. cbn [s_freed s_args with_dlog with_freed init all_owned flat_map]. f_equal. apply app_nil_r.
Qed.
Print Assumptions C78_settings.

(** ** where it fails *)
(** [twice pre n m]: the call m on n is accepted in the parser [pre] twice in a row; the two
    parsers after the first and after the second call *)
Definition once_of (pre : list op) (n : str) (m : meth) : state := fst (step (OpUpdate n [m]) (history pre)).
Definition twice_of (pre : list op) (n : str) (m : meth) : state := fst (step (OpUpdate n [m]) (once_of pre n m)).
Definition accepted_twice (pre : list op) (n : str) (m : meth) : Prop :=
  snd (step (OpUpdate n [m]) (history pre)) = Ok tt /\ snd (step (OpUpdate n [m]) (once_of pre n m)) = Ok tt.
Definition value_of (n : str) (p : state * res unit) : option str :=
  match p with (s, Ok tt) => match getArgument s n with Ok a => Some (getString a) | _ => None end | _ => None end.
Definition checker : validator := Validator 7 (fun vs => VOk true vs).
(** - action(STORE_FALSE) twice makes a STORE_TRUE option;
    - action(HELP) twice: the option does not show the help any more (the same for VERSION);
    - nargs('+') twice on a positional: it takes words in groups of 43 only;
    - defaults(v) twice with values in groups: the usage shows them twice;
    - valid(p) twice: the validator in use has been deleted. *)
Theorem C78_refuted :
  (accepted_twice [OpAdd ["-q"] []] "-q" (MAction STORE_FALSE) /\
   value_of "-q" (parseArguments ["p"; "-q"] (once_of [OpAdd ["-q"] []] "-q" (MAction STORE_FALSE))) = Some "false" /\
   value_of "-q" (parseArguments ["p"; "-q"] (twice_of [OpAdd ["-q"] []] "-q" (MAction STORE_FALSE))) = Some "true") /\
  (accepted_twice [OpAdd ["-h"] []] "-h" (MAction HELP) /\
   (exists out, snd (parseArguments ["p"; "-h"] (once_of [OpAdd ["-h"] []] "-h" (MAction HELP))) = Exit out) /\
   snd (parseArguments ["p"; "-h"] (twice_of [OpAdd ["-h"] []] "-h" (MAction HELP))) = Ok tt) /\
  (accepted_twice [OpAdd ["-V"] []] "-V" (MAction VERSION) /\
   (exists out, snd (parseArguments ["p"; "-V"] (once_of [OpAdd ["-V"] []] "-V" (MAction VERSION))) = Exit out) /\
   snd (parseArguments ["p"; "-V"] (twice_of [OpAdd ["-V"] []] "-V" (MAction VERSION))) = Ok tt) /\
  (accepted_twice [OpAdd ["P"] []] "P" (MNargs 43) /\
   value_of "P" (parseArguments ["p"; "a"; "b"] (once_of [OpAdd ["P"] []] "P" (MNargs 43))) = Some "a, b" /\
   exists e, snd (parseArguments ["p"; "a"; "b"] (twice_of [OpAdd ["P"] []] "P" (MNargs 43))) = Throw e) /\
  (accepted_twice [OpAdd ["-a"] [MAction APPEND; MNargs 2]] "-a" (MDefaults ["x"; "y"]) /\
   getUsage (once_of [OpAdd ["-a"] [MAction APPEND; MNargs 2]] "-a" (MDefaults ["x"; "y"])) <>
   getUsage (twice_of [OpAdd ["-a"] [MAction APPEND; MNargs 2]] "-a" (MDefaults ["x"; "y"]))) /\
  (accepted_twice [OpAdd ["-v"] []] "-v" (MValid (Some checker) true) /\
   In (checker, true) (attached (twice_of [OpAdd ["-v"] []] "-v" (MValid (Some checker) true))) /\
   In (v_id checker) (s_freed (twice_of [OpAdd ["-v"] []] "-v" (MValid (Some checker) true)))).
Proof.
  unfold accepted_twice.
  split; [split; [split; vm_compute; reflexivity | split; vm_compute; reflexivity]|].
  split; [split; [split; vm_compute; reflexivity | split; [eexists; vm_compute; reflexivity | vm_compute; reflexivity]]|].
  split; [split; [split; vm_compute; reflexivity | split; [eexists; vm_compute; reflexivity | vm_compute; reflexivity]]|].
  split; [split; [split; vm_compute; reflexivity | split; [vm_compute; reflexivity | eexists; vm_compute; reflexivity]]|].
  split; [split; [split; vm_compute; reflexivity |]|].
  - intros E. apply (f_equal (fun r => match r with Ok u => String.length u | _ => 0 end)) in E. vm_compute in E. discriminate E.
  - split; [split; vm_compute; reflexivity|]. split; vm_compute; now left.
Qed.
Print Assumptions C78_refuted.
(** a concrete case of C78_again_partial: nargs('+') on an option, and defaults *)
Example C78_example :
  let s := history [OpAdd ["-o"] [MDefaults ["a"]]] in reach s /\ getArgument s "-o" = Ok (pick "-o" s) /\
  repeatable (pick "-o" s) (MNargs 43) /\ repeatable (pick "-o" s) (MAction EXTEND) /\
  exists s1, step (OpUpdate "-o" [MNargs 43]) s = (s1, Ok tt) /\ s1 <> s /\ step (OpUpdate "-o" [MNargs 43]) s1 = (s1, Ok tt).
Proof.
  cbv zeta. split; [apply (run_reach [OpAdd ["-o"] [MDefaults ["a"]]] init); [apply reach_init | vm_compute; reflexivity]|].
  split; [vm_compute; reflexivity|]. split; [|split].
  - split; [intros [X _]; vm_compute in X; discriminate X|]. right. intros t n b X. vm_compute in X. injection X as <- <- <-. reflexivity.
  - split; [discriminate|]. split; [discriminate|]. split; [discriminate|]. split; [intros [X _]; discriminate X|]. right. intros t n b X. vm_compute in X. injection X as <- <- <-. reflexivity.
  - eexists. split; [vm_compute; reflexivity|]. split; [intros X; apply (f_equal (fun s => map behaviour (arguments s))) in X; vm_compute in X; discriminate X | vm_compute; reflexivity].
Qed.
