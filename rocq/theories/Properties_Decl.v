(** Properties_Decl.v -- C41, C42, C43, C52: the declaration methods. *)
From Coq Require Import Permutation Sorted.
From Verif Require Import Base Model_Utils Model_Number Model_Types Model_Argument Model_Usage Model_Args Model_Api
  Spec_Order Spec_Names Spec_Reading Spec_Parse Spec_Decl Spec_Finish Spec_History Spec_Api Spec_Result
  Proofs_Base Proofs_Order Proofs_Frame Proofs_Inv Proofs_ReadFacts Proofs_Reading Proofs_Parse Proofs_Decl Proofs_Finish
  Proofs_Meth Proofs_History Proofs_Config Proofs_Names Proofs_Check Proofs_Central Proofs_Dyn Proofs_Kind Proofs_Values Proofs_Fresh Proofs_Redecl Demo.

(* ------------------------------------------------------------------ *)
(** * C41 *)
(** the kind of an argument, its nargs and its action *)
Definition behaviour (a : argument) : atype * N * eAction := (c_type (a_cfg a), getNargs a, getAction a).
(** what the documentation says for an action and a number of values, see Spec_Decl *)
Definition documented (pos : bool) (act : eAction) (n : N) : option (atype * N * eAction) :=
  if pos then positional_kind act n else Some (option_kind act n).

(** Not true in general, in any of its two parts.  In each of these cases both chains of
    calls are accepted (but the last), on the same option, and have different results. *)
Definition redeclared (ns : list str) (ms : list meth) : state * res unit := step (OpAdd ns ms) init.
Definition differ (ns : list str) (ms1 ms2 : list meth) : Prop :=
  snd (redeclared ns ms1) = Ok tt /\ snd (redeclared ns ms2) = Ok tt /\
  map behaviour (arguments (fst (redeclared ns ms1))) <> map behaviour (arguments (fst (redeclared ns ms2))).
Theorem C41_refuted :
  (* order *)
  (let s1 := fst (redeclared ["-o"] [MAction HELP; MNargs 0]) in let s2 := fst (redeclared ["-o"] [MNargs 0; MAction HELP]) in
   (exists out, snd (parseArguments ["p"; "-o"] s1) = Exit out) /\ snd (parseArguments ["p"; "-o"] s2) = Ok tt) /\
  differ ["-o"] [MAction APPEND; MNargs 43] [MNargs 43; MAction APPEND] /\
  differ ["-o"] [MAction EXTEND; MNargs 43] [MNargs 43; MAction EXTEND] /\
  differ ["-o"] [MAction NONE; MNargs 43] [MNargs 43; MAction NONE] /\
  differ ["P"] [MAction INFINITE; MNargs 43] [MNargs 43; MAction INFINITE] /\
  (* replacement *)
  differ ["-o"] [MAction STORE_TRUE; MAction STORE_FALSE] [MAction STORE_FALSE] /\
  differ ["-o"] [MAction HELP; MAction HELP] [MAction HELP] /\
  differ ["-o"] [MAction STORE_FALSE; MAction NONE] [MAction NONE] /\
  differ ["-o"] [MNargs 3; MAction INFINITE; MAction NONE] [MNargs 3; MAction NONE] /\
  (* with defaults: one order is accepted, the other is refused *)
  (snd (redeclared ["-o"] [MNargs 2; MDefaults ["a"; "b"]]) = Ok tt /\
   snd (redeclared ["-o"] [MDefaults ["a"; "b"]; MNargs 2]) = Throw (Exn KArgument "-o" msg_defaults)).
Proof.
  unfold differ. repeat split; try (vm_compute; reflexivity); try (eexists; vm_compute; reflexivity); vm_compute; discriminate.
Qed.
Print Assumptions C41_refuted.

(** 43 is the code of '+', which nargs() takes to mean "one or more" when the action is
    NONE; and nargs(0) makes a help or version option a flag *)
Definition ordinary (pos : bool) (act : eAction) (n : N) : Prop :=
  (n < w64)%N /\
  (n = 43%N -> pos = false /\ act <> NONE /\ act <> APPEND /\ act <> EXTEND) /\
  (n = 0%N -> pos = false /\ act <> HELP /\ act <> VERSION).
Lemma documented_kind : forall c, kind_of c = documented (is_positional (c_type c)) (c_action c) (c_nargs c).
Proof. reflexivity. Qed.
Lemma kind_pos : forall pos act n t n' act', documented pos act n = Some (t, n', act') -> is_positional t = pos.
Proof.
  intros pos act n t n' act' H. unfold documented in H. destruct pos.
  - destruct act; cbn [positional_kind] in H; try discriminate H; destruct (n =? 0)%N; try discriminate H; destruct (n =? 1)%N;
      [injection H as <- _ _; reflexivity | destruct (n =? 43)%N; injection H as <- _ _; reflexivity | injection H as <- _ _; reflexivity | injection H as <- _ _; reflexivity].
  - unfold option_kind in H. destruct (n =? 0)%N; [injection H as <- _ _; reflexivity|].
    destruct act; try (injection H as <- _ _; reflexivity); destruct (n =? 1)%N; try (injection H as <- _ _; reflexivity);
      destruct (n =? 43)%N; injection H as <- _ _; reflexivity.
Qed.
Lemma kind_of_retyped : forall m c k, kind_of c = Some k \/ is_positional (fst (fst k)) = is_positional (c_type c) ->
  kind_of (field m (retyped c k)) = documented (is_positional (c_type c))
     (match m with MAction act => act | _ => snd k end) (match m with MNargs n => n mod w64 | _ => snd (fst k) end)%N.
Proof.
  intros m c [[t n] act] H. assert (P : is_positional t = is_positional (c_type c)).
  { destruct H as [H|H]; [|exact H]. eapply kind_pos. rewrite <- documented_kind. exact H. }
  rewrite documented_kind. destruct m; cbn; rewrite P; reflexivity.
Qed.
Lemma kind_of_field : forall m c, kind_of (field m c) = documented (is_positional (c_type c))
     (match m with MAction act => act | _ => c_action c end) (match m with MNargs n => n mod w64 | _ => c_nargs c end)%N.
Proof. intros m c. rewrite documented_kind. destruct m; reflexivity. Qed.

(** the orders agree, as far as kinds are concerned *)
Lemma orders : forall pos act n k1 k2, ordinary pos act n -> documented pos act 1 = Some k1 -> documented pos NONE n = Some k2 ->
  documented pos (snd k1) n = documented pos act n /\ documented pos act (snd (fst k2)) = documented pos act n.
Proof.
  intros pos act n k1 k2 [_ [O1 O2]] K1 K2. unfold documented in *. destruct pos.
  - assert (N0 : (n =? 0)%N = false) by (apply N.eqb_neq; intro Z; destruct (O2 Z); discriminate).
    assert (N43 : (n =? 43)%N = false) by (apply N.eqb_neq; intro Z; destruct (O1 Z); discriminate).
    cbn [positional_kind] in K2. rewrite N0, N43 in K2.
    destruct act; cbn [positional_kind N.eqb Pos.eqb] in K1; try discriminate K1; injection K1 as <-;
      destruct (n =? 1)%N eqn:N1; injection K2 as <-; cbn [fst snd positional_kind]; rewrite ?N0, ?N1, ?N43; cbn [N.eqb Pos.eqb]; split; try reflexivity;
      apply N.eqb_eq in N1; subst n; reflexivity.
  - injection K1 as <-. injection K2 as <-. unfold option_kind.
    destruct (n =? 0)%N eqn:N0.
    + apply N.eqb_eq in N0. subst n. destruct act; split; reflexivity.
    + destruct (n =? 1)%N eqn:N1; [apply N.eqb_eq in N1; subst n; destruct act; split; reflexivity|].
      destruct (n =? 43)%N eqn:N43.
      * apply N.eqb_eq in N43. destruct (O1 N43) as [_ [A1 [A2 A3]]]. subst n. destruct act; try congruence; split; reflexivity.
      * destruct act; cbn [fst snd N.eqb Pos.eqb]; rewrite ?N0, ?N1, ?N43; split; reflexivity.
Qed.
Lemma nonrole : forall pos act n k, act <> HELP -> act <> VERSION -> documented pos act n = Some k ->
  is_role (fst (fst k)) = false /\ snd k <> HELP /\ snd k <> VERSION.
Proof.
  intros pos act n k H V E. unfold documented in E. destruct pos.
  - destruct act; cbn [positional_kind] in E; try discriminate E; destruct (n =? 0)%N; try discriminate E; destruct (n =? 1)%N;
      [injection E as <- | destruct (n =? 43)%N; injection E as <- | injection E as <- | injection E as <-]; repeat split; discriminate.
  - unfold option_kind in E. destruct (n =? 0)%N; [injection E as <-; repeat split; assumption|].
    destruct act; try congruence; try (injection E as <-; repeat split; discriminate); destruct (n =? 1)%N; try (injection E as <-; repeat split; discriminate);
      destruct (n =? 43)%N; injection E as <-; repeat split; discriminate.
Qed.
Lemma accepted_kind : forall m a s s1, kind_meth m = true -> meth_state m a s = (s1, None) -> exists k, kind_of (field m (a_cfg a)) = Some k.
Proof.
  intros m a s s1 M E. rewrite (meth_kind m a s M) in E. unfold declared in E. cbn [arg_cfg a_cfg] in E.
  destruct (kind_of (field m (a_cfg a))) as [k|]; [eauto | discriminate].
Qed.

(** the two orders for help and version options *)
Lemma help_orders : forall a s n s1, wf s -> In a (s_args s) -> c_defaults (a_cfg a) = [] -> getNargs a = 1%N -> getAction a = NONE -> isPositional a = false ->
  (n mod w64 <> 0)%N -> meth_state (MAction HELP) a s = (s1, None) ->
  run_meths (a_id a) [MAction HELP; MNargs n] s = (s1, Ok tt) /\ run_meths (a_id a) [MNargs n; MAction HELP] s = (s1, Ok tt) /\
  s1 = with_help (put (arg_cfg a (retyped (a_cfg a) (HELP_OPTION, 0%N, HELP))) s) (Some (ptr_of a)).
Proof.
  intros a s n s1 W I D N1 A1 P N0 E. set (b := arg_cfg a (retyped (a_cfg a) (HELP_OPTION, 0%N, HELP))).
  assert (R : released a s = s) by (unfold released; now rewrite A1).
  assert (E0 := E). rewrite (meth_kind (MAction HELP) a s eq_refl), R in E0.
  assert (K1 : kind_of (field (MAction HELP) (a_cfg a)) = Some (HELP_OPTION, 0%N, HELP)).
  { rewrite kind_of_field, P, N1. reflexivity. }
  rewrite (declared_helper (arg_cfg a (field (MAction HELP) (a_cfg a))) s _ (eq_trans (field_defaults _ _) D) K1 eq_refl) in E0. change (ptr_of (arg_cfg a _)) with (ptr_of a) in E0.
  destruct (claims (s_help s) (ptr_of a)) eqn:C; [|discriminate]. apply (f_equal fst) in E0. cbn [fst] in E0. change (a_cfg (arg_cfg a (field (MAction HELP) (a_cfg a)))) with (field (MAction HELP) (a_cfg a)) in E0. rewrite retyped_field in E0. change (arg_cfg a (retyped (a_cfg a) (HELP_OPTION, 0%N, HELP))) with b in E0.
  split; [|split; [|now symmetry]].
  - rewrite (more_meths _ [MNargs n] s a _ (proj1 W) I E).
    assert (W1 : wf s1) by (eapply meth_wf; [exact W | exact I | exact E]).
    assert (I1 : In b (s_args s1)) by (rewrite <- E0; change (In b (s_args (put b s))); eapply put_In_self; [exact I | reflexivity]).
    change (a_id a) with (a_id b). rewrite (one_meth _ s1 b (proj1 W1) I1), (meth_kind (MNargs n) b s1 eq_refl).
    assert (K2 : kind_of (field (MNargs n) (a_cfg b)) = Some (HELP_OPTION, 0%N, HELP)).
    { unfold b. cbn [arg_cfg a_cfg]. rewrite kind_of_retyped; [|right; rewrite P; reflexivity]. rewrite P. cbn [fst snd documented]. unfold option_kind.
      apply N.eqb_neq in N0. now rewrite N0. }
    rewrite (declared_helper (arg_cfg b (field (MNargs n) (a_cfg b))) s1 _ (eq_trans (field_defaults _ _) (eq_trans (retyped_defaults _ _) D)) K2 eq_refl).
    change (ptr_of (arg_cfg b _)) with (ptr_of a). rewrite <- E0 at 1. cbn [s_help with_help claims]. rewrite ptr_eqb_refl. cbn [outcome].
    change (a_cfg (arg_cfg b (field (MNargs n) (a_cfg b)))) with (field (MNargs n) (a_cfg b)). rewrite retyped_field.
    assert (Z : retyped (a_cfg b) (HELP_OPTION, 0%N, HELP) = a_cfg b) by apply retyped_retyped. rewrite Z. rewrite <- E0. f_equal.
    change (with_help (put b (put b s)) (Some (ptr_of a)) = with_help (put b s) (Some (ptr_of a))).
    now rewrite put_put.
  - destruct (option_kind NONE (n mod w64)) as [[t n1] act1] eqn:OK1.
    assert (K2 : kind_of (field (MNargs n) (a_cfg a)) = Some (t, n1, act1)) by (rewrite kind_of_field, P, A1; cbn [documented]; now rewrite OK1).
    assert (NR := K2). rewrite kind_of_field, A1 in NR. apply nonrole in NR; [|discriminate|discriminate]. destruct NR as [NR [NH NV]].
    assert (E2 : meth_state (MNargs n) a s = (put (arg_cfg a (retyped (a_cfg a) (t, n1, act1))) s, None)).
    { apply kind_call; try assumption; try reflexivity; rewrite A1; discriminate. }
    rewrite (more_meths _ [MAction HELP] s a _ (proj1 W) I E2). set (a2 := arg_cfg a (retyped (a_cfg a) (t, n1, act1))) in *.
    assert (W1 : wf (put a2 s)) by (eapply meth_wf; [exact W | exact I | exact E2]).
    assert (I1 : In a2 (s_args (put a2 s))) by (eapply put_In_self; [exact I | reflexivity]).
    change (a_id a) with (a_id a2). rewrite (one_meth _ _ a2 (proj1 W1) I1), (meth_kind (MAction HELP) a2 _ eq_refl).
    assert (R2 : released a2 (put a2 s) = put a2 s) by (unfold released; cbn [a2 arg_cfg a_cfg retyped cfg_type cfg_action c_action] in *; destruct act1; cbn in NH, NV; congruence).
    rewrite R2.
    assert (K3 : kind_of (field (MAction HELP) (a_cfg a2)) = Some (HELP_OPTION, 0%N, HELP)).
    { unfold a2. cbn [arg_cfg a_cfg]. rewrite kind_of_retyped; [|right; rewrite P; eapply kind_pos; rewrite kind_of_field, P in K2; exact K2].
      rewrite P. cbn [fst snd documented]. unfold option_kind in OK1 |- *. apply N.eqb_neq in N0. rewrite N0 in OK1.
      destruct (n mod w64 =? 1)%N; [injection OK1 as _ <- _; reflexivity|]. destruct (n mod w64 =? 43)%N; injection OK1 as _ <- _; [reflexivity | now rewrite N0]. }
    rewrite (declared_helper (arg_cfg a2 (field (MAction HELP) (a_cfg a2))) (put a2 s) _ (eq_trans (field_defaults _ _) (eq_trans (retyped_defaults _ _) D)) K3 eq_refl).
    change (ptr_of (arg_cfg a2 _)) with (ptr_of a). change (s_help (put a2 s)) with (s_help s). rewrite C. cbn [outcome].
    change (a_cfg (arg_cfg a2 (field (MAction HELP) (a_cfg a2)))) with (field (MAction HELP) (a_cfg a2)). rewrite retyped_field.
    assert (Z : retyped (a_cfg a2) (HELP_OPTION, 0%N, HELP) = retyped (a_cfg a) (HELP_OPTION, 0%N, HELP)) by apply retyped_retyped. rewrite Z. f_equal. rewrite <- E0.
    change (with_help (put b (put a2 s)) (Some (ptr_of a)) = with_help (put b s) (Some (ptr_of a))). rewrite put_put; reflexivity.
Qed.

Lemma version_orders : forall a s n s1, wf s -> In a (s_args s) -> c_defaults (a_cfg a) = [] -> getNargs a = 1%N -> getAction a = NONE -> isPositional a = false ->
  (n mod w64 <> 0)%N -> meth_state (MAction VERSION) a s = (s1, None) ->
  run_meths (a_id a) [MAction VERSION; MNargs n] s = (s1, Ok tt) /\ run_meths (a_id a) [MNargs n; MAction VERSION] s = (s1, Ok tt) /\
  s1 = with_version (put (arg_cfg a (retyped (a_cfg a) (VERSION_OPTION, 0%N, VERSION))) s) (Some (ptr_of a)).
Proof.
  intros a s n s1 W I D N1 A1 P N0 E. set (b := arg_cfg a (retyped (a_cfg a) (VERSION_OPTION, 0%N, VERSION))).
  assert (R : released a s = s) by (unfold released; now rewrite A1).
  assert (E0 := E). rewrite (meth_kind (MAction VERSION) a s eq_refl), R in E0.
  assert (K1 : kind_of (field (MAction VERSION) (a_cfg a)) = Some (VERSION_OPTION, 0%N, VERSION)).
  { rewrite kind_of_field, P, N1. reflexivity. }
  rewrite (declared_version (arg_cfg a (field (MAction VERSION) (a_cfg a))) s _ (eq_trans (field_defaults _ _) D) K1 eq_refl) in E0. change (ptr_of (arg_cfg a _)) with (ptr_of a) in E0.
  destruct (claims (s_version s) (ptr_of a)) eqn:C; [|discriminate]. apply (f_equal fst) in E0. cbn [fst] in E0. change (a_cfg (arg_cfg a (field (MAction VERSION) (a_cfg a)))) with (field (MAction VERSION) (a_cfg a)) in E0. rewrite retyped_field in E0. change (arg_cfg a (retyped (a_cfg a) (VERSION_OPTION, 0%N, VERSION))) with b in E0.
  split; [|split; [|now symmetry]].
  - rewrite (more_meths _ [MNargs n] s a _ (proj1 W) I E).
    assert (W1 : wf s1) by (eapply meth_wf; [exact W | exact I | exact E]).
    assert (I1 : In b (s_args s1)) by (rewrite <- E0; change (In b (s_args (put b s))); eapply put_In_self; [exact I | reflexivity]).
    change (a_id a) with (a_id b). rewrite (one_meth _ s1 b (proj1 W1) I1), (meth_kind (MNargs n) b s1 eq_refl).
    assert (K2 : kind_of (field (MNargs n) (a_cfg b)) = Some (VERSION_OPTION, 0%N, VERSION)).
    { unfold b. cbn [arg_cfg a_cfg]. rewrite kind_of_retyped; [|right; rewrite P; reflexivity]. rewrite P. cbn [fst snd documented]. unfold option_kind.
      apply N.eqb_neq in N0. now rewrite N0. }
    rewrite (declared_version (arg_cfg b (field (MNargs n) (a_cfg b))) s1 _ (eq_trans (field_defaults _ _) (eq_trans (retyped_defaults _ _) D)) K2 eq_refl).
    change (ptr_of (arg_cfg b _)) with (ptr_of a). rewrite <- E0 at 1. cbn [s_version with_version claims]. rewrite ptr_eqb_refl. cbn [outcome].
    change (a_cfg (arg_cfg b (field (MNargs n) (a_cfg b)))) with (field (MNargs n) (a_cfg b)). rewrite retyped_field.
    assert (Z : retyped (a_cfg b) (VERSION_OPTION, 0%N, VERSION) = a_cfg b) by apply retyped_retyped. rewrite Z. rewrite <- E0. f_equal.
    change (with_version (put b (put b s)) (Some (ptr_of a)) = with_version (put b s) (Some (ptr_of a))).
    now rewrite put_put.
  - destruct (option_kind NONE (n mod w64)) as [[t n1] act1] eqn:OK1.
    assert (K2 : kind_of (field (MNargs n) (a_cfg a)) = Some (t, n1, act1)) by (rewrite kind_of_field, P, A1; cbn [documented]; now rewrite OK1).
    assert (NR := K2). rewrite kind_of_field, A1 in NR. apply nonrole in NR; [|discriminate|discriminate]. destruct NR as [NR [NH NV]].
    assert (E2 : meth_state (MNargs n) a s = (put (arg_cfg a (retyped (a_cfg a) (t, n1, act1))) s, None)).
    { apply kind_call; try assumption; try reflexivity; rewrite A1; discriminate. }
    rewrite (more_meths _ [MAction VERSION] s a _ (proj1 W) I E2). set (a2 := arg_cfg a (retyped (a_cfg a) (t, n1, act1))) in *.
    assert (W1 : wf (put a2 s)) by (eapply meth_wf; [exact W | exact I | exact E2]).
    assert (I1 : In a2 (s_args (put a2 s))) by (eapply put_In_self; [exact I | reflexivity]).
    change (a_id a) with (a_id a2). rewrite (one_meth _ _ a2 (proj1 W1) I1), (meth_kind (MAction VERSION) a2 _ eq_refl).
    assert (R2 : released a2 (put a2 s) = put a2 s) by (unfold released; cbn [a2 arg_cfg a_cfg retyped cfg_type cfg_action c_action] in *; destruct act1; cbn in NH, NV; congruence).
    rewrite R2.
    assert (K3 : kind_of (field (MAction VERSION) (a_cfg a2)) = Some (VERSION_OPTION, 0%N, VERSION)).
    { unfold a2. cbn [arg_cfg a_cfg]. rewrite kind_of_retyped; [|right; rewrite P; eapply kind_pos; rewrite kind_of_field, P in K2; exact K2].
      rewrite P. cbn [fst snd documented]. unfold option_kind in OK1 |- *. apply N.eqb_neq in N0. rewrite N0 in OK1.
      destruct (n mod w64 =? 1)%N; [injection OK1 as _ <- _; reflexivity|]. destruct (n mod w64 =? 43)%N; injection OK1 as _ <- _; [reflexivity | now rewrite N0]. }
    rewrite (declared_version (arg_cfg a2 (field (MAction VERSION) (a_cfg a2))) (put a2 s) _ (eq_trans (field_defaults _ _) (eq_trans (retyped_defaults _ _) D)) K3 eq_refl).
    change (ptr_of (arg_cfg a2 _)) with (ptr_of a). change (s_version (put a2 s)) with (s_version s). rewrite C. cbn [outcome].
    change (a_cfg (arg_cfg a2 (field (MAction VERSION) (a_cfg a2)))) with (field (MAction VERSION) (a_cfg a2)). rewrite retyped_field.
    assert (Z : retyped (a_cfg a2) (VERSION_OPTION, 0%N, VERSION) = retyped (a_cfg a) (VERSION_OPTION, 0%N, VERSION)) by apply retyped_retyped. rewrite Z. f_equal. rewrite <- E0.
    change (with_version (put b (put a2 s)) (Some (ptr_of a)) = with_version (put b s) (Some (ptr_of a))). rewrite put_put; reflexivity.
Qed.

(** An argument as addArgument makes it (nargs 1, action NONE), with any settings but
    defaults: the calls action(act) and nargs(n), if accepted, can be swapped; the object
    is the same, and the argument has the documented kind.  [ordinary] excludes exactly
    the cases of C41_refuted. *)
Theorem C41_order_partial : forall s name a act n, reach s -> getArgument s name = Ok a ->
  getNargs a = 1%N -> getAction a = NONE -> c_defaults (a_cfg a) = [] ->
  ordinary (isPositional a) act n -> (exists s1, step (OpUpdate name [MAction act]) s = (s1, Ok tt)) ->
  step (OpUpdate name [MAction act; MNargs n]) s = step (OpUpdate name [MNargs n; MAction act]) s /\
  exists s' a', step (OpUpdate name [MAction act; MNargs n]) s = (s', Ok tt) /\ getArgument s' name = Ok a' /\ a_id a' = a_id a /\
    documented (isPositional a) act n = Some (behaviour a').
Proof.
  intros s name a act n R G N1 A1 D O [s1 E]. pose proof (reach_wf s R) as W. pose proof (proj1 W) as W0.
  destruct (getArgument_inv s name a W0 G) as [Ia [_ As]].
  rewrite !(update_get s name a _ W0 G) in *. rewrite (one_meth _ s a W0 Ia) in E.
  destruct (meth_state (MAction act) a s) as [s1' [e|]] eqn:ME; cbn [outcome] in E; [discriminate|]. injection E as ->.
  assert (NM : (n mod w64 = n)%N) by (apply N.mod_small, O).
  assert (FIN : forall s' b, wf0 s' -> In b (s_args s') -> a_id b = a_id a -> s_map s' = s_map s -> getArgument s' name = Ok b).
  { intros s' b W' I' EI EM. apply getArgument_by; [exact W' | exact I' | now rewrite EM, EI]. }
  assert (ROLE : act = HELP \/ act = VERSION \/ (act <> HELP /\ act <> VERSION)) by (destruct act; auto; right; right; split; discriminate).
  destruct ROLE as [->|[->|[NH NV]]].
  - assert (P : isPositional a = false).
    { destruct (isPositional a) eqn:P; [|reflexivity]. destruct (accepted_kind (MAction HELP) _ _ _ eq_refl ME) as [k K]. rewrite kind_of_field, P in K. discriminate. }
    rewrite P in *. assert (N0 : (n mod w64 <> 0)%N) by (rewrite NM; intro Z; destruct O as [_ [_ O]]; destruct (O Z) as [_ [X _]]; congruence).
    destruct (help_orders a s n s1 W Ia D N1 A1 P N0 ME) as [E1 [E2 E3]]. rewrite E1, E2. split; [reflexivity|].
    exists s1. eexists. split; [reflexivity|]. split; [apply FIN|split].
    + eapply meth_wf; [exact W | exact Ia | exact ME].
    + rewrite E3. change (In ?x (s_args (with_help ?y ?z))) with (In x (s_args y)). eapply put_In_self; [exact Ia | reflexivity].
    + reflexivity.
    + rewrite E3. reflexivity.
    + reflexivity.
    + unfold documented, option_kind. rewrite NM in N0. apply N.eqb_neq in N0. rewrite N0. reflexivity.
  - assert (P : isPositional a = false).
    { destruct (isPositional a) eqn:P; [|reflexivity]. destruct (accepted_kind (MAction VERSION) _ _ _ eq_refl ME) as [k K]. rewrite kind_of_field, P in K. discriminate. }
    rewrite P in *. assert (N0 : (n mod w64 <> 0)%N) by (rewrite NM; intro Z; destruct O as [_ [_ O]]; destruct (O Z) as [_ [_ X]]; congruence).
    destruct (version_orders a s n s1 W Ia D N1 A1 P N0 ME) as [E1 [E2 E3]]. rewrite E1, E2. split; [reflexivity|].
    exists s1. eexists. split; [reflexivity|]. split; [apply FIN|split].
    + eapply meth_wf; [exact W | exact Ia | exact ME].
    + rewrite E3. change (In ?x (s_args (with_version ?y ?z))) with (In x (s_args y)). eapply put_In_self; [exact Ia | reflexivity].
    + reflexivity.
    + rewrite E3. reflexivity.
    + reflexivity.
    + unfold documented, option_kind. rewrite NM in N0. apply N.eqb_neq in N0. rewrite N0. reflexivity.
  - destruct (accepted_kind (MAction act) _ _ _ eq_refl ME) as [k1 K1]. assert (K1' := K1). rewrite kind_of_field, N1 in K1'.
    assert (EX2 : exists k2, documented (isPositional a) NONE n = Some k2).
    { unfold documented. destruct (isPositional a) eqn:P; [|eauto]. cbn [positional_kind].
      destruct (n =? 0)%N eqn:Z; [apply N.eqb_eq in Z; destruct O as [_ [_ O]]; destruct (O Z); discriminate|].
      destruct (n =? 1)%N; [eauto|]. destruct (n =? 43)%N; eauto. }
    destruct EX2 as [k2 K2]. destruct (orders _ _ _ _ _ O K1' K2) as [O1 O2].
    assert (EX3 : exists k3, documented (isPositional a) act n = Some k3).
    { unfold documented in *. destruct (isPositional a) eqn:P; [|eauto].
      destruct act; try discriminate K1'; cbn [positional_kind] in *; destruct (n =? 0)%N; try discriminate K2; destruct (n =? 1)%N; eauto; destruct (n =? 43)%N; eauto. }
    destruct EX3 as [k3 K3].
    destruct (nonrole _ _ _ _ NH NV K1') as [R1 [R1a R1b]].
    assert (NN : NONE <> HELP /\ NONE <> VERSION) by (split; discriminate).
    destruct (nonrole _ _ _ _ (proj1 NN) (proj2 NN) K2) as [R2 [R2a R2b]]. destruct (nonrole _ _ _ _ NH NV K3) as [R3 _].
    assert (NA : getAction a <> HELP /\ getAction a <> VERSION) by (rewrite A1; exact NN).
    assert (K2' : kind_of (field (MNargs n) (a_cfg a)) = Some k2) by (rewrite kind_of_field, A1, NM; exact K2).
    assert (E1 : run_meths (a_id a) [MAction act; MNargs n] s = (put (arg_cfg a (retyped (a_cfg a) k3)) s, Ok tt)).
    { refine (kind_calls (MAction act) (MNargs n) a s k1 k3 W Ia eq_refl eq_refl D (proj1 NA) (proj2 NA) K1 R1 R1a R1b _ R3).
      rewrite kind_of_retyped; [|right; destruct k1 as [[t1 m1] c1]; exact (kind_pos _ _ _ _ _ _ K1')]. rewrite NM. cbn [fst snd]. now rewrite O1. }
    assert (E2 : run_meths (a_id a) [MNargs n; MAction act] s = (put (arg_cfg a (retyped (a_cfg a) k3)) s, Ok tt)).
    { refine (kind_calls (MNargs n) (MAction act) a s k2 k3 W Ia eq_refl eq_refl D (proj1 NA) (proj2 NA) K2' R2 R2a R2b _ R3).
      rewrite kind_of_retyped; [|right; destruct k2 as [[t1 m1] c1]; exact (kind_pos _ _ _ _ _ _ K2)]. cbn [fst snd]. now rewrite O2. }
    rewrite E1, E2. split; [reflexivity|]. eexists. eexists. split; [reflexivity|]. split; [apply FIN|split].
    + assert (EE : wf (fst (run_meths (a_id a) [MAction act; MNargs n] s))).
      { rewrite (more_meths _ [MNargs n] s a _ W0 Ia ME). cbn [run_meths]. unfold seq, bind.
        assert (W1 : wf s1) by (eapply meth_wf; [exact W | exact Ia | exact ME]).
        pose proof (wf_run_meth (a_id a) (MNargs n) s1 W1) as X. destruct (run_meth (a_id a) (MNargs n) s1) as [q [| | | |]]; exact X. }
      rewrite E1 in EE. exact (proj1 EE).
    + eapply put_In_self; [exact Ia | reflexivity].
    + reflexivity.
    + reflexivity.
    + reflexivity.
    + rewrite K3. destruct k3 as [[t3 m3] c3]. reflexivity.
Qed.
Print Assumptions C41_order_partial.
(** the same directly behind addArgument *)
Theorem C41_order_new_partial : forall s ns act n, reach s ->
  (forall pos, ordinary pos act n) -> (exists s1, step (OpAdd ns [MAction act]) s = (s1, Ok tt)) ->
  step (OpAdd ns [MAction act; MNargs n]) s = step (OpAdd ns [MNargs n; MAction act]) s /\
  exists s', step (OpAdd ns [MAction act; MNargs n]) s = (s', Ok tt).
Proof.
  intros s ns act n R O [s1 E]. pose proof (reach_wf s R) as W. pose proof (proj1 W) as W0.
  assert (CORE : forall c, addArgument ns s = (registered s c, Ok (fresh_id s)) -> c_nargs c = 1%N -> c_action c = NONE -> c_defaults c = [] ->
    step (OpAdd ns [MAction act; MNargs n]) s = step (OpAdd ns [MNargs n; MAction act]) s /\
    exists s', step (OpAdd ns [MAction act; MNargs n]) s = (s', Ok tt)).
  { intros c EA N1 A1 D. set (a := Arg (fresh_id s) 0 c new_dyn). set (s0 := registered s c) in *.
    assert (R0 : reach s0).
    { eapply (reach_step s (OpAdd ns []) s0 (Ok tt) R); [|exact Logic.I]. unfold step. rewrite (bind_ok _ _ _ _ _ EA). reflexivity. }
    pose proof (reach_wf s0 R0) as W1. assert (Ia : In a (s_args s0)) by (apply registered_In; now left).
    destruct (wf_mapped _ (proj1 W1) a Ia) as [m Hm]. pose proof (In_assoc _ _ _ (wf_keys _ (proj1 W1)) Hm) as As.
    pose proof (getArgument_by s0 m a (proj1 W1) Ia As) as G.
    assert (ST : forall ms, step (OpAdd ns ms) s = step (OpUpdate m ms) s0).
    { intros ms. rewrite (update_get s0 m a ms (proj1 W1) G). unfold step. rewrite (bind_ok _ _ _ _ _ EA). reflexivity. }
    rewrite !ST. rewrite ST in E.
    destruct (C41_order_partial s0 m a act n R0 G N1 A1 D (O _) (ex_intro _ s1 E)) as [H1 [s' [a' [H2 _]]]]. split; [exact H1 | now exists s']. }
  destruct (addArgument_cases ns s W0) as [[e [EA _]]|[[m [_ [_ [_ [EA _]]]]]|[f [rest [flags [_ [_ [_ [_ [EA _]]]]]]]]]].
  - unfold step in E. rewrite (bind_throw _ _ _ _ _ EA) in E. discriminate.
  - exact (CORE _ EA eq_refl eq_refl eq_refl).
  - exact (CORE _ EA eq_refl eq_refl eq_refl).
Qed.
Print Assumptions C41_order_new_partial.

(** One action replaces another, if the first is NONE, APPEND or EXTEND (or INFINITE,
    when nargs is 1): these keep nargs.  The first call may be dropped. *)
Theorem C41_replace_partial : forall s name a act1 act2, reach s -> getArgument s name = Ok a -> c_defaults (a_cfg a) = [] ->
  getNargs a <> 43%N -> (act1 = NONE \/ act1 = APPEND \/ act1 = EXTEND \/ (act1 = INFINITE /\ (getNargs a = 1%N \/ isPositional a = true))) ->
  (exists s1, step (OpUpdate name [MAction act1]) s = (s1, Ok tt)) ->
  (exists s2, step (OpUpdate name [MAction act2]) s = (s2, Ok tt)) ->
  step (OpUpdate name [MAction act1; MAction act2]) s = step (OpUpdate name [MAction act2]) s.
Proof.
  intros s name a act1 act2 R G D N43 A1 [s1 E1] [s2 E2]. pose proof (reach_wf s R) as W. pose proof (proj1 W) as W0.
  destruct (getArgument_inv s name a W0 G) as [Ia [_ As]].
  rewrite !(update_get s name a _ W0 G) in *. rewrite (one_meth (MAction act1) s a W0 Ia) in E1. rewrite (one_meth (MAction act2) s a W0 Ia) in E2 |- *.
  destruct (meth_state (MAction act1) a s) as [q1 [e|]] eqn:M1; cbn [outcome] in E1; [discriminate|]. injection E1 as ->.
  rewrite (more_meths _ [MAction act2] s a _ W0 Ia M1).
  assert (NR1 : act1 <> HELP /\ act1 <> VERSION) by (destruct A1 as [->|[->|[->|[-> _]]]]; split; discriminate).
  destruct (accepted_kind (MAction act1) _ _ _ eq_refl M1) as [k1 K1]. assert (K1' := K1). rewrite kind_of_field in K1'.
  destruct (nonrole _ _ _ _ (proj1 NR1) (proj2 NR1) K1') as [R1 [R1a R1b]].
  assert (KE : snd (fst k1) = getNargs a).
  { clear - K1' A1 N43. unfold documented in K1'. apply N.eqb_neq in N43. destruct (isPositional a) eqn:P.
    - destruct A1 as [->|[->|[->|[-> _]]]]; cbn [positional_kind] in K1'; try discriminate K1'; destruct (getNargs a =? 0)%N eqn:Z; try discriminate K1';
        destruct (getNargs a =? 1)%N eqn:Z1; rewrite ?N43 in K1'; injection K1' as <-; try reflexivity; apply N.eqb_eq in Z1; now symmetry.
    - unfold option_kind in K1'. destruct (getNargs a =? 0)%N eqn:Z; [injection K1' as <-; apply N.eqb_eq in Z; now symmetry|].
      destruct A1 as [->|[->|[->|[-> [X|X]]]]]; try discriminate X; try (injection K1' as <-; now symmetry);
        destruct (getNargs a =? 1)%N eqn:Z1; rewrite ?N43 in K1'; injection K1' as <-; try reflexivity; apply N.eqb_eq in Z1; now symmetry. }
  assert (M1' := M1). rewrite (meth_kind (MAction act1) a s eq_refl) in M1'.
  rewrite (declared_plain (arg_cfg a (field (MAction act1) (a_cfg a))) (released a s) k1 (eq_trans (field_defaults (MAction act1) (a_cfg a)) D) K1 R1) in M1'.
  change (a_cfg (arg_cfg a (field (MAction act1) (a_cfg a)))) with (field (MAction act1) (a_cfg a)) in M1'. rewrite retyped_field in M1'.
  apply (f_equal fst) in M1'. cbn [fst] in M1'. set (a1 := arg_cfg a (retyped (a_cfg a) k1)).
  change (put a1 (released a s) = s1) in M1'.
  assert (W1 : wf s1) by (eapply meth_wf; [exact W | exact Ia | exact M1]).
  assert (I1 : In a1 (s_args s1)).
  { rewrite <- M1'. apply (put_In_self a1 (released a s) a); [|reflexivity]. unfold released. destruct (getAction a); exact Ia. }
  change (a_id a) with (a_id a1). rewrite (one_meth _ s1 a1 (proj1 W1) I1). f_equal.
  rewrite (meth_kind (MAction act2) a1 s1 eq_refl), (meth_kind (MAction act2) a s eq_refl).
  assert (RL : released a1 s1 = s1).
  { unfold released. destruct k1 as [[t1 m1] c1]. unfold a1. cbn [arg_cfg a_cfg retyped cfg_type cfg_action c_action]. cbn [snd] in *. destruct c1; congruence. }
  rewrite RL. rewrite <- M1'.
  assert (ES : forall x, a_id x = a_id a -> put x (put a1 (released a s)) = put x (released a s)) by (intros x Ex; apply put_put; now rewrite Ex).
  assert (KK : kind_of (field (MAction act2) (a_cfg a1)) = kind_of (field (MAction act2) (a_cfg a))).
  { unfold a1. cbn [arg_cfg a_cfg]. rewrite kind_of_retyped; [|right; destruct k1 as [[t1 m1] c1]; exact (kind_pos _ _ _ _ _ _ K1')]. rewrite kind_of_field, KE. reflexivity. }
  destruct (meth_state (MAction act2) a s) as [q2 [e2|]] eqn:M2; cbn [outcome] in E2; [discriminate|]. clear E2.
  destruct (accepted_kind (MAction act2) _ _ _ eq_refl M2) as [k2 K2]. rewrite (meth_kind (MAction act2) a s eq_refl) in M2.
  rewrite K2 in KK. revert M2.
  assert (D1 : c_defaults (a_cfg (arg_cfg a1 (field (MAction act2) (a_cfg a1)))) = []) by (exact (eq_trans (field_defaults (MAction act2) (a_cfg a1)) (eq_trans (retyped_defaults _ _) D))).
  assert (D2 : c_defaults (a_cfg (arg_cfg a (field (MAction act2) (a_cfg a)))) = []) by (exact (eq_trans (field_defaults (MAction act2) (a_cfg a)) D)).
  assert (RR : retyped (field (MAction act2) (a_cfg a1)) k2 = retyped (field (MAction act2) (a_cfg a)) k2) by (rewrite !retyped_field; apply retyped_retyped).
  destruct (is_role (fst (fst k2))) eqn:RK.
  - destruct (fst (fst k2)) eqn:T2; try discriminate RK.
    + rewrite (declared_helper _ _ k2 D1 KK T2), (declared_helper _ _ k2 D2 K2 T2).
      change (s_help (put a1 (released a s))) with (s_help (released a s)).
      change (ptr_of (arg_cfg a1 (field (MAction act2) (a_cfg a1)))) with (ptr_of a). change (ptr_of (arg_cfg a (field (MAction act2) (a_cfg a)))) with (ptr_of a).
      destruct (claims (s_help (released a s)) (ptr_of a)); [|intro X; discriminate X]. intros _. f_equal. f_equal.
      change (a_cfg (arg_cfg a1 (field (MAction act2) (a_cfg a1)))) with (field (MAction act2) (a_cfg a1)). rewrite RR. apply ES. reflexivity.
    + rewrite (declared_version _ _ k2 D1 KK T2), (declared_version _ _ k2 D2 K2 T2).
      change (s_version (put a1 (released a s))) with (s_version (released a s)).
      change (ptr_of (arg_cfg a1 (field (MAction act2) (a_cfg a1)))) with (ptr_of a). change (ptr_of (arg_cfg a (field (MAction act2) (a_cfg a)))) with (ptr_of a).
      destruct (claims (s_version (released a s)) (ptr_of a)); [|intro X; discriminate X]. intros _. f_equal. f_equal.
      change (a_cfg (arg_cfg a1 (field (MAction act2) (a_cfg a1)))) with (field (MAction act2) (a_cfg a1)). rewrite RR. apply ES. reflexivity.
  - intros _. rewrite (declared_plain _ _ k2 D1 KK RK), (declared_plain _ _ k2 D2 K2 RK). f_equal.
    change (a_cfg (arg_cfg a1 (field (MAction act2) (a_cfg a1)))) with (field (MAction act2) (a_cfg a1)). rewrite RR. apply ES. reflexivity.
Qed.
Print Assumptions C41_replace_partial.
Example C41_example : exists s a, reach s /\ getArgument s "-o" = Ok a /\ getNargs a = 1%N /\ getAction a = NONE /\ c_defaults (a_cfg a) = [] /\
  ordinary (isPositional a) EXTEND 3 /\ snd (step (OpUpdate "-o" [MAction EXTEND]) s) = Ok tt /\
  snd (step (OpUpdate "-o" [MAction STORE_FALSE]) s) = Ok tt /\ documented false EXTEND 3 = Some (MULTI_NUMBER_INFINITE_OPTION, 3%N, EXTEND).
Proof.
  exists (history [OpAdd ["-o"] []]). eexists. split; [apply history_reach|]. split; [vm_compute; reflexivity|].
  split; [reflexivity|]. split; [reflexivity|]. split; [reflexivity|].
  split; [split; [reflexivity | split; intro X; discriminate X]|].
  split; [vm_compute; reflexivity|]. split; vm_compute; reflexivity.
Qed.

(* ------------------------------------------------------------------ *)
(** * C42 *)
(** how many default values an argument with [nargs] n <> 0 takes: n of them if each use
    has n values; any number if it has any number of single values; a multiple of n if
    its values come in groups of n *)
Definition allowed (pos : bool) (act : eAction) (n : N) (k : nat) : Prop :=
  match act with
  | NONE => N.of_nat k = n
  | INFINITE => if pos then exists j : nat, N.of_nat k = (N.of_nat j * n)%N else True
  | _ => exists j : nat, N.of_nat k = (N.of_nat j * n)%N
  end.
(** values in groups *)
Definition in_groups (pos : bool) (act : eAction) (n : N) : Prop :=
  n <> 1%N /\ match act with INFINITE => pos = true | APPEND | EXTEND => True | _ => False end.
(** the argument takes values *)
Definition takes_values (a : argument) : Prop :=
  getNargs a <> 0%N /\ match getAction a with NONE | INFINITE => True | APPEND | EXTEND => isPositional a = false | _ => False end.

Lemma values_type : forall s a, reach s -> In a (arguments s) -> takes_values a -> documented (isPositional a) (getAction a) (getNargs a) = Some (behaviour a).
Proof.
  intros s a R Ia [N0 A]. unfold documented. destruct (isPositional a) eqn:P.
  - apply (positional_type s a (getAction a) (getNargs a) R Ia P eq_refl eq_refl N0). destruct (getAction a); auto; try contradiction; discriminate.
  - f_equal. symmetry. apply (option_type s a (getAction a) (getNargs a) R Ia P eq_refl eq_refl N0); intro X; rewrite X in A; contradiction.
Qed.
Lemma multiple_mod : forall k n, n <> 0%N -> ((N.of_nat k mod n =? 0)%N = true <-> exists j : nat, N.of_nat k = (N.of_nat j * n)%N).
Proof.
  intros k n N0. rewrite N.eqb_eq. split.
  - intros H. exists (N.to_nat (N.of_nat k / n)). rewrite N2Nat.id. pose proof (N.div_mod (N.of_nat k) n N0) as E. rewrite H, N.add_0_r, N.mul_comm in E. exact E.
  - intros [j E]. rewrite E. now apply N.mod_mul.
Qed.
Lemma size_allowed : forall a k, takes_values a -> documented (isPositional a) (getAction a) (getNargs a) = Some (behaviour a) ->
  (size_fits (a_cfg a) k = true <-> allowed (isPositional a) (getAction a) (getNargs a) k) /\
  (grouped (c_type (a_cfg a)) = true <-> in_groups (isPositional a) (getAction a) (getNargs a)) /\ has_values (a_cfg a) = true.
Proof.
  intros a k [N0 A] K. assert (X := multiple_mod k (getNargs a) N0). rewrite N.eqb_eq in X. unfold behaviour in K.
  assert (N0' := N0). apply N.eqb_neq in N0'.
  assert (ONE : getNargs a = 1%N -> exists j : nat, N.of_nat k = (N.of_nat j * getNargs a)%N) by (intros ->; exists k; lia).
  unfold documented in K. unfold size_fits, grouped, in_groups, allowed, has_values, arity_of in *. destruct (isPositional a) eqn:P.
  - destruct (getAction a); try contradiction; try discriminate; cbn [positional_kind] in K; rewrite N0' in K; destruct (getNargs a =? 1)%N eqn:N1;
      [apply N.eqb_eq in N1 | apply N.eqb_neq in N1; destruct (getNargs a =? 43)%N; [injection K as <- K2 K3; congruence|] | apply N.eqb_eq in N1 | apply N.eqb_neq in N1];
      injection K as <-; rewrite ?N.eqb_eq; intuition (try discriminate; try congruence; auto).
  - unfold option_kind in K. rewrite N0' in K. destruct (getAction a); try contradiction; try (injection K as <- K2; intuition discriminate);
      destruct (getNargs a =? 1)%N eqn:N1; [apply N.eqb_eq in N1 | apply N.eqb_neq in N1; destruct (getNargs a =? 43)%N; [injection K as <- K2 K3; congruence|]
        | apply N.eqb_eq in N1 | apply N.eqb_neq in N1 | apply N.eqb_eq in N1 | apply N.eqb_neq in N1];
      injection K as <-; rewrite ?N.eqb_eq; intuition (try discriminate; try congruence; auto).
Qed.
Lemma defaulted_values : forall a, has_values (a_cfg a) = true -> getNargs a <> 0%N -> c_defaults (a_cfg a) <> [] ->
  size_fits (a_cfg a) (length (c_defaults (a_cfg a))) = true ->
  (c_type (a_cfg a) = SIMPLE_OPTION \/ c_type (a_cfg a) = POSITIONAL_ARGUMENT -> getNargs a = 1%N) ->
  to_vector (defaulted a) = Ok (c_defaults (a_cfg a)) /\
  (grouped (c_type (a_cfg a)) = true -> to_vector_vector (defaulted a) = Ok (chunks (N.to_nat (getNargs a)) (c_defaults (a_cfg a)))) /\
  c_defaults (a_cfg (defaulted a)) = c_defaults (a_cfg a) /\ behaviour (defaulted a) = behaviour a.
Proof.
  intros a V N0 D F S1. set (b := Arg (a_id a) (a_gen a) (cfg_dest (a_cfg a) None) (ADyn false 0 (d_arg (a_dyn a)) (d_num (a_dyn a)) (d_elems (a_dyn a)))).
  assert (ND : no_defaults (a_cfg b) = false).
  { unfold no_defaults. change (c_nargs (a_cfg b)) with (getNargs a). change (c_defaults (a_cfg b)) with (c_defaults (a_cfg a)).
    apply N.eqb_neq in N0. rewrite N0. now destruct (c_defaults (a_cfg a)). }
  pose proof (defaulted_clean b eq_refl eq_refl ND F S1) as CL.
  assert (DD : c_defaults (a_cfg (defaulted b)) = c_defaults (a_cfg a) /\ c_dest (a_cfg (defaulted b)) = None /\ has_values (a_cfg (defaulted b)) = true /\
     to_vector (defaulted b) = to_vector (defaulted a) /\ to_vector_vector (defaulted b) = to_vector_vector (defaulted a) /\ c_type (a_cfg (defaulted b)) = c_type (a_cfg a) /\
     c_nargs (a_cfg (defaulted b)) = c_nargs (a_cfg a) /\ c_defaults (a_cfg (defaulted a)) = c_defaults (a_cfg a) /\ behaviour (defaulted a) = behaviour a).
  { unfold defaulted. change (c_type (a_cfg b)) with (c_type (a_cfg a)). unfold has_values, arity_of, to_vector, to_vector_vector, behaviour in *.
    destruct (c_type (a_cfg a)) eqn:T; try discriminate V; cbn; rewrite T; repeat split. }
  destruct DD as [E1 [E2 [E3 [E4 [E5 [E6 [E7 [E8 E9]]]]]]]].
  destruct (cl_some _ CL E2) as [V1 V2]; [now rewrite E1 | exact E3 |]. rewrite E4, E1 in V1. rewrite E5, E6, E7, E1 in V2. auto.
Qed.

(** defaults(v) on an argument that takes values, v not empty: accepted if the length is
    allowed; then the argument has these values, in groups if its values come in groups.
    Otherwise ArgumentException. *)
Theorem C42_defaults : forall s name a v, reach s -> getArgument s name = Ok a -> takes_values a -> v <> [] ->
  (allowed (isPositional a) (getAction a) (getNargs a) (length v) ->
     exists s' a', step (OpUpdate name [MDefaults v]) s = (s', Ok tt) /\ getArgument s' name = Ok a' /\ a_id a' = a_id a /\
       c_defaults (a_cfg a') = v /\ to_vector a' = Ok v /\ behaviour a' = behaviour a /\
       (in_groups (isPositional a) (getAction a) (getNargs a) ->
          exists gs, to_vector_vector a' = Ok gs /\ concat gs = v /\ Forall (fun g => N.of_nat (length g) = getNargs a) gs)) /\
  (~ allowed (isPositional a) (getAction a) (getNargs a) (length v) ->
     exists s', step (OpUpdate name [MDefaults v]) s = (s', Throw (Exn KArgument (first_of (a_cfg a)) "invalid number of argument with number of default argument"))).
Proof.
  intros s name a v R G T V0. pose proof (reach_wf s R) as W. pose proof (proj1 W) as W0.
  destruct (getArgument_inv s name a W0 G) as [Ia [_ As]]. pose proof (values_type s a R Ia T) as K.
  destruct (size_allowed a (length v) T K) as [SA [SG HV]].
  rewrite !(update_get s name a _ W0 G), (one_meth _ s a W0 Ia). set (b := arg_cfg a (cfg_defaults (a_cfg a) v)).
  assert (ME : meth_state (MDefaults v) a s = (put (fst (defaults_arg b)) s, snd (defaults_arg b))) by reflexivity.
  assert (ND : no_defaults (a_cfg b) = false).
  { unfold no_defaults. change (c_nargs (a_cfg b)) with (getNargs a). change (c_defaults (a_cfg b)) with v.
    destruct T as [N0 _]. apply N.eqb_neq in N0. rewrite N0. now destruct v. }
  assert (DA : defaults_arg b = if size_fits (a_cfg a) (length v) then (defaulted b, None)
      else (arg_dyn b (dyn_elems (a_dyn b) []), Some (Exn KArgument (first_name (a_cfg b)) msg_defaults))).
  { unfold defaults_arg. rewrite ND. reflexivity. }
  rewrite ME, DA. split.
  - intros AL. apply SA in AL. rewrite AL. cbn [fst snd outcome].
    assert (S1 : c_type (a_cfg b) = SIMPLE_OPTION \/ c_type (a_cfg b) = POSITIONAL_ARGUMENT -> getNargs b = 1%N).
    { change (c_type (a_cfg b)) with (c_type (a_cfg a)). change (getNargs b) with (getNargs a). intros Q.
      exact (kind_one (a_cfg a) _ K Q). }
    destruct (defaulted_values b HV (proj1 T) V0 AL S1) as [V1 [V2 [V3 V4]]].
    assert (ID : a_id (defaulted b) = a_id a) by (unfold defaulted; destruct (c_type (a_cfg b)); reflexivity).
    assert (W' : wf (put (defaulted b) s)).
    { eapply (meth_wf (MDefaults v) s a); [exact W | exact Ia|]. rewrite ME, DA, AL. reflexivity. }
    exists (put (defaulted b) s), (defaulted b). split; [reflexivity|]. split.
    { apply getArgument_by; [exact (proj1 W') | eapply put_In_self; [exact Ia | now rewrite ID] | rewrite ID; exact As]. }
    split; [exact ID|]. split; [exact V3|]. split; [exact V1|]. split; [exact V4|].
    intros IG. apply SG in IG. exists (chunks (N.to_nat (getNargs a)) v). split; [exact (V2 IG)|].
    destruct T as [N0 _]. assert (X : concat (chunks (N.to_nat (getNargs a)) v) = v /\ Forall (fun g => length g = N.to_nat (getNargs a)) (chunks (N.to_nat (getNargs a)) v)).
    { apply chunks_flat; [lia|]. rewrite N2Nat.id. unfold size_fits in AL. unfold grouped in IG. destruct (c_type (a_cfg a)); try discriminate IG; now apply N.eqb_eq. }
    destruct X as [X1 X2]. split; [exact X1|]. eapply Forall_impl; [|exact X2]. intros g ->. apply N2Nat.id.
  - intros NA. destruct (size_fits (a_cfg a) (length v)) eqn:SF; [exfalso; apply NA, SA, eq_refl|]. cbn [fst snd outcome]. eexists. f_equal.
Qed.
Print Assumptions C42_defaults.
(** Without values to give or to take, defaults() is accepted and only recorded. *)
Theorem C42_recorded : forall s name a v, reach s -> getArgument s name = Ok a -> getNargs a = 0%N \/ v = [] ->
  exists s' a', step (OpUpdate name [MDefaults v]) s = (s', Ok tt) /\ getArgument s' name = Ok a' /\
    c_defaults (a_cfg a') = v /\ to_vector a' = to_vector a /\ to_vector_vector a' = to_vector_vector a /\ behaviour a' = behaviour a /\
    isExists a' = isExists a /\ count a' = count a.
Proof.
  intros s name a v R G H. pose proof (reach_wf s R) as W. pose proof (proj1 W) as W0.
  destruct (getArgument_inv s name a W0 G) as [Ia [_ As]]. set (b := arg_cfg a (cfg_defaults (a_cfg a) v)).
  assert (DA : defaults_arg b = (b, None)).
  { unfold defaults_arg, no_defaults. change (c_nargs (a_cfg b)) with (getNargs a). change (c_defaults (a_cfg b)) with v.
    destruct H as [-> | ->]; [reflexivity | now rewrite orb_true_r]. }
  assert (ME : meth_state (MDefaults v) a s = (put b s, None)) by (unfold meth_state; fold b; now rewrite DA).
  exists (put b s), b. rewrite (update_get s name a _ W0 G), (one_meth _ s a W0 Ia), ME. split; [reflexivity|]. split; [|repeat split].
  apply getArgument_by; [exact (proj1 (meth_wf _ s a _ _ W Ia ME)) | eapply put_In_self; [exact Ia | reflexivity] | exact As].
Qed.
Print Assumptions C42_recorded.
Example C42_example : exists s a, reach s /\ getArgument s "-e" = Ok a /\ takes_values a /\
  allowed (isPositional a) (getAction a) (getNargs a) (length ["1"; "2"; "3"; "4"]) /\
  ~ allowed (isPositional a) (getAction a) (getNargs a) (length ["1"; "2"; "3"]) /\ in_groups (isPositional a) (getAction a) (getNargs a).
Proof.
  exists shop. eexists. split; [apply history_reach|]. split; [vm_compute; reflexivity|].
  split; [split; [intro X; vm_compute in X; discriminate X | reflexivity]|].
  split; [exists 2; reflexivity|]. split; [intros [j E]; cbn in E; lia|]. split; [intro X; vm_compute in X; discriminate X | exact Logic.I].
Qed.
