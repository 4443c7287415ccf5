(** Proofs_Meth.v -- closed forms of the methods of Argument. *)
From Coq Require Import Permutation Sorted.
From Verif Require Import Base Model_Utils Model_Number Model_Types Model_Argument Model_Usage Model_Args Model_Api
  Spec_Order Spec_Names Spec_Reading Spec_Parse Spec_Decl Proofs_Base Proofs_Order Proofs_Frame Proofs_Inv Proofs_Reading Proofs_Parse Proofs_Decl.

(** typeConstructor_ and defaultsConstructor_ once [a] has its new fields *)
Definition declared (a : argument) (s : state) : state * option exn :=
  let c := a_cfg a in
  match kind_of c with
  | None => (put a s, Some (Exn KArgument (first_name c) "positional argument cannot use with this action or this nargs"))
  | Some k =>
      let d := defaults_arg (arg_cfg a (retyped c k)) in
      match fst (fst k) with
      | HELP_OPTION =>
          if claims (s_help s) (ptr_of a) then (with_help (put (fst d) s) (Some (ptr_of a)), snd d)
          else (put a s, Some (Exn KArgument (first_name c) "help action already defined"))
      | VERSION_OPTION =>
          if claims (s_version s) (ptr_of a) then (with_version (put (fst d) s) (Some (ptr_of a)), snd d)
          else (put a s, Some (Exn KArgument (first_name c) "version action already defined"))
      | _ => (put (fst d) s, snd d)
      end
  end.

Lemma defaults_arg_id : forall a, a_id (fst (defaults_arg a)) = a_id a.
Proof.
  intros a. unfold defaults_arg. destruct (no_defaults (a_cfg a)); [reflexivity|].
  destruct (size_fits _ _); [|reflexivity]. simpl. unfold defaulted. destruct (c_type (a_cfg a)); reflexivity.
Qed.

Lemma put_upd_cfg : forall a c s x, find_id (a_id a) (s_args s) = Some x ->
  upd_cfg (a_id a) (fun _ => c) (put a s) = put (arg_cfg a c) s.
Proof.
  intros a c s x F. unfold upd_cfg, put, upd_id. cbn [s_args with_args]. rewrite map_map. unfold with_args; simpl. f_equal. apply map_ext.
  intros b. destruct (Nat.eqb_spec (a_id b) (a_id a)) as [E|E]; [now rewrite Nat.eqb_refl|].
  apply Nat.eqb_neq in E. now rewrite E.
Qed.

Lemma declared_eq : forall a s x, NoDup (map a_id (s_args s)) -> find_id (a_id a) (s_args s) = Some x -> has_name a = true ->
  (typeConstructor (a_id a) ;;; defaultsConstructor (a_id a)) (put a s) = outcome (declared a s).
Proof.
  intros a s x ND F HN.
  assert (F1 : find_id (a_id a) (s_args (put a s)) = Some a) by (eapply put_find; exact F).
  pose proof (typeConstructor_eq (a_id a) (put a s) a F1 HN) as TC.
  unfold declared. unfold typed_state in TC.
  destruct (kind_of (a_cfg a)) as [k|]; [|now apply bind_throw].
  set (b := arg_cfg a (retyped (a_cfg a) k)) in *.
  rewrite (put_upd_cfg a _ s x F) in TC. fold b in TC.
  assert (HNb : has_name b = true). { unfold has_name, b, retyped in *. destruct k as [[t n] act]. exact HN. }
  assert (DC : forall h, s_args h = s_args (put b s) ->
     defaultsConstructor (a_id a) h = outcome (put (fst (defaults_arg b)) h, snd (defaults_arg b))).
  { intros h Eh. apply defaultsConstructor_eq.
    - rewrite Eh, put_ids. exact ND.
    - rewrite Eh. apply (put_find b s x). exact F.
    - exact HNb. }
  assert (PP : forall s', put (fst (defaults_arg b)) (put b s') = put (fst (defaults_arg b)) s').
  { intros s'. apply put_put. now rewrite defaults_arg_id. }
  cbv zeta.
  destruct (fst (fst k));
    try (rewrite (bind_ok _ _ _ _ _ TC), DC by reflexivity; rewrite PP; reflexivity).
  - change (s_help (put a s)) with (s_help s) in TC. destruct (claims (s_help s) (ptr_of a)); [|now apply bind_throw].
    rewrite (bind_ok _ _ _ _ _ TC), DC by reflexivity.
    change (put (fst (defaults_arg b)) (with_help (put b s) (Some (ptr_of a)))) with (with_help (put (fst (defaults_arg b)) (put b s)) (Some (ptr_of a))).
    rewrite PP. reflexivity.
  - change (s_version (put a s)) with (s_version s) in TC. destruct (claims (s_version s) (ptr_of a)); [|now apply bind_throw].
    rewrite (bind_ok _ _ _ _ _ TC), DC by reflexivity.
    change (put (fst (defaults_arg b)) (with_version (put b s) (Some (ptr_of a)))) with (with_version (put (fst (defaults_arg b)) (put b s)) (Some (ptr_of a))).
    rewrite PP. reflexivity.
Qed.

(** action() gives up the help / version role first *)
Definition released (a : argument) (s : state) : state :=
  match c_action (a_cfg a) with HELP => with_help s None | VERSION => with_version s None | _ => s end.
Definition resorted (s : state) : state := with_args s (sort_by arg_lt (s_args s)).

(** the outcome of each method on the argument [a] *)
Definition meth_state (m : meth) (a : argument) (s : state) : state * option exn :=
  let c := a_cfg a in
  let set c' := put (arg_cfg a c') s in
  match m with
  | MFlag f =>
      if is_positional (c_type c) then (s, Some (Exn KArgument f "can't add flag in positionnal argument"))
      else match validFormatFlag f with
           | Some msg => (s, Some (Exn KArgument f msg))
           | None =>
               if mem_key f (s_map s) then (s, Some (Exn KArgument f "invalid flag already exist"))
               else (with_map (resorted (set (cfg_names c (sort_flags (c_names c ++ [f]))))) (s_map s ++ [(f, a_id a)]), None)
           end
  | MAction act => declared (arg_cfg a (cfg_action c act)) (released a s)
  | MRequired b => (resorted (set (cfg_required c b)), None)
  | MHelp h => (set (cfg_help c h), None)
  | MMetavar x => (set (cfg_metavar c x), None)
  | MNargs n => declared (arg_cfg a (cfg_nargs c (n mod w64)%N)) s
  | MDefaults v => let d := defaults_arg (arg_cfg a (cfg_defaults c v)) in (put (fst d) s, snd d)
  | MValid p b => (with_freed (set (cfg_valid c p b)) (s_freed s ++ owned c), None)
  | MDest d => (put (Arg (a_id a) (S (a_gen a)) (cfg_dest (cfg_defaults c []) (Some d)) (a_dyn a)) s, None)
  end.

Lemma set_cfg_put : forall s a f, NoDup (map a_id (s_args s)) -> find_id (a_id a) (s_args s) = Some a ->
  set_cfg (a_id a) f s = (put (arg_cfg a (f (a_cfg a))) s, Ok tt).
Proof.
  intros s a f ND F. unfold set_cfg, modify. f_equal.
  exact (put_upd s (a_id a) (fun x => arg_cfg x (f (a_cfg x))) a ND F eq_refl).
Qed.
Lemma wf_name : forall s a, wf0 s -> In a (s_args s) -> has_name a = true.
Proof. intros s a W I. pose proof (wf0_has_name s W) as H. rewrite forallb_forall in H. auto. Qed.
Lemma has_name_all_put : forall s a, forallb has_name (s_args s) = true -> has_name a = true -> forallb has_name (s_args (put a s)) = true.
Proof.
  intros s a H Ha. rewrite forallb_forall in *. intros b Ib. apply put_In in Ib. destruct Ib as [->|[Ib _]]; auto.
Qed.

Lemma meth_eq : forall m s a, wf0 s -> In a (s_args s) -> run_meth (a_id a) m s = outcome (meth_state m a s).
Proof.
  intros m s a W I. pose proof (wf_ids s W) as ND. pose proof (In_find_id _ _ ND I) as F. pose proof (wf_name s a W I) as HN.
  assert (D : deref (a_id a) s = (s, Ok a)) by (rewrite deref_eq, F; reflexivity).
  assert (SA : forall t, s_args t = s_args (put a t) \/ True) by (intros; now right). clear SA.
  assert (SC := fun f => set_cfg_put s a f ND F).
  destruct m; simpl run_meth; unfold meth_state; cbv zeta.
  - unfold flag. rewrite (bind_ok _ _ _ _ _ D). destruct (is_positional (c_type (a_cfg a))); [reflexivity|].
    destruct (validFormatFlag f); [reflexivity|]. unfold bind at 1, get. destruct (mem_key f (s_map s)); [reflexivity|].
    rewrite (bind_ok _ _ _ _ _ (SC _)). unfold bind at 1, modify. unfold sort_args.
    cbn [with_map s_args]. rewrite has_name_all_put.
    + reflexivity.
    + now apply wf0_has_name.
    + unfold has_name. simpl. destruct (sort_flags (c_names (a_cfg a) ++ [f])) eqn:E; [|reflexivity].
      exfalso. pose proof (Permutation_length (sort_perm compareFlag (c_names (a_cfg a) ++ [f]))) as L. unfold sort_flags in E. rewrite E, app_length in L. simpl in L. lia.
  - unfold action. rewrite (bind_ok _ _ _ _ _ D).
    set (s0 := released a s).
    assert (R : forall k : M unit, ((if action_eqb (c_action (a_cfg a)) HELP then modify (fun s => with_help s None) else ret tt) ;;;
       (if action_eqb (c_action (a_cfg a)) VERSION then modify (fun s => with_version s None) else ret tt) ;;; k) s = k s0).
    { intros k. unfold s0, released. destruct (c_action (a_cfg a)); reflexivity. }
    rewrite R. clear R. assert (EA : s_args s0 = s_args s) by (unfold s0, released; destruct (c_action (a_cfg a)); reflexivity).
    assert (SC0 : set_cfg (a_id a) (fun c => cfg_action c a0) s0 = (put (arg_cfg a (cfg_action (a_cfg a) a0)) s0, Ok tt)).
    { apply (set_cfg_put s0 a (fun c => cfg_action c a0)); rewrite EA; assumption. }
    rewrite (bind_ok _ _ _ _ _ SC0).
    apply (declared_eq (arg_cfg a (cfg_action (a_cfg a) a0)) s0 a); try (rewrite EA; assumption). exact HN.
  - unfold required. rewrite (bind_ok _ _ _ _ _ D), (bind_ok _ _ _ _ _ (SC _)). unfold sort_args.
    rewrite has_name_all_put; [reflexivity | now apply wf0_has_name | exact HN].
  - unfold help. rewrite (bind_ok _ _ _ _ _ D). apply SC.
  - unfold metavar. rewrite (bind_ok _ _ _ _ _ D). apply SC.
  - unfold nargs. rewrite (bind_ok _ _ _ _ _ D), (bind_ok _ _ _ _ _ (SC _)).
    apply (declared_eq (arg_cfg a (cfg_nargs (a_cfg a) (n mod w64)%N)) s a); assumption.
  - unfold defaults. rewrite (bind_ok _ _ _ _ _ D), (bind_ok _ _ _ _ _ (SC _)).
    set (b := arg_cfg a (cfg_defaults (a_cfg a) v)).
    change (a_id a) with (a_id b). rewrite (defaultsConstructor_eq (a_id b) (put b s) b).
    + rewrite put_put by (now rewrite defaults_arg_id). reflexivity.
    + now rewrite put_ids.
    + eapply put_find. exact F.
    + exact HN.
  - unfold valid. rewrite (bind_ok _ _ _ _ _ D). unfold delete_valid, bind, modify.
    rewrite (set_cfg_put (with_freed s (s_freed s ++ owned (a_cfg a))) a) by assumption. reflexivity.
  - unfold dest_to. rewrite (bind_ok _ _ _ _ _ D). unfold modify.
    rewrite (put_upd s (a_id a) (fun a0 => Arg (a_id a0) (S (a_gen a0)) (cfg_dest (cfg_defaults (a_cfg a0) []) (Some d)) (a_dyn a0)) a ND F eq_refl). reflexivity.
Qed.
