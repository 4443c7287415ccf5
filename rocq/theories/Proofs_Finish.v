(** Proofs_Finish.v -- closed forms of validation, number conversion, destinations, and
    of everything that follows the scan. *)
From Coq Require Import Permutation Sorted.
From Verif Require Import Base Model_Utils Model_Number Model_Types Model_Argument Model_Usage Model_Args Model_Api
  Spec_Order Spec_Names Spec_Reading Spec_Parse Spec_Finish Proofs_Base Proofs_Order Proofs_Frame Proofs_Inv Proofs_Table Proofs_Reading Proofs_Parse Proofs_Decl.

Lemma plain_values_eq : forall a, match to_vector a with Ok l => l | _ => [] end = plain_values a.
Proof. intros a. unfold to_vector, plain_values. destruct (c_type (a_cfg a)); reflexivity. Qed.

(** the values after an accepting validator left [vs] *)
Definition stored (t : atype) (d : adyn) (vs : list str) : adyn :=
  match t with
  | POSITIONAL_ARGUMENT | SIMPLE_OPTION => match vs with [] => d | x :: _ => dyn_arg d x end
  | NUMBER_OPTION | MULTI_OPTION | INFINITE_OPTION | MULTI_INFINITE_OPTION
  | NUMBER_POSITIONAL_ARGUMENT | INFINITE_POSITIONAL_ARGUMENT => dyn_elems d (store_elems (d_elems d) vs)
  | MULTI_NUMBER_OPTION | MULTI_NUMBER_INFINITE_OPTION | INFINITE_NUMBER_POSITIONAL_ARGUMENT =>
      dyn_elems d (store_groups (d_elems d) vs)
  | _ => d
  end.
Definition checked (a : argument) : argument :=
  match c_valid (a_cfg a) with
  | None => a
  | Some v =>
      if d_exist (a_dyn a) then
        match v_fn v (plain_values a) with
        | VOk true vs => arg_dyn a (stored (c_type (a_cfg a)) (a_dyn a) vs)
        | _ => a
        end
      else a
  end.
(** the argument after its turn of the last loop *)
Definition finished (a : argument) : argument :=
  let b := checked a in arg_dyn b (num_dyn (c_type (a_cfg b)) (a_dyn b)).
Definition arg_events (a : argument) : list devent * option exn :=
  match c_dest (a_cfg a) with None => ([], None) | Some d => dest_events a d end.

Lemma checked_id : forall a, a_id (checked a) = a_id a.
Proof. intros a. unfold checked. destruct (c_valid (a_cfg a)) as [v|]; [|reflexivity]. destruct (d_exist (a_dyn a)); [|reflexivity]. destruct (v_fn v _) as [[] vs| |]; reflexivity. Qed.
Lemma checked_cfg : forall a, a_cfg (checked a) = a_cfg a.
Proof. intros a. unfold checked. destruct (c_valid (a_cfg a)) as [v|]; [|reflexivity]. destruct (d_exist (a_dyn a)); [|reflexivity]. destruct (v_fn v _) as [[] vs| |]; reflexivity. Qed.
Lemma checked_gen : forall a, a_gen (checked a) = a_gen a.
Proof. intros a. unfold checked. destruct (c_valid (a_cfg a)) as [v|]; [|reflexivity]. destruct (d_exist (a_dyn a)); [|reflexivity]. destruct (v_fn v _) as [[] vs| |]; reflexivity. Qed.
Lemma finished_id : forall a, a_id (finished a) = a_id a. Proof. intros; unfold finished; simpl. apply checked_id. Qed.
Lemma finished_cfg : forall a, a_cfg (finished a) = a_cfg a. Proof. intros; unfold finished; simpl. apply checked_cfg. Qed.
Lemma finished_gen : forall a, a_gen (finished a) = a_gen a. Proof. intros; unfold finished; simpl. apply checked_gen. Qed.

Lemma store_elems_nil : forall es, store_elems es [] = es. Proof. intros [|e es]; reflexivity. Qed.
Lemma dyn_elems_id : forall d, dyn_elems d (d_elems d) = d. Proof. intros []; reflexivity. Qed.
Lemma dyn_arg_id : forall d, dyn_arg d (d_arg d) = d. Proof. intros []; reflexivity. Qed.
Lemma arg_dyn_id : forall a, arg_dyn a (a_dyn a) = a. Proof. intros []; reflexivity. Qed.

Lemma set_dyn_put : forall s a f, NoDup (map a_id (s_args s)) -> find_id (a_id a) (s_args s) = Some a ->
  set_dyn (a_id a) f s = (put (arg_dyn a (f (a_dyn a))) s, Ok tt).
Proof.
  intros s a f ND F. unfold set_dyn, modify. f_equal.
  exact (put_upd s (a_id a) (fun x => arg_dyn x (f (a_dyn x))) a ND F eq_refl).
Qed.

Lemma finish_one_eq : forall s a, NoDup (map a_id (s_args s)) -> find_id (a_id a) (s_args s) = Some a -> has_name a = true ->
  match refusal a with
  | Some e => finish_one (a_id a) s = (s, Throw e)
  | None =>
      finish_one (a_id a) s =
        outcome (let s1 := put (finished a) s in with_dlog s1 (s_dlog s ++ fst (arg_events (finished a))),
                 snd (arg_events (finished a)))
  end.
Proof.
  intros s a ND F HN. unfold finish_one.
  assert (D : deref (a_id a) s = (s, Ok a)) by (rewrite deref_eq, F; reflexivity).
  rewrite !(bind_ok _ _ _ _ _ D).
  assert (CH : match refusal a with
     | Some e => (match c_valid (a_cfg a) with Some v => if d_exist (a_dyn a) then validate a v else ret tt | None => ret tt end) s = (s, Throw e)
     | None => (match c_valid (a_cfg a) with Some v => if d_exist (a_dyn a) then validate a v else ret tt | None => ret tt end) s = (put (checked a) s, Ok tt)
     end).
  { unfold refusal, checked. destruct (find_id_In _ _ _ F) as [Ia _].
    destruct (c_valid (a_cfg a)) as [v|]; [|simpl; rewrite put_same by assumption; reflexivity].
    destruct (d_exist (a_dyn a)); [|simpl; rewrite put_same by assumption; reflexivity].
    unfold validate. rewrite plain_values_eq.
    assert (FR : forall m, (do f <- front (c_names (a_cfg a));; throw KValid f m) s = (s, Throw (invalid a m)) :> state * res unit).
    { intros m. unfold has_name in HN. unfold invalid, first_of. destruct (c_names (a_cfg a)); [discriminate | reflexivity]. }
    destruct (v_fn v (plain_values a)) as [[] vs|msg|]; try apply FR; try reflexivity.
    unfold has_values, arity_of, stored.
    destruct (c_type (a_cfg a)); try apply FR; try (rewrite set_dyn_put by assumption; reflexivity);
      (destruct vs as [|x vs]; [simpl; rewrite arg_dyn_id, put_same by assumption; reflexivity | rewrite set_dyn_put by assumption; reflexivity]). }
  destruct (refusal a) as [e|]; [now apply bind_throw|].
  rewrite (bind_ok _ _ _ _ _ CH). clear CH.
  set (b := checked a). assert (Eb : a_id b = a_id a) by apply checked_id.
  assert (ND1 : NoDup (map a_id (s_args (put b s)))) by (rewrite put_ids; exact ND).
  assert (F1 : find_id (a_id a) (s_args (put b s)) = Some b).
  { rewrite <- Eb. eapply put_find. rewrite Eb. exact F. }
  assert (TN : toNumber (a_id a) (put b s) = (put (finished a) s, Ok tt)).
  { unfold toNumber. assert (D1 : deref (a_id a) (put b s) = (put b s, Ok b)) by (rewrite deref_eq, F1; reflexivity).
    rewrite (bind_ok _ _ _ _ _ D1). rewrite <- Eb at 1. rewrite set_dyn_put; [|exact ND1|rewrite Eb; exact F1].
    rewrite put_put; [reflexivity|]. reflexivity. }
  rewrite (bind_ok _ _ _ _ _ TN). clear TN.
  assert (F2 : find_id (a_id a) (s_args (put (finished a) s)) = Some (finished a)).
  { rewrite <- (finished_id a) at 1. eapply put_find. rewrite finished_id. exact F. }
  unfold toDest. assert (D2 : deref (a_id a) (put (finished a) s) = (put (finished a) s, Ok (finished a))) by (rewrite deref_eq, F2; reflexivity).
  rewrite (bind_ok _ _ _ _ _ D2). unfold arg_events.
  destruct (c_dest (a_cfg (finished a))) as [d|].
  - destruct (dest_events (finished a) d) as [evs o]. unfold bind, modify. destruct o; reflexivity.
  - simpl. rewrite app_nil_r. reflexivity.
Qed.

(** the first exception of the last loop: a refused validation or a destination *)
Definition trouble (a : argument) : option exn :=
  match refusal a with Some e => Some e | None => snd (arg_events (finished a)) end.
Definition all_events (l : list argument) : list devent := flat_map (fun a => fst (arg_events (finished a))) l.

Lemma put_middle : forall s pre a b post, NoDup (map a_id (pre ++ a :: post)) -> a_id b = a_id a ->
  s_args s = pre ++ a :: post -> s_args (put b s) = pre ++ b :: post.
Proof.
  intros s pre a b post ND E ES. unfold put; simpl. rewrite ES. unfold upd_id. rewrite map_app. simpl.
  rewrite E, Nat.eqb_refl. rewrite map_app in ND. simpl in ND.
  assert (ID : forall l, ~ In (a_id a) (map a_id l) -> map (fun x => if Nat.eqb (a_id x) (a_id a) then b else x) l = l).
  { induction l as [|x l IH]; intros NI; simpl; [reflexivity|]. simpl in NI.
    destruct (Nat.eqb_spec (a_id x) (a_id a)); [exfalso; apply NI; now left|]. f_equal. apply IH. intros H; apply NI; now right. }
  apply NoDup_remove_2 in ND. rewrite !ID; [reflexivity| |]; intros H; apply ND; apply in_or_app; auto.
Qed.

(** the state at the exception of [a]: [before] is done, [after] is not touched *)
Definition stopped (s : state) (before : list argument) (a : argument) (after : list argument) : state :=
  with_dlog (with_args s (map finished before ++ (match refusal a with Some _ => a | None => finished a end) :: after))
    (s_dlog s ++ all_events before ++ (match refusal a with Some _ => [] | None => fst (arg_events (finished a)) end)).

Lemma finish_eq : forall todo done s, NoDup (map a_id (done ++ todo)) -> s_args s = done ++ todo ->
  (forall a, In a todo -> has_name a = true) ->
  (Forall (fun b => trouble b = None) todo /\ finish (map a_id todo) s =
      (with_dlog (with_args s (done ++ map finished todo)) (s_dlog s ++ all_events todo), Ok tt)) \/
  (exists before a after e, todo = before ++ a :: after /\ Forall (fun b => trouble b = None) before /\ trouble a = Some e /\
      finish (map a_id todo) s =
        (with_args (stopped s before a after) (done ++ s_args (stopped s before a after)), Throw e)).
Proof.
  induction todo as [|a todo IH]; intros done s ND ES HN.
  - left. split; [constructor|]. simpl. unfold ret. rewrite !app_nil_r in *. rewrite <- ES. f_equal. now destruct s.
  - cbn [map finish].
    assert (F : find_id (a_id a) (s_args s) = Some a).
    { apply In_find_id; [rewrite ES; exact ND|]. rewrite ES. apply in_or_app. right. now left. }
    assert (ND1 : NoDup (map a_id (s_args s))) by (rewrite ES; exact ND).
    pose proof (finish_one_eq s a ND1 F (HN a (or_introl eq_refl))) as FO.
    destruct (refusal a) as [e|] eqn:RF.
    + right. exists [], a, todo, e. split; [reflexivity|]. split; [constructor|]. split; [unfold trouble; now rewrite RF|].
      rewrite (bind_throw _ _ _ _ _ FO). f_equal. unfold stopped. rewrite RF. simpl. rewrite app_nil_r, <- ES. now destruct s.
    + set (evs := fst (arg_events (finished a))) in *.
      assert (EP : s_args (put (finished a) s) = done ++ finished a :: todo) by apply (put_middle s done a (finished a) todo ND (finished_id a) ES).
      destruct (snd (arg_events (finished a))) as [e|] eqn:SE.
      * right. exists [], a, todo, e. split; [reflexivity|]. split; [constructor|]. split; [unfold trouble; now rewrite RF|].
        cbn [outcome fst snd] in FO. rewrite (bind_throw _ _ _ _ _ FO). f_equal. unfold stopped. rewrite RF. fold evs.
        change (with_dlog (put (finished a) s) (s_dlog s ++ evs)) with (with_dlog (with_args s (s_args (put (finished a) s))) (s_dlog s ++ evs)).
        rewrite EP. reflexivity.
      * cbn [outcome fst snd] in FO. rewrite (bind_ok _ _ _ _ _ FO).
        set (s1 := with_dlog (put (finished a) s) (s_dlog s ++ evs)) in *.
        assert (ES1 : s_args s1 = (done ++ [finished a]) ++ todo) by (rewrite <- app_assoc; exact EP).
        assert (ND2 : NoDup (map a_id ((done ++ [finished a]) ++ todo))).
        { rewrite <- app_assoc. rewrite map_app in ND |- *. cbn [map app] in ND |- *. rewrite finished_id. exact ND. }
        assert (T0 : trouble a = None) by (unfold trouble; rewrite RF; exact SE).
        destruct (IH (done ++ [finished a]) s1 ND2 ES1 (fun b Hb => HN b (or_intror Hb))) as [[FA E]|[before [b [after [e [Q [FB [T E]]]]]]]].
        -- left. split; [constructor; assumption|]. rewrite E. f_equal. unfold s1, put. cbn [with_dlog with_args s_dlog s_args]. unfold all_events at 2. cbn [flat_map map]. fold evs.
           fold (all_events todo). rewrite <- !app_assoc. reflexivity.
        -- right. exists (a :: before), b, after, e. split; [now rewrite Q|]. split; [constructor; assumption|]. split; [exact T|].
           rewrite E. f_equal. unfold stopped, s1, put. cbn [with_dlog with_args s_dlog s_args map]. unfold all_events at 2. cbn [flat_map]. fold evs. fold (all_events before).
           rewrite <- !app_assoc. reflexivity.
Qed.

(* ------------------------------------------------------------------ *)
(** * what follows the scan *)
Lemma meta_flag_some : forall l f, exists g, meta_flag (Some f) l = Some g.
Proof. induction l as [|n l IH]; intros f; simpl; [eauto|]. destruct (Ascii.eqb (cget n 0) dash && Ascii.eqb (cget n 1) dash); eauto. Qed.
Lemma usage_table : forall s, table s -> exists t, getUsage s = Ok t.
Proof.
  intros s W. unfold getUsage. destruct (u_usage (s_usage s)); [|eauto].
  assert (D : forallb usage_defined (s_args s) = true); [|rewrite D; eauto].
  apply forallb_forall. intros a I. unfold usage_defined.
  pose proof (table_has_name s W) as HN. rewrite forallb_forall in HN. rewrite (HN a I). simpl. unfold is_pos_arg.
  destruct (is_positional (c_type (a_cfg a))) eqn:P; [reflexivity|]. simpl.
  pose proof (t_flags s W a I P) as FA. specialize (HN a I). unfold has_name in HN.
  destruct (c_names (a_cfg a)) as [|n l]; [discriminate|]. inversion FA as [|? ? Hn _]; subst.
  apply validFlag_dash in Hn. unfold starts_dash in Hn. simpl. rewrite Hn. simpl.
  destruct (Ascii.eqb (cget n 1) dash); simpl; [reflexivity|]. match goal with |- context [meta_flag (Some ?f) l] => destruct (meta_flag_some l f) as [g ->] end. reflexivity.
Qed.

Lemma usage_ok : forall s, wf0 s -> exists t, getUsage s = Ok t.
Proof. intros s W. exact (usage_table s (wf0_table s W)). Qed.

Definition usage_of (s : state) : str := match getUsage s with Ok t => t | _ => "" end.

Lemma after_scan_table : forall s, table s -> pointers_ok s ->
  after_scan s =
    if met (s_help s) s then
      (if m_helpex (s_modes s) then (s, Throw (Exn KHelp "" (usage_of s))) else (fst (clear s), Exit (usage_of s ^^ nl)))
    else if met (s_version s) s then
      (if m_verex (s_modes s) then (s, Throw (Exn KVersion "" (s_verstr s))) else (fst (clear s), Exit (s_verstr s ^^ nl)))
    else match missing s with
         | a :: _ => (s, Throw (required_error a))
         | [] => finish (map a_id (s_args s)) s
         end.
Proof.
  intros s W [PH PV]. unfold after_scan, check_help, check_version.
  destruct (usage_table s W) as [t Ht]. unfold usage_of. rewrite Ht.
  assert (CH : (do s0 <- get ;; print_or_throw (s_help s0) (m_helpex (s_modes s0)) KHelp (getUsage s0)) s =
    if met (s_help s) s then (if m_helpex (s_modes s) then (s, Throw (Exn KHelp "" t)) else (fst (clear s), Exit (t ^^ nl))) else (s, Ok tt)).
  { unfold bind at 1, get. unfold print_or_throw, bind at 1, get. rewrite Ht. unfold met. destruct (s_help s) as [q|]; [|reflexivity].
    destruct PH as [a Fa]. rewrite Fa. destruct (d_exist (a_dyn a)); [|reflexivity]. destruct (m_helpex (s_modes s)); reflexivity. }
  assert (CV : (do s0 <- get ;; print_or_throw (s_version s0) (m_verex (s_modes s0)) KVersion (Ok (s_verstr s0))) s =
    if met (s_version s) s then (if m_verex (s_modes s) then (s, Throw (Exn KVersion "" (s_verstr s))) else (fst (clear s), Exit (s_verstr s ^^ nl))) else (s, Ok tt)).
  { unfold bind at 1, get. unfold print_or_throw, bind at 1, get. unfold met. destruct (s_version s) as [q|]; [|reflexivity].
    destruct PV as [a Fa]. rewrite Fa. destruct (d_exist (a_dyn a)); [|reflexivity]. destruct (m_verex (s_modes s)); reflexivity. }
  destruct (met (s_help s) s).
  { destruct (m_helpex (s_modes s)); unfold bind at 1; rewrite CH; reflexivity. }
  unfold bind at 1. rewrite CH. clear CH.
  destruct (met (s_version s) s).
  { destruct (m_verex (s_modes s)); unfold bind at 1; rewrite CV; reflexivity. }
  unfold bind at 1. rewrite CV. clear CV.
  assert (CR : check_required s = match missing s with a :: _ => (s, Throw (required_error a)) | [] => (s, Ok tt) end).
  { unfold check_required, missing, bind at 1, get.
    assert (FF : forall {A} (p : A -> bool) l, find p l = hd_error (filter p l)).
    { intros A p l. induction l as [|x l IH]; simpl; [reflexivity|]. destruct (p x); [reflexivity | exact IH]. }
    rewrite FF.
    destruct (filter (fun a => c_required (a_cfg a) && negb (d_exist (a_dyn a))) (s_args s)) as [|a l] eqn:FL; cbn [hd_error]; [reflexivity|].
    assert (Ia : In a (s_args s)) by (eapply proj1, filter_In; rewrite FL; now left).
    pose proof (table_has_name s W) as HN. rewrite forallb_forall in HN. specialize (HN a Ia). unfold has_name in HN.
    unfold required_error, first_of. destruct (c_names (a_cfg a)); [discriminate|].
    destruct (c_type (a_cfg a)); reflexivity. }
  unfold bind at 1. rewrite CR. destruct (missing s); reflexivity.
Qed.

Lemma after_scan_eq : forall s, wf0 s -> pointers_ok s ->
  after_scan s =
    if met (s_help s) s then
      (if m_helpex (s_modes s) then (s, Throw (Exn KHelp "" (usage_of s))) else (fst (clear s), Exit (usage_of s ^^ nl)))
    else if met (s_version s) s then
      (if m_verex (s_modes s) then (s, Throw (Exn KVersion "" (s_verstr s))) else (fst (clear s), Exit (s_verstr s ^^ nl)))
    else match missing s with
         | a :: _ => (s, Throw (required_error a))
         | [] => finish (map a_id (s_args s)) s
         end.
Proof. intros s W. exact (after_scan_table s (wf0_table s W)). Qed.

(** the outcomes of what follows the scan *)
Inductive Finish (s : state) : state -> res unit -> Prop :=
| Fi_help : met (s_help s) s = true ->
    Finish s (if m_helpex (s_modes s) then s else fst (clear s))
             (if m_helpex (s_modes s) then Throw (Exn KHelp "" (usage_of s)) else Exit (usage_of s ^^ nl))
| Fi_version : met (s_help s) s = false -> met (s_version s) s = true ->
    Finish s (if m_verex (s_modes s) then s else fst (clear s))
             (if m_verex (s_modes s) then Throw (Exn KVersion "" (s_verstr s)) else Exit (s_verstr s ^^ nl))
| Fi_required : forall a l, met (s_help s) s = false -> met (s_version s) s = false -> missing s = a :: l ->
    Finish s s (Throw (required_error a))
| Fi_trouble : forall before a after e, met (s_help s) s = false -> met (s_version s) s = false -> missing s = [] ->
    s_args s = before ++ a :: after -> Forall (fun b => trouble b = None) before -> trouble a = Some e ->
    Finish s (stopped s before a after) (Throw e)
| Fi_ok : met (s_help s) s = false -> met (s_version s) s = false -> missing s = [] ->
    Forall (fun b => trouble b = None) (s_args s) ->
    Finish s (with_dlog (with_args s (map finished (s_args s))) (s_dlog s ++ all_events (s_args s))) (Ok tt).

Lemma finish_table : forall s, table s -> pointers_ok s -> Finish s (fst (after_scan s)) (snd (after_scan s)).
Proof.
  intros s W P. rewrite (after_scan_table s W P).
  destruct (met (s_help s) s) eqn:MH.
  { pose proof (Fi_help s MH) as H. destruct (m_helpex (s_modes s)); exact H. }
  destruct (met (s_version s) s) eqn:MV.
  { pose proof (Fi_version s MH MV) as H. destruct (m_verex (s_modes s)); exact H. }
  destruct (missing s) as [|a l] eqn:MI; [|eapply Fi_required; eauto].
  pose proof (table_has_name s W) as HN. rewrite forallb_forall in HN.
  destruct (finish_eq (s_args s) [] s (t_ids s W) eq_refl HN) as [[FA E]|[before [a [after [e [Q [FB [T E]]]]]]]]; rewrite E; simpl.
  - now apply Fi_ok.
  - pose proof (Fi_trouble s before a after e MH MV MI Q FB T) as H. exact H.
Qed.
Lemma after_scan_cases : forall s, wf0 s -> pointers_ok s -> Finish s (fst (after_scan s)) (snd (after_scan s)).
Proof. intros s W. exact (finish_table s (wf0_table s W)). Qed.
