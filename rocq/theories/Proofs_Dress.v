(** Proofs_Dress.v -- parseArguments on two objects that differ in the validator, the
    destination and the recorded defaults of one argument. *)
From Coq Require Import Permutation Sorted.
From Verif Require Import Base Model_Utils Model_Number Model_Types Model_Argument Model_Usage Model_Args Model_Api
  Spec_Order Spec_Names Spec_Reading Spec_Parse Spec_Decl Spec_Finish Spec_History Spec_Api Spec_Result Spec_Errors Spec_Dress
  Proofs_Base Proofs_Order Proofs_Frame Proofs_Inv Proofs_ReadFacts Proofs_Reading Proofs_Parse Proofs_Decl Proofs_Finish
  Proofs_Meth Proofs_Names Proofs_Central Proofs_Redecl Proofs_Swap Proofs_Alike Properties_Parse.

Definition dress (id k : nat) (v : option validator) (b : bool) (l : list str) (d : option dest) (a : argument) : argument :=
  if Nat.eqb (a_id a) id then Arg (a_id a) (a_gen a + k) (cfg_dest (cfg_defaults (cfg_valid (a_cfg a) v b) l) d) (a_dyn a) else a.
Section Dress.
Variables (id k : nat) (v : option validator) (b : bool) (l : list str) (d : option dest).
Let f := dress id k v b l d.
Lemma dr_id : forall a, a_id (f a) = a_id a. Proof. intros a. unfold f, dress. now destruct (Nat.eqb (a_id a) id). Qed.
Lemma dr_dyn : forall a, a_dyn (f a) = a_dyn a. Proof. intros a. unfold f, dress. now destruct (Nat.eqb (a_id a) id). Qed.
Lemma dr_other : forall a, a_id a <> id -> f a = a. Proof. intros a N. unfold f, dress. now apply Nat.eqb_neq in N as ->. Qed.
Lemma dr_cfg : forall {A} (h : acfg -> A) a, (forall c v b l d, h (cfg_dest (cfg_defaults (cfg_valid c v b) l) d) = h c) -> h (a_cfg (f a)) = h (a_cfg a).
Proof. intros A h a H. unfold f, dress. destruct (Nat.eqb (a_id a) id); [apply H | reflexivity]. Qed.
Lemma dr_lt : forall a c, arg_lt (f a) (f c) = arg_lt a c.
Proof. intros a c. unfold arg_lt, f, dress. destruct (Nat.eqb (a_id a) id), (Nat.eqb (a_id c) id); reflexivity. Qed.
Lemma insert_dr : forall a xs, insert_by arg_lt (f a) (map f xs) = map f (insert_by arg_lt a xs).
Proof. intros a xs. induction xs as [|c xs IH]; [reflexivity|]. cbn [map insert_by]. rewrite dr_lt. destruct (arg_lt c a); cbn [map]; [now rewrite IH | reflexivity]. Qed.
Lemma sort_dr : forall xs, sort_by arg_lt (map f xs) = map f (sort_by arg_lt xs).
Proof. intros xs. induction xs as [|a xs IH]; [reflexivity|]. cbn [map]. unfold sort_by in *. cbn [fold_right]. rewrite IH. apply insert_dr. Qed.
Lemma ids_dr : forall xs, map a_id (map f xs) = map a_id xs.
Proof. intros xs. rewrite map_map. apply map_ext, dr_id. Qed.
Lemma read_dr : forall pcs a, read_arg pcs (f a) = f (read_arg pcs a).
Proof. intros pcs a. unfold f, dress, read_arg. cbn [a_id]. destruct (Nat.eqb (a_id a) id); reflexivity. Qed.
Lemma clear_dr : forall a, clear_arg (f a) = f (clear_arg a).
Proof. intros a. unfold f, dress. change (a_id (clear_arg a)) with (a_id a). destruct (Nat.eqb (a_id a) id); reflexivity. Qed.
(** the object with the argument dressed, and other validators deleted so far *)
Definition dressed (s s1 : state) : Prop := exists fr, s1 = with_freed (with_args s (map f (s_args s))) fr.
Definition not_marked (s : state) : Prop := k = 0 \/ (forall q, s_help s = Some q \/ s_version s = Some q -> fst q <> id).

Lemma dressed_ready : forall s s1, wf0 s -> wf0 s1 -> dressed s s1 -> (exists a, In a (s_args s) /\ a_id a = id) -> dressed (ready s) (ready s1).
Proof.
  intros s s1 W W1 [fr R] [a0 [Ia0 Ea0]].
  assert (FH : free_help s1 = free_help s) by (unfold free_help; now rewrite R).
  assert (SH : s_help s1 = s_help s) by now rewrite R.
  destruct (ready_cases s W) as [[-> [H|H]]|[-> [H1 H2]]]; destruct (ready_cases s1 W1) as [[-> [H'|H']]|[-> [H1' H2']]]; try (exists fr; exact R); try congruence.
  assert (FI : fresh_id s1 = fresh_id s) by (rewrite R; unfold fresh_id; cbn [s_args s_help s_version with_args with_freed]; now rewrite ids_dr).
  assert (NI : fresh_id s <> id).
  { intros Z. rewrite <- Ea0 in Z. unfold fresh_id in Z. assert (a_id a0 <= fold_right Nat.max (Nat.max (opt_id (s_help s)) (opt_id (s_version s))) (map a_id (s_args s))).
    { clear - Ia0. induction (s_args s) as [|x xs IH]; [destruct Ia0|]. cbn. destruct Ia0 as [->|Ia0]; [lia | specialize (IH Ia0); lia]. }
    lia. }
  exists fr. rewrite R in *. unfold with_auto_help, registered, with_args, with_map, with_help, with_freed in *. cbn in *. rewrite ?FI, ?FH. f_equal.
  pose proof (sort_dr (s_args s ++ [Arg (fresh_id s) 0 (help_cfg (free_help s)) new_dyn])) as SR. unfold sort_by in SR. rewrite <- SR, map_app. f_equal. f_equal. cbn [map]. now rewrite dr_other.
Qed.
Lemma dressed_calike : forall s s1, dressed s s1 -> calike (conf_of s) (conf_of s1).
Proof.
  intros s s1 [fr ->]. unfold conf_of. split; cbn; auto.
  induction (s_args s) as [|a xs IH]; [constructor|]. cbn [map]. constructor; [|exact IH]. split; cbn [fst snd]; [apply dr_id|].
  unfold f, dress. destruct (Nat.eqb (a_id a) id); repeat split.
Qed.
Lemma find_ptr_dr : forall q xs, k = 0 \/ fst q <> id -> find_ptr q (map f xs) = option_map f (find_ptr q xs).
Proof.
  intros q xs N. unfold find_ptr. induction xs as [|a xs IH]; [reflexivity|]. cbn [map find]. rewrite dr_id.
  assert (X : Nat.eqb (a_id a) (fst q) && Nat.eqb (a_gen (f a)) (snd q) = Nat.eqb (a_id a) (fst q) && Nat.eqb (a_gen a) (snd q)).
  { destruct (Nat.eqb_spec (a_id a) (fst q)) as [E|E]; [|reflexivity]. cbn [andb]. destruct N as [N|N].
    - unfold f, dress. destruct (Nat.eqb (a_id a) id); cbn [a_gen]; [rewrite N, Nat.add_0_r|]; reflexivity.
    - rewrite dr_other; [reflexivity | congruence]. }
  rewrite X. destruct (Nat.eqb (a_id a) (fst q) && Nat.eqb (a_gen a) (snd q)); [reflexivity | exact IH].
Qed.
Lemma met_dr : forall t fr q, (forall p, q = Some p -> k = 0 \/ fst p <> id) -> met q (with_freed (with_args t (map f (s_args t))) fr) = met q t.
Proof.
  intros t fr [p|] N; [|reflexivity]. unfold met. cbn [s_args with_args with_freed]. rewrite find_ptr_dr by now apply N. destruct (find_ptr p (s_args t)) as [a|]; [|reflexivity]. cbn [option_map]. now rewrite dr_dyn.
Qed.
Lemma missing_dr : forall t fr, missing (with_freed (with_args t (map f (s_args t))) fr) = map f (missing t).
Proof.
  intros t fr. unfold missing. cbn [s_args with_args with_freed]. induction (s_args t) as [|a xs IH]; [reflexivity|]. cbn [map filter].
  rewrite dr_dyn, (dr_cfg c_required a) by reflexivity. destruct (c_required (a_cfg a) && negb (d_exist (a_dyn a))); [|exact IH]. cbn [map]. now rewrite IH.
Qed.
Lemma required_dr : forall a, required_error (f a) = required_error a.
Proof. intros a. unfold required_error. now rewrite (dr_cfg first_of a), (dr_cfg c_type a) by reflexivity. Qed.
Lemma is_pos_dr : forall a, is_pos_arg (f a) = is_pos_arg a.
Proof. intros a. exact (dr_cfg (fun c => is_positional (c_type c)) a (fun _ _ _ _ _ => eq_refl)). Qed.
Lemma filter_dr : forall (p : argument -> bool) xs, (forall a, p (f a) = p a) -> filter p (map f xs) = map f (filter p xs).
Proof. intros p xs H. induction xs as [|a xs IH]; [reflexivity|]. cbn [map filter]. rewrite H. destruct (p a); cbn [map]; now rewrite IH. Qed.
Lemma cfgs_dr : forall {A} (h : acfg -> A) xs, (forall c v b l d, h (cfg_dest (cfg_defaults (cfg_valid c v b) l) d) = h c) -> map h (map a_cfg (map f xs)) = map h (map a_cfg xs).
Proof. intros A h xs H. rewrite !map_map. apply map_ext. intros a. now apply dr_cfg. Qed.
Lemma nonempty_dr : forall xs, nonempty (map a_cfg (map f xs)) = nonempty (map a_cfg xs). Proof. now intros [|a xs]. Qed.
Lemma usage_dr : forall t fr, usage_of (with_freed (with_args t (map f (s_args t))) fr) = usage_of t.
Proof.
  intros t fr. unfold usage_of, getUsage. cbn [s_usage with_freed with_args s_args].
  assert (D : forallb usage_defined (map f (s_args t)) = forallb usage_defined (s_args t)).
  { induction (s_args t) as [|a xs IH]; [reflexivity|]. cbn [map forallb]. rewrite IH. f_equal. unfold usage_defined, has_name. rewrite is_pos_dr.
    rewrite (dr_cfg c_names a) by reflexivity. reflexivity. }
  rewrite D. destruct (u_usage (s_usage t)); [|reflexivity]. destruct (forallb usage_defined (s_args t)); [|reflexivity].
  unfold usage_text, synopsis. cbn [s_usage with_freed with_args s_args s_bin].
  assert (O : options_of (map f (s_args t)) = map a_cfg (map f (filter (fun a => negb (is_pos_arg a)) (s_args t)))).
  { unfold options_of. f_equal. apply filter_dr. intros a. now rewrite is_pos_dr. }
  assert (P : positionals_of (map f (s_args t)) = map a_cfg (map f (filter is_pos_arg (s_args t)))).
  { unfold positionals_of. f_equal. apply filter_dr, is_pos_dr. }
  rewrite O, P, !nonempty_dr. rewrite !cfgs_dr by reflexivity. reflexivity.
Qed.
Lemma dressed_scanned : forall s s1 argv pcs, dressed (ready s) (ready s1) -> dressed (scanned argv pcs s) (scanned argv pcs s1).
Proof.
  intros s s1 argv pcs [fr R]. exists fr. unfold scanned. rewrite R. cbn [s_args with_args with_freed s_additional]. rewrite !map_map.
  rewrite (map_ext (fun x => read_arg pcs (f x)) (fun x => f (read_arg pcs x))) by (intros; apply read_dr).
  assert (MM : map f (map (read_arg pcs) (s_args (ready s))) = map (fun x => f (read_arg pcs x)) (s_args (ready s))) by apply map_map.
  unfold named. cbn [s_bin with_args with_freed]. destruct (s_bin (ready s)); unfold with_args, with_additional, with_bin, with_freed; cbn; now rewrite ?MM.
Qed.
(** what happens before the values are checked is the same *)
Lemma verdict_dr : forall t t1, dressed t t1 -> not_marked t ->
  verdict t1 = verdict t \/
  (met (s_help t) t = false /\ met (s_version t) t = false /\ missing t = [] /\
   verdict t = match flat_map (fun a => match trouble a with Some e => [e] | None => [] end) (s_args t) with e :: _ => Throw e | [] => Ok tt end /\
   verdict t1 = match flat_map (fun a => match trouble a with Some e => [e] | None => [] end) (s_args t1) with e :: _ => Throw e | [] => Ok tt end).
Proof.
  intros t t1 [fr ->] N. unfold verdict. cbn [s_help s_version s_modes s_verstr with_args with_freed].
  rewrite !met_dr, usage_dr, missing_dr by (intros p E; destruct N as [N|N]; [now left | right; apply N; auto]).
  destruct (met (s_help t) t); [now left|]. destruct (met (s_version t) t); [now left|]. destruct (missing t) as [|a m]; cbn [map]; [|left; now rewrite required_dr].
  right. repeat split.
Qed.
End Dress.
