(** Proofs_Peek.v -- every call treats objects that differ only in what their validators
    answer alike, up to the calls of the validators. *)
From Coq Require Import Permutation Sorted.
From Verif Require Import Base Model_Utils Model_Number Model_Types Model_Argument Model_Usage Model_Args Model_Api Model_Calls Model_Peek
  Spec_Order Spec_Names Spec_Reading Spec_Parse Spec_Decl Spec_Finish Spec_History Spec_Api Spec_Result Spec_Peek
  Proofs_Base Proofs_Order Proofs_Frame Proofs_Inv Proofs_ReadFacts Proofs_Reading Proofs_Finish Proofs_Parse Proofs_Central Properties_Parse.

Notation st := same_but_answers.
Notation sa := same_arg_but_answers.
Lemma st_eq : forall s s', st s s' -> s' = with_args s (s_args s').
Proof. intros [] [] [F E]. unfold with_args in *. cbn in *. now inversion E. Qed.
Lemma st_intro : forall s l, Forall2 sa (s_args s) l -> st s (with_args s l).
Proof. intros s l F. constructor; [exact F | reflexivity]. Qed.
Lemma st_args : forall s s', st s s' -> Forall2 sa (s_args s) (s_args s'). Proof. intros s s' []. assumption. Qed.
Lemma st_map : forall s s', st s s' -> s_map s' = s_map s. Proof. intros s s' R. now rewrite (st_eq s s' R). Qed.
Lemma st_help : forall s s', st s s' -> s_help s' = s_help s. Proof. intros s s' R. now rewrite (st_eq s s' R). Qed.
Lemma st_version : forall s s', st s s' -> s_version s' = s_version s. Proof. intros s s' R. now rewrite (st_eq s s' R). Qed.
Lemma st_verstr : forall s s', st s s' -> s_verstr s' = s_verstr s. Proof. intros s s' R. now rewrite (st_eq s s' R). Qed.
Lemma st_modes : forall s s', st s s' -> s_modes s' = s_modes s. Proof. intros s s' R. now rewrite (st_eq s s' R). Qed.
Lemma st_additional : forall s s', st s s' -> s_additional s' = s_additional s. Proof. intros s s' R. now rewrite (st_eq s s' R). Qed.
Lemma st_freed : forall s s', st s s' -> s_freed s' = s_freed s. Proof. intros s s' R. now rewrite (st_eq s s' R). Qed.
Lemma st_dlog : forall s s', st s s' -> s_dlog s' = s_dlog s. Proof. intros s s' R. now rewrite (st_eq s s' R). Qed.
Lemma st_bin : forall s s', st s s' -> s_bin s' = s_bin s. Proof. intros s s' R. now rewrite (st_eq s s' R). Qed.
Lemma st_usage : forall s s', st s s' -> s_usage s' = s_usage s. Proof. intros s s' R. now rewrite (st_eq s s' R). Qed.
Definition rr {A B} (Q : A -> B -> Prop) (r : res A) (r' : res B) : Prop :=
  match r, r' with
  | Ok x, Ok y => Q x y
  | Throw e, Throw e' => e' = e
  | Exit o, Exit o' => o' = o
  | UB, UB => True
  | OutOfFuel, OutOfFuel => True
  | _, _ => False
  end.
Definition sim {A B} (Q : A -> B -> Prop) (f : M A) (g : M B) : Prop :=
  forall s s', st s s' -> st (fst (f s)) (fst (g s')) /\ rr Q (snd (f s)) (snd (g s')).
Lemma sim_weak : forall {A B} (Q Q' : A -> B -> Prop) f g, (forall x y, Q x y -> Q' x y) -> sim Q f g -> sim Q' f g.
Proof. intros A B Q Q' f g I S s s' R. destruct (S s s' R) as [X Y]. split; [exact X|]. destruct (snd (f s)), (snd (g s')); cbn in *; auto. Qed.
Lemma sim_bind : forall {A B C D} (Q : A -> B -> Prop) (P : C -> D -> Prop) f g h k, sim Q f g -> (forall x y, Q x y -> sim P (h x) (k y)) -> sim P (bind f h) (bind g k).
Proof.
  intros A B C D Q P f g h k F H s s' R. destruct (F s s' R) as [X Y]. unfold bind. destruct (f s) as [t r], (g s') as [t' r']. cbn [fst snd] in X, Y.
  destruct r, r'; try contradiction; cbn in Y; try (split; [exact X | exact Y]). exact (H _ _ Y _ _ X).
Qed.
Lemma sim_ret : forall {A B} (Q : A -> B -> Prop) x y, Q x y -> sim Q (ret x) (ret y).
Proof. intros A B Q x y H s s' R. split; [exact R | exact H]. Qed.
Lemma sim_throw : forall {A} (Q : A -> A -> Prop) k x y, sim Q (throw k x y) (throw k x y).
Proof. intros A Q k x y s s' R. split; [exact R | reflexivity]. Qed.
Lemma sim_throwe : forall {A} (Q : A -> A -> Prop) e, sim Q (fun s => (s, Throw e)) (fun s => (s, Throw e)).
Proof. intros A Q e s s' R. split; [exact R | reflexivity]. Qed.
Lemma sim_ub : forall {A} (Q : A -> A -> Prop), sim Q ub ub.
Proof. intros A Q s s' R. split; [exact R | exact I]. Qed.
Lemma sim_fuel : forall {A} (Q : A -> A -> Prop), sim Q (fun s => (s, OutOfFuel)) (fun s => (s, OutOfFuel)).
Proof. intros A Q s s' R. split; [exact R | exact I]. Qed.
Lemma sim_get : sim st get get.
Proof. intros s s' R. split; exact R. Qed.
Lemma sim_modify : forall f g, (forall s s', st s s' -> st (f s) (g s')) -> sim eq (modify f) (modify g).
Proof. intros f g H s s' R. split; [now apply H | reflexivity]. Qed.
Lemma sa_refl : forall a, sa a a.
Proof. intros [i g [] d]. eexists. split; [|reflexivity]. reflexivity. Qed.
Lemma sa_find : forall (p : argument -> bool) l l', Forall2 sa l l' -> (forall a b, sa a b -> p b = p a) ->
  match find p l, find p l' with Some a, Some b => sa a b | None, None => True | _, _ => False end.
Proof. intros p l l' F H. induction F as [|a b l l' X F IH]; [exact I|]. cbn [find]. rewrite (H a b X). destruct (p a); [exact X | exact IH]. Qed.
Lemma sa_id : forall a b, sa a b -> a_id b = a_id a. Proof. intros a b [h [m ->]]. reflexivity. Qed.
Lemma sa_ids : forall l l', Forall2 sa l l' -> map a_id l' = map a_id l.
Proof. intros l l' F. induction F as [|a b l l' X F IH]; [reflexivity|]. cbn [map]. now rewrite IH, (sa_id a b X). Qed.
Lemma sa_length : forall l l', Forall2 sa l l' -> length l' = length l.
Proof. intros l l' F. rewrite <- (map_length a_id l), <- (map_length a_id l'). now rewrite (sa_ids l l' F). Qed.
Lemma sa_map : forall f g l l', Forall2 sa l l' -> (forall a b, sa a b -> sa (f a) (g b)) -> Forall2 sa (map f l) (map g l').
Proof. intros f g l l' F H. induction F as [|a b l l' X F IH]; [constructor|]. cbn [map]. constructor; [now apply H | exact IH]. Qed.
Lemma sa_upd : forall id f g l l', Forall2 sa l l' -> (forall a b, sa a b -> sa (f a) (g b)) -> Forall2 sa (upd_id id f l) (upd_id id g l').
Proof. intros id f g l l' F H. apply sa_map; [exact F|]. intros a b X. rewrite (sa_id a b X). destruct (Nat.eqb (a_id a) id); [now apply H | exact X]. Qed.
Lemma sa_forallb : forall p l l', Forall2 sa l l' -> (forall a b, sa a b -> p b = p a) -> forallb p l' = forallb p l.
Proof. intros p l l' F H. induction F as [|a b l l' X F IH]; [reflexivity|]. cbn [forallb]. now rewrite (H a b X), IH. Qed.
Lemma sa_filter : forall p l l', Forall2 sa l l' -> (forall a b, sa a b -> p b = p a) -> Forall2 sa (filter p l) (filter p l').
Proof. intros p l l' F H. induction F as [|a b l l' X F IH]; [constructor|]. cbn [filter]. rewrite (H a b X). destruct (p a); [constructor; assumption | exact IH]. Qed.
Lemma sa_lt : forall a b c d, sa a b -> sa c d -> arg_lt b d = arg_lt a c.
Proof. intros a b c d [h [m ->]] [h' [m' ->]]. reflexivity. Qed.
Lemma sa_insert : forall a b l l', sa a b -> Forall2 sa l l' -> Forall2 sa (insert_by arg_lt a l) (insert_by arg_lt b l').
Proof.
  intros a b l l' X F. induction F as [|c d l l' Y F IH]; [repeat constructor; exact X|]. cbn [insert_by]. rewrite (sa_lt c d a b Y X).
  destruct (arg_lt c a); constructor; try assumption. now constructor.
Qed.
Lemma sa_sort : forall l l', Forall2 sa l l' -> Forall2 sa (sort_by arg_lt l) (sort_by arg_lt l').
Proof. intros l l' F. induction F as [|a b l l' X F IH]; [constructor|]. unfold sort_by in *. cbn [fold_right]. now apply sa_insert. Qed.
Lemma st_args_change : forall s s' l l', st s s' -> Forall2 sa l l' -> st (with_args s l) (with_args s' l').
Proof. intros s s' l l' R F. rewrite (st_eq s s' R). exact (st_intro (with_args s l) l' F). Qed.
Lemma sim_sort : sim eq sort_args sort_args.
Proof.
  intros s s' R. unfold sort_args. rewrite (sa_forallb has_name _ _ (st_args _ _ R)) by (intros a b [h [m ->]]; reflexivity).
  destruct (forallb has_name (s_args s)); (split; [|easy]); [|exact R]. cbn [fst]. apply st_args_change; [exact R | apply sa_sort, (st_args _ _ R)].
Qed.
Lemma sim_deref : forall id, sim sa (deref id) (deref id).
Proof.
  intros id s s' R. unfold deref, find_id. pose proof (sa_find (fun a => Nat.eqb (a_id a) id) _ _ (st_args _ _ R)) as F.
  specialize (F ltac:(intros a b X; cbv beta; now rewrite (sa_id a b X))). destruct (find _ (s_args s)), (find _ (s_args s')); try contradiction; split; try exact R; exact F.
Qed.
Lemma sim_find_name : forall n, sim eq (find_name n) (find_name n).
Proof. intros n s s' R. split; [exact R|]. cbn. now rewrite (st_map _ _ R). Qed.
Lemma sim_front : forall l, sim eq (front l) (front l).
Proof. intros [|x l]; [apply sim_ub | now apply sim_ret]. Qed.
Definition sc (c c' : acfg) : Prop := exists h, same_object (c_valid c) h /\ c' = cfg_valid c h (c_valid_del c).
Lemma sim_set_cfg : forall id f g, (forall c c', sc c c' -> sc (f c) (g c')) -> sim eq (set_cfg id f) (set_cfg id g).
Proof.
  intros id f g H. apply sim_modify. intros s s' R. apply st_args_change; [exact R|]. apply sa_upd; [exact (st_args _ _ R)|]. intros a b [h [m ->]].
  destruct (H (a_cfg a) (cfg_valid (a_cfg a) h (c_valid_del (a_cfg a)))) as [h' [m' E]]; [now exists h|]. exists h'. split; [exact m'|]. unfold arg_cfg. cbn [a_id a_gen a_cfg a_dyn]. now rewrite E.
Qed.
Lemma sim_set_dyn : forall id f, sim eq (set_dyn id f) (set_dyn id f).
Proof. intros id f. apply sim_modify. intros s s' R. apply st_args_change; [exact R|]. apply sa_upd; [exact (st_args _ _ R)|]. intros a b [h [m ->]]. exists h. split; [exact m | reflexivity]. Qed.
Ltac flat := unfold ptr_of in *; cbn [a_id a_gen a_cfg a_dyn c_names c_type c_required c_nargs c_help c_metavar c_valid c_valid_del c_action c_defaults c_default c_dest cfg_valid] in *.
Ltac sfields R := rewrite ?(st_map _ _ R), ?(st_help _ _ R), ?(st_version _ _ R), ?(st_verstr _ _ R), ?(st_modes _ _ R), ?(st_additional _ _ R) in *.
Ltac scd := apply sim_set_cfg; intros ? ? [? [? ->]]; eexists; split; [|reflexivity]; assumption.
Ltac stm := apply sim_modify; let s := fresh "s" in let s' := fresh "s'" in let X := fresh "X" in let E := fresh "E" in let F := fresh "F" in intros s s' X;
  pose proof (st_args _ _ X) as F; pose proof (st_eq _ _ X) as E; rewrite E in *; 
  constructor; [exact F | reflexivity].
Ltac p1 := first
  [ apply sim_ret; first [reflexivity | assumption | solve [auto]] | apply sim_throw | apply sim_throwe | apply sim_ub | apply sim_fuel | apply sim_get | apply sim_sort | apply sim_deref
  | apply sim_find_name | apply sim_front | scd | apply sim_set_dyn | stm | solve [auto with peek] | assumption ].
Ltac p2 := first [ p1 | eapply sim_bind; [solve [p1] |] | apply (sim_bind eq)].
Ltac i1 := match goal with |- forall _, _ => idtac end; let x := fresh "x" in let y := fresh "y" in let Q := fresh "Q" in intros x y Q;
  first [ subst y | match type of Q with sa _ _ => let h := fresh "h" in let m := fresh "m" in destruct Q as [h [m ->]]; flat | st _ _ => sfields Q end ].
Ltac ss := repeat first [ p2 | i1 | match goal with
  | |- sim _ (if ?b then _ else _) _ => destruct b
  | |- sim _ (match ?b with _ => _ end) _ => destruct b end ].

Lemma sim_type : forall id, sim eq (typeConstructor id) (typeConstructor id).
Proof.
  intros id. unfold typeConstructor. eapply sim_bind; [apply sim_deref|]. intros a b [h [m ->]].
  flat.
  ss. all: try (apply sim_set_cfg; intros _ _ _; exists h; split; [assumption | reflexivity]).
Qed.
Lemma sim_defaultsC : forall id, sim eq (defaultsConstructor id) (defaultsConstructor id).
Proof. intros id. unfold defaultsConstructor. ss. Qed.
Global Hint Resolve sim_type sim_defaultsC : peek.
Lemma sim_action : forall id x, sim eq (action id x) (action id x).
Proof. intros. unfold action. ss. Qed.
Lemma sim_help_text : forall id x, sim eq (help id x) (help id x).
Proof. intros. unfold help. ss. Qed.
Global Hint Resolve sim_action sim_help_text : peek.
Lemma fresh_same : forall s s', st s s' -> fresh_id s' = fresh_id s.
Proof. intros s s' R. unfold fresh_id. now rewrite (sa_ids _ _ (st_args _ _ R)), (st_help _ _ R), (st_version _ _ R). Qed.
Lemma sim_register : forall c, sim eq (register c) (register c).
Proof.
  intros c. unfold register. eapply sim_bind; [apply sim_get|]. intros s s' R. rewrite (fresh_same s s' R). ss.
  apply sim_modify. intros t t' R'. apply st_args_change; [exact R'|]. apply Forall2_app; [exact (st_args _ _ R') | constructor; [apply sa_refl | constructor]].
Qed.
Global Hint Resolve sim_register : peek.
Lemma sim_add : forall ns, sim eq (addArgument ns) (addArgument ns).
Proof. intros ns. unfold addArgument. ss. Qed.
Global Hint Resolve sim_add : peek.
Lemma sa_owned : forall l l', Forall2 sa l l' -> all_owned l' = all_owned l.
Proof.
  intros l l' F. unfold all_owned. induction F as [|a b l l' [h [m ->]] F IH]; [reflexivity|]. cbn [flat_map]. rewrite IH. f_equal. unfold owned. flat.
  unfold same_object in m. destruct h, (c_valid (a_cfg a)); cbn in m; try discriminate; [|reflexivity]. injection m as ->. reflexivity.
Qed.
Lemma sim_clear : sim eq clear clear.
Proof.
  apply sim_modify. intros s s' R. rewrite (sa_owned _ _ (st_args _ _ R)), (st_freed _ _ R), (st_dlog _ _ R). constructor; [constructor | reflexivity].
Qed.

Lemma sim_at : forall argv i, sim eq (argv_at argv i) (argv_at argv i).
Proof. intros; unfold argv_at; ss. Qed.
Lemma sim_slice : forall argv i j, sim eq (argv_slice argv i j) (argv_slice argv i j).
Proof. intros; unfold argv_slice; ss. Qed.
Lemma sim_push : forall id es, sim eq (push_elems id es) (push_elems id es). Proof. intros; apply sim_set_dyn. Qed.
Lemma sim_clear_elems : forall id, sim eq (clear_elems id) (clear_elems id). Proof. intros; apply sim_set_dyn. Qed.
Lemma sim_clear_unless : forall id, sim eq (clear_unless_exists id) (clear_unless_exists id). Proof. intros; apply sim_set_dyn. Qed.
Global Hint Resolve sim_at sim_slice sim_push sim_clear_elems sim_clear_unless : peek.
Lemma sim_eoi_short : forall b cs, sim eq (eoi_short b cs) (eoi_short b cs).
Proof. intros b; induction cs as [|c cs IH]; cbn [eoi_short]; ss. Qed.
Global Hint Resolve sim_eoi_short : peek.
Lemma sim_eoi : forall w, sim eq (endOfInfinite w) (endOfInfinite w).
Proof. intros; unfold endOfInfinite. ss. Qed.
Global Hint Resolve sim_eoi : peek.
Lemma sim_run : forall n id argv e i k, sim eq (run_loop id argv e n i k) (run_loop id argv e n i k).
Proof. induction n as [|n IH]; intros; cbn [run_loop]; ss. Qed.
Lemma sim_bad : forall o, sim eq (@bad_number nat o) (@bad_number nat o). Proof. intros; unfold bad_number; ss. Qed.
Global Hint Resolve sim_run sim_bad : peek.
Lemma sim_group : forall fuel id n argv e m i k err err', sim eq err err' -> sim eq (group_loop fuel id n argv e m i k err) (group_loop fuel id n argv e m i k err').
Proof. induction fuel as [|f IH]; intros; cbn [group_loop]; ss. Qed.
Global Hint Resolve sim_group : peek.
Lemma sim_parseArgument : forall fuel m argv i h o x id, sim eq (parseArgument fuel m argv i h o x id) (parseArgument fuel m argv i h o x id).
Proof.
  intros; unfold parseArgument. ss.
Qed.
Global Hint Resolve sim_parseArgument : peek.
Lemma sim_short_loop : forall cs fuel m argv i h x, sim eq (short_loop fuel m argv i h x cs) (short_loop fuel m argv i h x cs).
Proof. induction cs as [|c cs IH]; intros; cbn [short_loop]; ss. Qed.
Global Hint Resolve sim_short_loop : peek.
Lemma sim_parseShort : forall fuel m argv i w, sim eq (parseShort fuel m argv i w) (parseShort fuel m argv i w).
Proof. intros; unfold parseShort. ss. Qed.
Lemma sim_parseLong : forall fuel m argv i w, sim eq (parseLong fuel m argv i w) (parseLong fuel m argv i w).
Proof. intros; unfold parseLong. ss. Qed.
Lemma sim_parsePositional : forall fuel argc argv i e, sim eq (parsePositional fuel argc argv i e) (parsePositional fuel argc argv i e).
Proof.
  intros; unfold parsePositional. eapply sim_bind; [apply sim_get|]. intros s s' R. unfold next_positional.
  pose proof (sa_find (fun a => negb (d_exist (a_dyn a)) && isPositional a) _ _ (st_args _ _ R)) as F. specialize (F ltac:(intros a b [h [m ->]]; reflexivity)).
  destruct (find _ (s_args s)) as [a|], (find _ (s_args s')) as [b|]; try contradiction.
  - destruct F as [h [m ->]]. flat. ss. all: apply sim_group; ss.
  - sfields R. ss.
Qed.
Global Hint Resolve sim_parseShort sim_parseLong sim_parsePositional : peek.
Lemma sim_end_loop : forall fuel g argv i, sim eq (end_loop fuel g argv i) (end_loop fuel g argv i).
Proof. induction fuel as [|f IH]; intros; cbn [end_loop]; ss. Qed.
Global Hint Resolve sim_end_loop : peek.
Lemma sim_parse_loop : forall fuel g argv e i, sim eq (parse_loop fuel g argv e i) (parse_loop fuel g argv e i).
Proof. induction fuel as [|f IH]; intros; cbn [parse_loop]; ss. Qed.
Lemma sim_set_binary : forall argv, sim eq (set_binary argv) (set_binary argv).
Proof. intros argv. unfold set_binary. eapply sim_bind; [apply sim_get|]. intros s s' R. rewrite (st_bin _ _ R). ss. Qed.
Lemma sim_scan : forall fuel argv, sim eq (scan fuel argv) (scan fuel argv).
Proof. intros. unfold scan. eapply sim_bind; [apply sim_set_binary | intros _ _ _; apply sim_parse_loop]. Qed.
Lemma sim_help_setup : sim eq help_setup help_setup.
Proof. unfold help_setup. ss. Qed.
Lemma sim_required : sim eq check_required check_required.
Proof.
  unfold check_required. eapply sim_bind; [apply sim_get|]. intros s s' R.
  pose proof (sa_find (fun a => c_required (a_cfg a) && negb (d_exist (a_dyn a))) _ _ (st_args _ _ R)) as F. specialize (F ltac:(intros a b [h [m ->]]; reflexivity)).
  destruct (find _ (s_args s)) as [a|], (find _ (s_args s')) as [b|]; try contradiction; [destruct F as [h [m ->]]; flat; ss | p1].
Qed.
Lemma sim_validate : forall a b v, sa a b -> sim eq (validate a v) (validate b v).
Proof.
  intros a b v [h [m ->]]. unfold validate. flat. change (to_vector (Arg (a_id a) (a_gen a) (cfg_valid (a_cfg a) h (c_valid_del (a_cfg a))) (a_dyn a))) with (to_vector a). ss.
Qed.
Lemma sim_toNumber : forall id, sim eq (toNumber id) (toNumber id).
Proof. intros. unfold toNumber. ss. Qed.
Lemma sa_events : forall a b d, sa a b -> dest_events b d = dest_events a d.
Proof. intros a b d [h [m ->]]. reflexivity. Qed.
Lemma sim_toDest : forall id, sim eq (toDest id) (toDest id).
Proof.
  intros. unfold toDest. eapply sim_bind; [apply sim_deref|]. intros a b X. assert (E : c_dest (a_cfg b) = c_dest (a_cfg a)) by (destruct X as [h [m ->]]; reflexivity). rewrite E.
  destruct (c_dest (a_cfg a)) as [d|]; [|p1]. rewrite (sa_events a b d X). ss.
Qed.
Global Hint Resolve sim_toNumber sim_toDest : peek.
Lemma usage_same : forall s s', st s s' -> getUsage s' = getUsage s.
Proof.
  intros s s' R. unfold getUsage. rewrite (st_usage _ _ R). rewrite (sa_forallb usage_defined _ _ (st_args _ _ R)) by (intros a b [h [m ->]]; reflexivity).
  destruct (u_usage (s_usage s)); [|reflexivity]. destruct (forallb usage_defined (s_args s)); [|reflexivity]. f_equal.
  assert (M : forall B (g : acfg -> B) l l', (forall c w d, g (cfg_valid c w d) = g c) -> Forall2 sa l l' -> map g (map a_cfg l') = map g (map a_cfg l)).
  { intros B g l l' H F. induction F as [|a b l l' [h [m ->]] F IH]; [reflexivity|]. cbn [map a_cfg]. now rewrite H, IH. }
  assert (N : forall l l' : list argument, Forall2 sa l l' -> nonempty (map a_cfg l') = nonempty (map a_cfg l)) by (intros l l' [|]; reflexivity).
  unfold usage_text, synopsis. rewrite (st_usage _ _ R), (st_bin _ _ R). unfold options_of, positionals_of.
  assert (FO : Forall2 sa (filter (fun a => negb (is_pos_arg a)) (s_args s)) (filter (fun a => negb (is_pos_arg a)) (s_args s'))) by (apply sa_filter; [exact (st_args _ _ R) | intros a b [h [m ->]]; reflexivity]).
  assert (FP : Forall2 sa (filter is_pos_arg (s_args s)) (filter is_pos_arg (s_args s'))) by (apply sa_filter; [exact (st_args _ _ R) | intros a b [h [m ->]]; reflexivity]).
  rewrite (N _ _ FO), (N _ _ FP).
  rewrite (M _ option_item _ _ (fun _ _ _ => eq_refl) FO), (M _ positional_item _ _ (fun _ _ _ => eq_refl) FP).
  rewrite (M _ (fun c => row (s_usage s) (positional_label c) c) _ _ (fun _ _ _ => eq_refl) FP), (M _ (fun c => row (s_usage s) (option_label c) c) _ _ (fun _ _ _ => eq_refl) FO).
  reflexivity.
Qed.
Lemma sim_print : forall p b k t, sim eq (print_or_throw p b k t) (print_or_throw p b k t).
Proof.
  intros p b k t. unfold print_or_throw. eapply sim_bind; [apply sim_get|]. intros s s' R. destruct p as [p|]; [|p1].
  pose proof (sa_find (fun a => Nat.eqb (a_id a) (fst p) && Nat.eqb (a_gen a) (snd p)) _ _ (st_args _ _ R)) as F.
  specialize (F ltac:(intros x y [h [m ->]]; reflexivity)). unfold find_ptr. destruct (find _ (s_args s)) as [x|], (find _ (s_args s')) as [y|]; try contradiction; [|p1].
  destruct F as [h [m ->]]. flat. destruct (d_exist (a_dyn x)); [|p1]. destruct t; try p1. destruct b; [p1|]. eapply sim_bind; [apply sim_clear|]. intros _ _ _ u u' R''. split; [exact R'' | reflexivity].
Qed.
Lemma sim_check_help : sim eq check_help check_help.
Proof. unfold check_help. eapply sim_bind; [apply sim_get|]. intros s s' R. sfields R. rewrite (usage_same _ _ R). apply sim_print. Qed.
Lemma sim_check_version : sim eq check_version check_version.
Proof. unfold check_version. eapply sim_bind; [apply sim_get|]. intros s s' R. sfields R. apply sim_print. Qed.
