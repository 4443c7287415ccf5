(** Proofs_Texts.v -- every call treats objects that differ only in texts alike. *)
From Coq Require Import Permutation Sorted.
From Verif Require Import Base Model_Utils Model_Number Model_Types Model_Argument Model_Usage Model_Args Model_Api
  Spec_Order Spec_Names Spec_Reading Spec_Texts Spec_Parse Spec_Decl Spec_Finish Spec_History Spec_Api Spec_Result
  Proofs_Base Proofs_Order Proofs_Frame Proofs_Inv Proofs_ReadFacts Proofs_Reading Proofs_Finish Proofs_Parse Proofs_Central Properties_Parse.

Notation st := same_but_texts.
Notation sa := same_arg_but_texts.
Definition rr {A B} (Q : A -> B -> Prop) (r : res A) (r' : res B) : Prop :=
  match r, r' with
  | Ok x, Ok y => Q x y
  | Throw e, Throw e' => e' = e
  | Exit o, Exit o' => o' = o
  | UB, UB => True
  | OutOfFuel, OutOfFuel => True
  | _, _ => False
  end.
Definition sim {A B} (Q : A -> B -> Prop) (f : M A) (g : M B) : Prop :=
  forall s s', st s s' -> st (fst (f s)) (fst (g s')) /\ rr Q (snd (f s)) (snd (g s')).
Lemma sim_weak : forall {A B} (Q Q' : A -> B -> Prop) f g, (forall x y, Q x y -> Q' x y) -> sim Q f g -> sim Q' f g.
Proof. intros A B Q Q' f g I S s s' R. destruct (S s s' R) as [X Y]. split; [exact X|]. destruct (snd (f s)), (snd (g s')); cbn in *; auto. Qed.
Lemma sim_bind : forall {A B C D} (Q : A -> B -> Prop) (P : C -> D -> Prop) f g h k, sim Q f g -> (forall x y, Q x y -> sim P (h x) (k y)) -> sim P (bind f h) (bind g k).
Proof.
  intros A B C D Q P f g h k F H s s' R. destruct (F s s' R) as [X Y]. unfold bind. destruct (f s) as [t r], (g s') as [t' r']. cbn [fst snd] in X, Y.
  destruct r, r'; try contradiction; cbn in Y; try (split; [exact X | exact Y]). exact (H _ _ Y _ _ X).
Qed.
Lemma sim_ret : forall {A B} (Q : A -> B -> Prop) x y, Q x y -> sim Q (ret x) (ret y).
Proof. intros A B Q x y H s s' R. split; [exact R | exact H]. Qed.
Lemma sim_throw : forall {A} (Q : A -> A -> Prop) k x y, sim Q (throw k x y) (throw k x y).
Proof. intros A Q k x y s s' R. split; [exact R | reflexivity]. Qed.
Lemma sim_throwe : forall {A} (Q : A -> A -> Prop) e, sim Q (fun s => (s, Throw e)) (fun s => (s, Throw e)).
Proof. intros A Q e s s' R. split; [exact R | reflexivity]. Qed.
Lemma sim_ub : forall {A} (Q : A -> A -> Prop), sim Q ub ub.
Proof. intros A Q s s' R. split; [exact R | exact I]. Qed.
Lemma sim_fuel : forall {A} (Q : A -> A -> Prop), sim Q (fun s => (s, OutOfFuel)) (fun s => (s, OutOfFuel)).
Proof. intros A Q s s' R. split; [exact R | exact I]. Qed.
Lemma sim_get : sim st get get.
Proof. intros s s' R. split; exact R. Qed.
Lemma sim_modify : forall f g, (forall s s', st s s' -> st (f s) (g s')) -> sim eq (modify f) (modify g).
Proof. intros f g H s s' R. split; [now apply H | reflexivity]. Qed.
Lemma sa_refl : forall a, sa a a.
Proof. intros [i g [] d]. eexists. eexists. reflexivity. Qed.
Lemma sa_find : forall (p : argument -> bool) l l', Forall2 sa l l' -> (forall a b, sa a b -> p b = p a) ->
  match find p l, find p l' with Some a, Some b => sa a b | None, None => True | _, _ => False end.
Proof. intros p l l' F H. induction F as [|a b l l' X F IH]; [exact I|]. cbn [find]. rewrite (H a b X). destruct (p a); [exact X | exact IH]. Qed.
Lemma sa_id : forall a b, sa a b -> a_id b = a_id a. Proof. intros a b [h [m ->]]. reflexivity. Qed.
Lemma sa_ids : forall l l', Forall2 sa l l' -> map a_id l' = map a_id l.
Proof. intros l l' F. induction F as [|a b l l' X F IH]; [reflexivity|]. cbn [map]. now rewrite IH, (sa_id a b X). Qed.
Lemma sa_length : forall l l', Forall2 sa l l' -> length l' = length l.
Proof. intros l l' F. rewrite <- (map_length a_id l), <- (map_length a_id l'). now rewrite (sa_ids l l' F). Qed.
Lemma sa_map : forall f g l l', Forall2 sa l l' -> (forall a b, sa a b -> sa (f a) (g b)) -> Forall2 sa (map f l) (map g l').
Proof. intros f g l l' F H. induction F as [|a b l l' X F IH]; [constructor|]. cbn [map]. constructor; [now apply H | exact IH]. Qed.
Lemma sa_upd : forall id f g l l', Forall2 sa l l' -> (forall a b, sa a b -> sa (f a) (g b)) -> Forall2 sa (upd_id id f l) (upd_id id g l').
Proof. intros id f g l l' F H. apply sa_map; [exact F|]. intros a b X. rewrite (sa_id a b X). destruct (Nat.eqb (a_id a) id); [now apply H | exact X]. Qed.
Lemma sa_forallb : forall p l l', Forall2 sa l l' -> (forall a b, sa a b -> p b = p a) -> forallb p l' = forallb p l.
Proof. intros p l l' F H. induction F as [|a b l l' X F IH]; [reflexivity|]. cbn [forallb]. now rewrite (H a b X), IH. Qed.
Lemma sa_filter : forall p l l', Forall2 sa l l' -> (forall a b, sa a b -> p b = p a) -> Forall2 sa (filter p l) (filter p l').
Proof. intros p l l' F H. induction F as [|a b l l' X F IH]; [constructor|]. cbn [filter]. rewrite (H a b X). destruct (p a); [constructor; assumption | exact IH]. Qed.
Lemma sa_lt : forall a b c d, sa a b -> sa c d -> arg_lt b d = arg_lt a c.
Proof. intros a b c d [h [m ->]] [h' [m' ->]]. reflexivity. Qed.
Lemma sa_insert : forall a b l l', sa a b -> Forall2 sa l l' -> Forall2 sa (insert_by arg_lt a l) (insert_by arg_lt b l').
Proof.
  intros a b l l' X F. induction F as [|c d l l' Y F IH]; [repeat constructor; exact X|]. cbn [insert_by]. rewrite (sa_lt c d a b Y X).
  destruct (arg_lt c a); constructor; try assumption. now constructor.
Qed.
Lemma sa_sort : forall l l', Forall2 sa l l' -> Forall2 sa (sort_by arg_lt l) (sort_by arg_lt l').
Proof. intros l l' F. induction F as [|a b l l' X F IH]; [constructor|]. unfold sort_by in *. cbn [fold_right]. now apply sa_insert. Qed.
Lemma st_args_change : forall s s' l l', st s s' -> Forall2 sa l l' -> st (with_args s l) (with_args s' l').
Proof. intros s s' l l' [] F. constructor; assumption. Qed.
Lemma sim_sort : sim eq sort_args sort_args.
Proof.
  intros s s' R. unfold sort_args. rewrite (sa_forallb has_name _ _ (st_args _ _ R)) by (intros a b [h [m ->]]; reflexivity).
  destruct (forallb has_name (s_args s)); (split; [|easy]); [|exact R]. cbn [fst]. apply st_args_change; [exact R | apply sa_sort, (st_args _ _ R)].
Qed.
Lemma sim_deref : forall id, sim sa (deref id) (deref id).
Proof.
  intros id s s' R. unfold deref, find_id. pose proof (sa_find (fun a => Nat.eqb (a_id a) id) _ _ (st_args _ _ R)) as F.
  specialize (F ltac:(intros a b X; cbv beta; now rewrite (sa_id a b X))). destruct (find _ (s_args s)), (find _ (s_args s')); try contradiction; split; try exact R; exact F.
Qed.
Lemma sim_find_name : forall n, sim eq (find_name n) (find_name n).
Proof. intros n s s' R. split; [exact R|]. cbn. now rewrite (st_map _ _ R). Qed.
Lemma sim_front : forall l, sim eq (front l) (front l).
Proof. intros [|x l]; [apply sim_ub | now apply sim_ret]. Qed.
Definition sc (c c' : acfg) : Prop := exists h m, c' = cfg_metavar (cfg_help c h) m.
Lemma sim_set_cfg : forall id f g, (forall c c', sc c c' -> sc (f c) (g c')) -> sim eq (set_cfg id f) (set_cfg id g).
Proof.
  intros id f g H. apply sim_modify. intros s s' R. apply st_args_change; [exact R|]. apply sa_upd; [exact (st_args _ _ R)|]. intros a b [h [m ->]].
  destruct (H (a_cfg a) (cfg_metavar (cfg_help (a_cfg a) h) m)) as [h' [m' E]]; [now exists h, m|]. exists h', m'. unfold arg_cfg. cbn [a_id a_gen a_cfg a_dyn]. now rewrite E.
Qed.
Lemma sim_set_dyn : forall id f, sim eq (set_dyn id f) (set_dyn id f).
Proof. intros id f. apply sim_modify. intros s s' R. apply st_args_change; [exact R|]. apply sa_upd; [exact (st_args _ _ R)|]. intros a b [h [m ->]]. exists h, m. reflexivity. Qed.
Lemma sim_delete : forall a b, sa a b -> sim eq (delete_valid (a_cfg a)) (delete_valid (a_cfg b)).
Proof. intros a b [h [m ->]]. apply sim_modify. intros s s' []. constructor; try assumption. cbn [s_freed with_freed]. now rewrite st_freed. Qed.
Lemma sim_delete_c : forall c h m, sim eq (delete_valid c) (delete_valid (cfg_metavar (cfg_help c h) m)).
Proof. intros c h m. apply sim_modify. intros s s' []. constructor; try assumption. cbn [s_freed with_freed]. now rewrite st_freed. Qed.

Ltac flat := unfold ptr_of in *; cbn [a_id a_gen a_cfg a_dyn c_names c_type c_required c_nargs c_help c_metavar c_valid c_valid_del c_action c_defaults c_default c_dest cfg_metavar cfg_help] in *.
Ltac sfields R := rewrite ?(st_map _ _ R), ?(st_help _ _ R), ?(st_version _ _ R), ?(st_verstr _ _ R), ?(st_modes _ _ R), ?(st_additional _ _ R) in *.
Ltac scd := apply sim_set_cfg; intros ? ? [? [? ->]]; eexists; eexists; reflexivity.
Ltac stm := apply sim_modify; let s := fresh "s" in let s' := fresh "s'" in let X := fresh "X" in intros s s' X; destruct X; constructor;
  cbn [s_args s_map s_help s_version s_verstr s_modes s_additional s_freed s_dlog with_bin with_args with_map with_help with_version with_verstr with_modes with_additional with_usage with_freed with_dlog]; solve [assumption | congruence | reflexivity].
Ltac p1 := first
  [ apply sim_ret; first [reflexivity | assumption | solve [auto]] | apply sim_throw | apply sim_throwe | apply sim_ub | apply sim_fuel | apply sim_get | apply sim_sort | apply sim_deref
  | apply sim_find_name | apply sim_front | scd | apply sim_set_dyn | apply sim_delete_c | stm | solve [auto with texts] | assumption ].
Ltac p2 := first [ p1 | eapply sim_bind; [solve [p1] |] | apply (sim_bind eq)].
Ltac i1 := match goal with |- forall _, _ => idtac end; let x := fresh "x" in let y := fresh "y" in let Q := fresh "Q" in intros x y Q;
  first [ subst y | match type of Q with sa _ _ => let h := fresh "h" in let m := fresh "m" in destruct Q as [h [m ->]]; flat | st _ _ => sfields Q end ].
Ltac ss := repeat first [ p2 | i1 | match goal with
  | |- sim _ (if ?b then _ else _) _ => destruct b
  | |- sim _ (match ?b with _ => _ end) _ => destruct b end ].

Lemma sim_become : forall id a b (f : acfg -> acfg), sa a b -> (forall c c', sc c c' -> sc (f c) (f c')) -> sim eq (set_cfg id (fun _ => f (a_cfg a))) (set_cfg id (fun _ => f (a_cfg b))).
Proof. intros id a b f [h [m ->]] H. apply sim_set_cfg. intros _ _ _. apply H. now exists h, m. Qed.
Lemma sim_type : forall id, sim eq (typeConstructor id) (typeConstructor id).
Proof.
  intros id. unfold typeConstructor. eapply sim_bind; [apply sim_deref|]. intros a b [h [m ->]].
  cbn [a_cfg c_names c_type c_nargs c_action cfg_metavar cfg_help a_id a_gen]. flat.
  ss. all: try (apply sim_set_cfg; intros _ _ _; exists h, m; reflexivity).
Qed.
Lemma sim_defaultsC : forall id, sim eq (defaultsConstructor id) (defaultsConstructor id).
Proof. intros id. unfold defaultsConstructor. ss. Qed.
Global Hint Resolve sim_type sim_defaultsC : texts.
Lemma sim_meth : forall id m m', meth_texts m m' -> sim eq (run_meth id m) (run_meth id m').
Proof.
  intros id m m' [x|h h'|h h'].
  - destruct x; cbn [run_meth]; [unfold flag | unfold action | unfold required | unfold help | unfold metavar | unfold nargs | unfold defaults | unfold valid | unfold dest_to]; ss.
    all: try (apply sim_modify; intros s s' R; apply st_args_change; [exact R|]; apply sa_upd; [exact (st_args _ _ R)|]; intros a b [h1 [m1 ->]]; exists h1, m1; reflexivity).
  - cbn [run_meth]. unfold help. ss.
  - cbn [run_meth]. unfold metavar. ss.
Qed.
Lemma sim_meths : forall id ms ms', Forall2 meth_texts ms ms' -> sim eq (run_meths id ms) (run_meths id ms').
Proof. intros id ms ms' F. induction F as [|m m' ms ms' X F IH]; cbn [run_meths]; [p1|]. eapply sim_bind; [exact (sim_meth id m m' X) | intros _ _ _; exact IH]. Qed.
Lemma fresh_same : forall s s', st s s' -> fresh_id s' = fresh_id s.
Proof. intros s s' R. unfold fresh_id. now rewrite (sa_ids _ _ (st_args _ _ R)), (st_help _ _ R), (st_version _ _ R). Qed.
Lemma sim_register : forall c, sim eq (register c) (register c).
Proof.
  intros c. unfold register. eapply sim_bind; [apply sim_get|]. intros s s' R. rewrite (fresh_same s s' R). ss.
  apply sim_modify. intros t t' R'. apply st_args_change; [exact R'|]. apply Forall2_app; [exact (st_args _ _ R') | constructor; [apply sa_refl | constructor]].
Qed.
Global Hint Resolve sim_register : texts.
Lemma sim_add : forall ns, sim eq (addArgument ns) (addArgument ns).
Proof. intros ns. unfold addArgument. ss. Qed.
Lemma sim_update : forall n, sim eq (updateArgument n) (updateArgument n).
Proof. intros n. unfold updateArgument. ss. Qed.
Lemma sim_remove_one : forall n, sim eq (remove_one n) (remove_one n).
Proof.
  intros n. unfold remove_one. ss.
  apply sim_modify. intros s s' R. apply st_args_change; [exact R|]. apply sa_filter; [exact (st_args _ _ R)|]. intros a b X. cbv beta. now rewrite (sa_id a b X).
Qed.
Global Hint Resolve sim_add sim_update sim_remove_one : texts.
Lemma sim_remove_loop : forall l, sim eq (remove_loop l) (remove_loop l).
Proof. induction l as [|n l IH]; cbn [remove_loop]; ss. Qed.
Global Hint Resolve sim_remove_loop : texts.
Lemma sim_remove : forall ns, sim eq (removeArguments ns) (removeArguments ns).
Proof. intros ns. unfold removeArguments. ss. Qed.
Lemma sa_owned : forall l l', Forall2 sa l l' -> all_owned l' = all_owned l.
Proof. intros l l' F. unfold all_owned. induction F as [|a b l l' [h [m ->]] F IH]; [reflexivity|]. cbn [flat_map]. rewrite IH. reflexivity. Qed.
Lemma sim_clear : sim eq clear clear.
Proof.
  apply sim_modify. intros s s' R. rewrite (sa_owned _ _ (st_args _ _ R)), (st_freed _ _ R), (st_dlog _ _ R). constructor; try reflexivity. constructor.
Qed.

Lemma sim_at : forall argv i, sim eq (argv_at argv i) (argv_at argv i).
Proof. intros; unfold argv_at; ss. Qed.
Lemma sim_slice : forall argv i j, sim eq (argv_slice argv i j) (argv_slice argv i j).
Proof. intros; unfold argv_slice; ss. Qed.
Lemma sim_push : forall id es, sim eq (push_elems id es) (push_elems id es). Proof. intros; apply sim_set_dyn. Qed.
Lemma sim_clear_elems : forall id, sim eq (clear_elems id) (clear_elems id). Proof. intros; apply sim_set_dyn. Qed.
Lemma sim_clear_unless : forall id, sim eq (clear_unless_exists id) (clear_unless_exists id). Proof. intros; apply sim_set_dyn. Qed.
Global Hint Resolve sim_at sim_slice sim_push sim_clear_elems sim_clear_unless : texts.
Lemma sim_eoi_short : forall b cs, sim eq (eoi_short b cs) (eoi_short b cs).
Proof. intros b; induction cs as [|c cs IH]; cbn [eoi_short]; ss. Qed.
Global Hint Resolve sim_eoi_short : texts.
Lemma sim_eoi : forall w, sim eq (endOfInfinite w) (endOfInfinite w).
Proof. intros; unfold endOfInfinite. ss. Qed.
Global Hint Resolve sim_eoi : texts.
Lemma sim_run : forall n id argv e i k, sim eq (run_loop id argv e n i k) (run_loop id argv e n i k).
Proof. induction n as [|n IH]; intros; cbn [run_loop]; ss. Qed.
Lemma sim_bad : forall o, sim eq (@bad_number nat o) (@bad_number nat o). Proof. intros; unfold bad_number; ss. Qed.
Global Hint Resolve sim_run sim_bad : texts.
Lemma sim_group : forall fuel id n argv e m i k err err', sim eq err err' -> sim eq (group_loop fuel id n argv e m i k err) (group_loop fuel id n argv e m i k err').
Proof. induction fuel as [|f IH]; intros; cbn [group_loop]; ss. Qed.
Global Hint Resolve sim_group : texts.
Lemma sim_parseArgument : forall fuel m argv i h o x id, sim eq (parseArgument fuel m argv i h o x id) (parseArgument fuel m argv i h o x id).
Proof.
  intros; unfold parseArgument. ss.
Qed.
Global Hint Resolve sim_parseArgument : texts.
Lemma sim_short_loop : forall cs fuel m argv i h x, sim eq (short_loop fuel m argv i h x cs) (short_loop fuel m argv i h x cs).
Proof. induction cs as [|c cs IH]; intros; cbn [short_loop]; ss. Qed.
Global Hint Resolve sim_short_loop : texts.
Lemma sim_parseShort : forall fuel m argv i w, sim eq (parseShort fuel m argv i w) (parseShort fuel m argv i w).
Proof. intros; unfold parseShort. ss. Qed.
Lemma sim_parseLong : forall fuel m argv i w, sim eq (parseLong fuel m argv i w) (parseLong fuel m argv i w).
Proof. intros; unfold parseLong. ss. Qed.
Lemma sim_parsePositional : forall fuel argc argv i e, sim eq (parsePositional fuel argc argv i e) (parsePositional fuel argc argv i e).
Proof.
  intros; unfold parsePositional. eapply sim_bind; [apply sim_get|]. intros s s' R. unfold next_positional.
  pose proof (sa_find (fun a => negb (d_exist (a_dyn a)) && isPositional a) _ _ (st_args _ _ R)) as F. specialize (F ltac:(intros a b [h [m ->]]; reflexivity)).
  destruct (find _ (s_args s)) as [a|], (find _ (s_args s')) as [b|]; try contradiction.
  - destruct F as [h [m ->]]. flat. ss. all: apply sim_group; ss.
  - sfields R. ss.
Qed.
Global Hint Resolve sim_parseShort sim_parseLong sim_parsePositional : texts.
Lemma sim_end_loop : forall fuel g argv i, sim eq (end_loop fuel g argv i) (end_loop fuel g argv i).
Proof. induction fuel as [|f IH]; intros; cbn [end_loop]; ss. Qed.
Global Hint Resolve sim_end_loop : texts.
Lemma sim_parse_loop : forall fuel g argv e i, sim eq (parse_loop fuel g argv e i) (parse_loop fuel g argv e i).
Proof. induction fuel as [|f IH]; intros; cbn [parse_loop]; ss. Qed.
Lemma sim_set_binary : forall a0 ws, sim eq (set_binary (a0 :: ws)) (set_binary (a0 :: ws)).
Proof.
  intros a0 ws s s' R. unfold set_binary, bind, get. destruct (s_bin s), (s_bin s'); cbn; (split; [|reflexivity]); destruct R; constructor; assumption.
Qed.
Lemma sim_scan : forall fuel a0 ws, sim eq (scan fuel (a0 :: ws)) (scan fuel (a0 :: ws)).
Proof. intros. unfold scan. eapply sim_bind; [apply sim_set_binary | intros _ _ _; apply sim_parse_loop]. Qed.
Lemma sim_help_setup : sim eq help_setup help_setup.
Proof. unfold help_setup. ss. all: try exact (sim_meth _ _ _ (mt_same (MAction _))). all: exact (sim_meth _ _ _ (mt_same (MHelp _))). Qed.
Lemma sim_required : sim eq check_required check_required.
Proof.
  unfold check_required. eapply sim_bind; [apply sim_get|]. intros s s' R.
  pose proof (sa_find (fun a => c_required (a_cfg a) && negb (d_exist (a_dyn a))) _ _ (st_args _ _ R)) as F. specialize (F ltac:(intros a b [h [m ->]]; reflexivity)).
  destruct (find _ (s_args s)) as [a|], (find _ (s_args s')) as [b|]; try contradiction; [destruct F as [h [m ->]]; flat; ss | p1].
Qed.
Lemma sim_validate : forall a b v, sa a b -> sim eq (validate a v) (validate b v).
Proof.
  intros a b v [h [m ->]]. unfold validate. flat. change (to_vector (Arg (a_id a) (a_gen a) (cfg_metavar (cfg_help (a_cfg a) h) m) (a_dyn a))) with (to_vector a). ss.
Qed.
Lemma sim_toNumber : forall id, sim eq (toNumber id) (toNumber id).
Proof. intros. unfold toNumber. ss. Qed.
Lemma sa_events : forall a b d, sa a b -> dest_events b d = dest_events a d.
Proof. intros a b d [h [m ->]]. reflexivity. Qed.
Lemma sim_toDest : forall id, sim eq (toDest id) (toDest id).
Proof.
  intros. unfold toDest. eapply sim_bind; [apply sim_deref|]. intros a b X. assert (E : c_dest (a_cfg b) = c_dest (a_cfg a)) by (destruct X as [h [m ->]]; reflexivity). rewrite E.
  destruct (c_dest (a_cfg a)) as [d|]; [|p1]. rewrite (sa_events a b d X). ss.
Qed.
Global Hint Resolve sim_toNumber sim_toDest : texts.
Lemma sim_finish : forall ids, sim eq (finish ids) (finish ids).
Proof.
  induction ids as [|id ids IH]; cbn [finish]; [p1|]. apply (sim_bind eq); [|intros _ _ _; exact IH]. unfold finish_one. eapply sim_bind; [apply sim_deref|]. intros a b X.
  assert (E : c_valid (a_cfg b) = c_valid (a_cfg a)) by (destruct X as [h [m ->]]; reflexivity). assert (E2 : a_dyn b = a_dyn a) by (destruct X as [h [m ->]]; reflexivity). rewrite E, E2.
  apply (sim_bind eq).
  - destruct (c_valid (a_cfg a)); [|p1]. destruct (d_exist (a_dyn a)); [now apply sim_validate | p1].
  - ss.
Qed.
Lemma sim_version : sim eq check_version check_version.
Proof.
  unfold check_version. eapply sim_bind; [apply sim_get|]. intros s s' R. sfields R. unfold print_or_throw. destruct (s_version s) as [p|]; [|eapply sim_bind; [apply sim_get|]; intros; p1].
  eapply sim_bind; [apply sim_get|]. intros t t' R'. pose proof (sa_find (fun a => Nat.eqb (a_id a) (fst p) && Nat.eqb (a_gen a) (snd p)) _ _ (st_args _ _ R')) as F.
  specialize (F ltac:(intros a b [h [m ->]]; reflexivity)). unfold find_ptr. destruct (find _ (s_args t)) as [a|], (find _ (s_args t')) as [b|]; try contradiction; [|p1].
  destruct F as [h [m ->]]. flat. destruct (d_exist (a_dyn a)); [|p1]. destruct (m_verex (s_modes s)); [p1|]. eapply sim_bind; [apply sim_clear|]. intros _ _ _ u u' R''. split; [exact R'' | reflexivity].
Qed.
(** the check for help: each shows its usage *)
Lemma sim_help : forall s s', st s s' -> wf0 s -> wf0 s' ->
  st (fst (check_help s)) (fst (check_help s')) /\
  (rr eq (snd (check_help s)) (snd (check_help s')) \/
   met_help s /\ snd (check_help s) = (if m_helpex (s_modes s) then Throw (Exn KHelp "" (usage_of s)) else Exit (usage_of s ^^ nl)) /\
   snd (check_help s') = (if m_helpex (s_modes s) then Throw (Exn KHelp "" (usage_of s')) else Exit (usage_of s' ^^ nl))).
Proof.
  intros s s' R W W'. destruct (usage_ok s W) as [u Hu]. destruct (usage_ok s' W') as [u' Hu']. unfold check_help, bind, get, met_help, met, usage_of. sfields R. rewrite Hu, Hu'.
  unfold print_or_throw, bind, get. destruct (s_help s) as [p|]; [|split; [exact R | left; reflexivity]].
  pose proof (sa_find (fun a => Nat.eqb (a_id a) (fst p) && Nat.eqb (a_gen a) (snd p)) _ _ (st_args _ _ R)) as F. specialize (F ltac:(intros a b [h [m ->]]; reflexivity)). unfold find_ptr.
  destruct (find _ (s_args s)) as [a|], (find _ (s_args s')) as [b|]; try contradiction; [|split; [exact R | left; exact Logic.I]].
  destruct F as [h [m ->]]. flat. destruct (d_exist (a_dyn a)); [|split; [exact R | left; reflexivity]].
  destruct (m_helpex (s_modes s)); [split; [exact R | right; repeat split; reflexivity]|].
  destruct (sim_clear s s' R) as [C _]. destruct (clear s) as [x r] eqn:E1, (clear s') as [x' r'] eqn:E2. cbn [fst] in C. 
  assert (r = Ok tt) by (unfold clear, modify in E1; injection E1 as _ <-; reflexivity). assert (r' = Ok tt) by (unfold clear, modify in E2; injection E2 as _ <-; reflexivity). subst. cbn.
  split; [exact C | right; repeat split; reflexivity].
Qed.
Lemma prepared_eq : forall s, wf0 s -> interprets s -> fst (bind (modify (fun s => with_args s (map clear_arg (s_args s)))) (fun _ => help_setup) s) = prepared s.
Proof.
  intros s W IN. unfold bind, modify. fold (cleared s). rewrite (help_setup_eq (cleared s) (wf0_cleared s W)).
  change (s_help (cleared s)) with (s_help s). change (free_help (cleared s)) with (free_help s). unfold prepared. destruct (s_help s); [reflexivity|]. now destruct (free_help s).
Qed.
Lemma sim_cleared : forall s s', st s s' -> st (cleared s) (cleared s').
Proof. intros s s' R. apply st_args_change; [exact R|]. apply sa_map; [exact (st_args _ _ R)|]. intros a b [h [m ->]]. exists h, m. reflexivity. Qed.
Lemma st_interprets : forall s s', st s s' -> interprets s -> interprets s'.
Proof. intros s s' R. unfold interprets, free_help. now rewrite (st_map _ _ R), (st_help _ _ R). Qed.
Lemma sa_sym : forall a b, sa a b -> sa b a.
Proof. intros [i g [] d] b [h [m ->]]. eexists. eexists. reflexivity. Qed.
Lemma st_sym : forall s s', st s s' -> st s' s.
Proof. intros s s' []. constructor; try (now symmetry). clear - st_args. induction st_args as [|a b l l' X F IH]; constructor; [now apply sa_sym | exact IH]. Qed.
Lemma st_refl : forall s, st s s.
Proof. intros s. constructor; try reflexivity. induction (s_args s); constructor; [apply sa_refl | assumption]. Qed.
Lemma outcome_rr : forall r r' : res unit, rr eq r r' -> outcome_texts r r'.
Proof. intros r r' H. destruct r, r'; cbn in H; try contradiction; subst; apply rt_same. Qed.
Lemma bind_run : forall {A B} (f : M A) (h : A -> M B) s, bind f h s =
  match f s with (s1, Ok a) => h a s1 | (s1, Throw e) => (s1, Throw e) | (s1, Exit o) => (s1, Exit o) | (s1, UB) => (s1, UB) | (s1, OutOfFuel) => (s1, OutOfFuel) end.
Proof. intros. unfold bind. now destruct (f s) as [s1 []]. Qed.
Theorem parse_texts : forall s s' a0 ws, wf s -> wf s' -> st s s' ->
  let p := parseArguments (a0 :: ws) s in let p' := parseArguments (a0 :: ws) s' in
  st (fst p) (fst p') /\ outcome_texts (snd p) (snd p').
Proof.
  intros s s' a0 ws W W' R. cbv zeta. unfold parseArguments, parse_fuel. rewrite (sa_length _ _ (st_args _ _ R)).
  destruct (interprets_dec s) as [I|N].
  2:{ rewrite (proj2 (parse_with_eq _ _ s (proj1 W)) N). assert (N' : ~ interprets s') by (intros X; apply N, (st_interprets _ _ (st_sym _ _ R) X)).
      rewrite (proj2 (parse_with_eq _ _ s' (proj1 W')) N'). split; [apply sim_cleared, R | apply rt_same]. }
  pose proof (st_interprets _ _ R I) as I'. rewrite (proj1 (parse_with_eq _ _ s (proj1 W)) I), (proj1 (parse_with_eq _ _ s' (proj1 W')) I').
  set (fuel := length (a0 :: ws) + length (s_args s) + 3).
  assert (RP : st (prepared s) (prepared s')).
  { rewrite <- (prepared_eq s (proj1 W) I), <- (prepared_eq s' (proj1 W') I').
    apply (sim_bind eq eq (modify _) (modify _) (fun _ => help_setup) (fun _ => help_setup)); [|intros _ _ _; apply sim_help_setup | exact R].
    apply sim_modify. intros t t' Rt. exact (sim_cleared t t' Rt). }
  destruct (sim_scan fuel a0 ws _ _ RP) as [RS RO].
  pose proof (frame_wf0 _ _ (proj1 (wf_prepared s W)) (frame_scan fuel (a0 :: ws) (prepared s))) as W1.
  pose proof (frame_wf0 _ _ (proj1 (wf_prepared s' W')) (frame_scan fuel (a0 :: ws) (prepared s'))) as W1'.
  rewrite (bind_run (scan fuel (a0 :: ws)) _ (prepared s)), (bind_run (scan fuel (a0 :: ws)) _ (prepared s')). destruct (scan fuel (a0 :: ws) (prepared s)) as [t r], (scan fuel (a0 :: ws) (prepared s')) as [t' r']. cbn [fst snd] in *.
  destruct r, r'; cbn in RO; try contradiction; try (split; [exact RS | cbn; subst; apply rt_same]).
  unfold after_scan. destruct (sim_help t t' RS W1 W1') as [RH [OH|[MH [O O']]]].
  - rewrite (bind_run check_help _ t), (bind_run check_help _ t'). destruct (check_help t) as [v r] eqn:E1, (check_help t') as [v' r'] eqn:E2. cbn [fst snd] in *.
    destruct r, r'; cbn in OH; try contradiction; try (split; [exact RH | cbn; subst; apply rt_same]).
    assert (SS : sim eq (check_version ;;; check_required ;;; (do s <- get ;; finish (map a_id (s_args s)))) (check_version ;;; check_required ;;; (do s <- get ;; finish (map a_id (s_args s))))).
    { eapply sim_bind; [apply sim_version|]. intros _ _ _. eapply sim_bind; [apply sim_required|]. intros _ _ _. eapply sim_bind; [apply sim_get|]. intros x y X. rewrite (sa_ids _ _ (st_args _ _ X)). apply sim_finish. }
    destruct (SS v v' RH) as [A B]. split; [exact A | now apply outcome_rr].
  - rewrite (bind_run check_help _ t), (bind_run check_help _ t'). destruct (check_help t) as [v r] eqn:E1, (check_help t') as [v' r'] eqn:E2. cbn [fst snd] in *. subst r r'.
    destruct (m_helpex (s_modes t)); (split; [exact RH|]); cbn; [apply rt_thrown | apply rt_printed]; assumption.
Qed.
Theorem step_texts : forall s s' o o', reach s -> reach s' -> st s s' -> op_texts o o' -> st (fst (step o s)) (fst (step o' s')) /\ outcome_texts (snd (step o s)) (snd (step o' s')).
Proof.
  intros s s' o o' Rs Rs' R O.
  assert (G : forall f g : M unit, sim eq f g -> st (fst (f s)) (fst (g s')) /\ outcome_texts (snd (f s)) (snd (g s'))).
  { intros f g S. destruct (S s s' R) as [A B]. split; [exact A | now apply outcome_rr]. }
  assert (RM : forall ms, Forall2 meth_texts ms ms) by (induction ms; constructor; [apply mt_same | assumption]).
  destruct O as [o NP|a0 ws|ns ms ms' F|n ms ms' F|b b'|u u'|u u'|u u'|p a sp h p' a' sp' h'].
  - destruct o; try (now destruct (NP argv)); apply G; cbn [step]; try stm.
    + eapply sim_bind; [apply sim_add|]. intros id _ <-. apply sim_meths, RM.
    + eapply sim_bind; [apply sim_update|]. intros id _ <-. apply sim_meths, RM.
    + apply sim_remove.
    + apply sim_clear.
  - apply parse_texts; [now apply reach_wf | now apply reach_wf | exact R].
  - apply G. cbn [step]. eapply sim_bind; [apply sim_add|]. intros id _ <-. now apply sim_meths.
  - apply G. cbn [step]. eapply sim_bind; [apply sim_update|]. intros id _ <-. now apply sim_meths.
  - apply G. cbn [step]. stm.
  - apply G. cbn [step]. stm.
  - apply G. cbn [step]. stm.
  - apply G. cbn [step]. stm.
  - apply G. cbn [step]. stm.
Qed.
