(** Proofs_LikeParse.v -- parseArguments on two parsers that are alike up to identities and
    foreign options ([like_by], Proofs_Like.v). *)
From Coq Require Import Permutation Sorted.
From Verif Require Import Base Model_Utils Model_Number Model_Types Model_Argument Model_Usage Model_Args Model_Api
  Spec_Order Spec_Names Spec_Reading Spec_Extend Spec_Reorder Spec_Parse Spec_Decl Spec_Finish Spec_History Spec_Api Spec_Result
  Proofs_Base Proofs_Order Proofs_Stable Proofs_Frame Proofs_Inv Proofs_ReadFacts Proofs_Reading Proofs_Parse Proofs_Decl Proofs_Finish
  Proofs_Meth Proofs_History Proofs_Config Proofs_Central Proofs_Swap Proofs_Redecl Proofs_Extend Proofs_Like Properties_Parse.

(* ------------------------------------------------------------------ *)
(** * the declared arguments *)
Lemma k_args_find : forall l a, NoDup (map a_id l) -> In a l ->
  find (fun p : nat * acfg => Nat.eqb (fst p) (a_id a)) (map (fun b => (a_id b, a_cfg b)) l) = Some (a_id a, a_cfg a).
Proof.
  intros l a. induction l as [|b l IH]; intros N I; [destruct I|]. cbn in *. inversion_clear N as [|? ? A B]. destruct I as [->|I]; [now rewrite Nat.eqb_refl|].
  destruct (Nat.eqb_spec (a_id b) (a_id a)) as [E|E]; [exfalso; apply A; rewrite E; now apply in_map | now apply IH].
Qed.
Lemma conf_find : forall s n a, NoDup (map a_id (s_args s)) -> In a (s_args s) -> assoc n (s_map s) = Some (a_id a) -> k_find (conf_of s) n = Some (a_id a, a_cfg a).
Proof. intros s n a N I E. unfold k_find, conf_of. cbn. rewrite E. now apply k_args_find. Qed.
(** an option that is not on the command line is not noticed *)
Definition silent (c : acfg) : Prop := is_positional (c_type c) = false /\ c_required c = false /\ c_dest c = None.
Section Parse.
Variables (X : list str) (F : nat -> bool).

Lemma conf_like : forall L s s', like_by X silent false F L s s' -> wf0 s -> wf0 s' -> forall n, ~ In n X ->
  match k_find (conf_of s) n, k_find (conf_of s') n with
  | Some (i, c), Some (i', c') => rel L i i' /\ c' = c | None, None => True | _, _ => False end.
Proof.
  intros L s s' H W W' n NX. destruct (like_find_name X silent false F L s s' H n NX) as [[A B]|[p [I [A B]]]].
  - unfold k_find, conf_of. cbn. now rewrite A, B.
  - rewrite (conf_find s n (fst p) (wf_ids _ W) (like_in_l X silent false F L s s' H p I) A), (conf_find s' n (snd p) (wf_ids _ W') (proj1 (like_in_r X silent false F L s s' H p I)) B).
    split; [now apply in_rel | apply (lb_same _ _ _ _ _ _ _ H p I)].
Qed.
Lemma positionals_like : forall L s s', like_by X silent false F L s s' -> Forall2 (pos_rel (rel L)) (positionals (conf_of s)) (positionals (conf_of s')).
Proof.
  intros L s s' H. assert (E : forall l, (forall b, In b l -> F (a_id b) = true -> is_positional (c_type (a_cfg b)) = false) ->
     filter (fun p : nat * acfg => is_positional (c_type (snd p))) (map (fun a => (a_id a, a_cfg a)) l) = filter (fun p => is_positional (c_type (snd p))) (map (fun a => (a_id a, a_cfg a)) (own F l))).
  { induction l as [|b l IH]; intros Q; [reflexivity|]. cbn. rewrite IH by (intros; apply Q; [now right | assumption]). destruct (F (a_id b)) eqn:B; cbn; [|reflexivity].
    now rewrite (Q b (or_introl eq_refl) B). }
  unfold positionals, conf_of. cbn [k_args]. rewrite (E (s_args s')) by (intros b I B; now apply (lb_foreign _ _ _ _ _ _ _ H)). rewrite (lb_r _ _ _ _ _ _ _ H), (lb_l _ _ _ _ _ _ _ H).
  assert (Q : forall M, (forall p, In p M -> In p L) -> Forall2 (pos_rel (rel L)) (filter (fun p : nat * acfg => is_positional (c_type (snd p))) (map (fun a => (a_id a, a_cfg a)) (map fst M)))
     (filter (fun p => is_positional (c_type (snd p))) (map (fun a => (a_id a, a_cfg a)) (map snd M)))).
  { induction M as [|p M IH]; intros S; [constructor|]. cbn. assert (I : In p L) by (apply S; now left). destruct (lb_same _ _ _ _ _ _ _ H p I) as [_ [-> _]].
    assert (T := IH (fun q J => S q (or_intror J))). destruct (is_positional (c_type (a_cfg (fst p)))); [|exact T]. constructor; [|exact T]. split; [now apply in_rel | reflexivity]. }
  now apply Q.
Qed.
Lemma free_help_like : forall L s s', like_by X silent false F L s s' -> ~ In "-h" X -> ~ In "--help" X -> free_help s' = free_help s.
Proof. intros L s s' H A B. unfold free_help. rewrite (like_mem X silent false F L s s' H _ A), (like_mem X silent false F L s s' H _ B). reflexivity. Qed.

(* ------------------------------------------------------------------ *)
(** * changing the values of all arguments *)
Lemma like_map : forall L s s' (f f' : argument -> argument), like_by X silent false F L s s' ->
  (forall a, a_id (f a) = a_id a) -> (forall a, a_id (f' a) = a_id a) -> (forall a, a_cfg (f' a) = a_cfg a) ->
  (forall p, In p L -> same (f (fst p)) (f' (snd p))) ->
  like_by X silent false F (map (fun p => (f (fst p), f' (snd p))) L) (with_args s (map f (s_args s))) (with_args s' (map f' (s_args s'))).
Proof.
  intros L s s' f f' H If If' Cf' S. set (L' := map (fun p => (f (fst p), f' (snd p))) L).
  assert (RE : forall i i', rel L i i' <-> rel L' i i').
  { intros i i'. unfold rel, L'. split.
    - intros [p [I [A B]]]. exists (f (fst p), f' (snd p)). split; [apply in_map_iff; now exists p|]. cbn. now rewrite If, If'.
    - intros [q [I [A B]]]. apply in_map_iff in I. destruct I as [p [<- I]]. cbn in *. rewrite If in A. rewrite If' in B. now exists p. }
  destruct H. split; try assumption; cbn.
  - rewrite lb_l. unfold L'. rewrite !map_map. reflexivity.
  - unfold own in *. rewrite filter_map_comm. erewrite filter_ext; [rewrite lb_r; unfold L'; rewrite !map_map; reflexivity|]. intros a. cbn. now rewrite If'.
  - unfold L'. intros q I. apply in_map_iff in I. destruct I as [p [<- I]]. now apply S.
  - intros n. specialize (lb_map n). destruct (assoc n (s_map s)), (assoc n (s_map s')); try exact lb_map. now apply RE.
  - intros b I Fb. apply in_map_iff in I. destruct I as [a [<- I]]. rewrite Cf'. apply lb_foreign; [exact I | now rewrite <- If'].
  - intros i Fi. apply lb_live in Fi. rewrite map_map. erewrite map_ext; [exact Fi|]. exact If'.
  - revert lb_help. now apply rel_ext.
  - revert lb_version. now apply rel_ext.
Qed.
Lemma like_additional : forall L s s' l l', like_by X silent false F L s s' -> l' = l -> like_by X silent false F L (with_additional s l) (with_additional s' l').
Proof. intros L s s' l l' H E. destruct H. split; cbn; try assumption. Qed.
Lemma like_dlog : forall L s s' l l', like_by X silent false F L s s' -> l' = l -> like_by X silent false F L (with_dlog s l) (with_dlog s' l').
Proof. intros L s s' l l' H E. destruct H. split; cbn; try assumption. Qed.
Lemma like_named : forall L s s' argv, like_by X silent false F L s s' -> like_by X silent false F L (named argv s) (named argv s').
Proof. intros L s s' argv H. unfold named. rewrite (lb_bin _ _ _ _ _ _ _ H). destruct (s_bin s) eqn:E; [|exact H]. destruct H. split; cbn; try assumption. reflexivity. Qed.
Lemma named_args : forall argv s, s_args (named argv s) = s_args s.
Proof. intros argv s. unfold named. destruct (s_bin s); reflexivity. Qed.
Lemma same_clear : forall a a', same a a' -> a_dyn (clear_arg a') = a_dyn (clear_arg a).
Proof. intros a a' [_ [C D]]. unfold clear_arg. now rewrite C, D. Qed.

(** the state after the words were read *)
Lemma scanned_like : forall L s s' argv pcs pcs', like_by X silent false F L (ready s) (ready s') -> wf0 (ready s) -> wf0 (ready s') ->
  Forall2 (piece_rel (rel L)) pcs pcs' ->
  like_by X silent false F (map (fun p => (read_arg pcs (fst p), read_arg pcs' (snd p))) L) (scanned argv pcs s) (scanned argv pcs' s') /\
  (forall b, In b (s_args (scanned argv pcs' s')) -> F (a_id b) = true -> d_exist (a_dyn b) = false /\ d_count (a_dyn b) = 0).
Proof.
  intros L s s' argv pcs pcs' H W W' P. split.
  - unfold scanned. apply like_additional; [|rewrite (lb_additional _ _ _ _ _ _ _ H); f_equal; now apply (additional_ext (rel L))].
    rewrite <- (named_args argv (ready s)), <- (named_args argv (ready s')). apply like_map; try reflexivity; [now apply like_named|].
    intros p I. destruct (lb_same _ _ _ _ _ _ _ H p I) as [G [C D]]. assert (S : same (fst p) (snd p)) by now repeat split. unfold same, read_arg. cbn [a_gen a_cfg a_dyn a_id]. split; [exact G|]. split; [exact C|].
    rewrite C, (same_clear _ _ S). apply (pieces_dyn_ext (rel L) (rel_inj X silent false F L _ _ H (wf_ids _ W) (wf_ids _ W'))); [now apply in_rel | exact P].
  - intros b I Fb. unfold scanned in I. cbn in I. apply in_map_iff in I. destruct I as [a [<- I]]. unfold read_arg in *. cbn in *.
    rewrite (pieces_dyn_out (rel L)) with (pcs := pcs); [split; reflexivity | | exact P].
    intros i i' [p [Ip [_ <-]]] E. destruct (like_in_r X silent false F L _ _ H p Ip) as [_ E2]. congruence.
Qed.

(* ------------------------------------------------------------------ *)
(** * the verdict *)
Lemma find_ptr_In : forall q l a, find_ptr q l = Some a -> In a l /\ ptr_of a = q.
Proof. intros q l a E. unfold find_ptr in E. apply find_some in E. destruct E as [I E]. split; [exact I|]. now apply ptr_eqb_eq. Qed.
Lemma find_ptr_live : forall q l, (exists a, In a l /\ ptr_of a = q) -> exists a, find_ptr q l = Some a.
Proof.
  intros q l [a [I E]]. unfold find_ptr. destruct (find _ l) as [b|] eqn:Q; [now exists b|]. exfalso. pose proof (find_none _ _ Q a I) as N. subst q. unfold ptr_of in N. cbn [fst snd] in N. rewrite !Nat.eqb_refl in N. discriminate.
Qed.
Lemma met_like : forall L s s' p p', like_by X silent false F L s s' -> wf0 s -> wf0 s' -> ptr_rel L F p p' -> (p = None -> p' = None) -> met p' s' = met p s.
Proof.
  intros L s s' p p' H W W' P TT. unfold met. destruct p as [q|], p' as [q'|]; try reflexivity; try (now destruct P); [destruct P as [P NF] | discriminate (TT eq_refl)].
  assert (T : forall r, In r L -> (ptr_of (fst r) = q <-> ptr_of (snd r) = q')).
  { intros r I. destruct (lb_same _ _ _ _ _ _ _ H r I) as [G _]. specialize (P _ _ (a_gen (fst r)) (in_rel L r I)). unfold ptr_of. rewrite G. split; intros E; symmetry; apply P; now symmetry. }
  destruct (find_ptr q (s_args s)) as [a|] eqn:A.
  - apply find_ptr_In in A. destruct A as [Ia Ea]. rewrite (lb_l _ _ _ _ _ _ _ H) in Ia. apply in_map_iff in Ia. destruct Ia as [r [<- I]].
    destruct (like_in_r X silent false F L s s' H r I) as [J _]. apply (proj1 (T r I)) in Ea. destruct (find_ptr_live q' (s_args s')) as [b B]; [now exists (snd r)|]. rewrite B.
    apply find_ptr_In in B. destruct B as [Ib Eb]. assert (b = snd r) as ->. { apply (ids_unique (s_args s')); [apply (wf_ids _ W') | exact Ib | exact J|]. assert (E : ptr_of b = ptr_of (snd r)) by congruence. now injection E. }
    destruct (lb_same _ _ _ _ _ _ _ H r I) as [_ [_ ->]]. reflexivity.
  - destruct (find_ptr q' (s_args s')) as [b|] eqn:B; [|reflexivity]. exfalso. apply find_ptr_In in B. destruct B as [Ib Eb].
    assert (J : In b (own F (s_args s'))). { apply filter_In. split; [exact Ib|]. apply negb_true_iff. rewrite <- Eb in NF. exact NF. }
    rewrite (lb_r _ _ _ _ _ _ _ H) in J. apply in_map_iff in J. destruct J as [r [<- I]]. apply (proj2 (T r I)) in Eb.
    destruct (find_ptr_live q (s_args s)) as [a A2]; [exists (fst r); split; [now apply (like_in_l X silent false F L s s' H) | exact Eb]|]. congruence.
Qed.
Lemma own_filter : forall (f : argument -> bool) l, (forall b, In b l -> F (a_id b) = true -> f b = false) -> filter f l = filter f (own F l).
Proof. intros f l. induction l as [|b l IH]; intros Q; [reflexivity|]. cbn. rewrite IH by (intros; apply Q; [now right | assumption]). destruct (F (a_id b)) eqn:B; cbn; [now rewrite (Q b (or_introl eq_refl) B) | reflexivity]. Qed.
Lemma own_flat : forall {A} (f : argument -> list A) l, (forall b, In b l -> F (a_id b) = true -> f b = []) -> flat_map f l = flat_map f (own F l).
Proof. intros A f l. induction l as [|b l IH]; intros Q; [reflexivity|]. cbn. rewrite IH by (intros; apply Q; [now right | assumption]). destruct (F (a_id b)) eqn:B; cbn; [now rewrite (Q b (or_introl eq_refl) B) | reflexivity]. Qed.
Lemma pair_flat : forall {A} (f : argument -> list A) L, (forall p, In p L -> f (snd p) = f (fst p)) -> flat_map f (map snd L) = flat_map f (map fst L).
Proof. intros A f L. induction L as [|p L IH]; intros Q; [reflexivity|]. cbn. rewrite IH by (intros; apply Q; now right). now rewrite (Q p (or_introl eq_refl)). Qed.
Lemma same_first : forall a a', same a a' -> first_of (a_cfg a') = first_of (a_cfg a).
Proof. intros a a' [_ [-> _]]. reflexivity. Qed.
Lemma same_refusal : forall a a', same a a' -> refusal a' = refusal a.
Proof. intros a a' [_ [C D]]. unfold refusal, plain_values, invalid. rewrite C, D. reflexivity. Qed.
Lemma same_finished : forall a a', same a a' -> same (finished a) (finished a').
Proof.
  intros a a' [G [C D]]. unfold finished, checked, plain_values. rewrite C, D. destruct (c_valid (a_cfg a)) as [v|]; [|repeat split; cbn; congruence].
  destruct (d_exist (a_dyn a)); [|repeat split; cbn; congruence]. destruct (v_fn v _) as [[|] vs| |]; repeat split; cbn; congruence.
Qed.
Lemma same_events : forall a a', same a a' -> arg_events a' = arg_events a.
Proof.
  intros a a' [G [C D]]. unfold arg_events. rewrite C. destruct (c_dest (a_cfg a)); [|reflexivity]. unfold dest_events, single_to. rewrite ?C, ?D. reflexivity.
Qed.
Lemma same_trouble : forall a a', same a a' -> trouble a' = trouble a.
Proof. intros a a' S. unfold trouble. rewrite (same_refusal _ _ S), (same_events _ _ (same_finished _ _ S)). reflexivity. Qed.
Lemma foreign_trouble : forall b, d_exist (a_dyn b) = false -> c_dest (a_cfg b) = None -> trouble b = None /\ arg_events (finished b) = ([], None).
Proof.
  intros b E D. unfold trouble, refusal, arg_events. rewrite finished_cfg, D, E. split; [|reflexivity]. destruct (c_valid (a_cfg b)); reflexivity.
Qed.
(** equal outcomes, up to the usage text that a help option shows *)
Definition usage_apart (t t' : state) (r r' : res unit) : Prop :=
  if met (s_help t) t then
    r = (if m_helpex (s_modes t) then Throw (Exn KHelp "" (usage_of t)) else Exit (usage_of t ^^ nl)) /\
    r' = (if m_helpex (s_modes t) then Throw (Exn KHelp "" (usage_of t')) else Exit (usage_of t' ^^ nl))
  else r' = r.
Lemma verdict_like : forall L t t', like_by X silent false F L t t' -> wf0 t -> wf0 t' -> (forall b, In b (s_args t') -> F (a_id b) = true -> d_exist (a_dyn b) = false) ->
  usage_apart t t' (verdict t) (verdict t').
Proof.
  intros L t t' H W W' A. unfold usage_apart, verdict. rewrite (met_like L t t' _ _ H W W' (lb_help _ _ _ _ _ _ _ H) (proj1 (lb_tight _ _ _ _ _ _ _ H eq_refl))), (met_like L t t' _ _ H W W' (lb_version _ _ _ _ _ _ _ H) (proj2 (lb_tight _ _ _ _ _ _ _ H eq_refl))), (lb_modes _ _ _ _ _ _ _ H), (lb_verstr _ _ _ _ _ _ _ H).
  destruct (met (s_help t) t); [now split|]. destruct (met (s_version t) t); [reflexivity|].
  assert (M : map required_error (missing t') = map required_error (missing t)).
  { unfold missing. rewrite own_filter by (intros b I B; rewrite (proj1 (proj2 (lb_foreign _ _ _ _ _ _ _ H b I B))); reflexivity).
    rewrite (lb_r _ _ _ _ _ _ _ H), (lb_l _ _ _ _ _ _ _ H). pose proof (lb_same _ _ _ _ _ _ _ H) as S. revert S. generalize L. clear. intros L. induction L as [|p L IH]; intros S; [reflexivity|]. cbn.
    destruct (S p (or_introl eq_refl)) as [G [C D]]. assert (IH' := IH (fun q I => S q (or_intror I))). rewrite C, D. destruct (_ && _); [|exact IH']. cbn. rewrite IH'. f_equal. unfold required_error. now rewrite C. }
  destruct (missing t) as [|a l], (missing t') as [|a' l']; try discriminate M; [|apply (f_equal (hd (required_error a))) in M; cbn [hd map] in M; now rewrite M].
  assert (E : flat_map (fun a => match trouble a with Some e => [e] | None => [] end) (s_args t') = flat_map (fun a => match trouble a with Some e => [e] | None => [] end) (s_args t)).
  { rewrite own_flat by (intros b I B; rewrite (proj1 (foreign_trouble b (A b I B) (proj2 (proj2 (lb_foreign _ _ _ _ _ _ _ H b I B))))); reflexivity).
    rewrite (lb_r _ _ _ _ _ _ _ H), (lb_l _ _ _ _ _ _ _ H). apply pair_flat. intros p I. now rewrite (same_trouble _ _ (lb_same _ _ _ _ _ _ _ H p I)). }
  now rewrite E.
Qed.
Lemma completion_like : forall L t t', like_by X silent false F L t t' -> (forall b, In b (s_args t') -> F (a_id b) = true -> d_exist (a_dyn b) = false) ->
  exists L', like_by X silent false F L' (completion t) (completion t').
Proof.
  intros L t t' H A. eexists. unfold completion. apply like_dlog.
  - apply (like_map L t t' finished finished H); [apply finished_id | apply finished_id | apply finished_cfg|]. intros p I. apply same_finished. now apply (lb_same _ _ _ _ _ _ _ H).
  - rewrite (lb_dlog _ _ _ _ _ _ _ H). f_equal. unfold all_events. rewrite own_flat by (intros b I B; rewrite (proj2 (foreign_trouble b (A b I B) (proj2 (proj2 (lb_foreign _ _ _ _ _ _ _ H b I B))))); reflexivity).
    rewrite (lb_r _ _ _ _ _ _ _ H), (lb_l _ _ _ _ _ _ _ H). apply pair_flat. intros p I. now rewrite (same_events _ _ (same_finished _ _ (lb_same _ _ _ _ _ _ _ H p I))).
Qed.
End Parse.

(* ------------------------------------------------------------------ *)
(** * the automatic help option *)
Lemma help_none_like : forall X F L s s', like_by X silent false F L s s' -> (s_help s' = None <-> s_help s = None).
Proof. intros X F L s s' H. destruct (lb_tight _ _ _ _ _ _ _ H eq_refl) as [T _]. pose proof (lb_help _ _ _ _ _ _ _ H) as P. split; [|exact T]. intros E. rewrite E in P. destruct (s_help s); [destruct P | reflexivity]. Qed.
Lemma ready_like : forall X F L s s', like_by X silent false F L s s' -> wf s -> wf s' -> ~ In "-h" X -> ~ In "--help" X ->
  exists L', like_by X silent false F L' (ready s) (ready s').
Proof.
  intros X F L s s' H W W' A B. unfold ready. pose proof (help_none_like X F L s s' H) as HN. pose proof (free_help_like X F L s s' H A B) as FE.
  destruct (s_help s) as [q|] eqn:E1.
  - destruct (s_help s') as [q'|] eqn:E2; [|exfalso; discriminate (proj1 HN eq_refl)]. now exists L.
  - destruct (s_help s') as [q'|] eqn:E2; [exfalso; discriminate (proj2 HN eq_refl)|]. rewrite FE. destruct (free_help s) as [|n l] eqn:E3; [now exists L|].
    assert (NE : free_help s <> []) by (rewrite E3; discriminate).
    destruct (add_step_like X silent false F L s s' (free_help s) [MAction HELP; MHelp "show this help message and exit"] H W W') as [_ [L' [C _]]].
    + cbn [op_names flat_map meth_names app]. rewrite app_nil_r. unfold free_help. intros k I. apply in_app_or in I. destruct I as [I|I]; [destruct (mem_key "-h" _) | destruct (mem_key "--help" _)]; try (now destruct I); destruct I as [<-|[]]; assumption.
    + now left.
    + rewrite <- E3. exists L'. exact C.
Qed.
Lemma shows_usage_at : forall s argv pcs, usable s -> met (s_help (scanned argv pcs s)) (scanned argv pcs s) = true ->
  shows_usage argv s (if m_helpex (s_modes (scanned argv pcs s)) then Throw (Exn KHelp "" (usage_of (scanned argv pcs s))) else Exit (usage_of (scanned argv pcs s) ^^ nl)).
Proof.
  intros s argv pcs U M. exists (usage_of (scanned argv pcs s)). split; [rewrite <- (scanned_usage s argv pcs); now apply scanned_text|].
  now rewrite (proj1 (scanned_modes s argv pcs (usable_wf0 _ U))).
Qed.
Lemma interprets_like : forall X F L s s', like_by X silent false F L s s' -> ~ In "-h" X -> ~ In "--help" X -> interprets s -> interprets s'.
Proof.
  intros X F L s s' H A B [I|I]; [left | right; rewrite (free_help_like X F L s s' H A B); exact I]. intros E. apply I. now apply (help_none_like X F L s s' H).
Qed.
Theorem parse_like : forall X F L s s' argv ws, like_by X silent false F L s s' -> usable s -> usable s' -> ~ In "-h" X -> ~ In "--help" X ->
  command_line argv ws -> interprets s -> unmentioned (setup s) X ws ->
  let P := parseArguments argv s in let P' := parseArguments argv s' in
  same_answer argv s s' (snd P) (snd P') /\ (snd P = Ok tt -> exists L', like_by X silent false F L' (fst P) (fst P') /\ forall b, In b (s_args (fst P')) -> F (a_id b) = true -> d_exist (a_dyn b) = false /\ d_count (a_dyn b) = 0).
Proof.
  intros X F L s s' argv ws H U U' A B CL IN UM. cbv zeta. pose proof (usable_wf _ U) as W. pose proof (usable_wf _ U') as W'.
  pose proof (interprets_like X F L s s' H A B IN) as IN'.
  destruct (ready_like X F L s s' H W W' A B) as [L' H']. pose proof (usable_wf0 _ (usable_ready _ U)) as Wr. pose proof (usable_wf0 _ (usable_ready _ U')) as Wr'.
  pose proof (conf_like X F L' _ _ H' Wr Wr') as CO. pose proof (positionals_like X F L' _ _ H') as PO.
  assert (EA : k_alt (setup s') = k_alt (setup s)) by (unfold setup, conf_of; cbn; now rewrite (lb_modes _ _ _ _ _ _ _ H')).
  assert (ES : k_strict (setup s') = k_strict (setup s)) by (unfold setup, conf_of; cbn; now rewrite (lb_modes _ _ _ _ _ _ _ H')).
  destruct (read_or_reject s argv ws U CL IN) as [[pcs R]|[e R]].
  - destruct (reading_ext (setup s) (setup s') (rel L') X CO EA ES _ _ _ R UM _ PO) as [pcs' [R' PR]].
    destruct (scanned_like X F L' s s' argv pcs pcs' H' Wr Wr' PR) as [SL AB].
    destruct (parse_verdict s argv ws pcs U CL IN R) as [V C]. destruct (parse_verdict s' argv ws pcs' U' CL IN' R') as [V' C'].
    pose proof (proj1 (proj1 (usable_scanned s argv pcs U))) as Ws. pose proof (proj1 (proj1 (usable_scanned s' argv pcs' U'))) as Ws'.
    pose proof (verdict_like X F _ _ _ SL Ws Ws' (fun b I Q => proj1 (AB b I Q))) as VL. rewrite V, V'. split.
    + unfold usage_apart in VL. destruct (met (s_help (scanned argv pcs s)) (scanned argv pcs s)) eqn:M; [|left; exact VL]. right. destruct VL as [-> ->].
      split; [now apply shows_usage_at|]. rewrite <- (lb_modes _ _ _ _ _ _ _ SL). apply shows_usage_at; [exact U'|].
      rewrite (met_like X F _ _ _ _ _ SL Ws Ws' (lb_help _ _ _ _ _ _ _ SL) (proj1 (lb_tight _ _ _ _ _ _ _ SL eq_refl))). exact M.
    + intros E. assert (E' : verdict (scanned argv pcs' s') = Ok tt).
      { unfold usage_apart in VL. destruct (met (s_help (scanned argv pcs s)) (scanned argv pcs s)); [|congruence]. destruct VL as [VL _]. rewrite VL in E. destruct (m_helpex _); discriminate. }
      rewrite C, C' by congruence. destruct (completion_like X F _ _ _ SL (fun b I Q => proj1 (AB b I Q))) as [L2 CL2]. exists L2. split; [exact CL2|].
      intros b I Fb. unfold completion in I. cbn in I. apply in_map_iff in I. destruct I as [c [<- I]]. rewrite finished_id in Fb. destruct (AB c I Fb) as [E1 E2].
      unfold finished, checked. rewrite E1. assert (NE : forall t d, d_exist (num_dyn t d) = d_exist d /\ d_count (num_dyn t d) = d_count d) by (intros t d; unfold num_dyn; destruct t; try (split; reflexivity); destruct (d_elems d); split; reflexivity).
      destruct (c_valid (a_cfg c)); cbn; destruct (NE (c_type (a_cfg c)) (a_dyn c)) as [-> ->]; now split.
  - pose proof (fails_ext (setup s) (setup s') (rel L') X CO EA ES _ _ _ R UM _ PO) as R'.
    destruct (parse_rejects s argv ws e U CL IN R) as [t [E _]]. destruct (parse_rejects s' argv ws e U' CL IN' R') as [t' [E' _]]. rewrite E, E'. cbn. split; [left; reflexivity | discriminate].
Qed.
