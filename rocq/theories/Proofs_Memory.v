(** Proofs_Memory.v -- the calls with an allowance of allocations (Model_Memory.v) against
    the calls of the main model. *)
From Coq Require Import Permutation Sorted.
From Verif Require Import Base Model_Utils Model_Number Model_Types Model_Argument Model_Usage Model_Args Model_Api Model_Memory Spec_Order Spec_Names
  Proofs_Base Proofs_Order Proofs_Frame Proofs_Inv Proofs_Table.

(* ------------------------------------------------------------------ *)
(** ** refinement: with too few allocations the call runs out of memory, with enough it is
    the call of the main model *)
Definition refines_at {A} (m : AM A) (m' : M A) (s : state) : Prop := exists c,
  (forall k, k < c -> snd (m k s) = NoMemory) /\
  (forall k, m (c + k) s = (fst (m' s), Done k (snd (m' s)))).
Definition refines {A} (m : AM A) (m' : M A) : Prop := forall s, refines_at m m' s.

Lemma refines_plain : forall {A} (m : M A), refines (plain m) m.
Proof.
  intros A m s. unfold refines_at, plain. destruct (m s) as [s1 [a|e|o| |]]; cbn [fst snd].
  2: { exists 1. split; [intros k H; replace k with 0 by lia; reflexivity | intros k; reflexivity]. }
  all: exists 0; split; [intros k H; lia | intros k; reflexivity].
Qed.
Lemma refines_bind_at : forall {A B} (m : AM A) (m' : M A) (f : A -> AM B) f' s, refines_at m m' s ->
  (forall a s1, m' s = (s1, Ok a) -> refines_at (f a) (f' a) s1) -> refines_at (bindA m f) (bind m' f') s.
Proof.
  intros A B m m' f f' s [c [L G]] H.
  assert (Low : forall k, k < c -> snd (bindA m f k s) = NoMemory).
  { intros k K. specialize (L k K). unfold bindA. destruct (m k s) as [t [k1 r1|]]; [discriminate L | reflexivity]. }
  destruct (m' s) as [s1 r] eqn:E. cbn [fst snd] in G.
  destruct r as [a|e|o| |].
  2-5: exists c; split; [exact Low | intros k; unfold bindA, bind; rewrite G, E; reflexivity].
  destruct (H a s1 eq_refl) as [c2 [L2 G2]]. exists (c + c2). split.
  - intros k K. destruct (Nat.lt_ge_cases k c) as [J|J]; [now apply Low|].
    replace k with (c + (k - c)) by lia. unfold bindA. rewrite G. apply L2. lia.
  - intros k. rewrite <- Nat.add_assoc. unfold bindA, bind. rewrite G, E. apply G2.
Qed.
Lemma refines_bind : forall {A B} (m : AM A) (m' : M A) (f : A -> AM B) f', refines m m' ->
  (forall a, refines (f a) (f' a)) -> refines (bindA m f) (bind m' f').
Proof. intros A B m m' f f' H H1 s. apply refines_bind_at; [apply H | intros a s1 _; apply H1]. Qed.
Lemma refines_alloc : forall {A} (m : AM A) (m' : M A) s, refines_at m m' s -> refines_at (alloc >>; m) m' s.
Proof.
  intros A m m' s [c [L G]]. exists (S c). split.
  - intros [|k] K; [reflexivity|]. unfold bindA, alloc. apply L. lia.
  - intros k. unfold bindA, alloc. cbn [plus]. apply G.
Qed.
Lemma refines_alloc_ : forall {A} (m : AM A) (m' : M A), refines m m' -> refines (alloc >>; m) m'.
Proof. intros A m m' H s. apply refines_alloc, H. Qed.
Lemma refines_at_ext : forall {A} (m : AM A) (m1 m2 : M A) s, m1 s = m2 s -> refines_at m m1 s -> refines_at m m2 s.
Proof. intros A m m1 m2 s E [c [L G]]. exists c. rewrite <- E. split; assumption. Qed.
Lemma refines_ext : forall {A} (m : AM A) (m1 m2 : M A), (forall s, m1 s = m2 s) -> refines m m1 -> refines m m2.
Proof. intros A m m1 m2 E H s. eapply refines_at_ext; [apply E | apply H]. Qed.

(* ------------------------------------------------------------------ *)
(** ** changes of one argument *)
Definition tweak (id : nat) (f : argument -> argument) (s : state) : state := with_args s (upd_id id f (s_args s)).
Lemma tweak_comp : forall id f g s, (forall a, a_id (f a) = a_id a) -> tweak id g (tweak id f s) = tweak id (fun a => g (f a)) s.
Proof. intros id f g s H. unfold tweak. cbn [s_args with_args]. rewrite upd_id_comp by exact H. reflexivity. Qed.
Lemma tweak_ext : forall id f g s, (forall a, In a (s_args s) -> a_id a = id -> f a = g a) -> tweak id f s = tweak id g s.
Proof. intros id f g s H. unfold tweak. now rewrite (upd_id_ext id f g). Qed.
Lemma tweak_id : forall id f s, (forall a, In a (s_args s) -> a_id a = id -> f a = a) -> tweak id f s = s.
Proof. intros id f s H. unfold tweak. rewrite (upd_id_id id f) by exact H. now destruct s. Qed.

Lemma refines_tweak_seq : forall (m m2 : AM unit) id f g, refines m (modify (tweak id f)) -> refines m2 (modify (tweak id g)) ->
  (forall a, a_id (f a) = a_id a) -> refines (m >>; m2) (modify (tweak id (fun a => g (f a)))).
Proof.
  intros m m2 id f g H1 H2 I. eapply refines_ext; [|apply (refines_bind m (modify (tweak id f)) (fun _ => m2) (fun _ => modify (tweak id g))); [exact H1 | intros; exact H2]].
  intros s. unfold bind, modify. now rewrite tweak_comp.
Qed.
Lemma refines_tweak_ext : forall (m : AM unit) id f g, (forall a, f a = g a) ->
  refines m (modify (tweak id f)) -> refines m (modify (tweak id g)).
Proof. intros m id f g E. apply refines_ext. intros s. unfold modify. now rewrite (tweak_ext id f g). Qed.
Lemma refines_nothing : forall id, refines (plain (ret tt)) (modify (tweak id (fun a => a))).
Proof. intros id. eapply refines_ext; [|apply refines_plain]. intros s. unfold ret, modify. now rewrite tweak_id. Qed.

(** the default text and the elements of an argument grow *)
Definition grown (t : str) (es : list elem) (a : argument) : argument :=
  Arg (a_id a) (a_gen a) (cfg_default (a_cfg a) (c_default (a_cfg a) ^^ t)) (dyn_elems (a_dyn a) (d_elems (a_dyn a) ++ es)).
Lemma append_nil_r : forall a : str, a ^^ "" = a.
Proof. induction a as [|x a IH]; cbn; [reflexivity | now rewrite IH]. Qed.
Lemma grown_grown : forall t es u fs a, grown u fs (grown t es a) = grown (t ^^ u) (es ++ fs) a.
Proof.
  intros. unfold grown. cbn [a_id a_gen a_cfg a_dyn c_default cfg_default d_elems dyn_elems].
  rewrite append_assoc, app_assoc. reflexivity.
Qed.
Lemma refines_grow : forall id t, refines (grow_default id t) (modify (tweak id (grown t []))).
Proof.
  intros id t. apply refines_alloc_. eapply refines_ext; [|apply refines_plain].
  intros s. unfold set_cfg, modify. f_equal. apply tweak_ext. intros a _ _. unfold grown, arg_cfg. rewrite app_nil_r.
  destruct a as [i g c [x1 x2 x3 x4 x5]]. reflexivity.
Qed.
Lemma refines_push : forall id e, refines (push_elem id e) (modify (tweak id (grown "" [e]))).
Proof.
  intros id e. apply refines_alloc_. eapply refines_ext; [|apply refines_plain].
  intros s. unfold push_elems, set_dyn, modify. f_equal. apply tweak_ext. intros a _ _. unfold grown, arg_dyn. rewrite append_nil_r.
  destruct a as [i g [y1 y2 y3 y4 y5 y6 y7 y8 y9 y10 y11 y12] d]. reflexivity.
Qed.
Lemma refines_grown_seq : forall (m m2 : AM unit) id t es u fs,
  refines m (modify (tweak id (grown t es))) -> refines m2 (modify (tweak id (grown u fs))) ->
  refines (m >>; m2) (modify (tweak id (grown (t ^^ u) (es ++ fs)))).
Proof.
  intros m m2 id t es u fs H1 H2. eapply refines_tweak_ext; [|apply refines_tweak_seq; [exact H1 | exact H2 | reflexivity]].
  intros a. apply grown_grown.
Qed.
Lemma refines_grown_none : forall id, refines (plain (ret tt)) (modify (tweak id (grown "" []))).
Proof.
  intros id. eapply refines_tweak_ext; [|apply refines_nothing]. intros a. unfold grown. rewrite append_nil_r, app_nil_r.
  destruct a as [i g [y1 y2 y3 y4 y5 y6 y7 y8 y9 y10 y11 y12] [x1 x2 x3 x4 x5]]. reflexivity.
Qed.
Lemma refines_grown_ext : forall (m : AM unit) id t es u fs, t = u -> es = fs ->
  refines m (modify (tweak id (grown t es))) -> refines m (modify (tweak id (grown u fs))).
Proof. intros m id t es u fs -> ->. exact (fun H => H). Qed.

(** the separator before all but the first, then the rest *)
Definition joined_from (first : bool) (l : list str) : str :=
  match l with [] => "" | _ => (if first then "" else ", ") ^^ join ", " l end.
Lemma joined_step : forall first d r, joined_from first (d :: r) = (if first then "" else ", ") ^^ (d ^^ joined_from false r).
Proof.
  intros first d r. unfold joined_from. f_equal. destruct r as [|d2 r]; [cbn [join]; now rewrite append_nil_r|]. reflexivity.
Qed.
Lemma refines_sep : forall id (first : bool),
  refines (if first then plain (ret tt) else grow_default id ", ") (modify (tweak id (grown (if first then "" else ", ") []))).
Proof. intros id [|]; [apply refines_grown_none | apply refines_grow]. Qed.

Lemma refines_defaults_loop : forall id ds first,
  refines (defaults_loop id first ds) (modify (tweak id (grown (joined_from first ds) (map default_elem ds)))).
Proof.
  intros id. induction ds as [|d r IH]; intros first; cbn [defaults_loop]; [apply refines_grown_none|].
  eapply refines_grown_ext; [| |apply refines_grown_seq; [apply refines_sep | apply refines_grown_seq; [apply refines_grow | apply refines_grown_seq; [apply refines_push | apply IH]]]].
  - rewrite joined_step. reflexivity.
  - reflexivity.
Qed.
Lemma refines_group_loop : forall id g first,
  refines (group_defaults_loop id first g) (modify (tweak id (grown (joined_from first g) []))).
Proof.
  intros id. induction g as [|d r IH]; intros first; cbn [group_defaults_loop]; [apply refines_grown_none|].
  eapply refines_grown_ext; [| |apply refines_grown_seq; [apply refines_sep | apply refines_grown_seq; [apply refines_grow | apply refines_alloc_, IH]]].
  - rewrite joined_step. reflexivity.
  - reflexivity.
Qed.
Definition in_parens (g : list str) : str := "(" ^^ join ", " g ^^ ")".
Lemma refines_groups_loop : forall id gs first,
  refines (groups_loop id first gs) (modify (tweak id (grown (joined_from first (map in_parens gs)) (map default_group gs)))).
Proof.
  intros id. induction gs as [|g r IH]; intros first; cbn [groups_loop]; [apply refines_grown_none|].
  eapply refines_grown_ext; [| |apply refines_grown_seq; [apply refines_sep | apply refines_grown_seq; [apply refines_grow | apply refines_grown_seq; [apply refines_group_loop | apply refines_grown_seq; [apply refines_grow | apply refines_grown_seq; [apply refines_push | apply IH]]]]]].
  - cbn [map]. rewrite joined_step. f_equal. unfold in_parens. rewrite !append_assoc. f_equal. f_equal.
    unfold joined_from. destruct g; reflexivity.
  - reflexivity.
Qed.

(* ------------------------------------------------------------------ *)
(** ** the functions *)
Lemma refines_set_dyn : forall id f, refines (plain (set_dyn id f)) (modify (tweak id (fun a => arg_dyn a (f (a_dyn a))))).
Proof. intros id f. exact (refines_plain (set_dyn id f)). Qed.
Lemma refines_set_cfg : forall id f, refines (plain (set_cfg id f)) (modify (tweak id (fun a => arg_cfg a (f (a_cfg a))))).
Proof. intros id f. exact (refines_plain (set_cfg id f)). Qed.
(** a chain of changes of one argument, in the main model *)
Lemma tweaks3 : forall id f g h s, (forall a, a_id (f a) = a_id a) -> (forall a, a_id (g a) = a_id a) ->
  (modify (tweak id f) ;;; modify (tweak id g) ;;; modify (tweak id h)) s = modify (tweak id (fun a => h (g (f a)))) s.
Proof. intros id f g h s F G. unfold bind, modify. rewrite (tweak_comp id g h) by exact G. rewrite tweak_comp by exact F. reflexivity. Qed.
Lemma tweaks2 : forall id f g s, (forall a, a_id (f a) = a_id a) ->
  (modify (tweak id f) ;;; modify (tweak id g)) s = modify (tweak id (fun a => g (f a))) s.
Proof. intros id f g s F. unfold bind, modify. now rewrite tweak_comp by exact F. Qed.

Lemma refines_defaultsConstructor : forall id, refines (defaultsConstructor_mem id) (defaultsConstructor id).
Proof.
  intros id. unfold defaultsConstructor_mem, defaultsConstructor. apply refines_bind; [apply refines_plain|]. intros a.
  cbv zeta. set (ds := c_defaults (a_cfg a)).
  destruct ((0 <? c_nargs (a_cfg a))%N && (0 <? N.of_nat (length ds))%N) eqn:Pos; [|apply refines_plain].
  assert (NE : ds <> []) by (intros E; rewrite E, andb_false_r in Pos; discriminate Pos).
  assert (L : refines (plain (set_dyn id (fun d => dyn_elems d [])) >>; plain (set_cfg id (fun c => cfg_default c "")) >>; defaults_loop id true ds)
    (set_dyn id (fun d => dyn_elems d []) ;;; set_cfg id (fun c => cfg_default c (join ", " ds)) ;;; set_dyn id (fun d => dyn_elems d (map default_elem ds)))).
  { eapply refines_ext; [|apply refines_tweak_seq; [apply refines_set_dyn | apply refines_tweak_seq; [apply refines_set_cfg | apply refines_defaults_loop | reflexivity] | reflexivity]].
    intros s. symmetry. unfold set_dyn, set_cfg. etransitivity; [apply (tweaks3 id); reflexivity|].
    unfold modify. f_equal. apply tweak_ext. intros x _ _. unfold grown, arg_dyn, arg_cfg, joined_from.
    destruct ds; [congruence|]. reflexivity. }
  assert (F : refines (plain (set_dyn id (fun d => dyn_elems d [])) >>; plain (do f <- front (c_names (a_cfg a)) ;; throw KArgument f msg_defaults))
    (set_dyn id (fun d => dyn_elems d []) ;;; do f <- front (c_names (a_cfg a)) ;; @throw unit KArgument f msg_defaults)).
  { apply refines_bind; [apply refines_plain | intros; apply refines_plain]. }
  assert (Z : refines (plain (set_dyn id (fun d => dyn_elems d [])) >>; plain (ret tt)) (set_dyn id (fun d => dyn_elems d []) ;;; ret tt)).
  { apply refines_bind; [apply refines_plain | intros; apply refines_plain]. }
  assert (O : refines (plain (set_dyn id (fun d => dyn_elems d [])) >>; alloc >>; plain (set_dyn id (fun d => dyn_arg d (hd "" ds))) >>;
      alloc >>; plain (set_cfg id (fun c => cfg_default c (hd "" ds))))
    (set_dyn id (fun d => dyn_elems d []) ;;; set_dyn id (fun d => dyn_arg d (hd "" ds)) ;;; set_cfg id (fun c => cfg_default c (hd "" ds)))).
  { apply refines_bind; [apply refines_plain|]. intros _. apply refines_alloc_. apply refines_bind; [apply refines_plain|]. intros _.
    apply refines_alloc_, refines_plain. }
  assert (G : forall gs, gs <> [] -> refines (plain (set_dyn id (fun d => dyn_elems d [])) >>; groups_loop id true gs)
    (set_dyn id (fun d => dyn_elems d []) ;;; set_cfg id (fun c => cfg_default c
            (c_default c ^^ join ", " (map (fun g => "(" ^^ join ", " g ^^ ")") gs))) ;;;
          set_dyn id (fun d => dyn_elems d (map default_group gs)))).
  { intros gs N. eapply refines_ext; [|apply refines_tweak_seq; [apply refines_set_dyn | apply refines_groups_loop | reflexivity]].
    intros s. symmetry. unfold set_dyn, set_cfg. etransitivity; [apply (tweaks3 id); reflexivity|].
    unfold modify. f_equal. apply tweak_ext. intros x _ _. unfold grown, arg_dyn, arg_cfg, joined_from.
    destruct gs; [congruence|]. reflexivity. }
  destruct (c_type (a_cfg a)); try exact Z; try exact L;
    (destruct (negb _) eqn:Fit; [exact F|]); try exact L; try exact O;
    apply G; unfold groups_of; intros E; apply map_eq_nil in E; apply (f_equal (@length nat)) in E; rewrite seq_length in E; cbn [length] in E;
    apply negb_false_iff, N.eqb_eq in Fit; apply andb_true_iff in Pos; destruct Pos as [P1 P2]; apply N.ltb_lt in P1, P2;
    pose proof (N.div_mod (N.of_nat (length ds)) (c_nargs (a_cfg a))) as D; rewrite Fit in D; 
    assert (E0 : (N.of_nat (length ds) / c_nargs (a_cfg a) = 0)%N) by lia; rewrite E0 in D; lia.
Qed.

Lemma refines_flag : forall id f, refines (flag_mem id f) (flag id f).
Proof.
  intros id f. unfold flag_mem, flag. apply refines_bind; [apply refines_plain|]. intros a.
  destruct (is_positional _); [apply refines_plain|]. destruct (validFormatFlag f); [apply refines_plain|].
  apply refines_alloc_. apply refines_bind; [apply refines_plain|]. intros s.
  destruct (mem_key f (s_map s)); [apply refines_plain|]. apply refines_alloc_.
  apply refines_bind; [apply refines_plain|]. intros _. apply refines_alloc_.
  apply refines_bind; [apply refines_plain|]. intros _. apply refines_plain.
Qed.
Lemma refines_action : forall id x, refines (action_mem id x) (action id x).
Proof.
  intros id x. unfold action_mem, action. apply refines_bind; [apply refines_plain|]. intros a.
  do 4 (apply refines_bind; [apply refines_plain|]; intros _). apply refines_defaultsConstructor.
Qed.
Lemma refines_nargs : forall id x, refines (nargs_mem id x) (nargs id x).
Proof.
  intros id x. unfold nargs_mem, nargs. apply refines_bind; [apply refines_plain|]. intros a.
  do 2 (apply refines_bind; [apply refines_plain|]; intros _). apply refines_defaultsConstructor.
Qed.
Lemma refines_assign : forall id old rest done,
  refines (assign_loop id done rest old) (modify (tweak id (fun a => arg_cfg a (cfg_defaults (a_cfg a) (done ++ rest))))).
Proof.
  intros id. induction old as [|o old IH]; intros [|x rest] done; cbn [assign_loop].
  - rewrite app_nil_r. apply refines_set_cfg.
  - apply refines_alloc_, refines_set_cfg.
  - rewrite app_nil_r. apply refines_set_cfg.
  - apply refines_alloc_. eapply refines_tweak_ext; [|apply refines_tweak_seq; [apply refines_set_cfg | apply IH | reflexivity]].
    intros a. unfold arg_cfg. cbn [a_id a_gen a_cfg a_dyn]. rewrite <- app_assoc. reflexivity.
Qed.
Lemma refines_defaults : forall id v, refines (defaults_mem id v) (defaults id v).
Proof.
  intros id v. unfold defaults_mem, defaults. apply refines_alloc_. apply refines_bind; [apply refines_plain|]. intros a.
  apply refines_bind; [|intros _; apply refines_defaultsConstructor]. exact (refines_assign id (c_defaults (a_cfg a)) v []).
Qed.
Lemma find_id_unique : forall id l a, find_id id l = Some a -> NoDup (map a_id l) -> forall b, In b l -> a_id b = id -> b = a.
Proof. intros id l a F ND b I E. subst id. rewrite (In_find_id l b ND I) in F. congruence. Qed.

Lemma refines_dest : forall id d s, NoDup (map a_id (s_args s)) -> refines_at (dest_to_mem id d) (dest_to id d) s.
Proof.
  intros id d s ND. unfold dest_to_mem.
  apply (refines_at_ext _ (do a <- deref id ;; (modify (tweak id (fun b => arg_cfg b (cfg_valid (a_cfg b) (c_valid (a_cfg b)) false))) ;;;
     (modify (tweak id (fun b => arg_cfg b (cfg_valid (a_cfg b) (c_valid (a_cfg b)) (c_valid_del (a_cfg a))))) ;;; dest_to id d)))).
  - unfold bind at 1. rewrite deref_eq. destruct (find_id id (s_args s)) as [a|] eqn:F.
    + unfold bind, modify. rewrite tweak_comp by reflexivity. rewrite tweak_id; [reflexivity|].
      intros b Ib Eb. rewrite (find_id_unique id _ a F ND b Ib Eb). destruct a as [i g [y1 y2 y3 y4 y5 y6 y7 y8 y9 y10 y11 y12] x]. reflexivity.
    + unfold dest_to, bind. rewrite deref_eq, F. reflexivity.
  - apply refines_bind; [apply refines_plain|]. intros a. apply refines_bind; [apply refines_set_cfg|]. intros _.
    apply refines_alloc_. apply refines_bind; [apply refines_set_cfg|]. intros _. apply refines_plain.
Qed.

(* ------------------------------------------------------------------ *)
(** ** what remains true of the table of arguments when calls run out of memory *)
(** names may be added to an argument *)
Lemma table_tweak : forall s id f, table s -> (forall a, In a (s_args s) -> a_id a = id -> a_id (f a) = a_id a) ->
  (forall a, In a (s_args s) -> a_id a = id -> forall n, In n (c_names (a_cfg a)) -> In n (c_names (a_cfg (f a)))) ->
  (forall a, In a (s_args s) -> a_id a = id -> is_positional (c_type (a_cfg (f a))) = false -> is_positional (c_type (a_cfg a)) = false /\
     forall n, In n (c_names (a_cfg (f a))) -> In n (c_names (a_cfg a)) \/ validFormatFlag n = None) ->
  table (tweak id f s).
Proof.
  intros s id f [T1 T2 T3 T4 T5] F N V. unfold tweak. constructor; cbn [s_args s_map with_args].
  - replace (map a_id (upd_id id f (s_args s))) with (map a_id (s_args s)); [exact T1|].
    unfold upd_id. rewrite map_map. apply map_ext_in. intros a I. destruct (Nat.eqb_spec (a_id a) id); [symmetry; now apply F | reflexivity].
  - exact T2.
  - intros n i K. destruct (T3 n i K) as [a [I [E J]]]. eexists; split; [apply upd_id_In; exists a; split; [exact I | reflexivity]|].
    destruct (Nat.eqb_spec (a_id a) id) as [E1|E1]; [split; [rewrite F; assumption | now apply N] | auto].
  - intros b Ib. apply upd_id_In in Ib. destruct Ib as [a [Ia ->]]. destruct (Nat.eqb_spec (a_id a) id) as [E1|E1]; [|now apply T4].
    pose proof (T4 a Ia) as X. destruct (c_names (a_cfg a)) as [|n l] eqn:En; [congruence|]. intros Y.
    assert (Z : In n (c_names (a_cfg (f a)))) by (apply N; [exact Ia | exact E1 | rewrite En; now left]). rewrite Y in Z. destruct Z.
  - intros b Ib. apply upd_id_In in Ib. destruct Ib as [a [Ia ->]]. destruct (Nat.eqb_spec (a_id a) id) as [E1|E1]; [|now apply T5].
    intros P. destruct (V a Ia E1 P) as [P0 V0]. pose proof (T5 a Ia P0) as X. rewrite Forall_forall in X |- *. intros n H. destruct (V0 n H) as [K|K]; auto.
Qed.
(** a name of a listed argument may be registered *)
Lemma table_insert : forall s n id a, table s -> In a (s_args s) -> a_id a = id -> In n (c_names (a_cfg a)) ->
  table (with_map s (map_insert n id (s_map s))).
Proof.
  intros s n id a [T1 T2 T3 T4 T5] I E J. constructor; cbn [s_args s_map with_map]; auto.
  - exact (keys_insert_fold [n] id _ T2).
  - intros k i H. unfold map_insert in H. destruct (mem_key n (s_map s)); [now apply T3|].
    apply in_app_or in H. destruct H as [H|[H|[]]]; [now apply T3|]. injection H as <- <-. exists a. auto.
Qed.

Definition presA (P : state -> Prop) {A} (m : AM A) : Prop := forall k s, P s -> P (fst (m k s)).
Lemma presA_plain : forall P {A} (m : M A), pres P m -> presA P (plain m).
Proof. intros P A m H k s Ps. specialize (H s Ps). unfold plain. destruct (m s) as [s1 [a|e|o| |]]; try exact H. destruct k; exact H. Qed.
Lemma presA_bind : forall (P : state -> Prop) {A B} (m : AM A) (f : A -> AM B),
  presA P m -> (forall a, presA P (f a)) -> presA P (bindA m f).
Proof.
  intros P A B m f Hm Hf k s Ps. specialize (Hm k s Ps). unfold bindA. destruct (m k s) as [s1 [k1 [a|e|o| |]|]]; try exact Hm.
  apply Hf, Hm.
Qed.
Lemma presA_alloc : forall (P : state -> Prop), presA P alloc.
Proof. intros P [|k] s Ps; exact Ps. Qed.
(** relations kept *)
Definition keepsA (R : state -> state -> Prop) {A} (m : AM A) : Prop := forall k s, R s (fst (m k s)).
Section KeepsA.
  Variable R : state -> state -> Prop.
  Hypothesis Rr : forall s, R s s.
  Hypothesis Rt : forall a b c, R a b -> R b c -> R a c.
  Lemma keepsA_plain : forall {A} (m : M A), keeps R m -> keepsA R (plain m).
  Proof. intros A m H k s. specialize (H s). unfold plain. destruct (m s) as [s1 [a|e|o| |]]; try exact H. destruct k; exact H. Qed.
  Lemma keepsA_alloc : keepsA R alloc.
  Proof. intros [|k] s; apply Rr. Qed.
  Lemma keepsA_bind : forall {A B} (m : AM A) (f : A -> AM B), keepsA R m -> (forall a, keepsA R (f a)) -> keepsA R (bindA m f).
  Proof.
    intros A B m f Hm Hf k s. specialize (Hm k s). unfold bindA. destruct (m k s) as [s1 [k1 [a|e|o| |]|]]; try exact Hm.
    eapply Rt; [exact Hm | apply Hf].
  Qed.
End KeepsA.

(** all but the names stays in shape *)
Ltac sa := repeat first
  [ apply (keepsA_plain shape); ss
  | apply (keepsA_alloc shape shape_refl)
  | apply (keepsA_bind shape shape_trans); [|intros ?] ].
Lemma shapeA_grow : forall id t, keepsA shape (grow_default id t). Proof. intros. unfold grow_default. sa. Qed.
Lemma shapeA_push : forall id t, keepsA shape (push_elem id t). Proof. intros. unfold push_elem, push_elems. sa. Qed.
Lemma shapeA_sep : forall id (b : bool), keepsA shape (if b then plain (ret tt) else grow_default id ", ").
Proof. intros id [|]; [sa | apply shapeA_grow]. Qed.
Lemma shapeA_defaults_loop : forall id ds b, keepsA shape (defaults_loop id b ds).
Proof.
  intros id. induction ds as [|d r IH]; intros b; cbn [defaults_loop]; [sa|].
  do 3 (apply (keepsA_bind shape shape_trans); [first [apply shapeA_sep | apply shapeA_grow | apply shapeA_push] | intros _]). apply IH.
Qed.
Lemma shapeA_group_loop : forall id ds b, keepsA shape (group_defaults_loop id b ds).
Proof.
  intros id. induction ds as [|d r IH]; intros b; cbn [group_defaults_loop]; [sa|].
  do 3 (apply (keepsA_bind shape shape_trans); [first [apply shapeA_sep | apply shapeA_grow | apply (keepsA_alloc shape shape_refl)] | intros _]). apply IH.
Qed.
Lemma shapeA_groups_loop : forall id gs b, keepsA shape (groups_loop id b gs).
Proof.
  intros id. induction gs as [|d r IH]; intros b; cbn [groups_loop]; [sa|].
  do 5 (apply (keepsA_bind shape shape_trans); [first [apply shapeA_sep | apply shapeA_grow | apply shapeA_push | apply shapeA_group_loop] | intros _]). apply IH.
Qed.
Lemma shapeA_defaultsConstructor : forall id, keepsA shape (defaultsConstructor_mem id).
Proof.
  intros id. unfold defaultsConstructor_mem. apply (keepsA_bind shape shape_trans); [sa|]. intros a. cbv zeta.
  destruct (_ && _)%bool; [|sa]. apply (keepsA_bind shape shape_trans); [sa|]. intros _.
  assert (F : keepsA shape (plain (do f <- front (c_names (a_cfg a)) ;; @throw unit KArgument f msg_defaults))) by sa.
  assert (L : forall ds, keepsA shape (plain (set_cfg id (fun c => cfg_default c "")) >>; defaults_loop id true ds)).
  { intros ds. apply (keepsA_bind shape shape_trans); [sa|]. intros _. apply shapeA_defaults_loop. }
  destruct (c_type (a_cfg a)); try (destruct (negb _)); try exact F; try apply L; try apply shapeA_groups_loop; sa.
Qed.
Lemma shapeA_action : forall id x, keepsA shape (action_mem id x).
Proof.
  intros. unfold action_mem. apply (keepsA_bind shape shape_trans); [sa|]. intros a.
  do 3 (apply (keepsA_bind shape shape_trans); [sa|]; intros _).
  apply (keepsA_bind shape shape_trans); [apply (keepsA_plain shape), shape_typeConstructor|]. intros _. apply shapeA_defaultsConstructor.
Qed.
Lemma shapeA_nargs : forall id x, keepsA shape (nargs_mem id x).
Proof.
  intros. unfold nargs_mem. do 2 (apply (keepsA_bind shape shape_trans); [sa|]; intros _).
  apply (keepsA_bind shape shape_trans); [apply (keepsA_plain shape), shape_typeConstructor|]. intros _. apply shapeA_defaultsConstructor.
Qed.
Lemma shapeA_assign : forall id old rest done, keepsA shape (assign_loop id done rest old).
Proof.
  intros id. induction old as [|o old IH]; intros [|x rest] done; cbn [assign_loop]; try solve [sa].
  do 2 (apply (keepsA_bind shape shape_trans); [sa|]; intros _). apply IH.
Qed.
Lemma shapeA_defaults : forall id v, keepsA shape (defaults_mem id v).
Proof.
  intros. unfold defaults_mem. do 2 (apply (keepsA_bind shape shape_trans); [sa|]; intros ?).
  apply (keepsA_bind shape shape_trans); [apply shapeA_assign|]. intros _. apply shapeA_defaultsConstructor.
Qed.
Lemma shapeA_dest : forall id d, keepsA shape (dest_to_mem id d).
Proof.
  intros. unfold dest_to_mem. do 4 (apply (keepsA_bind shape shape_trans); [sa|]; intros ?). apply (keepsA_plain shape), shape_dest.
Qed.

Lemma table_keepsA : forall {A} (m : AM A), keepsA shape m -> presA table m.
Proof. intros A m H k s T. eapply table_shape; [exact T | apply H]. Qed.
Lemma table_keeps : forall {A} (m : M A), keeps shape m -> pres table m.
Proof. intros A m H s T. eapply table_shape; [exact T | apply H]. Qed.
Lemma table_sorts : pres table sort_args.
Proof. intros s T. rewrite (table_sort_args s T). apply table_perm; [exact T | apply sort_perm]. Qed.
Lemma table_required : forall id b, pres table (required id b).
Proof.
  intros id b. apply pres_bind; [intros s T; rewrite deref_eq; destruct (find_id _ _); exact T|]. intros _.
  apply pres_bind; [|intros _; apply table_sorts].
  intros s T. apply (table_tweak s id); [exact T | reflexivity | auto | auto].
Qed.
Lemma table_flag : forall id f, presA table (flag_mem id f).
Proof.
  intros id f k s T. unfold flag_mem. unfold bindA at 1, plain at 1. rewrite deref_eq.
  destruct (find_id id (s_args s)) as [a|] eqn:F; [|exact T]. cbv iota beta zeta.
  apply find_id_In in F. destruct F as [Ia Ea].
  destruct (is_positional _); [destruct k; exact T|]. destruct (validFormatFlag f) eqn:VF; [destruct k; exact T|].
  destruct k as [|k]; [exact T|]. unfold bindA at 1, alloc at 1. unfold bindA at 1, plain at 1, get at 1. cbv iota beta zeta.
  destruct (mem_key f (s_map s)) eqn:K; [destruct k; exact T|]. destruct k as [|k]; [exact T|].
  unfold bindA at 1, alloc at 1.
  set (g := fun b => arg_cfg b (cfg_names (a_cfg b) (sort_flags (c_names (a_cfg b) ++ [f])))).
  assert (T1 : table (tweak id g s)).
  { apply table_tweak; [exact T | reflexivity | |].
    - intros b _ _ n In0. unfold g. cbn [a_cfg arg_cfg c_names cfg_names]. apply sort_flags_In. apply in_or_app. now left.
    - intros b _ _ P. split; [exact P|]. unfold g. cbn [a_cfg arg_cfg c_names cfg_names]. intros n H. apply -> sort_flags_In in H.
      apply in_app_or in H. destruct H as [H|[<-|[]]]; auto. }
  unfold bindA at 1, plain at 1, set_cfg at 1, modify at 1. cbv iota beta zeta. change (table (fst ((alloc >>; plain (modify (fun s => with_map s (s_map s ++ [(f, id)]))) >>; plain sort_args) k (tweak id g s)))).
  destruct k as [|k]; [exact T1|]. unfold bindA at 1, alloc at 1. unfold bindA at 1, plain at 1, modify at 1. cbv iota beta zeta.
  apply (presA_plain table); [apply table_sorts|].
  replace (s_map (tweak id g s) ++ [(f, id)]) with (map_insert f id (s_map (tweak id g s))).
  - apply (table_insert _ f id (g a)); [exact T1 | | exact Ea |].
    + unfold tweak. cbn [s_args with_args]. apply upd_id_In. exists a. split; [exact Ia|]. rewrite Ea, Nat.eqb_refl. reflexivity.
    + unfold g. cbn [a_cfg arg_cfg c_names cfg_names]. apply sort_flags_In. apply in_or_app. right. now left.
  - unfold map_insert. change (s_map (tweak id g s)) with (s_map s). now rewrite K.
Qed.
Lemma table_run_meth : forall id m, presA table (run_meth_mem id m).
Proof.
  intros id m. destruct m; cbn [run_meth_mem].
  - apply table_flag.
  - apply table_keepsA, shapeA_action.
  - apply presA_plain, table_required.
  - apply presA_bind; [apply presA_alloc|]. intros _. apply presA_plain, table_keeps, shape_help.
  - apply presA_bind; [apply presA_alloc|]. intros _. apply presA_plain, table_keeps, shape_metavar.
  - apply table_keepsA, shapeA_nargs.
  - apply table_keepsA, shapeA_defaults.
  - apply presA_plain, table_keeps, shape_valid.
  - apply table_keepsA, shapeA_dest.
Qed.
Lemma table_run_meths : forall ms id, presA table (run_meths_mem id ms).
Proof.
  induction ms as [|m ms IH]; intros id; cbn [run_meths_mem]; [apply presA_plain; intros s T; exact T|].
  apply presA_bind; [apply table_run_meth | intros _; apply IH].
Qed.

(** the argument appended, the first of its names registered *)
Definition half (c : acfg) (i : nat) (s : state) : state :=
  with_map (with_args s (s_args s ++ [Arg (fresh_id s) 0 c new_dyn]))
    (fold_left (fun m n => map_insert n (fresh_id s) m) (firstn i (c_names c)) (s_map s)).
(** a declaration of addArgument *)
Definition sane_names (c : acfg) : Prop := c_names c <> [] /\
  (is_positional (c_type c) = false -> Forall (fun f => validFormatFlag f = None) (c_names c)).
Lemma table_half : forall s c i, table s -> sane_names c -> table (half c i s).
Proof.
  intros s c i [T1 T2 T3 T4 T5] [N NF]. pose proof (keys_insert_fold (firstn i (c_names c)) (fresh_id s) _ T2) as KD.
  unfold half. constructor; cbn [s_args s_map with_args with_map].
  - rewrite map_app. apply (Permutation_NoDup (l := fresh_id s :: map a_id (s_args s))); [apply Permutation_cons_append|].
    constructor; [apply fresh_id_new | exact T1].
  - exact KD.
  - intros n id H. apply (In_assoc _ _ _ KD) in H. rewrite assoc_insert_fold in H. destruct (assoc n (s_map s)) eqn:A.
    + injection H as ->. apply assoc_In in A. destruct (T3 _ _ A) as [a [I K]]. exists a; split; [apply in_or_app; now left | exact K].
    + destruct (mem_str n (firstn i (c_names c))) eqn:Mn; [|discriminate]. injection H as <-.
      eexists; split; [apply in_or_app; right; left; reflexivity|]. split; [reflexivity|]. apply mem_str_In in Mn.
      cbn [a_cfg]. rewrite <- (firstn_skipn i (c_names c)). apply in_or_app. now left.
  - intros a I. apply in_app_or in I. destruct I as [I|[<-|[]]]; [now apply T4 | exact N].
  - intros a I. apply in_app_or in I. destruct I as [I|[<-|[]]]; [now apply T5 | exact NF].
Qed.
Lemma insert_names_out : forall id l k s s', insert_names id l k s = (s', NoMemory) -> exists i, i < length l /\
  s' = with_map s (fold_left (fun m n => map_insert n id m) (firstn i l) (s_map s)).
Proof.
  intros id. induction l as [|n l IH]; intros k s s' E; cbn [insert_names] in E; [discriminate E|].
  destruct k as [|k].
  - injection E as <-. exists 0. split; [cbn; lia|]. now destruct s.
  - unfold bindA at 1, alloc at 1 in E. unfold bindA at 1, plain at 1, modify at 1 in E. cbv iota beta zeta in E.
    destruct (IH _ _ _ E) as [i [Li ->]]. exists (Datatypes.S i). split; [cbn; lia|]. reflexivity.
Qed.
Lemma insert_names_ok : forall id l k s s' r, insert_names id l k s = (s', r) -> r <> NoMemory ->
  exists k', r = Done k' (Ok tt) /\ s' = with_map s (fold_left (fun m n => map_insert n id m) l (s_map s)).
Proof.
  intros id. induction l as [|n l IH]; intros k s s' r E N; cbn [insert_names] in E.
  - injection E as <- <-. exists k. split; [reflexivity|]. now destruct s.
  - destruct k as [|k]; [injection E as _ <-; congruence|].
    unfold bindA at 1, alloc at 1 in E. unfold bindA at 1, plain at 1, modify at 1 in E. cbv iota beta zeta in E.
    destruct (IH _ _ _ _ E N) as [k' [-> ->]]. exists k'. split; reflexivity.
Qed.
Lemma half_all : forall c s, half c (length (c_names c)) s =
  with_map (with_args s (s_args s ++ [Arg (fresh_id s) 0 c new_dyn])) (fold_left (fun m n => map_insert n (fresh_id s) m) (c_names c) (s_map s)).
Proof. intros c s. unfold half. now rewrite firstn_all. Qed.
(** what register_mem can do *)
Lemma register_mem_cases : forall c k s, table s -> sane_names c ->
  (register_mem c k s = (s, NoMemory)) \/
  (exists i, i < length (c_names c) /\ register_mem c k s = (half c i s, NoMemory)) \/
  (exists k', register_mem c k s = (registered s c, Done k' (Ok (fresh_id s)))).
Proof.
  intros c k s T N. remember (register_mem c k s) as R eqn:ER. unfold register_mem in ER. destruct k as [|k]; [now left|].
  unfold bindA at 1, alloc at 1 in ER. unfold bindA at 1, plain at 1, get at 1 in ER. cbv iota beta zeta in ER.
  destruct k as [|k]; [now left|]. right. unfold bindA at 1, alloc at 1 in ER. unfold bindA at 1, plain at 1, modify at 1 in ER. cbv iota beta zeta in ER.
  unfold bindA at 1 in ER. destruct (insert_names (fresh_id s) (c_names c) k (with_args s (s_args s ++ [Arg (fresh_id s) 0 c new_dyn]))) as [s1 r] eqn:E.
  destruct r as [k' r|].
  - right. destruct (insert_names_ok _ _ _ _ _ _ E) as [k2 [Er E1]]; [discriminate|]. injection Er as -> ->. exists k2.
    pose proof (table_half s c (length (c_names c)) T N) as Th. rewrite half_all in Th.
    change (s_map (with_args s (s_args s ++ [Arg (fresh_id s) 0 c new_dyn]))) with (s_map s) in E1. subst s1.
    cbv iota beta zeta in ER. unfold bindA at 1, plain at 1 in ER. rewrite (table_sort_args _ Th) in ER. exact ER.
  - left. destruct (insert_names_out _ _ _ _ _ E) as [i [Li ->]]. exists i. split; [exact Li | exact ER].
Qed.
(** what addArgument_mem can do *)
Definition cfg_wanted (ns : list str) (c : acfg) : Prop :=
  (exists n, ns = [n] /\ plain_name n /\ c = positional_cfg n) \/
  (exists flags, c = option_cfg flags /\ NoDup flags /\ (forall x, In x flags <-> In x ns) /\
     Forall (fun f => validFormatFlag f = None) flags).
Lemma addArgument_mem_cases : forall ns k s, table s ->
  (addArgument_mem ns k s = (s, NoMemory)) \/
  (exists k' e, addArgument_mem ns k s = (s, Done k' (Throw e))) \/
  (exists c, cfg_wanted ns c /\ sane_names c /\ (forall n, hd_error ns = Some n -> assoc n (s_map s) = None) /\
     ((exists i, i < length (c_names c) /\ addArgument_mem ns k s = (half c i s, NoMemory)) \/
      (exists k', addArgument_mem ns k s = (registered s c, Done k' (Ok (fresh_id s)))))).
Proof.
  intros ns k s T. remember (addArgument_mem ns k s) as R eqn:ER. unfold addArgument_mem in ER. destruct k as [|k]; [now left|]. unfold bindA at 1, alloc at 1 in ER.
  destruct ns as [|n rest]; [destruct k as [|k]; [now left | right; left; exists k; eexists; exact ER]|].
  destruct (_ && _)%bool eqn:C.
  - apply andb_true_iff in C. destruct C as [C1 C2]. destruct rest; [|discriminate]. apply negb_true_iff in C2.
    destruct n as [|x n]; [destruct k as [|k]; [now left | right; left; exists k; eexists; exact ER]|].
    unfold bindA at 1, plain at 1, get at 1 in ER. cbv iota beta zeta in ER.
    destruct (mem_key (String x n) (s_map s)) eqn:K; [destruct k as [|k]; [now left | right; left; exists k; eexists; exact ER]|].
    destruct (register_mem_cases (positional_cfg (String x n)) k s T) as [E|Rg]; [split; discriminate| |].
    + left. now rewrite ER.
    + right. right. exists (positional_cfg (String x n)). split; [left; exists (String x n); split; [reflexivity|]; split; [apply not_dash_plain; [discriminate | exact C2] | reflexivity]|].
      split; [split; discriminate|]. split; [|rewrite ER; exact Rg]. intros m E. injection E as <-. now apply mem_key_false.
  - unfold bindA at 1, plain at 1, get at 1 in ER. cbv iota beta zeta in ER.
    destruct (add_flags n (s_map s) (n :: rest) []) as [e|flags] eqn:A; [destruct k as [|k]; [now left | right; left; exists k; eexists; exact ER]|].
    destruct (add_flags_ok _ _ _ _ _ A) as [H1 [H2 [H3 H4]]]. specialize (H1 ltac:(discriminate)).
    assert (Sm : forall x, In x flags <-> In x (n :: rest)) by (intros x; rewrite H3; cbn; tauto).
    assert (NE : c_names (option_cfg flags) <> []).
    { intros E. assert (I : In n (sort_flags flags)) by (apply sort_flags_In, Sm; now left).
      change (sort_flags flags = []) in E. rewrite E in I. destruct I. }
    assert (SN : sane_names (option_cfg flags)).
    { split; [exact NE|]. intros _. apply Forall_forall. intros x I. rewrite Forall_forall in H2. apply H2, Sm. now apply -> sort_flags_In in I. }
    destruct (register_mem_cases (option_cfg flags) k s T SN) as [E|Rg]; [left; now rewrite ER|].
    right. right. exists (option_cfg flags). split.
    { right. exists flags. split; [reflexivity|]. split; [apply H4; constructor|]. split; [exact Sm|].
      apply Forall_forall. intros x I. rewrite Forall_forall in H2. apply H2, Sm, I. }
    split; [exact SN|]. split; [|rewrite ER; exact Rg]. intros m E. injection E as <-. now apply mem_key_false.
Qed.
Lemma table_registered : forall s c, table s -> sane_names c -> table (registered s c).
Proof.
  intros s c T N. unfold registered. rewrite <- half_all. apply table_perm; [apply table_half; assumption | apply sort_perm].
Qed.
Lemma table_addArgument : forall ns, presA table (addArgument_mem ns).
Proof.
  intros ns k s T. destruct (addArgument_mem_cases ns k s T) as [->|[[k' [e ->]]|[c [_ [N [_ [[i [_ ->]]|[k' ->]]]]]]]]; try exact T.
  - now apply table_half.
  - now apply table_registered.
Qed.
Lemma table_help_setup : presA table help_setup_mem.
Proof.
  unfold help_setup_mem. apply presA_bind; [apply presA_plain; intros s T; exact T|]. intros s0.
  destruct (s_help s0); [apply presA_plain; intros s T; exact T|]. apply presA_bind; [apply presA_alloc|]. intros _. cbv zeta.
  destruct (_ && _)%bool; [apply presA_plain; intros s T; exact T|].
  apply presA_bind; [apply table_addArgument|]. intros id. apply presA_bind; [apply table_keepsA, shapeA_action|]. intros _.
  apply presA_bind; [|intros _; apply presA_plain; intros s T; exact T]. apply presA_bind; [apply presA_alloc|]. intros _.
  apply presA_plain, table_keeps, shape_help.
Qed.

(** removal *)
Lemma table_remove_one : forall n, pres table (remove_one n).
Proof.
  intros n s T. pose proof T as [T1 T2 T3 T4 T5]. unfold remove_one. unfold bind at 1, find_name.
  destruct (assoc n (s_map s)) as [id|] eqn:A; [|exact T].
  unfold bind at 1. rewrite deref_eq. destruct (find_id id (s_args s)) as [a|] eqn:F; [|exact T].
  apply find_id_In in F. destruct F as [Ia Ea].
  destruct (negb (mem_str n (c_names (a_cfg a)))); [exact T|].
  unfold bind at 1, set_cfg at 1, modify at 1. cbv beta iota zeta.
  unfold bind at 1, modify at 1. cbv beta iota zeta. unfold bind at 1, get. cbv beta iota zeta.
  match goal with |- context [s_map (with_map ?x ?y)] => change (s_map (with_map x y)) with (del_key n (s_map s)) end.
  set (g := fun b => arg_cfg b (cfg_names (a_cfg b) (remove_first n (c_names (a_cfg b))))).
  change (with_args s (upd_id id (fun b => arg_cfg b (cfg_names (a_cfg b) (remove_first n (c_names (a_cfg b))))) (s_args s))) with (tweak id g s).
  destruct (existsb (fun kv => Nat.eqb (snd kv) id) (del_key n (s_map s))) eqn:X.
  - apply existsb_exists in X. destruct X as [[k i] [Hk Ek]]. cbn [snd] in Ek. apply Nat.eqb_eq in Ek. subst i.
    assert (Mine : forall k0, In (k0, id) (del_key n (s_map s)) -> In k0 (remove_first n (c_names (a_cfg a)))).
    { intros k0 H. apply del_key_In in H. destruct H as [H N0]. cbn [fst] in N0. destruct (T3 _ _ H) as [b [Ib [Eb Nb]]].
      apply In_remove_first; [|exact N0]. now rewrite <- (find_id_unique id (s_args s) a ltac:(rewrite <- Ea; now apply In_find_id) T1 b Ib Eb). }
    assert (Tm : table (with_map (tweak id g s) (del_key n (s_map s)))).
    { constructor; cbn [s_args s_map with_map].
      - unfold tweak. cbn [s_args with_args]. rewrite upd_id_ids; [exact T1 | reflexivity].
      - now apply del_key_NoDup.
      - intros k1 i Hk1. pose proof Hk1 as Hk0. apply del_key_In in Hk1. destruct Hk1 as [Hk1 Nk1]. destruct (T3 _ _ Hk1) as [b [Ib [Eb Nb]]].
        eexists; split; [apply upd_id_In; exists b; split; [exact Ib | reflexivity]|].
        destruct (Nat.eqb (a_id b) id); split; try exact Eb; try exact Nb. unfold g. cbn [a_cfg arg_cfg c_names cfg_names]. now apply In_remove_first.
      - intros b Ib. unfold tweak in Ib. cbn [s_args with_args] in Ib. apply upd_id_In in Ib. destruct Ib as [b0 [Ib0 ->]].
        destruct (Nat.eqb_spec (a_id b0) id) as [E|E]; [|now apply T4].
        rewrite (find_id_unique id (s_args s) a ltac:(rewrite <- Ea; now apply In_find_id) T1 b0 Ib0 E).
        pose proof (Mine k Hk) as Y. unfold g. cbn [a_cfg arg_cfg c_names cfg_names]. intros Z. rewrite Z in Y. destruct Y.
      - intros b Ib. unfold tweak in Ib. cbn [s_args with_args] in Ib. apply upd_id_In in Ib. destruct Ib as [b0 [Ib0 ->]].
        destruct (Nat.eqb_spec (a_id b0) id) as [E|E]; [|now apply T5]. intros P. pose proof (T5 b0 Ib0 P) as Y. unfold g. cbn [a_cfg arg_cfg c_names cfg_names].
        rewrite Forall_forall in Y |- *. intros x Hx. apply Y. now apply remove_first_In in Hx. }
    unfold set_cfg, modify. cbn [fst]. apply (table_tweak _ id); [exact Tm | reflexivity | |].
    { intros b _ _ m Im. cbn [a_cfg arg_cfg c_names cfg_names]. now apply sort_flags_In. }
    intros b _ _ P. split; [exact P|]. cbn [a_cfg arg_cfg c_names cfg_names]. intros m Im. left. now apply -> sort_flags_In in Im.
  - assert (NX : forall k, ~ In (k, id) (del_key n (s_map s))).
    { intros k Hk. rewrite <- not_true_iff_false in X. apply X. apply existsb_exists. exists (k, id); split; [exact Hk | apply Nat.eqb_refl]. }
    set (s1 := with_map (tweak id g s) (del_key n (s_map s))).
    assert (Td : table (with_args s1 (filter (fun b => negb (Nat.eqb (a_id b) id)) (s_args s1)))).
    { replace (filter (fun b => negb (Nat.eqb (a_id b) id)) (s_args s1)) with (filter (fun b => negb (Nat.eqb (a_id b) id)) (s_args s)) by (symmetry; apply filter_upd; reflexivity).
      constructor; cbn [s_args s_map with_args with_map s1].
      - clear -T1. induction (s_args s) as [|x l IH]; cbn [filter map] in *; [constructor|].
        inversion T1; subst. destruct (negb (Nat.eqb (a_id x) id)); cbn [map]; [|auto].
        constructor; [|auto]. intros H. apply H1. apply in_map_iff in H. destruct H as [y [<- Hy]]. apply filter_In in Hy. now apply in_map.
      - now apply del_key_NoDup.
      - intros k i Hk. pose proof Hk as Hk0. apply del_key_In in Hk. destruct Hk as [Hk Nk]. destruct (T3 _ _ Hk) as [b [Ib [Eb Nb]]]. exists b.
        split; [|split; assumption]. apply filter_In. split; [exact Ib|]. apply negb_true_iff, Nat.eqb_neq. intros E. apply (NX k). now rewrite <- E, Eb.
      - intros b Ib. apply filter_In in Ib. now apply T4.
      - intros b Ib. apply filter_In in Ib. now apply T5. }
    assert (Same : forall s2 (m : M unit), s_args s2 = s_args s1 -> s_map s2 = s_map s1 ->
       table (with_args s2 (filter (fun b => negb (Nat.eqb (a_id b) id)) (s_args s2)))).
    { intros s2 _ E1 E2. eapply table_same; [exact Td | cbn [s_args with_args]; now rewrite E1 | exact E2]. }
    repeat match goal with |- context [if optr_eqb ?x ?y then _ else _] => destruct (optr_eqb x y) end;
      cbv beta iota zeta delta [bind delete_valid modify ret fst]; apply (Same _ (ret tt)); reflexivity.
Qed.
Lemma table_remove : forall l, pres table (removeArguments l).
Proof.
  intros l s T. unfold removeArguments. destruct l as [|n l]; [exact T|]. unfold bind at 1, get.
  destruct (find _ (n :: l)); [exact T|]. revert s T. apply pres_bind; [|intros _; apply table_sorts].
  generalize (n :: l). clear. induction l as [|n l IH]; cbn [remove_loop]; [intros s T; exact T|].
  apply pres_bind; [apply table_remove_one | intros _; exact IH].
Qed.

(* ------------------------------------------------------------------ *)
(** ** whole calls against the main model *)
Lemma pres_of_refines : forall P {A} (m : AM A) (m' : M A) s, presA P m -> refines_at m m' s -> P s -> P (fst (m' s)).
Proof. intros P A m m' s H [c [_ G]] Ps. specialize (H (c + 0) s Ps). now rewrite G in H. Qed.
Lemma refines_run_meth : forall id m s, table s -> refines_at (run_meth_mem id m) (run_meth id m) s.
Proof.
  intros id m s T. destruct m; cbn [run_meth_mem run_meth].
  - apply refines_flag.
  - apply refines_action.
  - apply refines_plain.
  - apply refines_alloc_, refines_plain.
  - apply refines_alloc_, refines_plain.
  - apply refines_nargs.
  - apply refines_defaults.
  - apply refines_plain.
  - apply refines_dest, T.
Qed.
Lemma refines_run_meths : forall ms id s, table s -> refines_at (run_meths_mem id ms) (run_meths id ms) s.
Proof.
  induction ms as [|m ms IH]; intros id s T; cbn [run_meths_mem run_meths]; [apply refines_plain|].
  apply refines_bind_at; [now apply refines_run_meth|]. intros u s1 E. apply IH.
  pose proof (pres_of_refines table _ _ s (table_run_meth id m) (refines_run_meth id m s T) T) as T1. now rewrite E in T1.
Qed.
Lemma refines_insert : forall id l, refines (insert_names id l)
  (modify (fun s => with_map s (fold_left (fun m n => map_insert n id m) l (s_map s)))).
Proof.
  intros id. induction l as [|n l IH]; cbn [insert_names].
  - eapply refines_ext; [|apply refines_plain]. intros s. unfold ret, modify. now destruct s.
  - apply refines_alloc_. eapply refines_ext; [|apply refines_bind; [apply refines_plain | intros u; apply IH]].
    intros s. reflexivity.
Qed.
Lemma refines_register : forall c, refines (register_mem c) (register c).
Proof.
  intros c. unfold register_mem, register. apply refines_alloc_. apply refines_bind; [apply refines_plain|]. intros s. cbv zeta.
  apply refines_alloc_. apply refines_bind; [apply refines_plain|]. intros _. apply refines_bind; [apply refines_insert|]. intros _.
  apply refines_bind; [apply refines_plain|]. intros _. apply refines_plain.
Qed.
Lemma refines_addArgument : forall ns, refines (addArgument_mem ns) (addArgument ns).
Proof.
  intros ns. unfold addArgument_mem, addArgument. apply refines_alloc_. destruct ns as [|n rest]; [apply refines_plain|].
  destruct (_ && _)%bool.
  - destruct n; [apply refines_plain|]. apply refines_bind; [apply refines_plain|]. intros s.
    destruct (mem_key _ _); [apply refines_plain | apply refines_register].
  - apply refines_bind; [apply refines_plain|]. intros s. destruct (add_flags _ _ _ _); [apply refines_plain | apply refines_register].
Qed.
Lemma refines_help_setup : refines help_setup_mem help_setup.
Proof.
  unfold help_setup_mem, help_setup. apply refines_bind; [apply refines_plain|]. intros s. destruct (s_help s); [apply refines_plain|].
  apply refines_alloc_. cbv zeta. destruct (_ && _)%bool; [apply refines_plain|].
  apply refines_bind; [apply refines_addArgument|]. intros id. apply refines_bind; [apply refines_action|]. intros _.
  apply refines_bind; [apply refines_alloc_, refines_plain|]. intros _. apply refines_plain.
Qed.
Theorem refines_step : forall o s, table s -> refines_at (step_mem o) (step o) s.
Proof.
  intros o s T. destruct o; try (apply refines_plain); try (apply refines_alloc_, refines_plain).
  - cbn [step_mem step]. apply refines_bind_at; [apply refines_addArgument|]. intros id s1 E. apply refines_run_meths.
    pose proof (pres_of_refines table _ _ s (table_addArgument nameOrFlags) (refines_addArgument nameOrFlags s) T) as T1. now rewrite E in T1.
  - cbn [step_mem step]. apply refines_alloc. apply refines_bind_at; [apply refines_plain|]. intros id s1 E. apply refines_run_meths.
    unfold updateArgument, bind, find_name in E. destruct (assoc nameOrFlag (s_map s)) as [i|]; [|discriminate E].
    rewrite deref_eq in E. destruct (find_id i (s_args s)); [|discriminate E]. injection E as <- _. exact T.
Qed.

(** the table is sound after every history *)
Lemma table_parse_with : forall fuel argv, presC table (parse_with fuel argv).
Proof.
  intros. unfold parse_with. apply presC_bind.
  { apply presC_of. intros s H. eapply table_frame; [exact H | apply frame_clear_args]. }
  intros _. apply presC_bind.
  { apply presC_of. intros s T. exact (pres_of_refines table _ _ s table_help_setup (refines_help_setup s) T). }
  intros early. destruct early.
  { apply presC_of; intros s H; exact H. }
  apply presC_bind.
  { apply presC_of. intros s H. eapply table_frame; [exact H | apply frame_scan]. }
  intros _ s s' r W E C. eapply table_frame; [exact W|]. eapply frame_after_scan; eassumption.
Qed.
Lemma table_update : forall n, pres table (updateArgument n).
Proof.
  intros n s T. unfold updateArgument, bind, find_name. destruct (assoc n (s_map s)) as [id|]; [|exact T].
  rewrite deref_eq. destruct (find_id id (s_args s)); exact T.
Qed.
Lemma table_init : table init.
Proof. apply wf0_table, wf_init. Qed.
Lemma table_clear : forall s, table (fst (clear s)).
Proof. intros s. apply (table_same init); [exact table_init | reflexivity | reflexivity]. Qed.
Lemma table_step_mem : forall o k s s', table s -> step_mem o k s = (s', NoMemory) -> table s'.
Proof.
  intros o k s s' T E. destruct o.
  5: { cbn [step_mem] in E. destruct k as [|k]; [injection E as <-; exact T|]. unfold bindA, alloc, plain in E. cbn [step] in E.
    destruct (parseArguments argv s) as [s1 r] eqn:Ep. destruct r as [u|e|x| |]; try discriminate E.
    pose proof (table_parse_with _ argv s s1 _ T Ep I) as T1. destruct k; [injection E as <-; exact T1 | discriminate E]. }
  all: match type of E with step_mem ?o ?kk ?ss = _ => assert (H : presA table (step_mem o)); [|specialize (H kk ss T); rewrite E in H; exact H] end.
  1: { cbn [step_mem]. apply presA_bind; [apply table_addArgument | intros id; apply table_run_meths]. }
  1: { cbn [step_mem]. apply presA_bind; [apply presA_alloc|]. intros _. apply presA_bind; [apply presA_plain, table_update | intros id; apply table_run_meths]. }
  1: { cbn [step_mem]. apply presA_bind; [apply presA_alloc|]. intros _. apply presA_plain. cbn [step]. apply table_remove. }
  1: { cbn [step_mem]. apply presA_plain. intros t _. apply table_clear. }
  all: cbn [step_mem]; try (apply presA_bind; [apply presA_alloc|]; intros _); apply presA_plain; intros t Tt; eapply table_same; [exact Tt | reflexivity | reflexivity].
Qed.
Lemma table_step : forall o s s' r, table s -> step o s = (s', r) -> completed r -> table s'.
Proof.
  intros o s s' r T E C. destruct o.
  5: { eapply table_parse_with; [exact T | exact E | exact C]. }
  3: { pose proof (table_remove nameOrFlags s T) as H. cbn [step] in E. rewrite E in H. exact H. }
  3: { pose proof (table_clear s) as H. cbn [step] in E. rewrite E in H. exact H. }
  1: { pose proof (pres_of_refines table _ _ s (presA_bind table _ _ (table_addArgument nameOrFlags) (fun id => table_run_meths ms id)) (refines_step (OpAdd nameOrFlags ms) s T) T) as H.
    rewrite E in H. exact H. }
  1: { assert (P : presA table (step_mem (OpUpdate nameOrFlag ms))).
    { cbn [step_mem]. apply presA_bind; [apply presA_alloc|]. intros _. apply presA_bind; [apply presA_plain, table_update | intros id; apply table_run_meths]. }
    pose proof (pres_of_refines table _ _ s P (refines_step (OpUpdate nameOrFlag ms) s T) T) as H. rewrite E in H. exact H. }
  all: cbn [step] in E; unfold modify in E; injection E as <- _; eapply table_same; [exact T | reflexivity | reflexivity].
Qed.
Theorem table_out : forall o s s', table s -> out_of_memory o s s' -> table s'.
Proof.
  intros o s s' T H. destruct H as [o k s s' _ E|argv k s s0 s1 r s' F0 E F1]; [eapply table_step_mem; eassumption|].
  eapply table_frame; [|exact F1]. pose proof (table_help_setup k s0 (table_frame _ _ T F0)) as H. now rewrite E in H.
Qed.
Theorem reach_mem_table : forall s, reach_mem s -> table s.
Proof.
  induction 1 as [|s o s' r H IH E C|s o s' H IH O]; [apply table_init | eapply table_step; eassumption | eapply table_out; eassumption].
Qed.
