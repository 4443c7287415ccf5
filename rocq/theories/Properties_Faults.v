(** Properties_Faults.v -- C73: exceptions thrown by the user's validators and destination
    functions. *)
From Coq Require Import Permutation Sorted.
From Verif Require Import Base Model_Utils Model_Number Model_Types Model_Argument Model_Usage Model_Args Model_Api Model_Calls Model_Faults
  Spec_Order Spec_Names Spec_Reading Spec_Parse Spec_Decl Spec_Finish Spec_History Spec_Api Spec_Result
  Proofs_Base Proofs_Order Proofs_Frame Proofs_Inv Proofs_ReadFacts Proofs_Reading Proofs_Parse Proofs_Decl Proofs_Finish
  Proofs_Meth Proofs_History Proofs_Config Proofs_Check Proofs_Names Proofs_Central Proofs_Ghost Proofs_Quiet Demo Properties_Words Properties_Parse Properties_Defaults Properties_Repeat Properties_Calls.

(** The first call of user code in the record [l] that throws, after [h] has happened: its
    place in [l] and the exception. *)
Fixpoint first_throw (throws : thrower) (h l : list happening) : option (nat * str) :=
  match l with
  | [] => None
  | x :: r =>
      match (if user_code x then throws (h ++ [x]) else None) with
      | Some e => Some (0, e)
      | None => match first_throw throws (h ++ [x]) r with Some (k, e) => Some (Datatypes.S k, e) | None => None end
      end
  end.
Lemma first_throw_app : forall throws l m h, first_throw throws h (l ++ m) =
  match first_throw throws h l with
  | Some p => Some p
  | None => match first_throw throws (h ++ l) m with Some (k, e) => Some (length l + k, e) | None => None end
  end.
Proof.
  intros throws. induction l as [|x l IH]; intros m h.
  - cbn [app first_throw length Nat.add]. rewrite app_nil_r. destruct (first_throw throws h m) as [[k e]|]; reflexivity.
  - cbn [app first_throw]. destruct (if user_code x then throws (h ++ [x]) else None); [reflexivity|]. rewrite IH, <- app_assoc. cbn [app].
    destruct (first_throw throws (h ++ [x]) l) as [[k e]|]; [reflexivity|]. destruct (first_throw throws (h ++ x :: l) m) as [[k e]|]; reflexivity.
Qed.

(** * what the last stage leaves of an argument *)
(** the same but for values that the next parse resets, and the log of writes *)
Definition same_but_values (s s' : state) : Prop :=
  with_dlog s' [] = with_dlog (with_args s (s_args s')) [] /\ map clear_arg (s_args s') = map clear_arg (s_args s).
Lemma sbv_refl : forall s, same_but_values s s.
Proof. intros s. split; [destruct s; reflexivity | reflexivity]. Qed.
Lemma sbv_trans : forall a b c, same_but_values a b -> same_but_values b c -> same_but_values a c.
Proof.
  intros a b c [H1 H2] [H3 H4]. split; [|congruence]. rewrite H3.
  assert (X : with_dlog (with_args b (s_args c)) [] = with_args (with_dlog b []) (s_args c)) by (destruct b; reflexivity). rewrite X, H1. destruct a; reflexivity.
Qed.
Lemma sbv_sym : forall a b, same_but_values a b -> same_but_values b a.
Proof.
  intros a b [H1 H2]. split; [|congruence].
  assert (X : with_dlog (with_args b (s_args a)) [] = with_args (with_dlog b []) (s_args a)) by (destruct b; reflexivity). rewrite X, H1. destruct a; reflexivity.
Qed.
Lemma sbv_set : forall id f, (forall a, clear_arg (arg_dyn a (f (a_dyn a))) = clear_arg a) -> keeps same_but_values (set_dyn id f).
Proof.
  intros id f H s. unfold set_dyn, modify. cbn [fst]. split; [destruct s; reflexivity|]. cbn [s_args with_args]. unfold upd_id. rewrite map_map. apply map_ext.
  intros a. destruct (Nat.eqb _ _); [apply H | reflexivity].
Qed.
Lemma clear_store_elems : forall es vs, map clear_elem (store_elems es vs) = map clear_elem es.
Proof. induction es as [|e es IH]; intros vs; [destruct vs; reflexivity|]. destruct vs as [|v vs]; [reflexivity|]. cbn [store_elems map]. now rewrite IH. Qed.
Lemma clear_store_leaves : forall ls vs, map clear_leaf (fst (store_leaves ls vs)) = map clear_leaf ls.
Proof.
  induction ls as [|l ls IH]; intros vs; [destruct vs; reflexivity|]. destruct vs as [|v vs]; [reflexivity|]. cbn [store_leaves]. specialize (IH vs).
  destruct (store_leaves ls vs) as [r rest]. cbn [fst map] in *. now rewrite IH.
Qed.
Lemma clear_store_groups : forall es vs, map clear_elem (store_groups es vs) = map clear_elem es.
Proof.
  induction es as [|e es IH]; intros vs; [destruct vs; reflexivity|]. cbn [store_groups].
  pose proof (clear_store_leaves (el_subs e) vs) as X. destruct (store_leaves (el_subs e) vs) as [r rest]. cbn [fst map] in *. rewrite IH. f_equal.
  unfold clear_elem. cbn [el_leaf el_subs]. now rewrite X.
Qed.
Lemma clear_num : forall t d, map clear_elem (d_elems (num_dyn t d)) = map clear_elem (d_elems d).
Proof.
  intros t d. assert (E : map clear_elem (map num_elem (d_elems d)) = map clear_elem (d_elems d)).
  { rewrite map_map. apply map_ext. intros e. unfold num_elem, clear_elem. destruct (el_subs e) as [|x l]; [reflexivity|]. cbn [el_leaf el_subs]. rewrite map_map. reflexivity. }
  unfold num_dyn. destruct (d_elems d) eqn:Q; destruct t; cbn [d_elems]; try rewrite Q; try reflexivity; exact E.
Qed.
Lemma sbv_validate : forall a v, keeps same_but_values (validate a v).
Proof.
  intros a v. unfold validate. cbv zeta.
  assert (FR : forall m, keeps same_but_values (do f <- front (c_names (a_cfg a)) ;; @throw unit KValid f m)).
  { intros m s. unfold front. destruct (c_names (a_cfg a)); apply sbv_refl. }
  destruct (v_fn v _) as [[] vs|msg|]; try apply FR; [|intros s; apply sbv_refl].
  destruct (c_type (a_cfg a)); try apply FR; try (destruct vs as [|x vs]; [intros s; apply sbv_refl|]);
    (apply sbv_set; intros b; unfold clear_arg; cbn [arg_dyn a_cfg a_dyn d_elems dyn_arg dyn_elems a_id a_gen]; rewrite ?clear_store_elems, ?clear_store_groups; destruct b; reflexivity).
Qed.
Lemma sbv_number : forall id, keeps same_but_values (toNumber id).
Proof.
  intros id s. unfold toNumber, bind, deref. destruct (find_id id (s_args s)); [|apply sbv_refl].
  apply sbv_set. intros b. unfold clear_arg. cbn [arg_dyn a_cfg a_dyn]. rewrite clear_num. destruct b; reflexivity.
Qed.
Lemma sbv_dest : forall id, keeps same_but_values (toDest id).
Proof.
  intros id s. unfold toDest, bind, deref, ret. destruct (find_id id (s_args s)) as [a|]; [|apply sbv_refl].
  destruct (c_dest (a_cfg a)) as [d|]; [|apply sbv_refl]. destruct (dest_events a d) as [evs [e|]]; (split; [destruct s; reflexivity | reflexivity]).
Qed.

(* ------------------------------------------------------------------ *)
(** * the run with faults follows the run without up to the first throw *)
Definition mirror (throws : thrower) {A} (m : G A) (t : T A) : Prop := forall h s,
  match first_throw throws h (snd (t s)) with
  | None => m h s = ((fst (fst (t s)), Normal (snd (fst (t s)))), h ++ snd (t s))
  | Some (k, e) => exists s2, m h s = ((s2, Foreign e), h ++ firstn (Datatypes.S k) (snd (t s))) /\ same_but_values s2 (fst (fst (t s)))
  end.
Definition tkeeps {A} (t : T A) : Prop := forall s, same_but_values s (fst (fst (t s))).
Definition silent {A} (t : T A) : Prop := forall s, snd (t s) = [].
Lemma tkeeps_quietly : forall A (m : M A), keeps same_but_values m -> tkeeps (quietly m). Proof. intros A m H s. apply H. Qed.
Lemma tkeeps_bind : forall A B (m : T A) (f : A -> T B), tkeeps m -> (forall a, tkeeps (f a)) -> tkeeps (tbind m f).
Proof.
  intros A B m f Hm Hf s. unfold tbind. specialize (Hm s). destruct (m s) as [[s1 r] l]. cbn [fst] in Hm. destruct r; try exact Hm.
  specialize (Hf a s1). destruct (f a s1) as [p l']. cbn [fst] in *. exact (sbv_trans _ _ _ Hm Hf).
Qed.
Section Mirror.
Variable throws : thrower.
Lemma mirror_lift : forall A (m : M A), mirror throws (lift m) (quietly m).
Proof. intros A m h s. unfold quietly, lift. cbn [snd first_throw]. destruct (m s). cbn [fst snd]. now rewrite app_nil_r. Qed.
Lemma first_throw_lt : forall l h k e, first_throw throws h l = Some (k, e) -> k < length l.
Proof.
  induction l as [|x l IH]; intros h k e H; [discriminate H|]. cbn [first_throw] in H. destruct (if user_code x then _ else _); [injection H as <- <-; cbn; lia|].
  destruct (first_throw throws (h ++ [x]) l) as [[k' e']|] eqn:F; [|discriminate H]. injection H as <- <-. cbn [length]. specialize (IH _ _ _ F). lia.
Qed.
Lemma mirror_bind : forall A B (m : G A) (t : T A) (f : A -> G B) (u : A -> T B),
  mirror throws m t -> (forall a, mirror throws (f a) (u a)) -> (silent t \/ forall a, tkeeps (u a)) -> mirror throws (gbind m f) (tbind t u).
Proof.
  intros A B m t f u Hm Hf K h s. specialize (Hm h s). unfold gbind, tbind.
  assert (K' : snd (t s) = [] \/ forall a, tkeeps (u a)) by (destruct K as [K|K]; [left; apply K | now right]). clear K.
  destruct (t s) as [[s1 r] l]. cbn [fst snd] in *.
  destruct (first_throw throws h l) as [[k e]|] eqn:F.
  - destruct Hm as [s2 [E X]]. rewrite E.
    assert (KU : forall a, tkeeps (u a)). { destruct K' as [->|K']; [discriminate F | exact K']. }
    destruct r; cbn [snd fst]; try (rewrite F; exists s2; split; [reflexivity | exact X]).
    specialize (KU a s1). destruct (u a s1) as [p l']. cbn [fst snd] in *. rewrite first_throw_app, F. exists s2. split.
    + rewrite firstn_app. pose proof (first_throw_lt _ _ _ _ F). replace (Datatypes.S k - length l) with 0 by lia. now rewrite firstn_O, app_nil_r.
    + exact (sbv_trans _ _ _ X KU).
  - rewrite Hm. destruct r; cbn [fst snd]; try (rewrite F; reflexivity).
    specialize (Hf a (h ++ l) s1). destruct (u a s1) as [[s2 r2] l']. cbn [fst snd] in *. rewrite first_throw_app, F.
    destruct (first_throw throws (h ++ l) l') as [[k e]|] eqn:F2.
    + destruct Hf as [s3 [E X]]. exists s3. split; [|exact X]. rewrite E. f_equal. rewrite <- app_assoc. f_equal.
      rewrite firstn_app. rewrite (firstn_all2 l) by lia. replace (Datatypes.S (length l + k) - length l) with (Datatypes.S k) by lia. reflexivity.
    + rewrite Hf. now rewrite <- app_assoc.
Qed.
Lemma mirror_user : forall x, user_code x = true -> mirror throws (user throws x) (record [x]).
Proof.
  intros x U h s. unfold record, user. cbn [snd fst first_throw]. rewrite U. destruct (throws (h ++ [x])) as [e|]; [|reflexivity].
  exists s. split; [reflexivity | apply sbv_refl].
Qed.
(** a function given to dest() is called once, and then nothing else happens *)
Lemma dest_user : forall id s, let l := skipn (length (s_dlog s)) (s_dlog (fst (toDest id s))) in
  (existsb user_code (map Delivered l) = true /\ exists e, l = [e]) \/ existsb user_code (map Delivered l) = false.
Proof.
  intros id s. cbv zeta. destruct (existsb user_code _) eqn:X; [left; split; [reflexivity|] | now right].
  apply existsb_exists in X. destruct X as [x [Ix U]]. apply in_map_iff in Ix. destruct Ix as [ev [<- Iev]].
  unfold toDest, bind, deref, ret, ub, modify in *. destruct (find_id id (s_args s)) as [a|].
  2:{ cbn [fst] in Iev. exfalso. rewrite <- (app_nil_r (s_dlog s)) in Iev at 2. rewrite skipn_app_len in Iev. exact Iev. }
  destruct (c_dest (a_cfg a)) as [d|].
  2:{ cbn [fst] in Iev. exfalso. rewrite <- (app_nil_r (s_dlog s)) in Iev at 2. rewrite skipn_app_len in Iev. exact Iev. }
  assert (Y : In ev (fst (dest_events a d)) -> exists e, fst (dest_events a d) = [e]).
  { clear Iev. unfold dest_events. destruct (d_kind d), (d_custom d); try (intros _; eexists; reflexivity); intros Iev; exfalso.
    - unfold ev_of in Iev. destruct (single_to _ _); cbn in Iev; try contradiction Iev. destruct Iev as [<-|[]]. discriminate U.
    - destruct (d_elems (a_dyn a)) as [|el es].
      + unfold ev_of in Iev. destruct (single_to _ _); cbn in Iev; try contradiction Iev. destruct Iev as [<-|[]]. discriminate U.
      + apply ev_seq_In in Iev. destruct Iev as [x [Ix Iev]]. apply in_map_iff in Ix. destruct Ix as [w [<- _]].
        unfold ev_of in Iev. destruct (str_to _ _ _); cbn in Iev; try contradiction Iev. destruct Iev as [<-|[]]. discriminate U.
    - destruct (d_elems (a_dyn a)) as [|el es].
      + unfold ev_of in Iev. destruct (single_to _ _); cbn in Iev; try contradiction Iev. destruct Iev as [<-|[]]. discriminate U.
      + apply ev_seq_In in Iev. destruct Iev as [x [Ix Iev]]. apply in_map_iff in Ix. destruct Ix as [w [<- _]].
        destruct (res_all _) as [vs [z|]]; cbn in Iev; try contradiction Iev. destruct Iev as [<-|[]]. discriminate U. }
  destruct (dest_events a d) as [evs [e|]]; cbn [fst s_dlog with_dlog] in *; rewrite skipn_app_len in *; exact (Y Iev).
Qed.
Lemma no_throw : forall l h, existsb user_code l = false -> first_throw throws h l = None.
Proof.
  induction l as [|x l IH]; intros h X; [reflexivity|]. cbn [existsb] in X. apply orb_false_iff in X. destruct X as [X1 X2]. cbn [first_throw]. rewrite X1. now rewrite IH.
Qed.
Lemma mirror_dest : forall id, mirror throws (toDest_faulty throws id) (toDest_traced id).
Proof.
  intros id h s. unfold toDest_traced, toDest_faulty. cbv zeta. cbn [fst snd]. pose proof (dest_user id s) as D. cbv zeta in D.
  set (l := skipn (length (s_dlog s)) (s_dlog (fst (toDest id s)))) in *. destruct D as [[U [e El]]|U]; rewrite U.
  - rewrite El in *. cbn [map existsb] in *. rewrite orb_false_r in U. cbn [first_throw]. rewrite U. destruct (throws (h ++ [Delivered e])) as [x|]; [|reflexivity].
    eexists. split; [reflexivity | apply sbv_refl].
  - rewrite (no_throw _ _ U). reflexivity.
Qed.
Lemma tkeeps_record : forall l, tkeeps (record l). Proof. intros l s. apply sbv_refl. Qed.
Lemma tkeeps_dest : forall id, tkeeps (toDest_traced id). Proof. intros id s. apply sbv_dest. Qed.
Lemma tkeeps_validate : forall a v x, tkeeps (record x ;;;; quietly (validate a v)).
Proof. intros a v x. apply tkeeps_bind; [apply tkeeps_record | intros _; apply tkeeps_quietly, sbv_validate]. Qed.
Lemma sbv_deref : forall id, keeps same_but_values (deref id).
Proof. intros id. apply keeps_deref. exact sbv_refl. Qed.
Lemma sbv_ret : forall A (x : A), keeps same_but_values (ret x).
Proof. intros A x. apply keeps_ret. exact sbv_refl. Qed.
Lemma silent_quietly : forall A (m : M A), silent (quietly m). Proof. intros A m s. reflexivity. Qed.
Definition tail_of (id : nat) : T unit := quietly (toNumber id) ;;;; toDest_traced id.
Lemma tkeeps_tail : forall id, tkeeps (tail_of id).
Proof. intros id. apply tkeeps_bind; [apply tkeeps_quietly, sbv_number | intros _; apply tkeeps_dest]. Qed.
Lemma mirror_one : forall id, mirror throws (finish_one_faulty throws id) (finish_one_traced id) /\ tkeeps (finish_one_traced id).
Proof.
  intros id. unfold finish_one_faulty, finish_one_traced.
  assert (V : forall a, mirror throws (match c_valid (a_cfg a) with
         | Some v => if d_exist (a_dyn a) then gbind (user throws (Called (v_id v) (match to_vector a with Ok l => l | _ => [] end))) (fun _ => lift (validate a v)) else lift (ret tt)
         | None => lift (ret tt) end)
     (match c_valid (a_cfg a) with
      | Some v => if d_exist (a_dyn a) then record [Called (v_id v) (match to_vector a with Ok l => l | _ => [] end)] ;;;; quietly (validate a v) else quietly (ret tt)
      | None => quietly (ret tt) end) /\
     tkeeps (match c_valid (a_cfg a) with
      | Some v => if d_exist (a_dyn a) then record [Called (v_id v) (match to_vector a with Ok l => l | _ => [] end)] ;;;; quietly (validate a v) else quietly (ret tt)
      | None => quietly (ret tt) end)).
  { intros a. destruct (c_valid (a_cfg a)) as [v|]; [|split; [apply mirror_lift | apply tkeeps_quietly, sbv_ret]].
    destruct (d_exist (a_dyn a)); [|split; [apply mirror_lift | apply tkeeps_quietly, sbv_ret]]. split; [|apply tkeeps_validate].
    apply mirror_bind; [now apply mirror_user | intros _; apply mirror_lift | right; intros _; apply tkeeps_quietly, sbv_validate]. }
  split.
  - apply mirror_bind; [apply mirror_lift | | left; apply silent_quietly]. intros a.
    apply mirror_bind; [apply V | | right; intros _; apply tkeeps_tail]. intros _.
    apply mirror_bind; [apply mirror_lift | intros _; apply mirror_dest | left; apply silent_quietly].
  - apply tkeeps_bind; [apply tkeeps_quietly, sbv_deref|]. intros a. apply tkeeps_bind; [apply V | intros _; apply tkeeps_tail].
Qed.
Lemma mirror_finish : forall ids, mirror throws (finish_faulty throws ids) (finish_traced ids) /\ tkeeps (finish_traced ids).
Proof.
  induction ids as [|id ids [IH1 IH2]]; [split; [apply mirror_lift | apply tkeeps_quietly, sbv_ret]|]. cbn [finish_faulty finish_traced]. destruct (mirror_one id) as [M1 M2]. split.
  - apply mirror_bind; [exact M1 | intros _; exact IH1 | right; intros _; exact IH2].
  - apply tkeeps_bind; [exact M2 | intros _; exact IH2].
Qed.
Lemma mirror_parse : forall fuel argv, mirror throws (parse_with_faulty throws fuel argv) (parse_with_traced fuel argv).
Proof.
  intros fuel argv. unfold parse_with_faulty, parse_with_traced, after_scan_faulty, after_scan_traced.
  apply mirror_bind; [apply mirror_lift | intros _ | left; apply silent_quietly].
  apply mirror_bind; [apply mirror_lift | intros [] | left; apply silent_quietly]; [apply mirror_lift|].
  do 4 (apply mirror_bind; [apply mirror_lift | intros _ | left; apply silent_quietly]).
  apply mirror_bind; [apply mirror_lift | intros s | left; apply silent_quietly]. apply mirror_finish.
Qed.
End Mirror.

(* ------------------------------------------------------------------ *)
(** * C73 *)
(** User code that does not throw on this command line: as without exceptions. *)
Theorem C73_none : forall throws argv s, first_throw throws [] (happenings argv s) = None ->
  parseArguments_faulty throws argv s = ((fst (parseArguments argv s), Normal (snd (parseArguments argv s))), happenings argv s).
Proof.
  intros throws argv s H. pose proof (mirror_parse throws (parse_fuel argv s) argv [] s) as M. change (parse_with_traced (parse_fuel argv s) argv s) with (parseArguments_traced argv s) in M.
  unfold happenings in *. rewrite H in M. rewrite C71_same in M. exact M.
Qed.
Print Assumptions C73_none.
(** Otherwise the exception of the first call that throws comes out of parseArguments;
    what happened is what would have happened, up to and including that call. *)
Theorem C73_throws : forall throws argv s k e, first_throw throws [] (happenings argv s) = Some (k, e) ->
  exists s', parseArguments_faulty throws argv s = ((s', Foreign e), firstn (Datatypes.S k) (happenings argv s)) /\
    same_but_values s' (fst (parseArguments argv s)).
Proof.
  intros throws argv s k e H. pose proof (mirror_parse throws (parse_fuel argv s) argv [] s) as M. change (parse_with_traced (parse_fuel argv s) argv s) with (parseArguments_traced argv s) in M.
  unfold happenings in *. rewrite H in M. rewrite C71_same in M. exact M.
Qed.
Print Assumptions C73_throws.
(** [first_throw] is what its name says *)
Theorem C73_first : forall throws l k e, first_throw throws [] l = Some (k, e) <->
  (exists x, nth_error l k = Some x /\ user_code x = true) /\ throws (firstn (Datatypes.S k) l) = Some e /\
  (forall j x, j < k -> nth_error l j = Some x -> user_code x = true -> throws (firstn (Datatypes.S j) l) = None).
Proof.
  intros throws l. assert (X : forall l h k e, first_throw throws h l = Some (k, e) <->
    (exists x, nth_error l k = Some x /\ user_code x = true) /\ throws (h ++ firstn (Datatypes.S k) l) = Some e /\
    (forall j x, j < k -> nth_error l j = Some x -> user_code x = true -> throws (h ++ firstn (Datatypes.S j) l) = None)).
  { clear l. induction l as [|x l IH]; intros h k e.
    - split; [discriminate|]. intros [[x [X _]] _]. destruct k; discriminate X.
    - cbn [first_throw]. destruct (if user_code x then throws (h ++ [x]) else None) as [e0|] eqn:T0.
      + split.
        * intros H. injection H as <- <-. destruct (user_code x) eqn:U; [|discriminate T0]. split; [exists x; now split|]. split; [exact T0|]. intros j y Lj. lia.
        * intros [[y [N U]] [TH MIN]]. destruct (user_code x) eqn:Ux; [|discriminate T0]. destruct k as [|k].
          -- cbn [firstn] in TH. rewrite T0 in TH. injection TH as <-. reflexivity.
          -- specialize (MIN 0 x ltac:(lia) eq_refl Ux). cbn [firstn] in MIN. congruence.
      + specialize (IH (h ++ [x])). destruct (first_throw throws (h ++ [x]) l) as [[k' e']|] eqn:F.
        * split.
          -- intros H. injection H as <- <-. destruct (proj1 (IH k' e') eq_refl) as [A [B C]]. split; [exact A|]. split; [rewrite <- app_assoc in B; exact B|].
             intros [|j] y Lj N U; [cbn [nth_error] in N; injection N as ->; rewrite U in T0; exact T0|]. cbn [nth_error] in N.
             specialize (C j y ltac:(lia) N U). rewrite <- app_assoc in C. exact C.
          -- intros [[y [N U]] [TH MIN]]. destruct k as [|k]; [cbn [nth_error] in N; injection N as ->; rewrite U in T0; cbn [firstn] in TH; congruence|].
             assert (Q : Some (k', e') = Some (k, e)).
             { apply IH. split; [exists y; now split|]. split; [rewrite <- app_assoc; exact TH|]. intros j z Lj Nz Uz. rewrite <- app_assoc. apply (MIN (Datatypes.S j) z); [lia | exact Nz | exact Uz]. }
             injection Q as -> ->. reflexivity.
        * split; [discriminate|]. intros [[y [N U]] [TH MIN]]. destruct k as [|k]; [cbn [nth_error] in N; injection N as ->; rewrite U in T0; cbn [firstn] in TH; congruence|].
          assert (Q : None = Some (k, e)).
          { apply IH. split; [exists y; now split|]. split; [rewrite <- app_assoc; exact TH|]. intros j z Lj Nz Uz. rewrite <- app_assoc. apply (MIN (Datatypes.S j) z); [lia | exact Nz | exact Uz]. }
          discriminate Q. }
  intros k e. exact (X l [] k e).
Qed.
Print Assumptions C73_first.

(** The parser is left as the completed call would have left it, but for values that every
    parse resets: the next parse has the same outcome, leaves the same object (logs aside),
    writes the same to the destinations, and finds everything declared as it was. *)
Definition blank (s : state) : state := with_dlog (with_args s (map clear_arg (s_args s))) [].
Lemma blank_same : forall s1 s2, same_but_values s1 s2 -> blank s2 = blank s1.
Proof.
  intros s1 s2 [H1 H2]. unfold blank. rewrite H2.
  assert (X : forall s l, with_dlog (with_args s l) [] = with_args (with_dlog s []) l) by (intros []; reflexivity). rewrite !X, H1. destruct s1; reflexivity.
Qed.
Lemma parse_blank : forall argv s, parseArguments argv s = parseArguments argv (ghost [] (s_dlog s) (blank s)).
Proof.
  intros argv s. unfold parseArguments.
  assert (FS : parse_fuel argv (ghost [] (s_dlog s) (blank s)) = parse_fuel argv s).
  { unfold parse_fuel. f_equal. f_equal. unfold ghost, blank. cbn [s_args with_dlog with_freed with_args]. apply map_length. }
  rewrite FS. unfold parse_with. set (k := fun _ : unit => _).
  change (k tt (with_args s (map clear_arg (s_args s))) = k tt (with_args (ghost [] (s_dlog s) (blank s)) (map clear_arg (s_args (ghost [] (s_dlog s) (blank s)))))).
  f_equal. unfold ghost, blank. cbn [s_args with_dlog with_freed with_args s_freed s_dlog app]. rewrite map_map.
  rewrite (map_ext (fun x => clear_arg (clear_arg x)) clear_arg clear_arg_clear). rewrite app_nil_r. destruct s; reflexivity.
Qed.
Lemma parse_sbv : forall argv s1 s2, same_but_values s1 s2 ->
  exists x r d, parseArguments argv s1 = (with_dlog x (s_dlog s1 ++ d), r) /\ parseArguments argv s2 = (with_dlog x (s_dlog s2 ++ d), r).
Proof.
  intros argv s1 s2 H. rewrite (parse_blank argv s1), (parse_blank argv s2), (blank_same s1 s2 H), !eqv_parse.
  exists (fst (parseArguments argv (blank s1))), (snd (parseArguments argv (blank s1))), (s_dlog (fst (parseArguments argv (blank s1)))).
  split; f_equal; unfold ghost; cbn [app]; destruct (fst (parseArguments argv (blank s1))); reflexivity.
Qed.
Theorem C73_after : forall throws argv s s' e l, parseArguments_faulty throws argv s = ((s', Foreign e), l) ->
  exists s1, s1 = fst (parseArguments argv s) /\ Forall2 (fun a b => a_id b = a_id a /\ a_gen b = a_gen a /\ a_cfg b = a_cfg a) (arguments s1) (arguments s') /\
  forall argv2, exists x r d, parseArguments argv2 s1 = (with_dlog x (s_dlog s1 ++ d), r) /\ parseArguments argv2 s' = (with_dlog x (s_dlog s' ++ d), r).
Proof.
  intros throws argv s s' e l E. eexists. split; [reflexivity|]. destruct (first_throw throws [] (happenings argv s)) as [[k x]|] eqn:F.
  - destruct (C73_throws throws argv s k x F) as [s2 [E2 SB]]. rewrite E in E2. injection E2 as <- _ _. apply sbv_sym in SB. split; [|intros argv2; now apply parse_sbv].
    destruct SB as [_ SB]. revert SB. generalize (arguments s') (arguments (fst (parseArguments argv s))). clear.
    induction l as [|a l IH]; intros [|b m] H; try discriminate H; [constructor|]. cbn [map] in H. injection H as H1 H2 H3 H4 H5. constructor; [now split | now apply IH].
  - rewrite (C73_none throws argv s F) in E. discriminate E.
Qed.
Print Assumptions C73_after.

(** the log of writes: what was delivered before the exception, that call included *)
Definition deliveries (l : list happening) : list devent := flat_map (fun h => match h with Delivered e => [e] | Called _ _ => [] end) l.
Definition logged {A} (m : G A) : Prop := forall h s,
  exists l, snd (m h s) = h ++ l /\ s_dlog (fst (fst (m h s))) = s_dlog s ++ deliveries l.
Lemma logged_lift : forall A (m : M A), (forall s, s_dlog (fst (m s)) = s_dlog s) -> logged (lift m).
Proof. intros A m H h s. exists []. unfold lift. specialize (H s). destruct (m s). cbn in *. now rewrite !app_nil_r. Qed.
Lemma deliveries_app : forall l m, deliveries (l ++ m) = deliveries l ++ deliveries m.
Proof. intros l m. apply flat_map_app. Qed.
Lemma logged_bind : forall A B (m : G A) (f : A -> G B), logged m -> (forall a, logged (f a)) -> logged (gbind m f).
Proof.
  intros A B m f Hm Hf h s. unfold gbind. destruct (Hm h s) as [l [E1 E2]]. destruct (m h s) as [[s1 [r|x]] h1]; cbn [fst snd] in *; [|now exists l].
  destruct r; try (now exists l). destruct (Hf a h1 s1) as [l' [F1 F2]]. exists (l ++ l'). rewrite F1, F2, E1, E2, deliveries_app, !app_assoc. now split.
Qed.
Lemma logged_user : forall throws v x, logged (user throws (Called v x)).
Proof. intros throws v x h s. exists [Called v x]. unfold user. destruct (throws _); cbn; now rewrite app_nil_r. Qed.
Lemma logged_dest : forall throws id, logged (toDest_faulty throws id).
Proof.
  intros throws id h s. unfold toDest_faulty. cbv zeta. set (l := skipn _ _). exists (map Delivered l).
  assert (X : s_dlog (fst (toDest id s)) = s_dlog s ++ deliveries (map Delivered l)).
  { unfold deliveries. rewrite flat_map_concat_map, map_map. cbn. rewrite <- flat_map_concat_map.
    assert (Y : forall A (q : list A), flat_map (fun x => [x]) q = q) by (induction q as [|y q IH]; [reflexivity | cbn; now rewrite IH]). rewrite Y. unfold l.
    unfold toDest, bind, deref, ret, ub, modify. destruct (find_id id (s_args s)) as [a|].
    2:{ cbn [fst]. rewrite skipn_all. now rewrite app_nil_r. }
    destruct (c_dest (a_cfg a)) as [d|]; [|cbn [fst]; rewrite skipn_all; now rewrite app_nil_r].
    destruct (dest_events a d) as [evs [e|]]; cbn [fst s_dlog with_dlog]; now rewrite skipn_app_len. }
  destruct (existsb _ _); [destruct (throws _)|]; cbn [fst snd]; now split.
Qed.
Lemma logged_finish : forall throws ids, logged (finish_faulty throws ids).
Proof.
  intros throws. assert (R : logged (lift (ret tt))) by (apply logged_lift; reflexivity).
  induction ids as [|id ids IH]; [exact R|]. cbn [finish_faulty]. apply logged_bind; [|intros _; exact IH].
  unfold finish_one_faulty. apply logged_bind; [apply logged_lift; intros s; unfold deref; destruct (find_id _ _); reflexivity|]. intros a.
  apply logged_bind; [|intros _; apply logged_bind; [apply logged_lift; intros s; unfold toNumber, bind, deref, ub; destruct (find_id _ _); reflexivity | intros _; apply logged_dest]].
  destruct (c_valid (a_cfg a)) as [v|]; [|exact R]. destruct (d_exist (a_dyn a)); [|exact R].
  apply logged_bind; [apply logged_user|]. intros _. apply logged_lift. intros s.
  unfold validate. cbv zeta.
  assert (FR : forall m, s_dlog (fst ((do f <- front (c_names (a_cfg a)) ;; @throw unit KValid f m) s)) = s_dlog s).
  { intros m. unfold front. destruct (c_names (a_cfg a)); reflexivity. }
  destruct (v_fn v _) as [[] vs|msg|]; try apply FR; [|reflexivity].
  destruct (c_type (a_cfg a)); try apply FR; try reflexivity; destruct vs; reflexivity.
Qed.
Lemma logged_after : forall throws, logged (after_scan_faulty throws).
Proof.
  intros throws. unfold after_scan_faulty.
  assert (P : forall p b k u, logged (lift (print_or_throw p b k u))).
  { intros p b k u. apply logged_lift. intros s. unfold print_or_throw.
    destruct p as [p|]; [|reflexivity]. unfold bind at 1, get. destruct (find_ptr p (s_args s)) as [a|]; [|reflexivity].
    destruct (d_exist (a_dyn a)); [|reflexivity]. destruct u; try reflexivity. destruct b; reflexivity. }
  apply logged_bind; [intros h s; apply (P (s_help s) (m_helpex (s_modes s)) KHelp (getUsage s) h s)|]. intros _.
  apply logged_bind; [intros h s; apply (P (s_version s) (m_verex (s_modes s)) KVersion (Ok (s_verstr s)) h s)|]. intros _.
  apply logged_bind; [|intros _; apply logged_bind; [apply logged_lift; reflexivity | intros s; apply logged_finish]].
  apply logged_lift. intros s. unfold check_required, bind, get. destruct (find _ _) as [a|]; [|reflexivity]. unfold front. destruct (c_names (a_cfg a)); [reflexivity|].
  destruct (c_type (a_cfg a)); reflexivity.
Qed.
(** In every reachable state and in every case: the destinations are written as the record
    says, and no more. *)
Theorem C73_written : forall throws argv s, reach s ->
  s_dlog (fst (fst (parseArguments_faulty throws argv s))) = s_dlog s ++ deliveries (snd (parseArguments_faulty throws argv s)).
Proof.
  intros throws argv s R. pose proof (proj1 (reach_wf s R)) as W. 
  assert (EQ : parseArguments_faulty throws argv s = match help_setup (cleared s) with
     | (t, Ok true) => ((t, Normal (Ok tt)), [])
     | (t, Ok false) => gbind (lift (scan (parse_fuel argv s) argv)) (fun _ => after_scan_faulty throws) [] t
     | (t, Throw e) => ((t, Normal (Throw e)), []) | (t, Exit o) => ((t, Normal (Exit o)), []) | (t, UB) => ((t, Normal UB), []) | (t, OutOfFuel) => ((t, Normal OutOfFuel), [])
     end).
  { unfold parseArguments_faulty, parse_with_faulty. unfold gbind at 1. unfold lift at 1, modify. cbn beta iota. change (with_args s (map clear_arg (s_args s))) with (cleared s).
    unfold gbind at 1. unfold lift at 1. destruct (help_setup (cleared s)) as [t [[]|e|o| |]]; reflexivity. }
  rewrite EQ. rewrite (help_setup_eq (cleared s) (wf0_cleared s W)).
  assert (X : forall t, unique t -> s_dlog t = s_dlog s -> forall fuel,
    let p := gbind (lift (scan fuel argv)) (fun _ => after_scan_faulty throws) [] t in s_dlog (fst (fst p)) = s_dlog s ++ deliveries (snd p)).
  { intros t U D fuel. cbv zeta. unfold gbind, lift. pose proof (qu_dlog _ _ (quiet_scan fuel argv t U)) as Q. destruct (scan fuel argv t) as [t1 r]. cbn [fst] in Q.
    destruct r; cbn [fst snd]; try (unfold deliveries; cbn [flat_map]; rewrite app_nil_r; congruence).
    destruct (logged_after throws [] t1) as [l [E1 E2]]. rewrite E1, E2. cbn [app]. congruence. }
  assert (UC : unique (cleared s)) by (apply (wf_ids _ (wf0_cleared s W))).
  change (s_help (cleared s)) with (s_help s). change (free_help (cleared s)) with (free_help s). destruct (s_help s) eqn:EH.
  - cbn beta iota. apply X; [exact UC | reflexivity].
  - destruct (free_help s) eqn:EF; cbn beta iota.
    + cbn [fst snd deliveries flat_map]. now rewrite app_nil_r.
    + apply X; [|reflexivity]. apply (wf_ids (with_auto_help (cleared s))). apply wf_with_auto_help; [apply wf_cleared, reach_wf, R | exact EH |]. change (free_help (cleared s)) with (free_help s). rewrite EF. discriminate.
Qed.
Print Assumptions C73_written.

(** two options with destination functions; the second call throws: the first destination
    was served, the third not, and the next parse is as if nothing had been thrown *)
Definition called_back : state := history
  [OpAdd ["-a"] [MDest (Dest 1 DScalar true TyValue)]; OpAdd ["-b"] [MDest (Dest 2 DScalar true TyValue)]; OpAdd ["-c"] [MDest (Dest 3 DScalar false TyValue)]].
Definition on_bad : thrower := fun l => match rev l with Delivered (EvCall 2 _ "bad") :: _ => Some "boom" | _ => None end.
Example C73_example :
  first_throw on_bad [] (happenings ["prog"; "-a"; "1"; "-b"; "bad"; "-c"; "3"] called_back) = Some (1, "boom") /\
  (let p := parseArguments_faulty on_bad ["prog"; "-a"; "1"; "-b"; "bad"; "-c"; "3"] called_back in
   snd (fst p) = Foreign "boom" /\ snd p = [Delivered (EvCall 1 true "1"); Delivered (EvCall 2 true "bad")] /\
   s_dlog (fst (fst p)) = [EvCall 1 true "1"; EvCall 2 true "bad"]) /\
  first_throw on_bad [] (happenings ["prog"; "-a"; "1"; "-b"; "good"] called_back) = None.
Proof. vm_compute. repeat split; reflexivity. Qed.
