(** Properties_Settings.v -- C58: the settings of an Args object are what the program last
    set them to; the name of the program is argv[0] unless it was set. *)
From Verif Require Import Base Model_Utils Model_Number Model_Types Model_Argument Model_Usage Model_Args Model_Api
  Spec_Parse Spec_History Proofs_Base Proofs_Frame Proofs_Settings Proofs_Check Proofs_Inv Proofs_Parse Proofs_Safe Demo.

(** the settings: version text, the modes, the texts and the widths of the usage *)
Record settings := Settings {
  st_version : str; st_alternative : bool; st_strict : bool; st_help_exception : bool; st_version_exception : bool;
  st_usage : str; st_description : str; st_epilog : str; st_widths : nat * nat * nat * nat }.
(** those of a new object *)
Definition new_settings : settings := Settings "" false false false false "" "" "" (2, 20, 2, 56).
(** what a call makes of them; clear() gives back those of a new object, and no other call
    than the set functions touches them *)
Definition set_by (x : settings) (o : op) : settings :=
  match x with Settings v al st he ve us de ep wi =>
  match o with
  | OpSetVersion v => Settings v al st he ve us de ep wi
  | OpSetAlternative b => Settings v b st he ve us de ep wi
  | OpSetStrict b => Settings v al b he ve us de ep wi
  | OpSetHelpException b => Settings v al st b ve us de ep wi
  | OpSetVersionException b => Settings v al st he b us de ep wi
  | OpSetUsage u => Settings v al st he ve u de ep wi
  | OpSetDescription d => Settings v al st he ve us d ep wi
  | OpSetEpilog e => Settings v al st he ve us de e wi
  | OpSetUsageWidth p a sp h => Settings v al st he ve us de ep (p, a, sp, h)
  | OpClear => new_settings
  | _ => x
  end end.
(** the settings of the object, as the get functions show them *)
Definition settings_of (s : state) : settings :=
  Settings (s_verstr s) (m_alternative (s_modes s)) (m_strict (s_modes s)) (m_helpex (s_modes s)) (m_verex (s_modes s))
    (u_usage (s_usage s)) (u_description (s_usage s)) (u_epilog (s_usage s))
    (u_pad (s_usage s), u_args (s_usage s), u_sep (s_usage s), u_help (s_usage s)).

Lemma kept_settings : forall s s', kept s s' -> settings_of s' = settings_of s /\ s_bin s' = s_bin s.
Proof. intros s s' (A & B & C & D). unfold settings_of. rewrite B, C, D. auto. Qed.
Lemma keeps_step : forall {A} (m : M A) s s' r, keeps kept m -> m s = (s', r) -> settings_of s' = settings_of s /\ s_bin s' = s_bin s.
Proof. intros A m s s' r K E. apply kept_settings. specialize (K s). rewrite E in K. exact K. Qed.

(** the name that parseArguments gives *)
Definition name_given (name : str) (argv : list str) : str := match name with EmptyString => hd "" argv | _ => name end.
Lemma prepared_settings : forall s, settings_of (prepared s) = settings_of s.
Proof. intros s. unfold prepared, with_auto_help. destruct (s_help s); [reflexivity |]. destruct (free_help s); reflexivity. Qed.
Lemma parse_step : forall argv s s' r, wf0 s -> parseArguments argv s = (s', r) -> completed r ->
  settings_of s' = settings_of s /\ (interprets s -> s_bin s' = name_given (s_bin s) argv) /\ (~ interprets s -> s_bin s' = s_bin s).
Proof.
  intros argv s s' r W E C. unfold parseArguments in E. destruct (parse_with_eq (parse_fuel argv s) argv s W) as [P1 P2].
  destruct (interprets_dec s) as [I | I].
  2:{ rewrite (P2 I) in E. apply (f_equal fst) in E. cbn [fst] in E. subst s'. split; [reflexivity |]. split; [intro X; contradiction | reflexivity]. }
  rewrite (P1 I) in E. pose proof (prepared_settings s) as S0. pose proof (bin_prepared s) as B0. set (s0 := prepared s) in *. clearbody s0.
  unfold scan in E. unfold bind at 1 in E. destruct (bind (set_binary argv) _ s0) as [s2 r2] eqn:E2.
  unfold bind in E2. destruct (set_binary argv s0) as [s1 r1] eqn:E1.
  assert (K : forall u, r1 = Ok u -> settings_of s1 = settings_of s0 /\ s_bin s1 = name_given (s_bin s0) argv).
  { intros u ->. unfold set_binary, bind, get in E1. destruct (s_bin s0) as [| c b] eqn:EB.
    - unfold argv_at in E1. destruct argv as [| w ws]; cbn [nth_error] in E1; [discriminate E1 |].
      unfold modify in E1. apply (f_equal fst) in E1. cbn [fst ret] in E1. subst s1. split; reflexivity.
    - unfold ret in E1. apply (f_equal fst) in E1. cbn [fst] in E1. subst s1. rewrite EB. split; reflexivity. }
  destruct r1 as [u | e1 | o1 | |].
  - destruct (K u eq_refl) as [K1 K2]. destruct (keeps_step _ _ _ _ (kept_parse_loop _ _ _ _ _) E2) as [L1 L2].
    assert (R : settings_of s' = settings_of s2 /\ s_bin s' = s_bin s2).
    { destruct r2 as [u2 | | | |]; try (apply (f_equal fst) in E; cbn [fst] in E; subst s'; split; reflexivity).
      apply kept_settings. eapply kept_after_scan; [exact E | exact C]. }
    destruct R as [R1 R2]. split; [congruence |]. split; [| contradiction]. intros _. rewrite R2, L2, K2, B0. reflexivity.
  - exfalso. unfold set_binary, bind, get in E1. destruct (s_bin s0); [| discriminate E1]. unfold argv_at in E1. destruct (nth_error argv 0); discriminate E1.
  - apply (f_equal snd) in E2. cbn [snd] in E2. subst r2. apply (f_equal snd) in E. cbn [snd] in E. subst r. destruct C.
  - apply (f_equal snd) in E2. cbn [snd] in E2. subst r2. apply (f_equal snd) in E. cbn [snd] in E. subst r. destruct C.
  - apply (f_equal snd) in E2. cbn [snd] in E2. subst r2. apply (f_equal snd) in E. cbn [snd] in E. subst r. destruct C.
Qed.

Lemma bind_kept : forall (m : M nat) ms, keeps kept m -> keeps kept (do id <- m ;; run_meths id ms).
Proof. intros m ms K. apply keeps_bind; [exact kept_trans | exact K | intro; apply kept_meths]. Qed.
Lemma step_settings : forall o s s' r, wf0 s -> step o s = (s', r) -> completed r -> settings_of s' = set_by (settings_of s) o.
Proof.
  intros o s s' r W E C.
  assert (K : settings_of s' = settings_of s \/ settings_of s' = set_by (settings_of s) o).
  { destruct o as [ns ms | n ms | ns | | argv | | | | | | | | | |]; cbn [step] in E;
      try (right; unfold modify, clear in E; apply (f_equal fst) in E; cbn [fst] in E; subst s'; reflexivity); left.
    - exact (proj1 (keeps_step _ _ _ _ (bind_kept _ _ (kept_add _)) E)).
    - exact (proj1 (keeps_step _ _ _ _ (bind_kept _ _ (kept_update _)) E)).
    - exact (proj1 (keeps_step _ _ _ _ (kept_remove _) E)).
    - exact (proj1 (parse_step _ _ _ _ W E C)). }
  destruct K as [K | K]; [| exact K].
  destruct o; try (rewrite K; reflexivity);
    unfold step, modify, clear in E; apply (f_equal fst) in E; cbn [fst] in E; subst s'; reflexivity.
Qed.

(** After any sequence of calls the settings are the result of the calls that set them (or
    clear the object), in order, starting from those of a new object: no declaration and no
    parse, successful or not, changes them. *)
Theorem C58_settings : forall ops s, run ops init = Some s -> settings_of s = fold_left set_by ops new_settings.
Proof.
  intros ops s E. change new_settings with (settings_of init). revert E. generalize reach_init. generalize init.
  induction ops as [| o ops IH]; intros s0 R E; cbn [run fold_left] in *; [injection E as <-; reflexivity |].
  destruct (step o s0) as [s1 r] eqn:S.
  assert (C : completed r /\ run ops s1 = Some s) by (destruct r; try discriminate E; split; first [exact Logic.I | exact E]).
  destruct C as [C E']. rewrite <- (step_settings o s0 s1 r (proj1 (reach_wf s0 R)) S C).
  apply IH; [eapply reach_step; [exact R | exact S | exact C] | exact E'].
Qed.
Print Assumptions C58_settings.

(** The name of the program (getBinaryName()): the one last given to setBinaryName(); a parse
    that reads the command line gives argv[0] if there is none yet, whether it succeeds or
    throws, and never replaces one; clear() removes it; no other call changes it. *)
Theorem C58_name : forall o s s' r, reach s -> step o s = (s', r) -> completed r -> interprets s ->
  s_bin s' = match o with
             | OpSetBinaryName b => b
             | OpClear => ""
             | OpParse argv => match s_bin s with "" => hd "" argv | name => name end
             | _ => s_bin s
             end.
Proof.
  intros o s s' r R E C I. apply reach_wf in R. apply proj1 in R.
  destruct o as [ns ms | n ms | ns | | argv | | | | | | | | | |]; cbn [step] in E;
    try (unfold modify, clear in E; apply (f_equal fst) in E; cbn [fst] in E; subst s'; reflexivity).
  - exact (proj2 (keeps_step _ _ _ _ (bind_kept _ _ (kept_add _)) E)).
  - exact (proj2 (keeps_step _ _ _ _ (bind_kept _ _ (kept_update _)) E)).
  - exact (proj2 (keeps_step _ _ _ _ (kept_remove _) E)).
  - rewrite (proj1 (proj2 (parse_step _ _ _ _ R E C)) I). unfold name_given. now destruct (s_bin s).
Qed.
Print Assumptions C58_name.
(** Hence the name is that of the first parse, however often other command lines are parsed. *)
Theorem C58_first_name : forall argvs argv s s0 s', reach s -> interprets s -> s_bin s = "" -> hd "" argv <> "" ->
  run [OpParse argv] s = Some s0 -> (forall a b, run (map OpParse a) s0 = Some b -> interprets b) ->
  run (map OpParse argvs) s0 = Some s' -> s_bin s' = hd "" argv.
Proof.
  assert (ST : forall o s s', reach s -> run [o] s = Some s' -> exists r, step o s = (s', r) /\ completed r).
  { intros o s s' R E. cbn [run] in E. destruct (step o s) as [s1 r]. exists r. destruct r; try discriminate E; injection E as <-; (split; [reflexivity | exact Logic.I]). }
  intros argvs argv s s0 s' R I B A E0 J E. destruct (ST _ _ _ R E0) as (r & S & C).
  pose proof (C58_name _ _ _ _ R S C I) as N. cbn [step] in N. rewrite B in N. pose proof (reach_step _ _ _ _ R S C) as R0. clear E0 S C R I B.
  assert (G : forall l x, reach x -> s_bin x = hd "" argv -> (forall a b, run (map OpParse a) x = Some b -> interprets b) -> run (map OpParse l) x = Some s' -> s_bin s' = hd "" argv).
  { induction l as [| w l IH]; intros x Rx Bx Jx Ex; cbn [map run] in Ex; [injection Ex as <-; exact Bx |].
    destruct (step (OpParse w) x) as [x1 r1] eqn:S1.
    assert (C : completed r1 /\ run (map OpParse l) x1 = Some s') by (destruct r1; try discriminate Ex; split; first [exact Logic.I | exact Ex]).
    destruct C as [C E']. pose proof (C58_name _ _ _ _ Rx S1 C (Jx [] x eq_refl)) as N1.
    apply (IH x1); [eapply reach_step; [exact Rx | exact S1 | exact C] | | | exact E'].
    - rewrite N1, Bx. destruct (hd "" argv); [now elim A | reflexivity].
    - intros a b Eb. apply (Jx (w :: a)). cbn [map run]. rewrite S1. destruct r1; try destruct C; exact Eb. }
  exact (G argvs s0 R0 N J E).
Qed.
Print Assumptions C58_first_name.

(** ** Example *)
Definition set_ops : list op :=
  [OpSetVersion "1.0"; OpSetStrict true; OpAdd ["-v"] [MAction STORE_TRUE]; OpSetUsageWidth 1 10 1 40; OpSetDescription "d"; OpSetHelpException true;
   OpParse ["./prog"; "-x"]; OpSetStrict false; OpParse ["other"; "-v"]].
Example C58_example : exists s, run set_ops init = Some s /\ settings_of s = Settings "1.0" false false true false "" "d" "" (1, 10, 1, 40) /\ s_bin s = "./prog" /\
  settings_of s = fold_left set_by set_ops new_settings.
Proof. eexists. split; [vm_compute; reflexivity |]. split; [vm_compute; reflexivity |]. split; vm_compute; reflexivity. Qed.
Example C58_refused : exists s, parseArguments ["./prog"; "-x"] init = (s, Throw (Exn KParse "x" "invalid option")) /\ s_bin s = "./prog".
Proof. eexists. split; [vm_compute; reflexivity | vm_compute; reflexivity]. Qed.
