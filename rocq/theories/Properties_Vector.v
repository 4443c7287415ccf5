(** Properties_Vector.v -- C59: Args::vector(...), Vector and operator+ build the list that was
    written, but operator+ also changes its left operand. *)
From Verif Require Import Base Model_Utils Model_Number Model_Types Model_Argument Model_Usage Model_Args Model_Api Model_Vector Spec_Api Proofs_Check Demo.

(** vector("a", "b", ...) is the list of its parameters, of whatever length *)
Lemma upd_nth_app : forall {A} (l r : list A) x v, upd_nth (length l) v (l ++ x :: r) = l ++ v :: r.
Proof. intros A l; induction l as [| y l IH]; intros r x v; cbn; [reflexivity | now rewrite IH]. Qed.
Lemma assign_from_eq : forall ss done, assign_from (length done) ss (done ++ repeat "" (length ss)) = done ++ ss.
Proof.
  induction ss as [| s ss IH]; intros done; cbn [assign_from length repeat]; [reflexivity |].
  rewrite upd_nth_app. replace (S (length done)) with (length (done ++ [s])) by (rewrite app_length; cbn; apply Nat.add_1_r).
  replace (done ++ s :: repeat "" (length ss)) with ((done ++ [s]) ++ repeat "" (length ss)) by (rewrite <- app_assoc; reflexivity).
  rewrite IH, <- app_assoc. reflexivity.
Qed.
Theorem C59_vector : forall ss, args_vector ss = ss.
Proof. intro ss. exact (assign_from_eq ss []). Qed.
Print Assumptions C59_vector.
(** so is a Vector made from an array or an initializer list, from a text *)
Theorem C59_array : forall v, vector_array v = v.
Proof.
  assert (G : forall v l : list str, fold_left (fun l s => l ++ [s]) v l = l ++ v).
  { induction v as [| s v IH]; intros l; cbn [fold_left]; [now rewrite app_nil_r |]. rewrite IH, <- app_assoc. reflexivity. }
  intro v. exact (G v []).
Qed.
Print Assumptions C59_array.

(** e + s1 + ... + sn *)
Definition plus_all (e : vexpr) (ss : list str) : vexpr := fold_left VPlus ss e.
(** The list handed over is the old one followed by the texts, in order.  A temporary: no
    variable of the program changes. *)
Theorem C59_temporary : forall v ss m, content (plus_all (VTemp v) ss) m = v ++ ss /\ snd (eval (plus_all (VTemp v) ss) m) = m.
Proof.
  intros v ss m. assert (E : eval (plus_all (VTemp v) ss) m = (RTemp (v ++ ss), m)); [| unfold content; rewrite E; auto].
  unfold plus_all. revert v. induction ss as [| s ss IH] using rev_ind; intro v; cbn [fold_left]; [cbn; now rewrite app_nil_r |].
  rewrite fold_left_app. cbn [fold_left eval]. rewrite IH, <- app_assoc. reflexivity.
Qed.
Print Assumptions C59_temporary.
(** Expected of a variable: the same, and the variable keeps its content.  Only the first
    holds: the variable has the new content afterwards, all others keep theirs. *)
Theorem C59_variable_partial : forall x ss m,
  content (plus_all (VVar x) ss) m = m x ++ ss /\
  snd (eval (plus_all (VVar x) ss) m) x = m x ++ ss /\ forall y, y <> x -> snd (eval (plus_all (VVar x) ss) m) y = m y.
Proof.
  intros x ss m. assert (E : exists m', eval (plus_all (VVar x) ss) m = (RVar x, m') /\ m' x = m x ++ ss /\ forall y, y <> x -> m' y = m y).
  { unfold plus_all. induction ss as [| s ss IH] using rev_ind; cbn [fold_left]; [exists m; cbn; rewrite app_nil_r; auto |].
    rewrite fold_left_app. cbn [fold_left eval]. destruct IH as (m' & E & A & B). rewrite E. eexists. split; [reflexivity |]. unfold set_var. rewrite Nat.eqb_refl.
    split; [now rewrite A, <- app_assoc |]. intros y N. destruct (Nat.eqb_spec y x); [contradiction | now apply B]. }
  destruct E as (m' & E & A & B). unfold content. rewrite E. cbn [snd]. auto.
Qed.
Print Assumptions C59_variable_partial.
(** So a list that is used twice as a left operand keeps what the first use added, e.g.
      Vector base("-a");
      args.addArgument(base + "--all");   args.addArgument(base + "-b");
    the second call asks for -a, --all and -b, and is refused. *)
Theorem C59_reuse_refuted : forall m0, let m := set_var 0 (vector_text "-a") m0 in
  let e1 := VPlus (VVar 0) "--all" in let e2 := VPlus (VVar 0) "-b" in
  content e1 m = ["-a"; "--all"] /\ content e2 (snd (eval e1 m)) = ["-a"; "--all"; "-b"] /\
  snd (step (OpAdd (content e2 (snd (eval e1 m))) []) (history [OpAdd (content e1 m) []])) = Throw (Exn KArgument "-a" "invalid flag already exist").
Proof. intro m0. cbv zeta. split; [reflexivity |]. split; [reflexivity |]. vm_compute. reflexivity. Qed.
Print Assumptions C59_reuse_refuted.
(** A number given where a list is expected is taken for the length of a list of empty
    texts: .defaults(1) makes the default value "" (not "1"), .defaults(5) is refused. *)
Theorem C59_number_refuted :
  (forall n, vector_int n = repeat "" n) /\
  (let a := pick "-n" (history [OpAdd ["-n"] [MDefaults (vector_int 1)]]) in getString a = "" /\ c_defaults (a_cfg a) = [""]) /\
  snd (step (OpAdd ["-n"] [MDefaults (vector_int 5)]) init) = Throw (Exn KArgument "-n" "invalid number of argument with number of default argument").
Proof. split; [reflexivity |]. split; [cbv zeta; split; vm_compute; reflexivity | vm_compute; reflexivity]. Qed.
Print Assumptions C59_number_refuted.
Example C59_example : content (plus_all (VTemp (args_vector ["-f"])) ["--file"; "--input"]) (fun _ => []) = ["-f"; "--file"; "--input"].
Proof. reflexivity. Qed.
