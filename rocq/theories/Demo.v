(** Demo.v -- a parser for the examples that show the hypotheses of the theorems about
    parseArguments to be satisfiable, and a tactic to exhibit readings. *)
From Verif Require Import Base Model_Utils Model_Number Model_Types Model_Argument Model_Usage Model_Args Model_Api
  Spec_Names Spec_Reading Spec_Parse Spec_Finish Spec_History Spec_Api Spec_Result Proofs_Check Proofs_Central.

Definition shop_ops : list op :=
  [OpAdd ["-v"; "--verbose"] [MAction STORE_TRUE];
   OpAdd ["-q"] [MAction STORE_FALSE];
   OpAdd ["-n"; "--name"] [MDefaults ["anon"]];
   OpAdd ["-p"; "--point"] [MNargs 2];
   OpAdd ["-i"; "--items"] [MAction INFINITE];
   OpAdd ["-a"; "--add"] [MAction APPEND; MDefaults ["d1"; "d2"]];
   OpAdd ["-e"; "--edge"] [MAction EXTEND; MNargs 2];
   OpAdd ["-V"; "--version"] [MAction VERSION];
   OpAdd ["SRC"] [MRequired true];
   OpAdd ["DST"] [MDefaults ["out"]]].
Definition shop : state := history shop_ops.
Lemma shop_careful : reach_with careful shop.
Proof. apply careful_history. vm_compute. reflexivity. Qed.
Lemma shop_usable : usable shop.
Proof. apply careful_usable, shop_careful. Qed.
Lemma shop_interprets : interprets shop.
Proof. right. vm_compute. discriminate. Qed.

(** a concrete command line *)
Ltac line := split; [eexists; split; [reflexivity | discriminate] | split; [repeat constructor | reflexivity]].
(** a concrete reading; the configuration is closed *)
Ltac kind := first [left; vm_compute; reflexivity | right; vm_compute; reflexivity | vm_compute; reflexivity].
Ltac rd_end := first
  [ apply Re_nil
  | eapply Re_positional; [vm_compute; reflexivity | cbn [length skipn]; rd_end]
  | eapply Re_additional; [vm_compute; reflexivity | rd_end] ].
Ltac rd := first
  [ apply Rd_nil
  | eapply Rd_option; [kind | vm_compute; reflexivity | cbn [length skipn]; rd]
  | eapply Rd_end; [vm_compute; reflexivity | rd_end]
  | eapply Rd_positional; [vm_compute; reflexivity | vm_compute; reflexivity | cbn [length skipn]; rd]
  | eapply Rd_additional; [vm_compute; reflexivity | vm_compute; reflexivity | rd] ].
Ltac reading := unfold reads;
  match goal with |- Reading _ ?ps _ _ => let p := eval vm_compute in ps in change ps with p end; rd.
Example shop_reads : exists pcs, reads shop ["-v"; "a"; "--name=x"; "-p"; "1"; "2"; "--"; "-q"; "rest"] pcs /\ length pcs = 7.
Proof. eexists. split; [reading | reflexivity]. Qed.
Lemma forall_arguments : forall s (p : argument -> bool) (P : argument -> Prop), forallb p (arguments s) = true ->
  (forall a, p a = true -> P a) -> forall a, In a (arguments s) -> P a.
Proof. intros s p P H Q a I. apply Q. rewrite forallb_forall in H. now apply H. Qed.
(** the argument found under a name *)
Definition pick (n : str) (s : state) : argument :=
  match find (fun a => mem_str n (getNameOrFlags a)) (arguments s) with
  | Some a => a
  | None => Arg 0 0 (ACfg [] HELP_OPTION false 0 "" "" None true HELP [] "" None) (ADyn false 0 "" None [])
  end.
Lemma pick_In : forall n s, existsb (fun a => mem_str n (getNameOrFlags a)) (arguments s) = true -> In (pick n s) (arguments s).
Proof.
  intros n s H. unfold pick. destruct (find _ _) as [a|] eqn:F; [now apply find_some in F|].
  exfalso. apply existsb_exists in H. destruct H as [a [I M]]. rewrite (find_none _ _ F a I) in M. discriminate.
Qed.
