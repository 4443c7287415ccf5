(** Properties_Number.v -- C50 character array destinations, C51 isNumber()/getNumber(). *)
From Verif Require Import Base Model_Utils Model_Number Model_Types Model_Argument Model_Usage Model_Args Model_Api Model_Text
  Spec_Reading Spec_Parse Spec_History Spec_Api Spec_Result Spec_Finish
  Proofs_Base Proofs_Inv Proofs_Parse Proofs_Finish Proofs_History Proofs_Central Proofs_Dyn Demo Properties_Parse Spec_Number Proofs_Number.

(** ------------------------------ C50 ------------------------------ *)
(** the C string stored in an array: the bytes before the first NUL; None if there is none *)
Fixpoint c_string (mem : list ascii) : option (list ascii) :=
  match mem with
  | [] => None
  | c :: r => if Ascii.eqb c nul then Some [] else match c_string r with Some s => Some (c :: s) | None => None end
  end.
Definition no_nul (s : str) : Prop := ~ In nul (bytes s).

Lemma bytes_length : forall s, length (bytes s) = String.length s.
Proof. induction s as [|c s IH]; cbn; auto. Qed.
(** both functions leave the longest prefix that fits, a NUL, and the rest of the array *)
Lemma copy_poke : forall mem src n, n < length mem -> n <= length src ->
  obind (memcpy mem src n) (fun m => poke m n nul) = Some (firstn n src ++ nul :: skipn (S n) mem).
Proof.
  intros mem src n H1 H2. unfold memcpy. rewrite (proj2 (Nat.leb_le n (length mem))), (proj2 (Nat.leb_le n (length src))) by lia. cbn [andb obind].
  assert (L : length (firstn n src) = n) by (rewrite firstn_length; lia).
  unfold poke. rewrite app_length, L, skipn_length. destruct (Nat.ltb_spec n (n + (length mem - n))); [|lia]. f_equal.
  assert (A : firstn n (firstn n src ++ skipn n mem) = firstn n src).
  { rewrite firstn_app, L, Nat.sub_diag, firstn_O, app_nil_r, firstn_firstn. f_equal. lia. }
  assert (B : skipn (S n) (firstn n src ++ skipn n mem) = skipn (S n) mem).
  { rewrite skipn_app, L. rewrite (skipn_all2 (firstn n src)) by lia. replace (S n - n) with 1 by lia. cbn [app].
    clear. revert mem. induction n as [|n IH]; intros [|c mem]; try reflexivity. exact (IH mem). }
  now rewrite A, B.
Qed.
Lemma strTo_eq : forall s mem, mem <> [] -> let k := Nat.min (String.length s) (length mem - 1) in
  strTo_chars s mem = Some (firstn k (bytes s) ++ nul :: skipn (S k) mem).
Proof.
  intros s mem NE k. unfold strTo_chars, size_minus_1. assert (P : 0 < length mem) by (destruct mem; [now elim NE | cbn; lia]).
  destruct (Nat.ltb_spec (String.length s) (length mem)).
  - rewrite copy_poke; [|lia|rewrite app_length, bytes_length; lia]. replace k with (String.length s) by (unfold k; lia).
    rewrite firstn_app, bytes_length, Nat.sub_diag, firstn_O, app_nil_r. reflexivity.
  - destruct (length mem) as [|m] eqn:E; [lia|]. rewrite copy_poke; [|lia|rewrite app_length, bytes_length; lia].
    replace k with m by (unfold k; lia). rewrite firstn_app, bytes_length. replace (m - String.length s) with 0 by lia. now rewrite firstn_O, app_nil_r.
Qed.
Lemma literal_eq : forall s mem, mem <> [] -> let k := Nat.min (String.length s) (length mem - 1) in
  literal_to s mem = Some (firstn k (bytes s) ++ nul :: skipn (S k) mem).
Proof.
  intros s mem NE k. unfold literal_to, size_minus_1. assert (P : 0 < length mem) by (destruct mem; [now elim NE | cbn; lia]).
  destruct (Nat.leb_spec (S (String.length s)) (length mem)).
  - unfold memcpy. rewrite app_length, bytes_length. cbn [length].
    rewrite (proj2 (Nat.leb_le (S (String.length s)) (length mem))), (proj2 (Nat.leb_le _ (String.length s + 1))) by lia. cbn [andb].
    replace k with (String.length s) by (unfold k; lia). f_equal. rewrite firstn_all2 by (rewrite app_length, bytes_length; cbn; lia).
    rewrite firstn_all2 by (rewrite bytes_length; lia). now rewrite <- app_assoc.
  - destruct (length mem) as [|m] eqn:E; [lia|]. rewrite copy_poke; [|lia|rewrite app_length, bytes_length; lia].
    replace k with m by (unfold k; lia). rewrite firstn_app, bytes_length. replace (m - String.length s) with 0 by lia. now rewrite firstn_O, app_nil_r.
Qed.
Lemma c_string_app : forall l r, ~ In nul l -> c_string (l ++ nul :: r) = Some l.
Proof.
  induction l as [|c l IH]; intros r N; cbn; [reflexivity|]. destruct (Ascii.eqb_spec c nul) as [->|]; [elim N; now left|].
  rewrite IH; [reflexivity | intros I; apply N; now right].
Qed.
Lemma firstn_In_ : forall {A} n (l : list A) x, In x (firstn n l) -> In x l.
Proof. intros A n l x I. rewrite <- (firstn_skipn n l). apply in_or_app. now left. Qed.

(** Storing the text [s] in an array of N >= 1 characters: no access out of bounds, the
    array keeps its size, and the C string it holds is the longest prefix of [s] of at
    most N-1 characters; the bytes after its NUL are untouched. *)
Definition longest_prefix_stored (s : str) (mem mem' : list ascii) : Prop :=
  length mem' = length mem /\ c_string mem' = Some (firstn (length mem - 1) (bytes s)) /\
  skipn (S (Nat.min (String.length s) (length mem - 1))) mem' = skipn (S (Nat.min (String.length s) (length mem - 1))) mem.
Lemma stored_prefix : forall s mem, mem <> [] -> no_nul s -> let k := Nat.min (String.length s) (length mem - 1) in
  longest_prefix_stored s mem (firstn k (bytes s) ++ nul :: skipn (S k) mem).
Proof.
  intros s mem NE NN k. assert (P : 0 < length mem) by (destruct mem; [now elim NE | cbn; lia]).
  assert (L : length (firstn k (bytes s)) = k) by (rewrite firstn_length, bytes_length; unfold k; lia).
  split; [|split].
  - rewrite app_length, L. cbn [length]. rewrite skipn_length. unfold k. lia.
  - rewrite c_string_app by (intros I; apply NN; now apply firstn_In_ in I). f_equal. unfold k. destruct (Nat.le_ge_cases (String.length s) (length mem - 1)) as [H|H].
    + rewrite Nat.min_l by lia. rewrite !firstn_all2; rewrite ?bytes_length; auto; lia.
    + now rewrite Nat.min_r by lia.
  - fold k. rewrite skipn_app, L, skipn_all2 by lia. replace (S k - k) with 1 by lia. reflexivity.
Qed.
Theorem C50_text : forall s mem, mem <> [] -> no_nul s -> exists mem', strTo_chars s mem = Some mem' /\ longest_prefix_stored s mem mem'.
Proof. intros s mem NE NN. eexists. split; [now apply strTo_eq | now apply stored_prefix]. Qed.
Theorem C50_bool : forall (b : bool) mem, mem <> [] -> exists mem', boolTo_chars b mem = Some mem' /\ longest_prefix_stored (if b then "true" else "false") mem mem'.
Proof.
  intros b mem NE. eexists. split; [now apply literal_eq | apply stored_prefix; [exact NE|]].
  unfold no_nul. destruct b; cbn; intuition discriminate.
Qed.
Example C50_example : let mem n := repeat "x"%char n in
  option_map c_string (strTo_chars "hello" (mem 4)) = Some (Some (bytes "hel")) /\ option_map c_string (strTo_chars "hello" (mem 5)) = Some (Some (bytes "hell")) /\
  option_map c_string (strTo_chars "hello" (mem 6)) = Some (Some (bytes "hello")) /\ option_map c_string (strTo_chars "hello" (mem 1)) = Some (Some []) /\
  option_map c_string (boolTo_chars true (mem 5)) = Some (Some (bytes "true")) /\ option_map c_string (boolTo_chars false (mem 5)) = Some (Some (bytes "fals")).
Proof. repeat split; reflexivity. Qed.

(** ------------------------------ C51 ------------------------------ *)
Definition not_number : exn := Exn KBase "" "is not a number".
(** an ArgumentElement whose number is [n] (isNumber(), getNumber()) and whose text is [v]:
    it is a number exactly if the text begins with one, which is then its value *)
Definition number_of (v : str) (n : option dec) : Prop :=
  (forall d, num_get n = Ok d <-> begins_with_number v d /\ representable d) /\
  ((exists d, begins_with_number v d /\ representable d) \/ num_get n = Throw not_number).
Lemma number_read : forall v, number_of v (istream_double v).
Proof.
  intros v. split.
  - intros d. rewrite <- istream_grammar. destruct (istream_double v) as [d'|]; cbn; split; congruence.
  - destruct (istream_double v) as [d|] eqn:E; [left; exists d; now apply istream_grammar | now right].
Qed.
Lemma pieces_num : forall id c pcs d, d_num (pieces_dyn id c pcs d) = d_num d.
Proof.
  intros id c pcs. unfold pieces_dyn. induction pcs as [|p pcs IH]; intros d; [reflexivity|]. cbn [fold_left]. rewrite IH.
  destruct p as [w os used|i vs|w|]; cbn [piece_dyn]; try reflexivity.
  - clear. revert d. induction os as [|o os IH]; intros d; [reflexivity|]. cbn [fold_left]. rewrite IH. destruct (Nat.eqb (o_id o) id); [|reflexivity].
    unfold occ_dyn. destruct (o_style o), (c_type c); reflexivity.
  - destruct (Nat.eqb i id); [|reflexivity]. unfold pos_dyn. destruct (c_type c); reflexivity.
Qed.
Lemma checked_num : forall a, d_num (a_dyn (checked a)) = d_num (a_dyn a).
Proof.
  intros a. unfold checked. destruct (c_valid (a_cfg a)) as [v|]; [|reflexivity]. destruct (d_exist (a_dyn a)); [|reflexivity].
  destruct (v_fn v (plain_values a)) as [[] vs| |]; try reflexivity. cbn [arg_dyn a_dyn]. unfold stored. destruct (c_type (a_cfg a)), vs; reflexivity.
Qed.
Lemma finished_num : forall a, d_num (a_dyn a) = None ->
  let b := finished a in
  if has_values (a_cfg b) then
    match d_elems (a_dyn b) with
    | [] => number_of (getString b) (d_num (a_dyn b))
    | es => isNumber b = false /\ forall e, In e es ->
        match el_subs e with
        | [] => number_of (elem_value e) (lf_num (el_leaf e))
        | ls => forall l, In l ls -> number_of (lf_arg l) (lf_num l)
        end
    end
  else c_type (a_cfg b) = BOOLEAN_OPTION \/ c_type (a_cfg b) = REVERSE_BOOLEAN_OPTION -> isNumber b = false.
Proof.
  intros a N b. assert (Hn : d_num (a_dyn (checked a)) = None) by (now rewrite checked_num).
  unfold b, finished. set (a' := checked a) in *. cbn [arg_dyn a_dyn a_cfg]. unfold has_values, getString, isNumber. cbn [arg_dyn a_dyn a_cfg].
  assert (E : forall e, match el_subs (num_elem e) with [] => number_of (elem_value (num_elem e)) (lf_num (el_leaf (num_elem e)))
                        | ls => forall l, In l ls -> number_of (lf_arg l) (lf_num l) end).
  { intros [lf subs]. unfold num_elem. cbn [el_subs]. destruct subs as [|x subs]; cbn [el_subs el_leaf map].
    - apply number_read.
    - intros l [<- | I]; [apply number_read|]. apply in_map_iff in I. destruct I as [y [<- _]]. apply number_read. }
  unfold arity_of. destruct (c_type (a_cfg a')) eqn:T; unfold num_dyn;
    try (destruct (d_elems (a_dyn a')) as [|e es] eqn:EL; cbn [d_elems d_num d_arg map]; [apply number_read | rewrite Hn; split; [reflexivity|];
      intros x [<- | I]; [apply E|]; apply in_map_iff in I; destruct I as [y [<- _]]; apply E]).
  all: try (intros _; now rewrite Hn).
  all: intros [X|X]; discriminate X.
Qed.

(** After a successful parse, for every argument that takes values: if it has no elements
    it is itself a number exactly if its text begins with one (the longest such beginning,
    after blanks), and getNumber() is that number; otherwise each of its elements (or of
    the elements of its groups) is a number exactly if its text begins with one. *)
Theorem C51_numbers : forall s argv ws s' a, usable s -> interprets s -> command_line argv ws -> parseArguments argv s = (s', Ok tt) ->
  In a (arguments s') -> has_values (a_cfg a) = true ->
  match d_elems (a_dyn a) with
  | [] => number_of (getString a) (d_num (a_dyn a))
  | es => forall e, In e es ->
      match el_subs e with
      | [] => number_of (elem_value e) (lf_num (el_leaf e))
      | ls => forall l, In l ls -> number_of (lf_arg l) (lf_num l)
      end
  end.
Proof.
  intros s argv ws s' a U I C E Ia HV. destruct (parse_ok_args s argv ws s' U C I E) as [pcs [_ [EA _]]].
  rewrite EA in Ia. apply in_map_iff in Ia. destruct Ia as [b [Eb _]].
  pose proof (finished_num (read_arg pcs b)) as F. cbv zeta in F. unfold read_arg in F at 1. cbn [a_dyn] in F. rewrite pieces_num in F. specialize (F eq_refl).
  rewrite Eb, HV in F. destruct (d_elems (a_dyn a)); [exact F | apply F].
Qed.
Print Assumptions C51_numbers.
(** Flags are never numbers, and an argument with several values is not a number itself. *)
Theorem C51_not_numbers : forall s argv ws s' a, usable s -> interprets s -> command_line argv ws -> parseArguments argv s = (s', Ok tt) ->
  In a (arguments s') ->
  (c_type (a_cfg a) = BOOLEAN_OPTION \/ c_type (a_cfg a) = REVERSE_BOOLEAN_OPTION) \/ (has_values (a_cfg a) = true /\ d_elems (a_dyn a) <> []) ->
  isNumber a = false /\ getNumber a = Throw not_number.
Proof.
  intros s argv ws s' a U I C E Ia H. assert (N : isNumber a = false).
  { destruct (parse_ok_args s argv ws s' U C I E) as [pcs [_ [EA _]]].
    rewrite EA in Ia. apply in_map_iff in Ia. destruct Ia as [b [Eb _]].
    pose proof (finished_num (read_arg pcs b)) as F. cbv zeta in F. unfold read_arg in F at 1. cbn [a_dyn] in F. rewrite pieces_num in F. specialize (F eq_refl).
    rewrite Eb in F. destruct (has_values (a_cfg a)) eqn:HV.
    - destruct H as [H|[_ H]]; [unfold has_values, arity_of in HV; destruct H as [H|H]; rewrite H in HV; discriminate HV|].
      destruct (d_elems (a_dyn a)); [now elim H | apply F].
    - apply F. destruct H as [H|[H _]]; [exact H | discriminate H]. }
  split; [exact N|]. unfold isNumber in N. unfold getNumber. destruct (d_num (a_dyn a)); [discriminate N | reflexivity].
Qed.
Print Assumptions C51_not_numbers.
Example C51_example : exists s', parseArguments ["p"; "-n"; "12.5km"; "-p"; "-3"; "1e"; "-e"; "1"; "x"; "-v"; "SRC"] shop = (s', Ok tt) /\
  getNumber (pick "-n" s') = Ok (125, -1)%Z /\ map (fun e => lf_num (el_leaf e)) (d_elems (a_dyn (pick "-p" s'))) = [Some (-3, 0)%Z; None] /\
  map (fun e => map lf_num (el_subs e)) (d_elems (a_dyn (pick "-e" s'))) = [[Some (1, 0)%Z; None]] /\ isNumber (pick "-v" s') = false /\
  getNumber (pick "DST" s') = Throw not_number.
Proof. eexists. split; [vm_compute; reflexivity | vm_compute; auto]. Qed.
