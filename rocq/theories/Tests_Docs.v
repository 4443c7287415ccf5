(** Tests_Docs.v -- the sessions shown in /repo/README.md and /repo/docs/examples.md
    replayed on the model: each program is transcribed and what the documentation
    prints after "$ ./a.out ..." is what the model answers.  Like Tests.v these are
    tests of the fidelity of the model (evaluation on literals), not proofs of
    properties.  Every session of the two documents is here, except "Append, with
    nargs == 3", whose program text in the document is that of another example
    (the session itself is replayed on the program its title names). *)
From Verif Require Import Base Model_Utils Model_Number Model_Types Model_Argument Model_Valid
  Model_Usage Model_Args Model_Api Tests.

(** the program [ops] run with the words [l] after "./a.out" *)
Definition excepts : list op := [OpSetHelpException true; OpSetVersionException true].
Definition session (ops : list op) (l : list str) : state := after (ops ++ excepts ++ [OpParse ("./a.out" :: l)]).
Definition verdict (ops : list op) (l : list str) : res unit :=
  outcome (ops ++ excepts) (OpParse ("./a.out" :: l)).
(** std::cout << args[i] for each i *)
Definition printed (s : state) (n : str) : list str := map elem_text (d_elems (a_dyn (arg_of s n))).
Definition truth (s : state) (n : str) : bool := to_bool (arg_of s n).
Definition counted (s : state) (n : str) : N := N.of_nat (d_count (a_dyn (arg_of s n))).
(** what a destination received, in order *)
Definition cell_of (e : devent) : nat :=
  match e with EvAssign c _ | EvPush c _ | EvPushVec c _ | EvCall c _ _ | EvCallV c _ _ | EvCallVV c _ _ => c end.
Definition received (s : state) (c : nat) : list devent := filter (fun e => Nat.eqb (cell_of e) c) (s_dlog s).

(* ------------------------------------------------------------------------- *)
(** ** /repo/docs/examples.md:3-275, All Type *)

Definition vnumber (n : nat) := MValid (Some (Validator n validNumber)) true.
Definition all_type : list op :=
  [OpSetVersion "Version: 0.0.0"; OpSetDescription "custom description message"; OpSetEpilog "custom epilog message";
   OpAdd ["-h"] [MFlag "--help"; MAction HELP; MHelp "custom help option message"];
   OpAdd ["-v"] [MFlag "--version"; MHelp "help of version option"; MAction VERSION];
   OpAdd ["NOTREQUIRED"] [MHelp "help of positional argument"; MDefaults ["foo"]; MDest (Dest 0 DScalar false TyValue)];
   OpAdd ["REQUIRED"] [MHelp "help of required positional argument"; vnumber 1; MDest (Dest 1 DScalar false TyCharPtr); MRequired true];
   OpAdd ["-b"] [MAction STORE_TRUE; MHelp "help of boolean option"; MDest (Dest 2 DScalar false TyValue)];
   OpAdd ["-c"] [MAction STORE_FALSE; MHelp "help of count option"; MDest (Dest 3 DScalar false TyValue)];
   OpAdd ["-s"] [MFlag "--simple"; MHelp "help of simple option"; MRequired true; MMetavar "argSimple"; MNargs 1;
                 MValid (Some (Validator 2 (validChoise ["0"; "100"; "200"]))) true; MDest (Dest 4 DScalar false TyValue)];
   OpAdd ["-n"] [MFlag "--number"; MHelp "help of number"; MRequired true; MMetavar "ARG1 ARG2"; MNargs 2; MDest (Dest 5 DVector false TyValue)];
   OpAdd ["--infinite"] [MHelp "help of infinite"; MNargs plus; MDest (Dest 6 DVector false TyValue)];
   OpAdd ["-m"; "--multi"] [MAction APPEND; MHelp "help of multi"; MMetavar "MULTI"; MNargs 1; MDefaults ["0"; "1"; "2"]; MDest (Dest 7 DVector false TyValue)];
   OpAdd ["-N"; "--multiAppend"] [MAction APPEND; MHelp "help of multi"; MMetavar "MULTI"; MNargs 2; vnumber 3; MDefaults ["0"; "1"; "2"; "3"]; MDest (Dest 8 DVectorVector false TyValue)];
   OpAdd ["-e"; "--extend"] [MAction EXTEND; MHelp "help of extend"; MMetavar "EXTEND"; MNargs 1; MDefaults ["0"; "1"; "2"; "3"]; MDest (Dest 9 DVector false TyValue)];
   OpAdd ["-E"; "--extend-number"] [MAction EXTEND; MHelp "help of extend"; MMetavar "EXTEND"; MNargs 2; MDefaults ["0"; "1"; "2"; "3"]; MDest (Dest 10 DVector true TyValue)];
   OpSetAlternative true].

(** docs/examples.md:205-206 *)
Example all1 : ends (verdict all_type []) KRequired "-n" "option is required".
Proof. t. Qed.

(** docs/examples.md:207-226: the options that test true are the ones printed under MAP *)
Definition all2 := session all_type ["-n"; "4"; "2"; "-s"; "100"; "42"].
Definition all_names := ["NOTREQUIRED"; "--simple"; "--number"; "--infinite"; "--multi"; "--multiAppend"; "--extend"; "--extend-number"].
Example all2_ok : verdict all_type ["-n"; "4"; "2"; "-s"; "100"; "42"] = Ok tt. Proof. t. Qed.
Example all2_shown : filter (truth all2) all_names = ["--simple"; "--number"]. Proof. t. Qed.
Example all2_map : map (str_of all2) ["REQUIRED"; "-b"; "-c"; "--simple"; "--number"] = ["42"; "false"; "true"; "100"; "4, 2"].
Proof. t. Qed.
(** (the vector of --infinite holds one empty string: the document prints an empty list the same way) *)
Example all2_dest : map (received all2) (seq 0 11) =
  [[EvAssign 0 (CvStr "foo")]; [EvAssign 1 (CvStr "42")]; [EvAssign 2 (CvBool false)]; [EvAssign 3 (CvBool true)];
   [EvAssign 4 (CvStr "100")]; [EvPush 5 (CvStr "4"); EvPush 5 (CvStr "2")]; [EvPush 6 (CvStr "")];
   [EvPush 7 (CvStr "0"); EvPush 7 (CvStr "1"); EvPush 7 (CvStr "2")];
   [EvPushVec 8 [CvStr "0"; CvStr "1"]; EvPushVec 8 [CvStr "2"; CvStr "3"]];
   [EvPush 9 (CvStr "0"); EvPush 9 (CvStr "1"); EvPush 9 (CvStr "2"); EvPush 9 (CvStr "3")];
   [EvCallV 10 false ["0"; "1"; "2"; "3"]]].
Proof. t. Qed.

(** docs/examples.md:227-250 *)
Definition all3_line := ["--extend"; "4"; "-n"; "4"; "2"; "--extend-number"; "4"; "2"; "-s"; "100"; "42"; "-b"; "-c";
  "--multi"; "4"; "--multiAppend"; "4"; "2"; "--multi"; "2"; "--extend"; "2"; "4"; "2"; "--extend-number"; "4"; "2"; "4"; "2"].
Definition all3 := session all_type all3_line.
Example all3_ok : verdict all_type all3_line = Ok tt. Proof. t. Qed.
Example all3_shown : filter (truth all3) all_names
  = ["--simple"; "--number"; "--multi"; "--multiAppend"; "--extend"; "--extend-number"]. Proof. t. Qed.
Example all3_map : map (str_of all3) ["REQUIRED"; "-b"; "-c"; "--simple"; "--number"; "--multi"; "--multiAppend"; "--extend"; "--extend-number"]
  = ["42"; "true"; "false"; "100"; "4, 2"; "4, 2"; "(4, 2)"; "4, 2, 4, 2"; "(4, 2), (4, 2), (4, 2)"].
Proof. t. Qed.
Example all3_dest : map (received all3) (seq 0 11) =
  [[EvAssign 0 (CvStr "foo")]; [EvAssign 1 (CvStr "42")]; [EvAssign 2 (CvBool true)]; [EvAssign 3 (CvBool false)];
   [EvAssign 4 (CvStr "100")]; [EvPush 5 (CvStr "4"); EvPush 5 (CvStr "2")]; [EvPush 6 (CvStr "")];
   [EvPush 7 (CvStr "4"); EvPush 7 (CvStr "2")];
   [EvPushVec 8 [CvStr "4"; CvStr "2"]];
   [EvPush 9 (CvStr "4"); EvPush 9 (CvStr "2"); EvPush 9 (CvStr "4"); EvPush 9 (CvStr "2")];
   [EvCallV 10 true ["4"; "2"; "4"; "2"; "4"; "2"]]].
Proof. t. Qed.

(** docs/examples.md:251-280 *)
Example all4 : ends (verdict all_type ["-h"]) KHelp "" (lines
  ["usage: a.out -n ARG1 ARG2 -s argSimple [-E EXTEND] [-N MULTI] [-b] [-c]";
   "             [-e EXTEND] [-h] [-m MULTI] [-v] [--infinite INFINITE...]";
   "             --";
   "             REQUIRED [NOTREQUIRED]";
   "";
   "custom description message";
   "";
   "positional arguments:";
   "  REQUIRED              help of required positional argument (required)";
   "  NOTREQUIRED           help of positional argument (default: foo)";
   "";
   "optional arguments:";
   "  -n, --number ARG1 ARG2";
   "                        help of number (required)";
   "  -s, --simple argSimple";
   "                        help of simple option (required)";
   "  -E, --extend-number EXTEND";
   "                        help of extend (default: (0, 1), (2, 3))";
   "  -N, --multiAppend MULTI";
   "                        help of multi (default: (0, 1), (2, 3))";
   "  -b                    help of boolean option";
   "  -c                    help of count option";
   "  -e, --extend EXTEND   help of extend (default: 0, 1, 2, 3)";
   "  -h, --help            custom help option message";
   "  -m, --multi MULTI     help of multi (default: 0, 1, 2)";
   "  -v, --version         help of version option";
   "  --infinite INFINITE...";
   "                        help of infinite";
   "";
   "custom epilog message"]).
Proof. t. Qed.

(* ------------------------------------------------------------------------- *)
(** ** Append *)

Definition append1 := [OpAdd ["-a"] [MFlag "--append"; MAction APPEND; MHelp "custom append option message"]].
Example app1 : printed (session append1 ["-a1"; "--append=2"; "-a=3"]) "--append" = ["1"; "2"; "3"]. Proof. t. Qed.
Definition append3 := [OpAdd ["-a"] [MFlag "--append"; MAction APPEND; MHelp "custom append option message"; MNargs 3]].
Example app3 : map (item2 (session append3 ["-a"; "1"; "2"; "3"; "--append"; "4"; "5"; "6"]) "--append" 0) [0; 1; 2]%nat = ["1"; "2"; "3"]
  /\ map (item2 (session append3 ["-a"; "1"; "2"; "3"; "--append"; "4"; "5"; "6"]) "--append" 1) [0; 1; 2]%nat = ["4"; "5"; "6"].
Proof. split; t. Qed.

(* ------------------------------------------------------------------------- *)
(** ** Argument: (does args["ARG"] test true, its text, the additional arguments) *)

Definition asked (ops : list op) (l : list str) : option (bool * str * list str) :=
  match verdict ops l with
  | Ok _ => let s := session ops l in Some (truth s "ARG", str_of s "ARG", s_additional s)
  | _ => None end.
Definition arg1 := [OpAdd ["ARG"] [MHelp "custom argument message"]].
Example arg1a : asked arg1 [] = Some (false, "", []). Proof. t. Qed.
Example arg1b : asked arg1 ["42"] = Some (true, "42", []). Proof. t. Qed.
Example arg1c : asked arg1 ["--"; "42"] = Some (true, "42", []). Proof. t. Qed.
Example arg1d : asked arg1 ["--"; "42"; "1"; "2"; "3"] = Some (true, "42", ["1"; "2"; "3"]). Proof. t. Qed.

Definition argp := [OpAdd ["ARG"] [MHelp "custom argument message"; MNargs plus]].
Definition argi := [OpAdd ["ARG"] [MHelp "custom argument message"; MAction INFINITE]].
Example argpa : asked argp [] = Some (false, "", []) /\ asked argi [] = Some (false, "", []). Proof. split; t. Qed.
Example argpb : asked argp ["42"] = Some (true, "42", []) /\ asked argi ["42"] = Some (true, "42", []). Proof. split; t. Qed.
Example argpc : asked argp ["--"; "42"] = Some (true, "42", []) /\ asked argi ["--"; "42"] = Some (true, "42", []). Proof. split; t. Qed.
Example argpd : asked argp ["42"; "1"; "2"; "3"] = Some (true, "42, 1, 2, 3", [])
             /\ asked argi ["42"; "1"; "2"; "3"] = Some (true, "42, 1, 2, 3", []). Proof. split; t. Qed.

Definition arg3 := [OpAdd ["ARG"] [MHelp "custom argument message"; MNargs 3]].
Example arg3a : option_map (fun x => fst (fst x)) (asked arg3 []) = Some false. Proof. t. Qed.
Example arg3b : asked arg3 ["1"; "2"; "3"] = Some (true, "1, 2, 3", []). Proof. t. Qed.
Example arg3c : asked arg3 ["--"; "1"; "2"; "3"] = Some (true, "1, 2, 3", []). Proof. t. Qed.
Example arg3d : asked arg3 ["--"; "1"; "2"; "3"; "42"] = Some (true, "1, 2, 3", ["42"]). Proof. t. Qed.

Definition arg3i := [OpAdd ["ARG"] [MHelp "custom argument message"; MNargs 3; MAction INFINITE]].
Example arg3ia : option_map (fun x => fst (fst x)) (asked arg3i []) = Some false. Proof. t. Qed.
Example arg3ib : asked arg3i ["1"; "2"; "3"] = Some (true, "(1, 2, 3)", []). Proof. t. Qed.
Example arg3ic : asked arg3i ["--"; "1"; "2"; "3"] = Some (true, "(1, 2, 3)", []). Proof. t. Qed.
Example arg3id : asked arg3i ["1"; "2"; "3"; "--"; "42"] = Some (true, "(1, 2, 3)", ["42"]). Proof. t. Qed.

(* ------------------------------------------------------------------------- *)
(** ** Extend, Infinite, None *)

Definition extend1 := [OpAdd ["-e"; "--extend"] [MAction EXTEND; MHelp "custom extend option message"]].
Example ext1 : printed (session extend1 ["-e1"; "--extend=2"; "-e=3"; "--extend"; "4"; "5"; "6"]) "--extend"
  = ["1"; "2"; "3"; "4"; "5"; "6"]. Proof. t. Qed.
Definition extend3 := [OpAdd ["-e"; "--extend"] [MAction EXTEND; MHelp "custom extend option message"; MNargs 3]].
Example ext3 : map elem_values (d_elems (a_dyn (arg_of (session extend3
      ["-e"; "1"; "2"; "3"; "4"; "5"; "6"; "--extend"; "7"; "8"; "9"]) "--extend")))
  = [["1"; "2"; "3"]; ["4"; "5"; "6"]; ["7"; "8"; "9"]]. Proof. t. Qed.

Definition infinite1 := [OpAdd ["-i"; "--infinite"] [MAction INFINITE; MHelp "custom infinite option message"]].
Example inf1 : printed (session infinite1 ["-i"; "1"; "2"; "3"]) "--infinite" = ["1"; "2"; "3"]. Proof. t. Qed.
Example inf2 : verdict infinite1 ["-i"; "1"; "2"; "3"; "-i"] = Ok tt
            /\ printed (session infinite1 ["-i"; "1"; "2"; "3"; "-i"]) "--infinite" = []. Proof. split; t. Qed.
Example inf3 : printed (session infinite1 ["-i1"; "--infinite=2"; "-i=3"; "--infinite"; "4"; "5"; "6"]) "--infinite"
  = ["4"; "5"; "6"]. Proof. t. Qed.

Definition none1 := [OpAdd ["-n"; "--none"] [MHelp "custom none option message"]].
Example non1 : str_of (session none1 ["-n"; "1"]) "--none" = "1". Proof. t. Qed.
Example non2 : str_of (session none1 ["-n"; "1"; "--none"; "2"]) "--none" = "2". Proof. t. Qed.
Definition none3 := [OpAdd ["-n"; "--none"] [MHelp "custom none option message"; MNargs 3]].
Example non3 : printed (session none3 ["-n"; "1"; "2"; "3"]) "--none" = ["1"; "2"; "3"]. Proof. t. Qed.
Example non4 : printed (session none3 ["-n"; "1"; "2"; "3"; "--none"; "4"; "5"; "6"]) "--none" = ["4"; "5"; "6"]. Proof. t. Qed.

(* ------------------------------------------------------------------------- *)
(** ** Help, Version, StoreFalse, StoreTrue *)

Definition help1 := [OpAdd ["-h"; "--help"] [MAction HELP; MHelp "custom help option message"]].
Example hel1 : verdict help1 [] = Ok tt. Proof. t. Qed.
Example hel2 : ends (verdict help1 ["--help"]) KHelp "" (lines
  ["usage: a.out [-h]"; ""; "optional arguments:"; "  -h, --help            custom help option message"]). Proof. t. Qed.

Definition version1 := [OpSetVersion (lines ["multi line"; "Version: 0.0.0"]);
  OpAdd ["-v"] [MFlag "--version"; MAction VERSION; MHelp "custom help version message"]].
Example ver1 : verdict version1 [] = Ok tt. Proof. t. Qed.
Example ver2 : ends (verdict version1 ["--version"]) KVersion "" (lines ["multi line"; "Version: 0.0.0"]). Proof. t. Qed.

Definition sfalse := [OpAdd ["--no-boolean"] [MAction STORE_FALSE; MHelp "custom not boolean option message"]].
Example sfa1 : truth (session sfalse []) "--no-boolean" = true. Proof. t. Qed.
Example sfa2 : truth (session sfalse ["--no-boolean"]) "--no-boolean" = false. Proof. t. Qed.

Definition strue := [OpAdd ["-b"; "--boolean"] [MAction STORE_TRUE; MHelp "custom boolean option message"]].
Definition told (l : list str) := (truth (session strue l) "--boolean", counted (session strue l) "--boolean").
Example str1 : truth (session strue []) "--boolean" = false. Proof. t. Qed.
Example str2 : told ["-b"] = (true, 1%N). Proof. t. Qed.
Example str3 : told ["-bbb"] = (true, 3%N). Proof. t. Qed.
Example str4 : told ["-bb"; "-bb"] = (true, 4%N). Proof. t. Qed.

(* ------------------------------------------------------------------------- *)
(** ** Default value, Default valid, Custom valid transform *)

Definition defval := [OpAdd ["--option"] [MHelp "custom option message"; MDefaults ["default value"]];
  OpAdd ["--option-number"] [MHelp "custom option-number message"; MNargs 2; MDefaults ["default1"; "default2"]]].
Definition dv (l : list str) := let s := session defval l in
  (str_of s "--option", item s "--option-number" 0, item s "--option-number" 1).
Example dev1 : dv [] = ("default value", "default1", "default2"). Proof. t. Qed.
Example dev2 : dv ["--option"; "custom"] = ("custom", "default1", "default2"). Proof. t. Qed.
Example dev3 : dv ["--option-number"; "custom1"; "custom2"] = ("default value", "custom1", "custom2"). Proof. t. Qed.
Example dev4 : ends (verdict defval ["-h"]) KHelp "" (lines
  ["usage: a.out [-h] [--option OPTION]";
   "             [--option-number OPTION-NUMBER OPTION-NUMBER]";
   "";
   "optional arguments:";
   "  -h, --help            show this help message and exit";
   "  --option OPTION       custom option message (default: default value)";
   "  --option-number OPTION-NUMBER OPTION-NUMBER";
   "                        custom option-number message (default: default1,";
   "                        default2)"]). Proof. t. Qed.

Definition defvalid := [OpAdd ["--option"] [MHelp "custom option message"; MValid (Some (Validator 1 validNumber)) false; MRequired true]].
Definition required_usage : str := lines
  ["usage: a.out --option OPTION [-h]";
   "";
   "optional arguments:";
   "  --option OPTION       custom option message (required)";
   "  -h, --help            show this help message and exit"].
Example dva1 : ends (verdict defvalid []) KRequired "--option" "option is required". Proof. t. Qed.
Example dva2 : ends (verdict defvalid ["--option"; "custom"]) KValid "--option" (quoted "custom" ^^ " is not a number"). Proof. t. Qed.
Example dva3 : str_of (session defvalid ["--option"; "42"]) "--option" = "42". Proof. t. Qed.
Example dva4 : ends (verdict defvalid ["-h"]) KHelp "" required_usage. Proof. t. Qed.

(** the user's isValid(): every "foo" becomes "foobar", anything else throws *)
Fixpoint custom_valid (l : list str) : vres :=
  match l with
  | [] => VOk true []
  | x :: r => if String.eqb x "foo"
              then match custom_valid r with VOk b r' => VOk b ((x ^^ "bar") :: r') | other => other end
              else VThrow (quoted x ^^ " is not " ^^ quoted "foo")
  end.
Definition transform := [OpAdd ["--option"] [MHelp "custom option message"; MValid (Some (Validator 1 custom_valid)) true; MRequired true]].
Example tra1 : ends (verdict transform []) KRequired "--option" "option is required". Proof. t. Qed.
Example tra2 : str_of (session transform ["--option"; "foo"]) "--option" = "foobar". Proof. t. Qed.
Example tra3 : ends (verdict transform ["--option"; "42"]) KValid "--option" (quoted "42" ^^ " is not " ^^ quoted "foo"). Proof. t. Qed.
Example tra4 : ends (verdict transform ["-h"]) KHelp "" required_usage. Proof. t. Qed.

(* ------------------------------------------------------------------------- *)
(** ** /repo/README.md:55-165, quick start *)

Definition levels : list str := ["0"; "1"; "2"; "3"; "4"; "5"; "6"; "7"; "EMERG"; "ALERT"; "CRITICAL"; "ERROR"; "WARNING"; "NOTICE"; "INFO"; "DEBUG"].
Definition quick : list op :=
  [OpSetVersion "Version: 0.0.0";
   OpAdd ["ARGUMENT"] [MHelp "help of positional argument"; MRequired true];
   OpAdd ["-v"] [MFlag "--version"; MHelp "print version"; MAction VERSION];
   OpAdd ["-o"; "--option"] [MHelp "help of option"; MNargs 2; MMetavar "OPT1 OPT2"];
   OpAdd ["--log-level"] [MFlag "-l"; MHelp "help of log-level"; MMetavar "LEVEL";
     MValid (Some (Validator 1 (validChoise levels))) true; MDefaults ["INFO"]; MDest (Dest 0 DScalar true TyValue)];
   OpSetStrict true; OpSetAlternative true].
Example qui1 : ends (verdict quick ["--version"]) KVersion "" "Version: 0.0.0". Proof. t. Qed.
Example qui2 : ends (verdict quick ["-h"]) KHelp "" (lines
  ["usage: a.out [-h] [-l LEVEL] [-o OPT1 OPT2] [-v] -- ARGUMENT";
   "";
   "positional arguments:";
   "  ARGUMENT              help of positional argument (required)";
   "";
   "optional arguments:";
   "  -h, --help            show this help message and exit";
   "  -l, --log-level LEVEL";
   "                        help of log-level (default: INFO)";
   "  -o, --option OPT1 OPT2";
   "                        help of option";
   "  -v, --version         print version"]). Proof. t. Qed.
Example qui3 : ends (verdict quick []) KRequired "ARGUMENT" "argument is required". Proof. t. Qed.
Example qui4 : ends (verdict quick ["42"; "-log-level"; "Foo"]) KValid "-l"
  (quoted "Foo" ^^ " is not a valid choise (" ^^ join ", " (map quoted levels) ^^ ")"). Proof. t. Qed.
Example qui5 : verdict quick ["42"] = Ok tt
  /\ str_of (session quick ["42"]) "ARGUMENT" = "42" /\ truth (session quick ["42"]) "--option" = false
  /\ received (session quick ["42"]) 0 = [EvCall 0 false "INFO"]. Proof. repeat split; t. Qed.
Example qui6 : ends (verdict quick ["42"; "--log-level=DEBUG"; "--option"; "Foo"]) KParse "option" "bad number of argument". Proof. t. Qed.
Definition qui7_line := ["42"; "-l7"; "-o"; "Foo"; "Bar"].
Example qui7 : verdict quick qui7_line = Ok tt
  /\ str_of (session quick qui7_line) "ARGUMENT" = "42"
  /\ (item (session quick qui7_line) "--option" 0, item (session quick qui7_line) "--option" 1) = ("Foo", "Bar")
  /\ received (session quick qui7_line) 0 = [EvCall 0 true "7"]. Proof. repeat split; t. Qed.
