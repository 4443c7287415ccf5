(** Tests.v -- the expectations of /repo/test/*.cpp replayed on the model.
    These are tests of the fidelity of the model (evaluation on literals), not
    proofs of properties. *)
From Verif Require Import Base Model_Utils Model_Number Model_Types Model_Argument Model_Valid
  Model_Usage Model_Args Model_Api.

Definition after (ops : list op) : state := match run ops init with Some s => s | None => init end.
Definition outcome (ops : list op) (o : op) : res unit := snd (step o (after ops)).
Definition ends (r : res unit) (k : xkind) (a m : str) : Prop := r = Throw (Exn k a m).
Definition arg_of (s : state) (n : str) : argument :=
  match getArgument s n with Ok a => a | _ => Arg 0 0 new_cfg new_dyn end.
Definition str_of (s : state) (n : str) : str := getString (arg_of s n).
Definition item (s : state) (n : str) (i : nat) : str :=
  match nth_error (d_elems (a_dyn (arg_of s n))) i with Some e => elem_value e | None => "??" end.
Definition item2 (s : state) (n : str) (i j : nat) : str :=
  match nth_error (d_elems (a_dyn (arg_of s n))) i with
  | Some e => nth j (elem_values e) "??" | None => "??" end.
Definition num_item (s : state) (n : str) (i : nat) : option dec :=
  match nth_error (d_elems (a_dyn (arg_of s n))) i with Some e => lf_num (el_leaf e) | None => None end.
Definition strict : list op := [OpSetAlternative true; OpSetStrict true].
Definition lines (l : list str) : str := join nl l.

Ltac t := vm_compute; reflexivity.

(* ---- test/parseArguments.cpp: parseException ---- *)
Example pe1 : ends (outcome (strict ++ [OpAdd ["-a"] [MAction STORE_TRUE]]) (OpParse ["binaryName"; "-ba"])) KParse "b" "invalid option".
Proof. t. Qed.
Example pe2 : ends (outcome (strict ++ [OpAdd ["-a"] [MAction STORE_TRUE]; OpAdd ["-b"] [MAction EXTEND; MNargs 2]]) (OpParse ["binaryName"; "-ba"]))
  KParse "b" "only last option can be use a parameter".
Proof. t. Qed.
Example pe3 : ends (outcome strict (OpParse ["binaryName"; "-a"])) KParse "a" "invalid option".
Proof. t. Qed.
Example pe4 : ends (outcome strict (OpParse ["binaryName"; "--long"])) KParse "long" "invalid option".
Proof. t. Qed.
Example pe5 : ends (outcome (strict ++ [OpAdd ["--boolean"] [MAction STORE_TRUE]]) (OpParse ["binaryName"; "--boolean=nothing"]))
  KParse "boolean" "option cannot use with argument".
Proof. t. Qed.
Example pe6 : ends (outcome (strict ++ [OpAdd ["--number"] [MNargs 2]]) (OpParse ["binaryName"; "--number=nothing"]))
  KParse "number" "option cannot use with only 1 argument".
Proof. t. Qed.
Example pe7 : ends (outcome (strict ++ [OpAdd ["--simple"] [MNargs 1]]) (OpParse ["binaryName"; "--simple"])) KParse "simple" "bad number of argument".
Proof. t. Qed.
Example pe8 : ends (outcome (strict ++ [OpAdd ["--number"] [MNargs 2]]) (OpParse ["binaryName"; "--number"])) KParse "number" "bad number of argument".
Proof. t. Qed.
Example pe9 : ends (outcome (strict ++ [OpAdd ["--multi"] [MAction APPEND; MNargs 1]]) (OpParse ["binaryName"; "--multi"])) KParse "multi" "bad number of argument".
Proof. t. Qed.
Example pe10 : ends (outcome (strict ++ [OpAdd ["--multi-number"] [MAction APPEND; MNargs 2]]) (OpParse ["binaryName"; "--multi-number"; "arg"]))
  KParse "multi-number" "bad number of argument".
Proof. t. Qed.
Example pe11 : ends (outcome (strict ++ [OpAdd ["--multi-number-infinite"] [MAction EXTEND; MNargs 2]]) (OpParse ["binaryName"; "--multi-number-infinite"; "arg"]))
  KParse "multi-number-infinite" "bad number of argument".
Proof. t. Qed.
Example pe12 : ends (outcome strict (OpParse ["binaryName"; "arg"])) KParse "arg" "invalid additional argument".
Proof. t. Qed.
Example pe13 : ends (outcome (strict ++ [OpAdd ["ARG"] [MNargs 2]]) (OpParse ["binaryName"; "arg"])) KParse "ARG" "bad number of argument".
Proof. t. Qed.
Example pe14 : ends (outcome (strict ++ [OpAdd ["ARG"] [MAction INFINITE; MNargs 2]]) (OpParse ["binaryName"; "arg"])) KParse "ARG" "bad number of argument".
Proof. t. Qed.

(* ---- endOfInfiniteArgument ---- *)
Definition eoi_state := after (strict ++
  [OpAdd ["-b"] [MAction STORE_TRUE]; OpAdd ["-r"] [MAction STORE_FALSE]; OpAdd ["-s"] [MNargs 1];
   OpAdd ["--infinite"] [MNargs plus; MDefaults ["0"; "1"; "2"; "3"]];
   OpParse ["binaryName"; "--infinite"; "-infinite"; "--infinite"; "-ok"; "--infinite"; "-rb";
            "--infinite"; "-sSimple"; "--infinite"; "-o"]]).
Example eoi_test : (str_of eoi_state "-b", str_of eoi_state "-r", str_of eoi_state "-s", item eoi_state "--infinite" 0)
  = ("true", "false", "Simple", "-o").
Proof. t. Qed.

(* ---- allType ---- *)
Definition vtrue (n : nat) : validator := Validator n (fun l => VOk true l).
Definition vfalse (n : nat) : validator := Validator n (fun l => VOk false l).
Definition alltype_ops : list op :=
  [OpAdd ["REQUIRED"] [MRequired true; MValid (Some (vtrue 1)) true];
   OpAdd ["-b"; "--bool"] [MAction STORE_TRUE];
   OpAdd ["--notbool"] [MAction STORE_FALSE];
   OpAdd ["-s"; "--simple"] [MMetavar "ArgOfSimple"; MNargs 1; MDefaults ["0"]; MDest (Dest 0 DScalar false TyValue)];
   OpAdd ["--number"] [MMetavar "Arg1 Arg2"; MNargs 2; MDefaults ["0"; "1"]; MValid (Some (vtrue 2)) true];
   OpAdd ["--infinite"] [MNargs plus; MDefaults ["0"; "1"; "2"; "3"]];
   OpAdd ["-m"; "--multi"] [MAction APPEND; MNargs 1; MDefaults ["0"; "1"; "2"; "3"]];
   OpAdd ["--multi2"] [MAction APPEND; MNargs 1; MDefaults ["0"; "1"; "2"; "3"]];
   OpAdd ["--multi-number"] [MAction APPEND; MNargs 2; MDefaults ["0"; "1"; "2"; "3"]];
   OpAdd ["--multi-infinite"] [MAction EXTEND; MNargs 1; MDefaults ["0"; "1"; "2"; "3"]];
   OpAdd ["--multi-infinite-number"] [MAction EXTEND; MNargs 2; MDefaults ["0"; "1"; "2"; "3"]; MValid (Some (vtrue 3)) true];
   OpSetAlternative true].
Definition alltype_argv : list str :=
  ["binaryName"; "--notbool"; "-bsSIMPLE"; "--simple"; "SIMPLE"; "--number"; "FOO"; "BAR"; "--infinite=A";
   "--infinite"; "A"; "B"; "C"; "D"; "E"; "-m=A"; "-multi"; "B"; "--multi"; "C"; "-multi2"; "A";
   "--multi-number"; "A"; "B"; "--multi-number"; "C"; "D"; "--multi-infinite"; "A"; "B"; "C";
   "--multi-infinite"; "D"; "E"; "--multi-infinite-number"; "A"; "B"; "--multi-infinite-number"; "C"; "D"; "E"; "F";
   "--"; "ISREQUIRED"; "ADDITIONAL"].
Definition alltype := after (alltype_ops ++ [OpParse alltype_argv]).
Example at0 : outcome alltype_ops (OpParse alltype_argv) = Ok tt. Proof. t. Qed.
Example at1 : map (str_of alltype) ["REQUIRED"; "-b"; "--notbool"; "--simple"; "--infinite"; "-m"; "--multi2"; "--multi-number"; "--multi-infinite"; "--multi-infinite-number"; "--number"]
  = ["ISREQUIRED"; "true"; "false"; "SIMPLE"; "A, B, C, D, E"; "A, B, C"; "A"; "(A, B), (C, D)"; "A, B, C, D, E"; "(A, B), (C, D), (E, F)"; "FOO, BAR"].
Proof. t. Qed.
Example at2 : s_dlog alltype = [EvAssign 0 (CvStr "SIMPLE")]. Proof. t. Qed.
Example at3 : s_additional alltype = ["ADDITIONAL"]. Proof. t. Qed.
Example at4 : (item2 alltype "--multi-infinite-number" 2 0, item alltype "--multi-infinite" 4) = ("E", "E"). Proof. t. Qed.
Example at5 : to_vector (arg_of alltype "--bool") = Throw (Exn KBase "" "convertion to vector of string not authorized"). Proof. t. Qed.
Example at6 : to_vector_vector (arg_of alltype "--bool") = Throw (Exn KBase "" "convertion to vector of vector of string not authorized"). Proof. t. Qed.
Example at7 : to_vector_vector (arg_of alltype "--multi-infinite-number") = Ok [["A"; "B"]; ["C"; "D"]; ["E"; "F"]]. Proof. t. Qed.
Example at8 : match d_elems (a_dyn (arg_of alltype "--multi-infinite-number")), d_elems (a_dyn (arg_of alltype "--multi-infinite")) with
              | e :: _, f :: _ => (elem_to_vector e, elem_to_vector f) | _, _ => (UB, UB) end
  = (Ok ["A"; "B"], Throw (Exn KBase "" "convertion to vector of string not authorized")). Proof. t. Qed.

(* ---- argumentNumber, argumentInfinite, argumentInfiniteNumber ---- *)
Definition n3 := after [OpAdd ["argument"] [MNargs 3]; OpSetAlternative true; OpParse ["binaryName"; "0"; "1"; "2"]].
Example an : map (num_item n3 "argument") [0; 1; 2]%nat = [Some (0, 0); Some (1, 0); Some (2, 0)]%Z. Proof. t. Qed.
Definition ni := after [OpAdd ["argument"] [MNargs plus]; OpAdd ["-b"] [MAction STORE_TRUE]; OpSetAlternative true; OpParse ["binaryName"; "0"; "1"; "2"; "-b"]].
Example ai : str_of ni "argument" = "0, 1, 2" /\ str_of ni "-b" = "true". Proof. split; t. Qed.
Definition nin := after [OpAdd ["argument"] [MNargs plus; MNargs 3]; OpAdd ["-b"] [MAction STORE_TRUE]; OpSetAlternative true; OpParse ["binaryName"; "0"; "1"; "2"; "0"; "1"; "2"; "-b"]].
Example ain : str_of nin "argument" = "(0, 1, 2), (0, 1, 2)". Proof. t. Qed.

(* ---- help, version ---- *)
Definition help_msg : str := lines
  ["usage: binaryName [-h]"; ""; "optional arguments:"; "  -h, --help            show this help message and exit"].
Example help1 : ends (outcome [OpSetHelpException true] (OpParse ["binaryName"; "--help"])) KHelp "" help_msg. Proof. t. Qed.
Example help2 : outcome [] (OpParse ["binaryName"; "--help"]) = Exit (help_msg ^^ nl). Proof. t. Qed.
Example ver1 : ends (outcome [OpSetVersion "version: 0.0.0"; OpAdd ["--version"] [MAction VERSION]; OpSetVersionException true]
  (OpParse ["binaryName"; "--version"])) KVersion "" "version: 0.0.0". Proof. t. Qed.
Example ver2 : outcome [OpSetVersion "version: 0.0.0"; OpAdd ["--version"] [MAction VERSION]] (OpParse ["binaryName"; "--version"])
  = Exit ("version: 0.0.0" ^^ nl). Proof. t. Qed.

(* ---- required ---- *)
Example req1 : ends (outcome [OpAdd ["argument"] [MRequired true]] (OpParse ["binaryName"])) KRequired "argument" "argument is required". Proof. t. Qed.
Example req2 : ends (outcome [OpAdd ["--option"] [MAction STORE_TRUE; MRequired true]] (OpParse ["binaryName"])) KRequired "--option" "option is required". Proof. t. Qed.
Example noHelper : outcome [OpAdd ["--help"] [MFlag "-h"; MAction STORE_TRUE; MRequired true]] (OpParse ["binaryName"]) = Ok tt. Proof. t. Qed.

(* ---- valid ---- *)
Definition with_v (ms : list meth) (v : list str -> vres) := [OpAdd ["--option"] (ms ++ [MValid (Some (Validator 7 v)) true])].
Definition opt_argv (l : list str) := OpParse ("binaryName" :: "--option" :: l).
Example v1 : ends (outcome (with_v [MAction STORE_TRUE] (fun l => VOk true l)) (opt_argv ["foo"])) KValid "--option" "invalid type option for use valid". Proof. t. Qed.
Example v2 : ends (outcome (with_v [MNargs 1] (fun l => VOk false l)) (opt_argv ["foo"])) KValid "--option" "invalid check function". Proof. t. Qed.
Example v3 : ends (outcome (with_v [MNargs 2] validNumber) (opt_argv ["A"; "100"])) KValid "--option" (quoted "A" ^^ " is not a number"). Proof. t. Qed.
Definition showd (d : dec) : str := match fst d with 0%Z => "0" | 100%Z => "100" | _ => "?" end.
Definition mm (a b : Z) := validMinMax dec_ltb istream_double showd (a, 0%Z) (b, 0%Z).
Example v4 : ends (outcome (with_v [MNargs 2] (mm 0 100)) (opt_argv ["A"; "100"])) KValid "--option" (quoted "A" ^^ " is not a number"). Proof. t. Qed.
Example v5 : ends (outcome (with_v [MNargs 2] (mm 100 0)) (opt_argv ["-1"; "100"])) KValid "--option" "-1 is not between 0 and 100". Proof. t. Qed.
Example v6 : outcome (with_v [MNargs 2] (mm 0 100)) (opt_argv ["0"; "100"]) = Ok tt. Proof. t. Qed.
Example v7 : ends (outcome (with_v [MNargs 2] (validChoise ["0"; "100"])) (opt_argv ["-1"; "100"])) KValid "--option"
  (quoted "-1" ^^ " is not a valid choise (" ^^ quoted "0" ^^ ", " ^^ quoted "100" ^^ ")"). Proof. t. Qed.
Example v8 : outcome (with_v [MNargs 2] (validChoise ["0"; "100"])) (opt_argv ["0"; "100"]) = Ok tt. Proof. t. Qed.
Example v9 : ends (outcome (with_v [MNargs 1] (validPath PAll (fun _ => None))) (opt_argv ["."])) KValid "--option" (quoted "." ^^ " is not a valid path"). Proof. t. Qed.
Example v10 : ends (outcome (with_v [MNargs 1] (validPath PIsDir (fun _ => Some FReg))) (opt_argv ["."])) KValid "--option" (quoted "." ^^ " is not a valid directory"). Proof. t. Qed.
Example v11 : ends (outcome (with_v [MNargs 1] (validPath PIsFile (fun _ => Some FDir))) (opt_argv ["."])) KValid "--option" (quoted "." ^^ " is not a valid file"). Proof. t. Qed.
Example v12 : outcome (with_v [MNargs 1] (validPath PIsFile (fun _ => Some FReg))) (opt_argv ["."]) = Ok tt. Proof. t. Qed.

(* ---- test/addArgument.cpp ---- *)
Example aa1 : ends (outcome [] (OpAdd [""] [])) KArgument "" "bad name argument". Proof. t. Qed.
Example aa2 : ends (outcome [OpAdd ["foo"] []] (OpAdd ["foo"] [])) KArgument "foo" "bad name argument already exist". Proof. t. Qed.
Example aa3 : ends (outcome [] (OpAdd [] [])) KArgument "" "invalid empty flag". Proof. t. Qed.
Example aa4 : ends (outcome [] (OpAdd ["-1"] [MFlag "1"])) KArgument "1" "invalid flag not start by '-' character". Proof. t. Qed.
Example aa5 : ends (outcome [] (OpAdd ["-2"] [MFlag "-"])) KArgument "-" "invalid flag not be only '-' character". Proof. t. Qed.
Example aa6 : ends (outcome [] (OpAdd ["-3"] [MFlag "--"])) KArgument "--" "invalid flag not be only '--' characters". Proof. t. Qed.
Example aa7 : ends (outcome [] (OpAdd ["-4"] [MFlag "-no"])) KArgument "-no" "invalid short flag has not only one character". Proof. t. Qed.
Example aa8 : ends (outcome [OpAdd ["-n"] []] (OpAdd ["-n"] [])) KArgument "-n" "invalid flag already exist". Proof. t. Qed.
Example aa9 : ends (outcome [OpAdd ["-m"] []] (OpAdd ["-a"] [MFlag "-m"])) KArgument "-m" "invalid flag already exist". Proof. t. Qed.
Example aa10 : ends (outcome [] (OpAdd ["A"] [MFlag "nop"])) KArgument "nop" "can't add flag in positionnal argument". Proof. t. Qed.
Example aa11 : ends (outcome [] (OpAdd ["B"] [MAction APPEND])) KArgument "B" "positional argument cannot use with this action or this nargs". Proof. t. Qed.
Example aa12 : ends (outcome [OpAdd ["-h"] [MAction HELP]] (OpAdd ["-b"] [MAction HELP])) KArgument "-b" "help action already defined". Proof. t. Qed.
Example aa13 : ends (outcome [OpAdd ["--version"] [MAction VERSION]] (OpAdd ["--bad-version"] [MAction VERSION])) KArgument "--bad-version" "version action already defined". Proof. t. Qed.
Example aa14 : ends (outcome [] (OpAdd ["--long"] [MNargs 1; MDefaults ["1"; "2"]])) KArgument "--long" msg_defaults. Proof. t. Qed.
Example aa15 : ends (outcome [] (OpAdd ["-t"] [MNargs 2; MDefaults ["1"]])) KArgument "-t" msg_defaults. Proof. t. Qed.
Example aa16 : ends (outcome [] (OpAdd ["-u"] [MAction APPEND; MNargs 2; MDefaults ["1"]])) KArgument "-u" msg_defaults. Proof. t. Qed.
Example aa17 : str_of (after [OpAdd ["argument1"] [MDefaults ["default"]]]) "argument1" = "default". Proof. t. Qed.
Example aa18 : c_action (a_cfg (arg_of (after [OpAdd ["ARG"] [MAction NONE; MAction INFINITE; MNargs 4; MNargs 1]]) "ARG")) = INFINITE. Proof. t. Qed.
Example aa19 : let s := after [OpAdd ["-v"; "--version"] [MAction VERSION]; OpRemove ["-v"]; OpRemove ["--version"]] in
  (argumentExists s "-v", argumentExists s "--version", s_version s) = (false, false, None). Proof. t. Qed.

(* ---- accessDenied, removeArguments, updateArgument ---- *)
Example ad1 : getArgument init "foo" = Throw (Exn KAccess "foo" "argument not found"). Proof. t. Qed.
Example ra1 : ends (outcome [] (OpRemove [])) KArgument "" "invalid empty flag". Proof. t. Qed.
Example ra2 : ends (outcome [] (OpRemove ["--unknown"])) KArgument "--unknown" "argument not found". Proof. t. Qed.
Example ra3 : let s := after [OpAdd ["--help"] [MFlag "-h"; MAction HELP]; OpRemove ["-h"; "--help"]] in
  (s_map s, s_args s, s_help s) = ([], [], None). Proof. t. Qed.
Example ua1 : ends (outcome [] (OpUpdate "--unknown" [])) KAccess "--unknown" "argument not found". Proof. t. Qed.
Example ua2 : c_help (a_cfg (arg_of (after [OpAdd ["-h"] [MAction HELP; MHelp "print"]; OpUpdate "-h" [MHelp "custom"]]) "-h")) = "custom". Proof. t. Qed.
Example ua3 : let s := after [OpAdd ["-h"] [MAction HELP; MHelp "print"]; OpUpdate "-h" [MAction NONE]] in
  (c_action (a_cfg (arg_of s "-h")), s_help s) = (NONE, None). Proof. t. Qed.

(* ---- test/getUsage.cpp ---- *)
Example gu1 : getUsage (after [OpSetUsage "foo"]) = Ok "foo". Proof. t. Qed.
Definition st (n h : str) := OpAdd [n] [MAction STORE_TRUE; MHelp h].
Definition str_req (n h : str) := OpAdd [n] [MAction STORE_TRUE; MHelp h; MRequired true].
Example gu2 : getUsage (after
  [OpAdd ["-h"; "--help"] [MAction HELP; MHelp "custom help option message"];
   OpAdd ["NOTREQUIRED1"] [MHelp "help of positional argument"];
   OpAdd ["REQUIRED1"] [MHelp "help of required1 positional argument"; MRequired true];
   OpAdd ["REQUIRED2"] [MHelp "help of required2 positional argument"; MRequired true];
   OpAdd ["NOTREQUIRED2"] [MHelp "help of positional argument"];
   str_req "-a" "help of a short option"; st "-b" "help of b short option"; st "-c" "help of c short option";
   str_req "-d" "help of d short option"; st "--long1" "help of long1 option"; str_req "--long2" "help of long2 option";
   st "--long3" "help of long3 option"; st "--long4" "help of long4 option"; st "--long5" "help of long5 option";
   str_req "--long6" "help of long6 option"; str_req "-e" "help of e short option"; st "-f" "help of f short option";
   str_req "-g" "help of g short option"]) = Ok (lines
  ["usage:  -a -d -e -g --long2 --long6 [-b] [-c] [-f] [-h] [--long1] [--long3]";
   "        [--long4] [--long5]"; "        --";
   "        REQUIRED1 REQUIRED2 [NOTREQUIRED1] [NOTREQUIRED2]"; "";
   "positional arguments:";
   "  REQUIRED1             help of required1 positional argument (required)";
   "  REQUIRED2             help of required2 positional argument (required)";
   "  NOTREQUIRED1          help of positional argument";
   "  NOTREQUIRED2          help of positional argument"; "";
   "optional arguments:";
   "  -a                    help of a short option (required)";
   "  -d                    help of d short option (required)";
   "  -e                    help of e short option (required)";
   "  -g                    help of g short option (required)";
   "  --long2               help of long2 option (required)";
   "  --long6               help of long6 option (required)";
   "  -b                    help of b short option";
   "  -c                    help of c short option";
   "  -f                    help of f short option";
   "  -h, --help            custom help option message";
   "  --long1               help of long1 option";
   "  --long3               help of long3 option";
   "  --long4               help of long4 option";
   "  --long5               help of long5 option"]). Proof. t. Qed.

Definition width_ops := [OpSetUsageWidth 0 10 2 10;
   OpSetDescription "XXXXXXXXXXXXXXXXXXXXXXXXXXXXXXXXXXXXXXXXXXXXXXXXXXXXXX";
   OpAdd ["-h"; "--help"] [MAction HELP; MHelp "show this help message and exit"];
   OpAdd ["XXXXXXXXXXX"] [MHelp "XXXX XXXX XXXX XXXX XXXX XXXX XXXX XXXX XXXX XXXX XXXX XXXX XXXX XX"]].
Definition width_tail := ["positional arguments:"; "XXXXXXXXXXX";
   "            XXXX XXXX"; "            XXXX XXXX"; "            XXXX XXXX"; "            XXXX XXXX";
   "            XXXX XXXX"; "            XXXX XXXX"; "            XXXX XX"; "";
   "optional arguments:"; "-h, --help  show this"; "            help"; "            message"; "            and exit"].
Example gu3 : getUsage (after width_ops) = Ok (lines (["usage:  [-h] --"; "        [XXXXXXXXXXX]"; "";
  "XXXXXXXXXXXXXXXXXXXXXXXXXXXXXXXXXXXXXXXXXXXXXXXXXXXXXX"; ""] ++ width_tail)). Proof. t. Qed.
Example gu4 : getUsage (after (width_ops ++ [OpSetDescription "                                                      "; OpParse ["./a.out"]]))
  = Ok (lines (["usage: a.out [-h] --"; "             [XXXXXXXXXXX]"; ""; "                      "; ""; ""] ++ width_tail)). Proof. t. Qed.

Example gu5 : getUsage (after
  [OpSetDescription "custom description message"; OpSetEpilog "custom epilog message";
   OpAdd ["-h"; "--help"] [MAction HELP; MHelp "show this help message and exit"];
   OpAdd ["REQUIRED"] [MHelp "help of required positional argument"; MRequired true];
   OpAdd ["NUMBER"] [MHelp "help of positional number argument"; MNargs 2];
   OpAdd ["INFINITE"] [MHelp "help of infinite positional argument"; MAction INFINITE];
   OpAdd ["INFINITE_NUMBER"] [MHelp "help of infinite positional number argument"; MAction INFINITE; MNargs 2];
   OpAdd ["NOTREQUIRED"] [MHelp "help of positional argument"; MDefaults ["DEFAULT VALUE"]];
   OpAdd ["-b"; "--bool"] [MAction STORE_TRUE; MHelp "help of bool option"];
   OpAdd ["--notbool"] [MAction STORE_FALSE; MHelp "help of notbool option"];
   OpAdd ["-s"; "--simple"] [MHelp "help of simple option"; MMetavar "ArgOfSimple"; MNargs 1; MDefaults ["0"]];
   OpAdd ["--number"] [MHelp "help of number option"; MMetavar "Arg1 Arg2"; MNargs 2; MDefaults ["0"; "1"]];
   OpAdd ["--infinite"] [MFlag "-i"; MAction INFINITE; MHelp "help of infinite option"; MNargs 1; MDefaults ["0"; "1"; "2"; "3"]];
   OpAdd ["--multi"] [MAction APPEND; MHelp "help of multi option"; MNargs 1; MDefaults ["0"; "1"; "2"; "3"]];
   OpAdd ["--multi-number"] [MAction APPEND; MHelp "help of multi number option"; MNargs 2; MDefaults ["0"; "1"; "2"; "3"]];
   OpAdd ["--multi-infinite"] [MAction EXTEND; MHelp "help of multi-infinite option"; MNargs 1; MDefaults ["0"; "1"; "2"; "3"]];
   OpAdd ["--multi-infinite-number"] [MAction EXTEND; MHelp "help of multi-infinite-number option"; MNargs 2; MDefaults ["0"; "1"; "2"; "3"]]])
  = Ok (lines
  ["usage:  [-b] [-h] [-i INFINITE...] [-s ArgOfSimple] [--multi MULTI]";
   "        [--multi-infinite MULTI-INFINITE]";
   "        [--multi-infinite-number MULTI-INFINITE-NUMBER MULTI-INFINITE-NUMBER]";
   "        [--multi-number MULTI-NUMBER MULTI-NUMBER] [--notbool]";
   "        [--number Arg1 Arg2]"; "        --";
   "        REQUIRED [NUMBER NUMBER] [INFINITE {INFINITE}...]";
   "        [{INFINITE_NUMBER INFINITE_NUMBER}...] [NOTREQUIRED]"; "";
   "custom description message"; "";
   "positional arguments:";
   "  REQUIRED              help of required positional argument (required)";
   "  NUMBER                help of positional number argument";
   "  INFINITE              help of infinite positional argument";
   "  INFINITE_NUMBER       help of infinite positional number argument";
   "  NOTREQUIRED           help of positional argument (default: DEFAULT VALUE)"; "";
   "optional arguments:";
   "  -b, --bool            help of bool option";
   "  -h, --help            show this help message and exit";
   "  -i, --infinite INFINITE...";
   "                        help of infinite option (default: 0, 1, 2, 3)";
   "  -s, --simple ArgOfSimple";
   "                        help of simple option (default: 0)";
   "  --multi MULTI         help of multi option (default: 0, 1, 2, 3)";
   "  --multi-infinite MULTI-INFINITE";
   "                        help of multi-infinite option (default: 0, 1, 2, 3)";
   "  --multi-infinite-number MULTI-INFINITE-NUMBER MULTI-INFINITE-NUMBER";
   "                        help of multi-infinite-number option (default: (0, 1),";
   "                        (2, 3))";
   "  --multi-number MULTI-NUMBER MULTI-NUMBER";
   "                        help of multi number option (default: (0, 1), (2, 3))";
   "  --notbool             help of notbool option";
   "  --number Arg1 Arg2    help of number option (default: 0, 1)"; "";
   "custom epilog message"]). Proof. t. Qed.
