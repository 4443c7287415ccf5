# Formal model of MickaelBlet/Args in Coq 8.16 — design

## 1. Approach

The library is a sequential state machine: an `Args` object, mutated by API calls.
The model (`rocq/theories/Model*.v`) transcribes the C++ of `/repo/src` and
`/repo/include/blet/args` function by function into total, computable Gallina
functions `state -> state * result`.  A result is one of

* normal return,
* a library exception (class, `argument()`, `what()`), *with the state at the throw point*
  (the state is kept because a caller may catch and continue),
* `exit(0)` with the text printed,
* undefined behaviour (null/dangling dereference, access outside `argv`, `front()` of an
  empty vector, use of an erased iterator) — a distinct outcome, never totalised away,
* "out of fuel" (the loop did not finish in the given number of iterations).

`Model_Api.v` defines the API calls as a type `op`, a step function and the set of
reachable states (every history of calls that returned or threw; after `exit` or UB
there is no next state).  Properties are theorems over all reachable states, all argv
and so on.  `Spec_*.v` contain the small specifications used in the statements;
`Properties_*.v` contain the theorems (named after their property) and their last proof steps, with
`Print Assumptions`, and beside each an `Example` that a non-trivial instance meets the
hypotheses.  `Tests.v` replays the repository's own gtest expectations on the model by
`vm_compute`, and `Tests_Docs.v` every session printed in README.md and
docs/examples.md (tests of the fidelity of the model, not proofs).

## 2. Plan per property

| id | modelled by | proof method |
|----|-------------|--------------|
| C01 | name map, argument list, name vectors as three structures | invariant by induction over histories |
| C02 | addArgument, validFormatFlag_ | decision characterisation vs. an independent flag grammar |
| C03 | addArgument (checks only the first flag), flag() | refuted by witness; partial: first flag / flag() |
| C04 | removeArguments incl. iterator invalidation (UB on repeated names) | functional characterisation + refutation for repeated names |
| C05 | clear | equality with initial state (ghost logs kept) |
| C06 | sort as stable insertion sort | invariant over histories |
| C07 | compareOption_, compareFlag | algebra: strict weak order |
| C08/C09 | head of parseArguments | characterisation / refutation |
| C10 | fuelled loops, nargs arithmetic modulo 2^64 | measure; refutations for nargs near 2^64 and for nargs 0 after failed call |
| C11 | argv access through option, pointers as (id, generation) | invariant; refutation for dest() on a help argument; exact condition (C11_exactly) |
| C12–C16, C20–C25 | parse loop | refinement to a declarative "reading" of the command line |
| C17–C19 | tail of parseArguments | case analysis + loop lemmas |
| C26–C28 | clear_, positional parsing | frame lemmas; refutations with witnesses; exact results in the excepted cases (C23_exact, C26_exact, Properties_Exact.v) |
| C29 | all parse functions | frame invariant |
| C30–C34 | validators as functions; built-in validators | characterisations |
| C35–C42 | type/defaults constructors, utils.h | characterisations / refutations |
| C43 | help/version pointers | invariant; refutation |
| C44, C45 | views and destinations (event log) | characterisations |
| C46 | validator ownership (log of deletes) | invariant over histories |
| C47–C49 | usage.cpp | induction over wrapping / structure of output |
| C50, C51 | strTo/boolTo/char arrays, number reading grammar | characterisation |
| C52 | state at throw point | refutation + partial; exact state after a refused defaults()/nargs(), and recovery |
| C53, C54 | strtod with binary64 rounding, implicit conversions, replay of the destination events on the program's variables | correct rounding proved against a specification over Q; composition with C45; refutations with witnesses |
| C55 | parse loop | metamorphic: swapping occurrences in the declarative reading (C12–C16) leaves every argument's occurrences unchanged |
| C56 | ValidMinMax instantiated with binary64 | rounding lemmas of C53, monotonicity of rounding |
| C57 | `Argument::operator T()` | C51 (number read) composed with the conversions of C53 |
| C58 | all calls, the settings and the program name | a relation kept by every function but the set functions, induction on the history |
| C59 | class Vector, Args::vector(...) | a store of the program's Vector variables, evaluation of + chains |
| C60 | two parsers, one with a further option: every call and parseArguments | relation between states (same arguments up to identity, plus foreign ones) preserved by every call; readings transfer word by word; Spec_Extend says which names a word can refer to |
| C61 | two parsers, the same declarations in another order | the relation of C60 without foreign arguments: each of the two declarations, made second, extends both parsers by the same argument; the place in the list is determined because no two arguments compare equal unless both positional (stable sort is unique); then carried through later calls, readings and the verdict; generalised over permutations by induction |
| C62 | every throw site; the class hierarchy of exception.h | cases of the reading (Fails), of the checks after it (verdict) and of each declaration call; argument() shown to be part of a word or a listed name |
| C63 | Each mode changes what it should and nothing else | readings of one configuration in two modes are related word by word (Proofs_Modes: `reading_same`, `fails_same`, `reading_refused`, `fails_strict`); verdict and completion depend on the modes only through the two exception flags |
| C64 | Texts for the usage have no other effect | binary simulation `same_but_texts` kept by every function of the model (Proofs_Texts: `sim_*`, `parse_texts`, `step_texts`), lifted to histories |
| C65 | Validator and destination concern their argument only | `dressed` relation between two objects; the reading is the same (`alike_readings`), verdict and completion are compared argument by argument (Proofs_Dress: `verdict_dr`, Properties_Dress: `change_cases`, `trouble_dest`) |
| C66 | removeArguments undoes addArgument | invariant `extra s t a`: t is s plus the argument a (filters of list and map), kept by registration and every method; removal of all names by induction on the names (Properties_Undo.v) |
| C67 | A copy of an argument is an independent snapshot | Model_Copy.v: programs = parser + list of copies; simulation with the same calls without copies through Proofs_Ghost (the log of deletions is not read), invariant for ownership; the two failures are proved as such |
| C68 | required() matters only when the option is absent | updateArgument(n).required(b) permutes the list and changes one flag (Properties_Required.demanded); reading depends only on lookups and the positionals in order (Proofs_Alike.clike); the verdict is compared clause by clause |
| C69 | The error of a command line is that of its first offending word | induction over Spec_Reading.Fails: what an option or positional takes depends on the words up to the first one it does not take (take_prefix) |
| C70 | Any values can be given, and are read back | Spec_Roundtrip.v: a printer of command lines; proof that its output is read as the pieces it was printed from (requests_read, shared_read), then C30_accepted for the values and the verdict for acceptance |
| C71 | Which validators parseArguments calls, when, and with what | Model_Calls.v: the last stage of parseArguments in a monad with a record of happenings; erasure (C71_same) and closed form of the record by induction over the listing |
| C72 | How long a reference to an argument can be used | object identity = node and generation of the object in it; case analysis over every call with the closed forms of the methods and of removeArguments, then induction over histories |
| C73 | Exceptions thrown by user code during a parse | Model_Faults.v: parseArguments with a possible exception at every call of user code; simulation with the recorded run of Model_Calls.v up to the first throw, and an invariant: the last stage changes only values that the next parse resets |
| C74 | The bounds in the message of ValidMinMax | Model_Print.v: printing of doubles (%g) by exact arithmetic; rounding to six digits proved nearest as in Proofs_Double.v with base 10, the notation by induction on the digits, uniqueness of both; doubles of six-digit decimals by the distance between such decimals |
| C75 | Declaration methods on a copy of an argument stay with the copy | Model_CopyMeth.v: the same methods with *this = the copy (in an unused node) and args_, this_ = parser and original; closed forms by Proofs_Meth, ids are positive by the invariant rule; simulation with the calls without copies |
| C76 | Validators may remember and read the parser: what they see | Model_Peek.v: parseArguments with answers given by a function of all moments (happening, parser) so far; simulation up to answers (Proofs_Peek), determinisation by induction on the last loop (Proofs_Peek2), the parser during the loop in closed form (Proofs_Peek3) |
| C77 | Inserted options affect only themselves | Proofs_Insert.v: the reading of a prefix is the same when a stopping word follows (induction on Reached); then pieces of other arguments, counts, and the fold of occurrences up to count (`later_decides`) |
| C78 | Repeated declaration calls | closed forms of the methods (Proofs_Meth.meth_state) applied twice; refutations by computation |
| C79 | Calls that run out of memory | Model_Memory.v: the calls in a monad with an allowance of allocations; refinement of the main model by composition, invariant `table` for histories with failures, relation `kept` (only one argument changes) through every method, removal of a half-made argument by induction on its registered names |
| C80 | Defined behaviour after running out of memory | invariant of such histories: a sound table (`table`) and help/version pointers that designate listed arguments with that action (`good`), kept by every completed or interrupted call; the safety of parsing proved from the table alone |
| C81 | Giving a default explicitly | C77 (insertion) for the rest of the object; the values of the option from Properties_Final.holds on the longer line against the default of the shorter; writes pairwise from C45_exact |
| C82 | The usage does not depend on the command lines parsed | frame of parseArguments (declarations and settings are kept) and getUsage as a function of these; induction on the sequence of parses; C18 for the printed text |
| C83 | A -- in front of words without dashes | words in front are read alike with fewer words available (take_fewer), plain words are read alike before and after --, the piece -- has no effect; then parse_reads / parse_rejects |
| C84 | The flags of an option: order, repetition and flag() | sorted lists of the same set are equal; the list with the new option re-sorted after flag() is the list with all the flags (placed), then alike (C61) |
| C85 | Options may be given anywhere | both readings come from the reading of the line alone (C77); occurrences, positional and additional words are the same, then C55_readings |
| C86 | Flags bundled in front of any option | read_option of the bundle is the letters' occurrences followed by those of -X (or its error); the rest of the reading is the same; C55_readings, and for errors parse_rejects |
| C87 | Starting the program without arguments | the empty reading; the auto-added help option is not required; missing / met / trouble of the unread arguments |

No property is outside the reach of an executable model; where the runtime matters
(strtod, stat, iostream number extraction, locale) it is modelled by an explicit
function or quantified over, see section 4.

## 3. Trusted base

* **Coq 8.16.1's kernel** (including its `vm_compute` reduction machine, used in examples
  and in a few closed computations).  No plugin, no changed flag, no switched-off check.
* **Axioms: none.**  Every theorem named in `MANIFEST.json` is followed by (or covered by a
  later) `Print Assumptions`, and each answers `Closed under the global context`.  When the
  gate lists axioms of the *loaded libraries* it also shows
  `Coq.ssr.ssrunder.Under_rel.*`; these are the sealed module fields of the standard
  library's ssreflect `under` tactic, loaded through the standard library; no theorem
  depends on them.  No library besides Coq's standard library is used.
* **The transcription** of the C++ into `Model_*.v` (each definition cites file and lines)
  and the modelling conventions of section 4.  `Tests.v` replays expectations of the
  repository's own gtest suite on the model as evidence of fidelity, and `Tests_Docs.v`
  the programs and sessions of README.md and docs/examples.md (usage texts, values,
  destinations and error messages included).
* **The specifications** (`Spec_*.v` and the definitions inside `Properties_*.v`).

### What is modelled

| code | model |
|------|-------|
| `include/blet/args/utils.h` (whole) | `Model_Utils.v` |
| `src/argument.cpp` (whole), `argument.h` methods, views, toDest_ of the three ArgumentType templates, boolTo/strTo | `Model_Types.v`, `Model_Argument.v`, `Model_Text.v` |
| `src/args.cpp` (whole), `args.h` | `Model_Args.v` |
| `src/valid.cpp` (whole) | `Model_Valid.v` |
| `src/usage.cpp` (whole) | `Model_Usage.v` |
| `strtod`, `istream >> double` | `Model_Number.v` (grammar and exact decimal value) |
| value of `strtod` (binary64, correctly rounded), arithmetic `strTo`/`boolTo`, `operator T()`, the program's variables | `Model_Double.v` |
| `include/blet/args/vector.h`, `include/blet/args.h` | `Model_Vector.v` |
| calls of user code by the last stage of parseArguments, in order (C71); the same with user code that throws (C73) | `Model_Calls.v`, `Model_Faults.v` |
| copies of `Argument` objects and their destruction; methods called on a copy (C75) | `Model_Copy.v`, `Model_CopyMeth.v` |
| `parseArguments` with user code that remembers and reads the parser (C76) | `Model_Peek.v` |
| std::bad_alloc at every allocation of a call (C79) | `Model_Memory.v` |
| API histories | `Model_Api.v` (type `op` of calls, `step`, `reach`) |

### What is not modelled

* `operator<<` (prints `getString()`), exception classes beyond (class, base classes, `argument()`,
  `what()`).
* `single_include/blet/args.h`: compared as text with the separate headers and sources, from
  which it differs in line breaks, comments and `inline` only.
* Direct mutation by the user of an `Argument`'s public `std::vector` base, and uses of
  references that a `removeArguments`, `clear` or `dest()` has ended (C72 says which).
* What happens after `exit(0)` (atexit handlers, static destructors).
* Memory that leaks when a call runs out of memory (except validators, C79); allocation failure inside
  copies of arguments, in getters and in user code; I/O failure when printing.

### Vocabulary of the statements

* `reach s`: `s` is the state of an `Args` object after any finite history of calls each of
  which returned normally or threw a library exception.  `reach_with P s`: the same for
  histories all of whose calls satisfy the policy `P` in the state where they are made
  (`Spec_History.v`): `distinct_names`, `no_dest_on_help`, `sane_nargs`, `careful` (the last
  two together), `valid_once`, `settled`, `one_each`, ...
* `usable s`: reachable, live help/version pointers, sensible nargs (`Spec_Result.v`); every
  `careful` history gives a usable state (`careful_usable`).  `interprets s`: the situation
  of finding 3 (C09) is excluded.
* `command_line argv ws`: `argv = a0 :: ws`, `a0 <> "--"`, fewer than 2^31 words, C strings.
* `reads s ws pcs`, `rejects s ws e`: the declarative reading of a command line
  (`Spec_Reading.v`), an inductive grammar written without reference to the parse loop; the
  central theorem (`Proofs_Central.parse_total` etc.) says that parseArguments computes it.

### Reading order

`Spec_*.v` (small), then `Properties_*.v` (statements, examples, `Print Assumptions`), then,
if needed, `Model_*.v` against `/repo`; the `Proofs_*.v` need not be read.

## 4. Simplifications

* C strings and `std::string` are Coq `string`s; NUL bytes are no content (`cstr`).
* `nargs` is `N` and index arithmetic with it is modulo 2^64; `argc < 2^31`; other counters
  (usage widths, counts) are unbounded `nat`.
* Memory is modelled by identities (`a_id`, generation); addresses are never reused, and a
  dangling dereference is the outcome `UB`.
* Validators are pure functions from a list of values to a verdict with the possibly
  changed list, or an exception.  Custom `dest` callbacks are logged, and do not call back into
  the parser.  That validators and callbacks may throw, depending on all that happened before,
  is modelled in `Model_Faults.v` (C73); that validators remember and read the parser, in
  `Model_Peek.v` (C76, which reduces them to pure ones).  User code does not change the
  parser during the call.
* Elements are nested at most two deep (all the library ever builds).
* `toupper`/`isspace` in the "C" locale; `char` is one byte.
* `getNumber()`: the model keeps the exact decimal that was read; the C++ keeps the nearest
  binary64.  C32 is proved for exact decimals and for every strict weak order on numbers;
  `C51_double` gives the binary64 value, and C56 instantiates ValidMinMax with binary64; the printing of a double in the
  error message is modelled in `Model_Print.v` (C74).
* ValidPath: the file system is a function, static during a call.
* `std::sort`/`list::sort` are insertion sort; C07 proves that the result is unique.
  Sorting arguments without names and usage on such is guarded conservatively as `UB`.
* Loops take fuel; `OutOfFuel` is a distinct outcome and never an assumption in disguise:
  theorems about outcomes speak of `Ok`, `Throw`, `Exit`; C10 proves that it does not occur
  in usable states, `C10_outcome_unique` that more fuel does not change an outcome.
* Theorems on the reading assume `argv[0] <> "--"` (the C++ looks for `--` from index 0,
  finding 19).

## 5. Findings

Divergences between the English property and the code, each with a witness theorem
(`*_refuted`) or an explicit guard:

1. addArgument's duplicate check tests only the first flag (C03).
2. removeArguments with a repeated name uses an erased iterator (C04).
3. `-h` and `--help` both taken and no HELP action: parseArguments returns early (C09).
4. nargs near 2^64, or a refused nargs(0), make parseArguments loop for ever (C10, C52).
5. dest() on a HELP/VERSION argument leaves a dangling pointer; argc=0 with an empty binary
   name dereferences argv[0] (C11).
6. `-sV` counts 2; `-mV` of an APPEND option keeps the defaults (C20, C21, C23).
7. count() of positionals stays 0 (C21).
8. Vector positionals push behind defaults and behind values of an earlier parse (C26).
9. A repeated parse accumulates additional arguments; stale elements become "" (C28).
10. nargs('+') and INFINITE: APPEND/EXTEND with '+' take 43 words; INFINITE on an option
    forces nargs 1 (C41).
11. The order of action() and nargs() matters in several combinations (C41).
12. A refused action(HELP) leaves HELP behind; a later action() steals the role (C43, C52).
13. Defaults of grouped kinds accumulate; defaults({}) does not undo them; a refused
    defaults() clears the elements (C27, C42, C52).
14. Flags containing '=' are accepted and can never be given (C40).
15. ValidNumber accepts "" (C34).
16. A missing NUMBER/INFINITE positional is reported as "option is required" (C17's error
    text is defined accordingly).
17. required() on positionals changes the order in which words are assigned (C06, C25).
18. A variable-length option given with no value shows its default text (C44, C45).
19. The search for `--` starts at argv[0].
20. vector<const char*> destinations dangle (C45).
21. Unknown option-like words are swallowed as values of variable-length options (C24).
22. dest() forgets defaults_ (and so getDefaults()).
23. In alternative mode a long flag --c hides the short flag -c (C40).
24. Re-declared kinds keep elements of the old kind; the views disagree (C44).
25. setUsageWidth with separator width 0 can glue label and help text (C48).
26. A refused action(HELP) or nargs() still changes the usage text or kind (C52).
27. Integer destinations go through `double`: a 64-bit variable does not receive integers
    beyond 2^53 exactly, an out-of-range number is undefined behaviour instead of an
    error, a non-number silently gives 0, `true` given to a bool is false (C54).
28. `0.99999999999999999999` gives 1 in an int (rounded before truncation) (C54).
29. `0x10` is 16 for a destination and 0 for getNumber() (C54).
30. ValidMinMax rounds before comparing: `2.0000000000000000001` passes [1, 2] (C56).
31. ValidMinMax with a NaN bound does not bound on that side (C56).
32. `int n = args["-n"]` and `.dest(n)` differ for `0x10` (0 / 16), `5em` (exception / 5) and `abc` (exception / 0);
    `bool b = args["-n"]` is true for `-n 0`, while `.dest(b)` gives false (C57).
33. `v + "x"` changes the Vector `v`: a second `addArgument(v + "y")` also asks for `x` (C59).
34. `.defaults(1)` is accepted and makes the default value the empty text: Vector(int) is an
    implicit constructor for n empty texts (C59).
35. Copying an argument (`Argument c = args["-n"];`) and letting the copy die deletes a
    validator handed over to the argument, which stays in use and is deleted again; the
    copy's getDefaults() is empty (C67).
36. Methods on a copy (`auto a = args.addArgument("-n"); a.flag("--name");`): `required`,
    `nargs`, ... are lost; `flag` registers a flag that the argument does not list and that
    cannot be removed without undefined behaviour; `action` on a copy of the help option
    makes the parser forget it, and every later parse silently reads nothing; `action(HELP)`
    on a copy leaves a dangling pointer; `valid` deletes the argument's validator (C75).
37. Numbers are computed argument by argument, in listing order and after the validation of
    each: a validator of `--max` that compares with `args["--min"].getNumber()` finds no
    number (it throws "is not a number"), the one of `--min` looking at `--max` does (C76).
38. A refused `defaults(v)` is remembered: a later `nargs(n)` that fits makes the refused
    list the values of the argument (C52).
39. Saying it twice: `action(STORE_FALSE)` twice makes the option STORE_TRUE, `action(HELP)`
    twice makes the parser lose its help option, `nargs('+')` twice makes a positional take
    words in groups of 43 only, `valid(p)` twice deletes the validator in use (C78).
40. addArgument has no protection against std::bad_alloc: if the allocation of the map node
    fails, the argument is listed without a name; a positional then takes words that the
    program cannot ask for, cannot be removed, and the repeated call declares a second one;
    dest() that runs out of memory leaks the validator (C79).

## 6. Testing the theorems

`seeded/LOG.jsonl` has one line per wrong program tried: the model was edited in a scratch
copy, everything rebuilt with failing proofs admitted one by one, and the claims whose proof
then rests on an admitted lemma (or no longer type-check) recorded.
