{
 "C01": {
  "note": "Over every reachable state (any history of completed or throwing calls) and every name."
 },
 "C02": {
  "note": "Acceptance characterised against an independent grammar of flags (Spec_Names); refusal leaves the whole state equal; success described completely."
 },
 "C03": {
  "note": "C03_refuted: addArgument tests only the first flag against the registered names, so two arguments can list the same flag. C03_partial: holds for histories in which addArgument is never given an already registered name; C03_names_designate_partial: then every listed name designates its argument; C03_refusals: when flag()/addArgument do refuse."
 },
 "C04": {
  "note": "The property is proved for lists without repetition (its own premise). C04_repeated_name_refuted documents that a repeated name is undefined behaviour.",
  "status": "proved"
 },
 "C05": {
  "note": "C05_continuation: outcomes and visible state of every later sequence of calls equal those on a new object, for every reachable state."
 },
 "C06": {
  "note": "Over all reachable states; the order is specified independently (Spec_Order, flag_before)."
 },
 "C07": {
  "note": "Strict weak order axioms for both comparators; uniqueness of the sorted result for any (stable) sort."
 },
 "C08": {
  "note": "Needs live help/version pointers (no dest() on a help argument, see C11) for C08_supplied; the other two hold in every reachable state."
 },
 "C09": {
  "note": "C09_refuted: with -h and --help both used for other purposes and no HELP action, parseArguments returns at once. C09_partial: holds for every usable parser that has a help option or a free -h/--help. C09_skipped: in exactly the remaining configurations (no help option, -h and --help both taken) nothing at all is examined, whatever the command line."
 },
 "C10": {
  "note": "C10_refuted: nargs close to 2^64 overflow the index arithmetic and parseArguments loops for ever; C10_refuted_zero: so does a positional whose nargs(0) was refused (the refused value stays). C10_partial / C10_sensible_partial: with other nargs every call finishes within |argv|+|arguments| iterations of each loop. C10_outcome_unique: the result does not depend on the iteration bound of the model."
 },
 "C11": {
  "note": "C11_refuted: dest() on a HELP/VERSION argument leaves a dangling pointer. C11_partial: without such a call, no undefined behaviour in parseArguments whatever the words and nargs; C11_calls_partial: nor in any other call (with lists without repetition for removeArguments). Missing: exactly the histories with dest() on a help or version argument, and argc = 0 with an empty binary name. C11_exactly: with argc >= 1 and sensible nargs, UB if and only if the words are readable and the help option is a deleted object, or the version option is and help was not asked for; C11_dest: every dest() on the help/version option makes it so."
 },
 "C12": {
  "note": "For usable parsers (careful histories, see DESIGN section 2) and argv[0] <> \"--\". C12_stored: each word behind -- is in a positional or among the additional arguments."
 },
 "C13": {
  "note": "C13_values through the declarative reading; C13_lacking: the exception. C13_stored: the stored values (after parseArguments) come from the words before the first --."
 },
 "C14": {
  "note": "The words are the concatenation of the pieces of the reading; the reading exists whenever the scan completes and is unique. C14_stored: each word is found in the object after the parse, where it belongs."
 },
 "C15": {
  "note": "C15_accepted is the converse: options of an accepted command line are registered. The word -nX=v whose n is not a boolean flag is refused with another message, as the property now says."
 },
 "C16": {
  "note": "Four theorems: strict, collected words, all others assigned, refusal."
 },
 "C17": {
  "note": "Both directions, the exception naming the first missing argument in listing order."
 },
 "C18": {
  "note": "C18_help: with exception or print+clear+exit; C18_only: not otherwise."
 },
 "C19": {
  "note": "As C18, behind help."
 },
 "C20": {
  "note": "C20_refuted: -nv counts 2 and, for APPEND, keeps the defaults. C20_partial: all spellings but the glued one; C20_glued_partial: the glued one up to count()."
 },
 "C21": {
  "note": "C21_refuted: -nv counts twice; count() of positionals is always 0. C21_partial gives the exact value in all cases."
 },
 "C22": {
  "note": "For NONE options with nargs n > 1, n <> '+'."
 },
 "C23": {
  "note": "C23_refuted: defaults are kept if the first occurrence is glued (-nv). C23_partial: all other cases with nargs 1; C23_groups: nargs > 1, all cases. C23_exact: in that case the values kept from before (defaults; empty strings for words of an earlier parse) come first, then the values of the occurrences; C23_defaults_kept: in a parser not parsed yet, exactly the previous values. The three together cover every case."
 },
 "C24": {
  "note": "Maximal run specified declaratively (take_words with the terminator test of the spec)."
 },
 "C25": {
  "note": "Sizes by nargs/action, order, presence."
 },
 "C26": {
  "note": "C26_refuted: vector positionals push behind their defaults and behind values of an earlier parse. C26_partial: holds for single-value positionals and for those without values beforehand. C26_exact: every other positional holds what is kept from before the parse (defaults; empty strings for words of an earlier parse) followed by the words; C26_defaults_kept: in a parser not parsed yet, exactly the previous values. Together every case is covered."
 },
 "C27": {
  "note": "C27_exact: in every usable state, whatever the history, an absent argument does not exist, has count 0, and holds the default it was last given (for list kinds: of each element kept). C27_values_partial: these are exactly the declared defaults when the policy `settled` holds (every declaration accepted, defaults non-empty). C27_absent: then also the values before the parse. C27_refuted: defaults({}) does not take back earlier defaults."
 },
 "C28": {
  "note": "C28_refuted: additional arguments accumulate, vector positionals keep old elements, and a later call can be refused by a validator because of them. C28_reading, C28_outcome, C28_results, C28_partial, C28_untouched: what does not depend on earlier calls. C28_leftover: an absent argument never shows a value of an earlier command line (only its defaults, or empty strings)."
 },
 "C29": {
  "note": "In every reachable state, for every argv and every completed outcome."
 },
 "C30": {
  "note": "Validators are arbitrary functions on lists of strings (verdict, transformed list)."
 },
 "C31": {
  "note": "Over all lists of choices and values."
 },
 "C32": {
  "note": "Proved for any strict weak order on numbers and for exact decimals; C56 does it for binary64."
 },
 "C33": {
  "note": "The file system is a function from paths to kinds, static during the call."
 },
 "C34": {
  "note": "C34_refuted: the empty string is accepted. C34_partial: that is the only exception (grammar of strtod in Spec_Number)."
 },
 "C35": {
  "note": "Policy: action declared once (flags_once)."
 },
 "C36": {
  "note": "For any number of boolean flags anywhere on the command line."
 },
 "C37": {
  "note": "Both directions; also as terminators, because the whole outcome is equal."
 },
 "C38": {
  "note": "takeArg against an independent definition."
 },
 "C39": {
  "note": "Partition and agreement with the three tests of the library."
 },
 "C40": {
  "note": "C40_refuted / C40_refuted_short: a flag containing '=' is accepted by addArgument and can never be given; in alternative mode --c of another argument hides -c. C40_partial: every other flag designates its argument (also -c with --c of the same argument). C40_exactly: the condition is necessary, the excluded flags are never read as occurrences of their option, anywhere."
 },
 "C41": {
  "note": "C41_refuted lists the order-dependent and history-dependent declarations. C41_order_partial / C41_order_new_partial: all ordinary combinations commute and have the documented kind; C41_replace_partial: when re-declaring replaces."
 },
 "C42": {
  "note": "Acceptance exactly as stated; C42_recorded: what is recorded, including the accumulated default text of grouped kinds."
 },
 "C43": {
  "note": "C43_at_most_one, C43_second_help, C43_second_version hold in every reachable state. C43_refuted: after a refused action(HELP), another action() call on that argument takes the role away from the first. C43_declared_partial: role and declared action agree when no action() was refused."
 },
 "C44": {
  "note": "C44_views and C44_kinds for arguments whose elements fit their kind (was_shaped: kind not changed after defaults). C44_refuted: re-declared kinds; C44_refuted_empty: a variable-length option given without values shows its default text."
 },
 "C45": {
  "note": "C45_exact: the exact deliveries in all cases, each destination served once; C45_partial: the English for values that fit the destination; C45_untouched / C45_stopped: nothing written when the parse throws before the final stage. Refuted: scalar destination of several values, vector destination of no value, vector<const char*>."
 },
 "C46": {
  "note": "Policy for at-most-once: each validator object passed once (valid_once)."
 },
 "C47": {
  "note": "Over all texts and widths >= 1."
 },
 "C48": {
  "note": "For texts and widths within size_t; separator width > 0 guards the entry structure."
 },
 "C49": {
  "note": "Over all configurations."
 },
 "C50": {
  "note": "Bounds-checked byte arrays of any size >= 1."
 },
 "C51": {
  "note": "Number grammar of istream>>double, exact decimals. For each single value: the argument itself when it has no elements, otherwise each element or group element."
 },
 "C52": {
  "note": "C52_refuted: refused nargs/defaults/action leave traces. C52_flag_partial: flag() none; C52_others_partial: nothing else is affected, in every reachable state; C52_action_partial: a refused action() on a plain argument does not change any later parse except the text of the usage. C52_defaults_exact and C52_nargs_exact: the complete effect of a refused defaults() / nargs() (the values are gone and the refused list is recorded; only getNargs() or the whole kind has changed). C52_recovered: a later accepted defaults() / nargs() gives the parser that it would have given without the refused call."
 },
 "C53": {
  "note": "strtod is a model of the C runtime (glibc, \"C\" locale, round to nearest) and is proved correct against an independent specification over the rationals (Spec_Double.v): C53_double, C53_nearest (existence and uniqueness of the nearest double), C53_float, C53_integer_part, C53_exact, C53_whole_numbers, C53_bool, C53_no_number, C53_flags. C53_scalar and C53_vector: what the variables of the program hold after parseArguments in every usable state, provided that no other argument has the same variable."
 },
 "C54": {
  "note": "C54_partial: exact for every integer type of at most 32 bits, if the number fits. C54_exactly: for 64 bits exactly the integers that are doubles. Refuted: integers beyond 2^53 in a long, numbers out of range (undefined behaviour, no exception), texts that are no numbers, \"true\" for a bool, 0.99999999999999999999 in an int, disagreement with getNumber()."
 },
 "C55": {
  "note": "C55_readings is the general form, C55_options the exchange of neighbours (also if the parse fails: the same error), C55_positional the move across a plain word, C55_permutation any permutation. Options that take all words up to the next option are excluded unless the value is attached (C55_variable shows why)."
 },
 "C56": {
  "note": "Reading (istream >> double) is modelled with correct rounding, comparison as in IEC 60559; the text of the message is the subject of C74. C56_rounding is the witness that rounding lets a number outside the bounds pass."
 },
 "C57": {
  "note": "C57_conversion, C57_no_number, C57_bool, C57_agrees, C57_whole_numbers. C57_disagreement shows the values on which the conversion and a destination differ. Simplification: -0 is not told from 0."
 },
 "C58": {
  "note": "C58_settings over all histories; C58_name per call, in states where the parse reads its command line (interprets, see C09); C58_first_name over sequences of parses."
 },
 "C59": {
  "note": "C59_vector, C59_array, C59_temporary hold in full. The left operand of + is changed if it is a variable (C59_variable_partial, C59_reuse_refuted), and Vector(int) makes .defaults(1) the default value \"\" (C59_number_refuted)."
 },
 "C60": {
  "note": "C60_declarations: outcomes of the later calls; C60_parse: the parse. s' is the parser with the option; 'refers'/'unmentioned' (Spec_Extend) say which names a word can be understood to mean in the parser without the option (a bundle counts up to the first undeclared letter or the letter that takes the rest as value). C60_mentioned shows that the condition is needed."
 },
 "C61": {
  "note": "C61_outcomes and C61_parsers: two neighbouring declarations, from any reachable object; C61_reordered: any number of exchanges; C61_permutation: a pairwise independent group in any order between other calls. 'independent', 'interchangeable' and 'answers_alike' are in Spec_Reorder.v. C61_positionals, C61_roles and C61_names show orders that matter."
 },
 "C62": {
  "note": "C62_declarations, C62_parse: the cases; C62_caught, C62_programming_errors: which handler catches them (base classes in Spec_Errors.v)."
 },
 "C63": {
  "note": "C63_exceptions; C63_strict, C63_strict_accepts, C63_strict_outcome; C63_alternative. All for arbitrary usable parsers, also those that return at once because -h and --help are taken. The object is compared only when the call returns (after an exception strict mode may have stopped earlier)."
 },
 "C64": {
  "note": "C64_texts (a simulation between arbitrary histories, including reconfiguration, failed calls and parses), C64_queries, C64_program_name."
 },
 "C65": {
  "note": "C65_validator (outcome, object, removal of a validator), C65_dest (outcome, object, deliveries). dest() also forgets the recorded list of defaults and moves the object (visible in the relation bound_to); on the help or version argument it dangles, which C11/C18 treat."
 },
 "C66": {
  "note": "C66_undo (exact state equality up to the log of deleted validators), C66_unnoticed; C66_free_needed and C66_roles_needed show that the conditions are necessary."
 },
 "C67": {
  "note": "C67_shows_partial, C67_kept, C67_dropped, C67_unaffected hold for all programs; C67_validators_partial: no double deletion as long as no argument that owns a validator is copied. C67_defaults_refuted: the copy loses getDefaults(). C67_validator_refuted: for EVERY argument that owns a validator, destroying a copy deletes the validator in use (double delete later). Missing for the full property: exactly those two."
 },
 "C68": {
  "note": "C68_rejected, C68_present, C68_results, C68_absent, C68_optional. The order of deliveries to destinations may change (required options are listed first), hence Permutation. When the help is shown its text differs (the usage shows which options are required), so those outcomes are not compared here."
 },
 "C69": {
  "note": "C69_offending, C69_appended. Excluded messages: \"bad number of argument\" (C69_counting_example shows that it does depend on what follows) and that of a destination type without conversion, which is not about the line."
 },
 "C70": {
  "note": "C70_readable, C70_read_back, C70_accepted; the vocabulary (requests, line_for, shared, expected) is in Spec_Roundtrip.v. Positionals of several words keep their start values in front of the given ones (C26_refuted): the theorem says so. Flags have no values: for them it says that they exist."
 },
 "C71": {
  "note": "C71_same, C71_accepted, C71_stopped, C71_none, C71_once. Model_Calls.v repeats the last stage of parseArguments with a record of calls and writes; C71_same: otherwise it is the model of all other claims."
 },
 "C72": {
  "note": "C72_kept and C72_ended together are an exact characterisation for one completed call; C72_history is its closure over whole histories; C72_through / C72_named: a usable reference and the names are interchangeable. A reference is the identity of the C++ object (list node and object in it); the addresses themselves are not modelled, so 'usable' means the object has not been deleted."
 },
 "C73": {
  "note": "C73_none, C73_throws, C73_first (the first throwing call is really the first), C73_after (the next parse), C73_written (destinations in every reachable state). Model_Faults.v: parseArguments with user code that may throw, given by an arbitrary function of the record of the call so far. Not modelled: user code that calls the same parser, and exceptions of operator>> of a user's type."
 },
 "C74": {
  "note": "Partial: the last sentence is refuted (C74_true_refuted: '1234568 is not between 0 and 1.23457e+06'); C74_true_partial proves it for bounds given with at most six significant digits. C74_text (the specification determines the text), C74_message, C74_exact, C74_whole and C74_close are full. The stream insertion of a double (default precision 6, %g) is a model of the C++ runtime; it was compared with printf on 300 doubles."
 },
 "C75": {
  "note": "Partial: C75_effect_partial and C75_unaffected_partial cover help, metavar, required, defaults, a refused flag, valid (apart from the deletion), and nargs/action as long as neither HELP nor VERSION is involved; C75_others is full. Refuted otherwise: flag() registers the flag in the parser although the argument does not list it, and removing it is undefined behaviour (C75_flag_refuted, for every option and flag); valid() deletes the validator the argument uses (C75_validator_refuted, always); action() on a copy of the help option makes the parser forget its help option, after which parsing reads nothing (C75_role_refuted); action(HELP) on a copy leaves a dangling pointer (C75_dangling_refuted); a copy has lost the defaults (C75_defaults_refuted). dest() on a copy deletes an object that was not created by new: undefined behaviour by definition in the model."
 },
 "C76": {
  "note": "C76_answers (reduction to fixed answers), C76_pure (validators that depend on the values only: exactly Model_Args.parseArguments and C71's happenings) and C76_sees are full. Partial only for the numbers: C76_number_partial (those of arguments listed earlier are there); C76_number_refuted: a validator of --max that reads args[\"--min\"] finds no number, because numbers are computed argument by argument after the validation of each. User code that changes the parser during the call is not modelled."
 },
 "C77": {
  "note": "Full. The place must be one where the reading goes on with a new word (reaches); behind pieces already read, positionals must not have nargs(0) (they take nothing and would be consumed at different words); values of a variable-length option given as words must be followed by an option word, \"--\" or the end (Spec_Insert.followed). C77_example meets all hypotheses in the middle of a line."
 },
 "C78": {
  "note": "Partial: C78_again_partial (exact state equality) under 'repeatable'; C78_flag, C78_dest (the same argument, moved again: references end), C78_settings. C78_refuted: action(STORE_FALSE) twice makes a STORE_TRUE option, action(HELP) or action(VERSION) twice loses the role, nargs('+') twice on a positional makes it take groups of 43 words, defaults() twice with grouped values shows them twice in the usage, valid(p) twice deletes the validator in use. Missing for the full property: exactly these (repeatable excludes nothing else but action(NONE) with nargs 43)."
 },
 "C79": {
  "note": "Model_Memory.v: the calls once more with every allocation explicit. C79_enough: refinement of the calls of the main model. C79_others, C79_parse, C79_all_or_nothing, C79_never, C79_consistent. Partial: 'can be taken back' holds for addArgument unless it ends after the argument is listed and before its first name is registered (C79_undo_partial; C79_undo_refuted: such a positional has no name, takes the words of the command line, and a second declaration gets none). C79_retry_refuted, C79_flag_refuted: a repeated call makes a second option or lists the flag twice; C79_validator_refuted: dest() that runs out of memory leaks the validator. C79_clear: clear() recovers."
 },
 "C80": {
  "note": "reach_mem_with P: histories of calls respecting the policy P (the same op_ok as reach_with) that complete or run out of memory. C80_calls, C80_interrupted, C80_any, C80_reading; C80_proviso: why the proviso on dest() is needed (as in C11)."
 },
 "C81": {
  "note": "Record `explicit` lists the hypotheses: an insertion (C77) of one request whose values are those of the absent option, a validator that accepts them unchanged, a destination of a supported type, not the help or version option. C81_accepted, C81_values, C81_delivered (the log of the writes is equal); C81_delivered_example shows that a custom destination sees the difference."
 },
 "C82": {
  "note": "C82_usage, C82_unchanged (one parse), C82_repeated (any number), C82_printed (the text that help prints)."
 },
 "C83": {
  "note": "C83_outcome (separable: the place is reached, the words after it have no dash, positionals take at least a word or nothing precedes or follows), C83_last (any line). C83_inside shows why the place must not be inside the words of an option."
 },
 "C84": {
  "note": "C84_order (literally the same state; needs the flags to be free: C84_taken shows that only the first one is checked), C84_outcomes, C84_parsers (flags unused by any listed argument). C84_example meets the hypotheses."
 },
 "C85": {
  "note": "C85_moved (two insertions, in the sense of C77, into the same line; same_requests keeps the order of the occurrences of each option), C85_front_or_end, C85_absent (enough: the line alone is accepted and leaves the options absent). C85_example meets the hypotheses at three places."
 },
 "C86": {
  "note": "C86_bundle: the two lines have the same outcome (also the same error). It extends C36, which is about words that consist of such flags only. C86_example: in front of an option with two words, a value in the same word, and two errors."
 },
 "C87": {
  "note": "C87_required, C87_accepted, C87_exactly, C87_destinations (with destinations: the only possible error is that of converting default values for one of them). C87_example: a parser with a validator that refuses everything and no required argument, and one with the required argument SRC. The values of the absent arguments are those of C27."
 }
}