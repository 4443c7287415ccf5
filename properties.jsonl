{"id": "C01", "title": "Lookup by name is consistent with the registered flags", "statement": "After any sequence of API calls that completed normally or by a library exception: whenever argumentExists(n) is true, getArgument(n) returns an argument whose getNameOrFlags() contains n; whenever it is false, getArgument(n) and updateArgument(n) throw AccessDeniedException naming n; every argument known to the parser has a non-empty getNameOrFlags() and can be reached by at least one of its names.", "quantifier": "all finite histories of addArgument/flag/action/nargs/defaults/required/valid/dest/updateArgument/removeArguments/clear/parseArguments and setter calls, all names", "why_tests_cant": "tests exercise a handful of add/remove sequences; the name map, the argument list and the per-argument name vectors are three separately mutated structures that must agree after every history, including histories containing failed calls", "anchors": ["src/args.cpp:Args::addArgument", "src/args.cpp:Args::removeArguments", "src/argument.cpp:Argument::flag", "include/blet/args/args.h:Args::getArgument", "include/blet/args/args.h:Args::argumentExists"]}
{"id": "C02", "title": "Exact acceptance condition of addArgument, with no effect on failure", "statement": "addArgument(v) succeeds exactly when v is a single non-empty name not starting with '-' and not already registered, or a non-empty list of well-formed flags (-c with exactly one character, or --name with a non-empty name) whose first flag is not already registered. When it throws ArgumentException nothing observable of the parser has changed.", "quantifier": "all reachable parser states and all vectors of strings", "why_tests_cant": "the input space (vectors of arbitrary strings) and the set of parser states are unbounded; tests check a dozen literals", "anchors": ["src/args.cpp:Args::addArgument", "src/argument.cpp:Argument::validFormatFlag_"]}
{"id": "C03", "title": "A flag designates at most one argument", "statement": "addArgument and flag() refuse to register a flag that already designates another argument, so that in every reachable state two different arguments never both list the same flag in getNameOrFlags().", "quantifier": "all histories of registration calls", "why_tests_cant": "needs every combination of position of the duplicate in the flag list and every prior history; tests only duplicate the first flag", "anchors": ["src/args.cpp:Args::addArgument", "src/argument.cpp:Argument::flag"]}
{"id": "C04", "title": "removeArguments removes exactly the given names", "statement": "If every given name is registered (each given once), removeArguments removes exactly those names: they are no longer found, every other name still designates the same argument, and an argument disappears exactly when its last registered name is removed. If some name is unknown it throws ArgumentException naming the first unknown one and changes nothing.", "quantifier": "all reachable states and all lists of names", "why_tests_cant": "aliasing between several flags of the same argument, help/version pointers and list order depends on arbitrary histories", "anchors": ["src/args.cpp:Args::removeArguments"]}
{"id": "C05", "title": "clear() gives back a freshly constructed parser", "statement": "After clear(), every later sequence of calls behaves as on a newly constructed Args object.", "quantifier": "all reachable states and all continuations", "why_tests_cant": "any forgotten member would only show up on some particular history", "anchors": ["src/args.cpp:Args::clear", "src/args.cpp:Args::Args", "src/usage.cpp:Usage::Usage"]}
{"id": "C06", "title": "Arguments are always kept in canonical order", "statement": "In every reachable state the arguments are listed (hence shown by getUsage and scanned by parseArguments) with options before positionals, required before non-required within each of the two groups, then options with a short first flag before options having only long flags, then by first flag alphabetically; and getNameOrFlags() of an option lists short flags first, each group alphabetically.", "quantifier": "all histories", "why_tests_cant": "an invariant over unbounded histories: each mutator has to re-establish it; a comparator that is not a strict weak order would break std::sort/list::sort only for particular data", "anchors": ["src/argument.cpp:Argument::compareOption_", "src/argument.cpp:compareFlag", "src/argument.cpp:Argument::sortNameOrFlags_", "src/args.cpp:Args::addArgument"]}
{"id": "C07", "title": "The comparators handed to std::sort and list::sort are strict weak orders", "statement": "The comparison functions used for sorting flags and arguments are irreflexive, asymmetric and transitive, with transitive incomparability, so that the standard library sorts have defined behaviour and a unique result.", "quantifier": "all pairs and triples of flags/arguments", "why_tests_cant": "a universally quantified algebraic law over strings and flag combinations; a violation is undefined behaviour only visible for certain triples", "anchors": ["src/argument.cpp:Argument::compareOption_", "src/argument.cpp:compareFlag"]}
{"id": "C08", "title": "parseArguments supplies a help option when none is defined", "statement": "If no argument has the help action, parseArguments defines a help option on exactly those of -h and --help that are free (when at least one of them is free), and leaves every existing name as it was.", "quantifier": "all reachable states and command lines", "why_tests_cant": "depends on any prior registration history", "anchors": ["src/args.cpp:Args::parseArguments"]}
{"id": "C09", "title": "parseArguments always examines the command line", "statement": "Whatever the registered flags are, parseArguments interprets argv and enforces required arguments.", "quantifier": "all reachable states and command lines", "why_tests_cant": "the skipping path is taken only for particular registrations (both -h and --help used without help action)", "anchors": ["src/args.cpp:Args::parseArguments"]}
{"id": "C10", "title": "parseArguments terminates", "statement": "For every parser configured through the API and every finite command line, parseArguments finishes (returns, throws or exits); the number of loop iterations is bounded by the number of command line words plus the number of registered arguments.", "quantifier": "all reachable configurations, all nargs values, all argv", "why_tests_cant": "non-termination needs particular nargs values / histories; no test suite can bound all of them", "anchors": ["src/args.cpp:Args::parseArguments", "src/args.cpp:Args::parseArgument_", "src/args.cpp:Args::parsePositionnalArgument_"]}
{"id": "C11", "title": "parseArguments performs no out-of-bounds or dangling access", "statement": "For every parser configured through the API and every argv with argc >= 1, parseArguments never reads argv outside [0,argc), never dereferences a deleted argument, and never takes the first name of an argument without names.", "quantifier": "all reachable configurations, all argv", "why_tests_cant": "memory errors appear only for particular index arithmetic and histories", "anchors": ["src/args.cpp:Args::parseArguments", "src/args.cpp:Args::parseArgument_", "src/args.cpp:Args::parsePositionnalArgument_", "include/blet/args/argument.h:Argument::dest"]}
{"id": "C12", "title": "Words after -- are never interpreted as options", "statement": "All words after the first word equal to -- (not counting argv[0]) are assigned to positional arguments or to the additional arguments, in order; no option's existence, count or value depends on them.", "quantifier": "all configurations and all command lines containing --", "why_tests_cant": "requires all possible following words (including words that look like registered flags) and all option kinds", "anchors": ["src/args.cpp:Args::parseArguments", "include/blet/args/utils.h:endOptionIndex", "src/args.cpp:Args::parsePositionnalArgument_"]}
{"id": "C13", "title": "Options never consume the -- separator or words after it", "statement": "The values stored for an option come only from words before the first --; an option that lacks values before -- makes parseArguments throw 'bad number of argument'.", "quantifier": "all option kinds, nargs, positions of --", "why_tests_cant": "boundary arithmetic on indices for every nargs and position", "anchors": ["src/args.cpp:Args::parseArgument_"]}
{"id": "C14", "title": "Every command line word is accounted for exactly once", "statement": "When the scan of the command line completes, argv[1..] splits, in order, into consecutive groups, each being one option word with the values it consumed, one group of positional values, one additional word, or the separator --; nothing is skipped, used twice or reordered.", "quantifier": "all configurations with sane nargs and all argv", "why_tests_cant": "conservation law over all inputs", "anchors": ["src/args.cpp:Args::parseArguments", "src/args.cpp:Args::parseShortArgument_", "src/args.cpp:Args::parseLongArgument_", "src/args.cpp:Args::parseArgument_", "src/args.cpp:Args::parsePositionnalArgument_"]}
{"id": "C15", "title": "Unknown options are always rejected", "statement": "If the scan reaches a word of the form --name or --name=v and --name is not registered, or a short option word -abc whose flags are boolean up to one that is unknown (and, in alternative mode, the long form is unknown as well), parseArguments throws ParseArgumentException 'invalid option' naming it; conversely every option word of an accepted command line consists of registered flags.", "quantifier": "all configurations, all words", "why_tests_cant": "negative property over unbounded word space", "anchors": ["src/args.cpp:Args::parseShortArgument_", "src/args.cpp:Args::parseLongArgument_"]}
{"id": "C16", "title": "Strict mode leaves no additional argument; non-strict mode collects exactly the unassigned words", "statement": "In strict mode parseArguments either throws or leaves getAdditionalArguments() unchanged by this call. In non-strict mode the words appended to getAdditionalArguments() are exactly the non-option words met when no unfilled positional is left, in order.", "quantifier": "all configurations and argv", "why_tests_cant": "all-input property", "anchors": ["src/args.cpp:Args::parsePositionnalArgument_"]}
{"id": "C17", "title": "A normal return means that all required arguments are present", "statement": "If parseArguments interprets the command line and returns normally then isExists() is true for every required argument; if the scan succeeds without help/version and some required argument is absent, it throws ParseArgumentRequiredException naming the first such argument in listing order.", "quantifier": "all configurations and argv", "why_tests_cant": "needs all combinations of required arguments and command lines", "anchors": ["src/args.cpp:Args::parseArguments"]}
{"id": "C18", "title": "Help has precedence and is never silently ignored", "statement": "If the scan succeeds and the help option was met then parseArguments throws HelpException(getUsage()) when help exceptions are enabled and otherwise prints getUsage() followed by a newline, clears the parser and exits with 0 - whatever version option, required arguments or validators say; and it never does so if the help option was not met.", "quantifier": "all configurations and argv", "why_tests_cant": "precedence between independent checks for all inputs", "anchors": ["src/args.cpp:Args::parseArguments"]}
{"id": "C19", "title": "Version behaves likewise, after help and before required checks", "statement": "If the scan succeeds, help was not met and the version option was met then parseArguments throws VersionException(getVersion()) or prints getVersion() and exits 0, whatever required arguments and validators say.", "quantifier": "all configurations and argv", "why_tests_cant": "precedence for all inputs", "anchors": ["src/args.cpp:Args::parseArguments"]}
{"id": "C20", "title": "All spellings of a single-value option are equivalent", "statement": "For an option taking one value with flags -n and --name: the command lines '-n v', '-n=v', '-nv', '--name v', '--name=v' (and in alternative mode '-name v', '-name=v') in place of one another lead to the same observable result of parseArguments.", "quantifier": "all configurations, contexts and values v", "why_tests_cant": "an equivalence between infinitely many pairs of command lines", "anchors": ["src/args.cpp:Args::parseShortArgument_", "src/args.cpp:Args::parseLongArgument_", "src/args.cpp:Args::parseArgument_"]}
{"id": "C21", "title": "count() is the number of occurrences", "statement": "After a successful parseArguments, count() of an argument is the number of times it occurred on the command line.", "quantifier": "all configurations and argv", "why_tests_cant": "counting over all inputs and spellings", "anchors": ["src/args.cpp:Args::parseShortArgument_", "src/args.cpp:Args::parseArgument_", "include/blet/args/argument.h:Argument::count"]}
{"id": "C22", "title": "Fixed-arity options hold exactly the words that follow their last occurrence", "statement": "After a successful parse an option with nargs(n), n>1 (n different from '+'), that is present holds exactly n values: the n words following its last occurrence; with too few words before -- or the end, parseArguments throws 'bad number of argument'.", "quantifier": "all n, configurations, argv", "why_tests_cant": "unbounded nargs and positions", "anchors": ["src/args.cpp:Args::parseArgument_"]}
{"id": "C23", "title": "APPEND and EXTEND accumulate all occurrences in order", "statement": "After a successful parse a present APPEND/EXTEND option holds the values of all its occurrences, in command line order and grouped by nargs when nargs > 1; the defaults are used only when the option is absent.", "quantifier": "all configurations, argv, numbers of occurrences", "why_tests_cant": "unbounded number of occurrences and spellings", "anchors": ["src/args.cpp:Args::parseArgument_", "src/args.cpp:Args::parseShortArgument_"]}
{"id": "C24", "title": "Variable-length options stop exactly at the next registered option, -- or the end", "statement": "An INFINITE or EXTEND (nargs 1) option written without '=' takes the maximal run of following words none of which is recognised as a registered option, up to -- or the end of the command line; for INFINITE only the last occurrence counts.", "quantifier": "all configurations and argv", "why_tests_cant": "maximality over all suffixes", "anchors": ["src/args.cpp:Args::endOfInfiniteArgument_", "src/args.cpp:Args::parseArgument_"]}
{"id": "C25", "title": "Positional arguments are filled in listing order, each at most once", "statement": "The k-th group of non-option words goes to the k-th positional argument in listing order, with the size given by its nargs (1, n, all the rest, all the rest in groups of n), until none is left; a positional is present iff it received words.", "quantifier": "all configurations and argv", "why_tests_cant": "unbounded numbers of positionals and words", "anchors": ["src/args.cpp:Args::parsePositionnalArgument_"]}
{"id": "C26", "title": "Values given for a positional replace its defaults", "statement": "After a successful parse a present positional argument holds exactly the words assigned to it.", "quantifier": "all configurations (with or without defaults) and argv", "why_tests_cant": "depends on defaults and previous parses", "anchors": ["src/args.cpp:Args::parsePositionnalArgument_", "src/argument.cpp:Argument::clear_"]}
{"id": "C27", "title": "Absent arguments keep their default values", "statement": "After a parse on a freshly configured parser, an argument that is not on the command line has isExists() false, count() 0 and exactly its declared default values.", "quantifier": "all configurations and argv", "why_tests_cant": "frame property: every other argument's processing must not touch it", "anchors": ["src/argument.cpp:Argument::clear_", "src/argument.cpp:Argument::defaultsConstructor_", "src/args.cpp:Args::parseArgument_"]}
{"id": "C28", "title": "parseArguments can be repeated", "statement": "The result of parseArguments (values, existence, counts, additional arguments, exceptions) depends only on the configuration and argv, not on earlier parseArguments calls.", "quantifier": "all configurations and pairs of command lines", "why_tests_cant": "needs all pairs of parses", "anchors": ["src/args.cpp:Args::parseArguments", "src/argument.cpp:Argument::clear_"]}
{"id": "C29", "title": "Parsing does not change the configuration", "statement": "parseArguments changes no flag, nargs, action, required, help, metavar, defaults, nor the name lookup of existing arguments (apart from the automatic help option) - also when it throws.", "quantifier": "all configurations, argv, and all exception points", "why_tests_cant": "frame property at every possible throw point", "anchors": ["src/args.cpp:Args::parseArguments"]}
{"id": "C30", "title": "Validators see the values of present arguments only, and their transformation is stored", "statement": "On normal return of an interpreting parse, for each present argument with a validator the validator was given its values and returned true, and the stored values are the (possibly transformed) values the validator left (position by position up to the number of values); validators of absent arguments have no influence; a rejected validation throws ParseArgumentValidException naming the argument's first flag or name.", "quantifier": "all validators (as functions on value lists), configurations, argv", "why_tests_cant": "quantifies over arbitrary user-supplied validators", "anchors": ["src/args.cpp:Args::parseArguments"]}
{"id": "C31", "title": "ValidChoise accepts exactly lists of listed choices", "statement": "ValidChoise(c).isValid(v) returns true iff every value is equal to one of c, leaves v unchanged, and otherwise throws ParseArgumentValidException about the first bad value.", "quantifier": "all choice lists and value lists", "why_tests_cant": "unbounded inputs", "anchors": ["src/valid.cpp:ValidChoise::isValid"]}
{"id": "C32", "title": "ValidMinMax accepts exactly lists of numbers in the closed interval, in either bound order", "statement": "ValidMinMax(a,b).isValid(v) returns true iff every value reads as a number x with min(a,b) <= x <= max(a,b); otherwise it throws about the first bad value; the order of a and b is irrelevant.", "quantifier": "all bounds and value lists", "why_tests_cant": "unbounded inputs", "anchors": ["src/valid.cpp:ValidMinMax::ValidMinMax", "src/valid.cpp:ValidMinMax::isValid"]}
{"id": "C33", "title": "ValidPath accepts exactly existing paths of the requested kind", "statement": "ValidPath(mode).isValid(v) returns true iff stat succeeds on each value and the file type matches the mode (any, regular file, directory).", "quantifier": "all file systems (as functions from paths to stat results), modes and value lists", "why_tests_cant": "quantifies over file systems", "anchors": ["src/valid.cpp:ValidPath::isValid"]}
{"id": "C34", "title": "ValidNumber accepts exactly strings that are numbers", "statement": "ValidNumber.isValid(v) returns true iff each value is entirely a number in strtod syntax.", "quantifier": "all value lists", "why_tests_cant": "unbounded inputs, empty-string corner", "anchors": ["src/valid.cpp:ValidNumber::isValid"]}
{"id": "C35", "title": "STORE_TRUE / STORE_FALSE semantics", "statement": "For an option declared once with action STORE_TRUE (resp. STORE_FALSE), after a successful parse the bool conversion and getString() give true (resp. false) iff it occurred on the command line.", "quantifier": "all configurations and argv", "why_tests_cant": "all inputs", "anchors": ["include/blet/args/argument.h:Argument::operator bool", "src/argument.cpp:Argument::getString", "src/argument.cpp:Argument::typeConstructor_"]}
{"id": "C36", "title": "Bundled short boolean flags equal separate ones", "statement": "For boolean flags, the word -abc has the same effect as the words -a -b -c.", "quantifier": "all configurations without alternative clash, all bundles", "why_tests_cant": "all lengths and contents of bundles", "anchors": ["src/args.cpp:Args::parseShortArgument_"]}
{"id": "C37", "title": "Alternative mode: -name equals --name", "statement": "In alternative mode, if --X is registered, the word -X (or -X=v) has exactly the same effect as --X (or --X=v), also as terminator of variable-length values; without alternative mode single-dash words are always read as short flags.", "quantifier": "all configurations and words X", "why_tests_cant": "all inputs", "anchors": ["src/args.cpp:Args::parseShortArgument_", "src/args.cpp:Args::endOfInfiniteArgument_"]}
{"id": "C38", "title": "Splitting of name=value", "statement": "A word is split at its first '=': name has no '=', and name + '=' + value is the original word; without '=' the word is entirely the name.", "quantifier": "all strings", "why_tests_cant": "unbounded inputs", "anchors": ["include/blet/args/utils.h:takeArg"]}
{"id": "C39", "title": "Words are classified uniquely", "statement": "Every word is exactly one of: short option (-c...), long option (--x...), end marker (--), or plain word; '-' alone and the empty word are plain.", "quantifier": "all strings", "why_tests_cant": "unbounded inputs", "anchors": ["include/blet/args/utils.h:isShortOption", "include/blet/args/utils.h:isLongOption", "include/blet/args/utils.h:isEndOption"]}
{"id": "C40", "title": "Every registered flag can be used on the command line", "statement": "For every flag accepted by addArgument/flag, giving that flag on the command line designates the argument.", "quantifier": "all flags", "why_tests_cant": "unbounded flag space, '=' corner", "anchors": ["src/argument.cpp:Argument::validFormatFlag_", "include/blet/args/utils.h:takeArg", "src/args.cpp:Args::parseLongArgument_"]}
{"id": "C41", "title": "Declaration calls have the documented meaning independent of their order", "statement": "After declaring action(a) and nargs(n) in either order the argument behaves the same, and re-declaring an action replaces the previous one.", "quantifier": "all actions, nargs, orders", "why_tests_cant": "combinatorial over sequences", "anchors": ["src/argument.cpp:Argument::typeConstructor_", "src/argument.cpp:Argument::action"]}
{"id": "C42", "title": "defaults() is validated against nargs", "statement": "defaults(v) with non-empty v is accepted exactly if the length fits the argument (1 for single value, n for nargs(n), any length for variable ones, a multiple of n for grouped ones), and after acceptance the argument's values are v (grouped by n for grouped kinds).", "quantifier": "all kinds, n, v", "why_tests_cant": "unbounded v and n", "anchors": ["src/argument.cpp:Argument::defaultsConstructor_"]}
{"id": "C43", "title": "At most one help and one version argument", "statement": "In every reachable state at most one argument acts as help (version) option; declaring a second throws ArgumentException and leaves the first in place.", "quantifier": "all histories", "why_tests_cant": "histories with failed calls and re-declarations", "anchors": ["src/argument.cpp:Argument::typeConstructor_", "src/argument.cpp:Argument::action"]}
{"id": "C44", "title": "String, vector and vector-of-vector views agree", "statement": "After a successful parse the vector<string> view is the concatenation of the vector<vector<string>> view when the latter exists, getString() is the documented join of the values, and the views throw exactly for the kinds that do not support them.", "quantifier": "all configurations and argv", "why_tests_cant": "all shapes", "anchors": ["src/argument.cpp:Argument::getString", "src/argument.cpp:Argument::operator std::vector<std::string>", "src/argument.cpp:Argument::operator std::vector<std::vector<std::string> >"]}
{"id": "C45", "title": "dest receives the value exactly once per successful parse", "statement": "On normal return of an interpreting parse each destination has received the final (validated) value of its argument exactly once: scalars are assigned, vectors get the values appended in order, callbacks are called once with (isExists, values); no destination is written when the parse throws before the final stage.", "quantifier": "all configurations, destinations, argv", "why_tests_cant": "all inputs and throw points", "anchors": ["include/blet/args/argument.h:ArgumentType::toDest_", "include/blet/args/argument.h:ArgumentVectorType::toDest_", "include/blet/args/argument.h:ArgumentVectorVectorType::toDest_", "src/args.cpp:Args::parseArguments"]}
{"id": "C46", "title": "Validators are deleted exactly once", "statement": "Every validator passed to valid() with isDeletable=true (each object passed once) is deleted exactly once - when replaced, when its argument is removed, on clear() or destruction of Args - and never while still in use; with isDeletable=false it is never deleted.", "quantifier": "all histories, including dest() re-creation of arguments", "why_tests_cant": "ownership over all histories", "anchors": ["include/blet/args/argument.h:Argument::valid", "include/blet/args/argument.h:Argument::dest", "src/argument.cpp:Argument::~Argument", "src/args.cpp:Args::~Args", "src/args.cpp:Args::clear", "src/args.cpp:Args::removeArguments"]}
{"id": "C47", "title": "Wrapping of help texts loses no word and respects the width", "statement": "The wrapped lines of a text contain the same words in the same order; every line either fits in the column width or has no space at which it could have been broken within the width.", "quantifier": "all texts and widths", "why_tests_cant": "unbounded texts", "anchors": ["src/usage.cpp:s_multilineWrap"]}
{"id": "C48", "title": "getUsage lists every argument exactly once, in order", "statement": "Without a custom usage text getUsage() shows in its synopsis every option (bracketed iff not required) then every positional, in listing order, and then one entry per positional and per option, with help, required mark or default; with a custom text it returns exactly that text.", "quantifier": "all configurations", "why_tests_cant": "all configurations", "anchors": ["src/usage.cpp:Usage::getUsage"]}
{"id": "C49", "title": "The usage synopsis respects the total width", "statement": "Each synopsis line is at most padWidth+argsWidth+sepWidth+helpWidth characters unless it consists of a single argument after the indentation.", "quantifier": "all configurations and widths", "why_tests_cant": "unbounded configurations", "anchors": ["src/usage.cpp:Usage::getUsage"]}
{"id": "C50", "title": "Text destinations are bounded and terminated", "statement": "Storing an argument into a char[N] destination (N >= 1) writes a NUL-terminated string inside the array that is the longest prefix of the value that fits.", "quantifier": "all N >= 1, all values", "why_tests_cant": "unbounded sizes; off-by-one errors", "anchors": ["include/blet/args/argument.h:strTo(char(&)[Size])", "include/blet/args/argument.h:boolTo(char(&)[Size])"]}
{"id": "C51", "title": "isNumber() holds exactly when the value starts with a number", "statement": "After a successful parse, for each single value (the argument itself if it has no elements, otherwise each element or element of a group): isNumber() is true exactly when the value, after optional leading blanks, begins with a decimal floating point number (so '1234aaa' is the number 1234); getNumber() then returns it and otherwise throws. An argument with elements is itself not a number.", "quantifier": "all values", "why_tests_cant": "unbounded values", "anchors": ["src/argument.cpp:Argument::toNumber_", "include/blet/args/argument.h:ArgumentElement::getNumber"]}
{"id": "C52", "title": "Failed declarations leave the argument usable and unchanged", "statement": "When action(), nargs(), defaults() or flag() throws ArgumentException the argument keeps its previous behaviour.", "quantifier": "all histories containing failed declarations", "why_tests_cant": "all sequences with caught exceptions", "anchors": ["src/argument.cpp:Argument::action", "include/blet/args/argument.h:Argument::nargs", "include/blet/args/argument.h:Argument::defaults", "src/argument.cpp:Argument::flag"]}
{"id": "C53", "title": "Arithmetic destinations hold the number that was given, converted as C++ converts it", "statement": "After a successful parse, a variable given to dest() that is of arithmetic type and served by one argument only holds, whatever it held before: for double the double nearest to the number with which the value begins (decimal or hexadecimal, with fraction and exponent; ties to even; infinity beyond the range), for float the float nearest to that double, for an integer type the integer part of that double (undefined behaviour if it does not fit), for bool whether that double is not 0; 0 if the value does not begin with a number; 1 or 0 for a flag. The values of an option with several values are appended to a vector one by one in order, its groups to a vector of vectors.", "quantifier": "all texts, all arithmetic types, all reachable objects, command lines and previous contents of the variables", "why_tests_cant": "unbounded texts; correct rounding concerns every real number", "anchors": ["include/blet/args/argument.h:strTo", "include/blet/args/argument.h:boolTo", "include/blet/args/argument.h:ArgumentType::toDest_", "include/blet/args/argument.h:ArgumentVectorType::toDest_", "include/blet/args/argument.h:ArgumentVectorVectorType::toDest_"]}
{"id": "C54", "title": "An integer destination receives exactly the integer that was typed, or the parse fails", "statement": "If the value given to an option whose destination is an integer variable is a whole number that fits the type of the variable, the variable holds exactly this number; a number that does not fit, or a text that is not a number, is refused.", "quantifier": "all texts, all integer types", "why_tests_cant": "unbounded texts", "anchors": ["include/blet/args/argument.h:strTo", "include/blet/args/argument.h:ArgumentType::toDest_"]}
{"id": "C55", "title": "The order of options on the command line does not matter", "statement": "If the complete occurrences of different options (flags, help, version, options with one value or a fixed number of values, or with a value attached by '=') are exchanged or permuted on the command line, or an option occurrence is moved across a plain word that is read on its own, the parse has the same outcome, and after a normal return the same object. More generally two readable command lines that give each option the same occurrences in the same order, each positional the same words and the program the same additional arguments have the same outcome.", "quantifier": "all usable objects, all command lines, all permutations of any number of occurrences at any place before '--'", "why_tests_cant": "relates pairs of unboundedly many command lines", "anchors": ["src/args.cpp:Args::parseArguments", "src/args.cpp:Args::parseLongArgument_", "src/args.cpp:Args::parseShortArgument_", "src/args.cpp:Args::parsePositionnalArgument_"]}
{"id": "C56", "title": "ValidMinMax compares the double next to the number that was typed", "statement": "With double bounds a and b, none of them NaN, ValidMinMax accepts exactly the lists whose values all begin with a number within the range of double such that the double nearest to it lies between the bounds, in whatever order these are given. Hence every number between the bounds is accepted, and a number outside only if it is rounded to one of the bounds (2.0000000000000000001 is accepted by [1, 2]). A NaN as a bound is no bound.", "quantifier": "all texts, all doubles as bounds including infinities and NaN", "why_tests_cant": "unbounded texts, every real number", "anchors": ["src/valid.cpp:ValidMinMax::ValidMinMax", "src/valid.cpp:ValidMinMax::isValid"]}
{"id": "C57", "title": "Converting an argument to an arithmetic type gives the number of its value, or throws", "statement": "After a successful parse, converting an argument with one value to double gives the double nearest to the decimal number with which the value begins, to float the float nearest to that double, to an integer type the integer part of that double (if it fits the type: otherwise the conversion is undefined behaviour); a value that does not begin with a number, a flag, or an argument with several values throws. The conversion to bool only tells whether the argument was given. For integer types the conversion equals what a destination of the type receives, for every value that begins with a decimal number; it may differ on hexadecimal numbers, on a number followed by e, and on texts.", "quantifier": "all usable objects, all command lines, all texts, all arithmetic types", "why_tests_cant": "unbounded texts, every real number", "anchors": ["include/blet/args/argument.h:Argument::operator T", "include/blet/args/argument.h:Argument::operator bool", "src/argument.cpp:Argument::toNumber_"]}
{"id": "C58", "title": "Settings are what the program last set; the program name is argv[0] of the first parse unless set", "statement": "After any sequence of calls, with or without exceptions, the version text, the modes (alternative, strict, exceptions for help and version) and the texts and widths of the usage are those of the last call that set them, or those of a new object if there is none since the last clear(). getBinaryName() is the name given to setBinaryName(), otherwise argv[0] of the first parse that read its command line (even one that failed); a later parse does not replace it.", "quantifier": "all finite histories of API calls including failed ones", "why_tests_cant": "unbounded histories", "anchors": ["src/args.cpp:Args::parseArguments", "src/args.cpp:Args::clear", "include/blet/args/args.h:Args::setBinaryName"]}
{"id": "C59", "title": "The list helpers build the list that was written and leave their operands alone", "statement": "Args::vector(s1, ..., sn), a Vector made from an array, an initializer list or a text, and e + s1 + ... + sn are the lists of the given texts in the given order; a Vector used as an operand of + keeps its content; a number given as default value is not taken for something else.", "quantifier": "all lists of texts of any length, all variables of the program", "why_tests_cant": "unbounded lists and expressions", "anchors": ["include/blet/args/vector.h:Vector::operator+", "include/blet/args.h:Args::vector"]}
{"id": "C60", "title": "Declaring a further option does not change what other command lines mean", "statement": "Take any sequence of declarations and insert, anywhere, the declaration of one more option under names that are free at that place and not used by the other calls; the option is not required, has no destination and is not the help or version option. Then all other calls have the outcomes they have without it, and a command line in which no word (before --) can be understood to refer to one of its names gives the same return or the same exception (help shows the usage text of the parser at hand), the same configuration and values for every other name, the same additional arguments and the same deliveries to destinations; the further option is absent.", "quantifier": "all histories before and after the insertion, all option names and method chains, all command lines", "why_tests_cant": "relates two runs of arbitrary length on unboundedly many parsers and command lines", "anchors": ["src/args.cpp:Args::addArgument", "src/args.cpp:Args::parseArguments", "src/args.cpp:Args::endOfInfiniteArgument_", "src/argument.cpp:Argument::typeConstructor_"]}
{"id": "C61", "title": "The order of independent declarations does not matter", "statement": "Take a group of addArgument(...) declarations that share no name, at most one of which declares a positional argument, at most one of which asks for the role of help or version option (and none of which changes its action after asking), and whose names no earlier call mentioned. Write them in any other order, between any other set-up calls: every call has the same outcome, and the two parsers cannot be told apart: every name designates the same configuration and values, the arguments are listed in the same order, settings and usage text are equal, and every command line gets the same return, exit or exception (with the same text) and, if it is accepted, the same values, additional arguments and deliveries.", "quantifier": "all histories before and after the group, all groups of any size and all their permutations, all command lines", "why_tests_cant": "permutations of unbounded groups, two runs of arbitrary length on unboundedly many command lines", "anchors": ["src/args.cpp:Args::addArgument", "src/args.cpp:Args::compareOption_", "src/args.cpp:Args::parseArguments", "src/usage.cpp:Usage::getUsage"]}
{"id": "C62", "title": "Exceptions have the documented class and name what they are about", "statement": "parseArguments throws nothing but: HelpException / VersionException when the program asked for them; ParseArgumentException for words that cannot be read (argument() is part of a word on the command line, or the name of a declared argument); ParseArgumentRequiredException and ParseArgumentValidException, with a name of the required, respectively validated, argument; ParseArgumentException for a destination type without conversion; and what a validator of the program throws of its own. So a handler for ParseArgumentException catches every error of the user of the program. Errors in declarations are ArgumentException (AccessDeniedException for updateArgument of an unknown name), never ParseArgumentException, and argument() is a name given to the call or a name of the argument it changes.", "quantifier": "all usable parsers and command lines; all histories and all declaration calls", "why_tests_cant": "ranges over every failing call in every reachable state", "anchors": ["src/args.cpp:Args::parseArguments", "src/argument.cpp:Argument::typeConstructor_", "include/blet/args/exception.h"]}
{"id": "C63", "title": "Each mode changes what it is documented to change, and nothing else", "statement": "For every parser and command line: setHelpException/setVersionException only decide whether the usage (version) text is thrown or printed before exit; when the call returns, the object is the same but for the mode. setStrict(true) gives the same outcome (and the same object if the call returns) unless some word would have become an additional argument; then the first such word is refused with 'invalid additional argument', and in every case the outcome is the one without strict mode or such a refusal of a word of the command line. What strict mode accepts is accepted without it with the same result. setAlternative changes nothing for command lines in which no word before -- is -X (or -X=v) with --X registered.", "quantifier": "all usable parsers, all mode combinations, all command lines", "why_tests_cant": "compares two parsers over every command line, configuration and mode", "anchors": ["src/args.cpp: parseShortArgument_, parsePositionnalArgument_, parseArguments", "include/blet/args/args.h: setAlternative, setStrict, setHelpException, setVersionException"]}
{"id": "C64", "title": "Texts for the reader of the usage have no other effect", "statement": "Take two programs that make the same calls on a fresh parser except for the texts given to help(), metavar(), setDescription(), setEpilog(), setUsage(), setUsageWidth() and setBinaryName(). Every call ends the same way in both (the same exceptions with the same messages), except that a met help option shows each program's own usage; afterwards the two objects differ in nothing but these texts, so every query has the same answer. Likewise the program name argv[0] matters for the usage only.", "quantifier": "all pairs of call histories that differ only in such texts, all command lines", "why_tests_cant": "compares two programs over all histories, texts and command lines", "anchors": ["src/args.cpp: parseArguments, usage, addArgument", "include/blet/args/argument.h: help, metavar", "include/blet/args/usage.h: setDescription, setEpilog, setUsage, setUsageWidth", "include/blet/args/args.h: setBinaryName"]}
{"id": "C65", "title": "The validator and the destination of an argument concern this argument only", "statement": "For every parser and command line: giving an argument another validator (or none) changes neither how parseArguments ends nor anything else in the parser, except that (if the argument is on the command line) its values may be refused by one of the two validators, and its own values may differ. In particular, taking a validator away never makes a command line fail, and the validator of an absent argument is irrelevant. Giving a destination (of a type with a conversion) to an argument without one never changes how the call ends, nor any value or other delivery; its delivery is added.", "quantifier": "all usable parsers, arguments, validators, destinations and command lines", "why_tests_cant": "compares two parsers over all configurations, validators (arbitrary functions) and command lines", "anchors": ["src/args.cpp: parseArguments", "include/blet/args/argument.h: valid, dest, toDest_"]}
{"id": "C66", "title": "removeArguments undoes addArgument", "statement": "For every reachable parser, list of free names and chain of methods: if addArgument(names) with the chain succeeds, then removeArguments with all the names that the new argument lists (in any order) succeeds and leaves the parser exactly as it was before addArgument - arguments, their order, names, help and version options, settings - and the validators handed over to the new argument have been deleted, each once. Conditions, shown necessary: none of the names was registered, and the chain declares HELP or VERSION only when that role is free.", "quantifier": "all reachable parsers, name lists, method chains and orders of the removed names", "why_tests_cant": "states equality of two parser states after arbitrary histories and arbitrary method chains", "anchors": ["src/args.cpp: addArgument, removeArguments", "include/blet/args/argument.h: flag, action, nargs, valid"]}
{"id": "C67", "title": "A copy of an argument is an independent snapshot", "statement": "For every parser and every program that copies arguments (Argument c = args[name]) and destroys the copies: the copy gives for every observer (getString, conversions, operator[], getters) what the argument gave when it was copied, and keeps giving it whatever is called on the parser; and copying or destroying copies changes neither the outcome of any call on the parser nor anything visible in it or delivered to destinations, and deletes no validator that is in use, nor any twice.", "quantifier": "all reachable parsers and all interleavings of calls, copies and destructions of copies", "why_tests_cant": "quantifies over all programs, and the damage (a validator deleted by the copy) shows only in undefined behaviour later", "anchors": ["src/argument.cpp: Argument(const Argument&), ~Argument", "include/blet/args/args.h: getArgument, operator[]"]}
{"id": "C68", "title": "required() matters only when the option is absent", "statement": "Let a parser be changed only by updateArgument(n).required(b) for an option n. Then every command line that cannot be read is refused with the same exception as before; if the option is on the line, the line is accepted iff it was accepted before, and a RequiredException names the same argument; when both parsers accept, all values, the additional arguments and what is delivered to destinations are the same; if the option is absent and the line was accepted before, required(true) makes parseArguments throw RequiredException naming it (\"option is required\"), and required(false) never makes an accepted line refused. (For a positional it is false: required positionals are listed, hence filled, first.)", "quantifier": "all usable parsers, all options, all command lines", "why_tests_cant": "relates two parsers over all configurations and command lines; required() also re-sorts the list of arguments, which could change anything that depends on its order", "anchors": ["src/argument.cpp: Argument::required", "src/args.cpp: Args::parseArguments", "include/blet/args/argument.h: required"]}
{"id": "C69", "title": "The error of a command line is that of its first offending word", "statement": "When parseArguments throws a ParseArgumentException about the line (an unknown option, a value given to a flag or to a several-valued option with '=', an additional argument in strict mode), there is an offending word such that every command line that is identical up to and including that word is refused with the same exception, whatever follows it; in particular appending words never turns such an error into success or into another error. (Only \"bad number of argument\" depends on what follows.)", "quantifier": "all usable parsers, all refused command lines, all continuations", "why_tests_cant": "quantifies over all parsers, all lines and all continuations of the line; parsers that look ahead can easily report a later error or let a later word change the meaning of an earlier one", "anchors": ["src/args.cpp: Args::parseArguments, parseLongArgument, parseShortArgument, parsePositionnalArgument"]}
{"id": "C70", "title": "Any values can be given, and are read back", "statement": "For every usable parser and every choice of values (for options: any texts after '=', any words but \"--\" as separate values, in the numbers the option accepts, for variable-length options words that do not look like options of the parser; for positionals and additional arguments: any words at all) the command line that writes the options one after the other, then \"--\", then the words for the positionals is readable; if it is accepted, each option holds exactly the values asked for (the last ones, or all of them for APPEND/EXTEND), each positional its words, the additional arguments are the rest, and no other argument exists; and it is accepted when the required arguments are among them, help and version are not, and there are no validators (and no destination without conversion).", "quantifier": "all usable parsers, all requests of options with all texts, all words for positionals and additional arguments", "why_tests_cant": "quantifies over all parsers and all texts, including those with dashes, '=', spaces and empty texts", "anchors": ["src/args.cpp: Args::parseArguments, parseLongArgument, parseShortArgument, parsePositionnalArgument, endOfInfiniteArgument"]}
{"id": "C71", "title": "Which validators parseArguments calls, when, and with what", "statement": "A call of parseArguments that returns has called the validator of each argument that is on the command line exactly once, with the values the line gives that argument, in the order of the listing; after the validator of an argument and before that of the next one its destination was served; validators of absent arguments are not called. If a validator refuses (or throws), the validators and destinations of the arguments listed later are not touched. If the line cannot be read, help or version was asked for, or a required argument is missing, no validator is called and no destination written. A validator given to one argument only is called at most once per parse in every case.", "quantifier": "all usable parsers, all command lines, all validators and destinations, all outcomes", "why_tests_cant": "quantifies over all parsers and all outcomes; the order and number of calls of user code (which may have effects of its own) is only visible to tests for the few parsers they instrument", "anchors": ["src/args.cpp: Args::parseArguments", "include/blet/args/valid.h: IValid"]}
{"id": "C72", "title": "How long a reference to an argument can be used", "statement": "A reference returned by addArgument, updateArgument or getArgument stays usable, and stays a reference to the argument that its names designate, through every completed call except: clear(); a removeArguments that removes every name that designates the argument; and a dest() actually reached on that argument (dest() puts a new object in its place). Those calls, when they complete, do end it. In particular other declarations, re-sorting, refused calls, the removal of some of its names and any number of parses (successful or not) leave it valid. Calls chained on a usable reference do exactly what the same calls chained on updateArgument(any of its names) do.", "quantifier": "all histories of calls on one object, all arguments, all calls that complete (return or throw)", "why_tests_cant": "a dangling reference usually still reads plausible bytes; validity has to hold for every interleaving of declarations, removals, re-sorts and parses", "anchors": ["include/blet/args/argument.h: Argument::dest", "src/args.cpp: Args::addArgument", "src/args.cpp: Args::removeArguments", "src/args.cpp: Args::clear", "include/blet/args/args.h: updateArgument"]}
{"id": "C73", "title": "Exceptions thrown by user code during a parse", "statement": "If a validator or a function given to dest() throws an exception of its own during parseArguments, the exception of the first call that throws comes out of parseArguments; exactly the calls of user code and the writes to destinations that come before it (and that call) have happened, nothing after it. The parser is not damaged: all declarations are as after a completed call, and the next parseArguments has the same outcome, leaves the same object and makes the same writes as if the earlier call had not been interrupted. User code that does not throw makes no difference.", "quantifier": "all parsers, command lines, and all user code whose throwing depends in any way on what happened so far in the call", "why_tests_cant": "exception safety has to hold for every point at which user code can throw, and for every later use of the object", "anchors": ["src/args.cpp: Args::parseArguments", "include/blet/args/argument.h: ArgumentType::toDest_", "include/blet/args/argument.h: ArgumentVectorType::toDest_", "include/blet/args/argument.h: ArgumentVectorVectorType::toDest_"]}
{"id": "C74", "title": "The bounds in the message of ValidMinMax", "statement": "When ValidMinMax refuses a list of values, the message names the first offending value and shows both bounds, the smaller one first. Each bound is shown as the decimal of six significant digits nearest to it (ties to the even digit), without superfluous zeros, with an exponent exactly if it is below 10^-4 or from 10^6 on; infinities as inf and -inf. A bound given as a decimal of at most six digits is shown as that decimal, whole numbers below a million by their digits; in general the shown number differs from the bound by at most 1/200000 of it. The value is not between the two numbers that the message shows.", "quantifier": "all pairs of bounds that are doubles, all lists of values", "why_tests_cant": "rounding and notation have to be right for every double and every text; a test shows a few bounds", "anchors": ["src/valid.cpp: ValidMinMax::isValid", "src/valid.cpp: ValidMinMax::ValidMinMax"]}
{"id": "C75", "title": "Declaration methods on a copy of an argument stay with the copy", "statement": "A program that holds a copy of an argument instead of a reference (auto a = args.addArgument(\"-n\");) and calls declaration methods on it changes the copy as the method would have changed the argument (same outcome, same observers afterwards), changes no other copy, and does not affect the parser: all calls on the parser have the outcomes and effects they would have had without it.", "quantifier": "all reachable parsers, all registered arguments, all methods and parameters; all programs made of parser calls, copies, destructions of copies and method calls on copies", "why_tests_cant": "the claim compares every program with the program without copies; the failures need a particular combination (a help option, an owned validator, a later removal)", "anchors": ["src/argument.cpp: Argument(const Argument&), flag, action, required, typeConstructor_, defaultsConstructor_", "include/blet/args/argument.h: help, metavar, nargs, defaults, valid, dest"]}
{"id": "C76", "title": "Validators may remember and read the parser: what they see", "statement": "User code called by parseArguments (isValid of a validator, a dest() function) may remember earlier calls and read the parser that calls it. Such a call has the outcome, the object and the calls of user code of the call on the same parser whose validators each have one fixed answer: the one that was given. At each moment it sees the arguments listed before the current one as they will be at the end, those listed after it (and the current one, in its validator) as the line was read, and everything else as the line was read; and it sees the numbers of all arguments on the line.", "quantifier": "all functions from what happened so far and the parser at those times to answers; all reachable parsers, all command lines, all moments of the call", "why_tests_cant": "quantifies over all behaviours of user code, including answers that depend on the whole history and on every observer of the parser", "anchors": ["src/args.cpp: parseArguments", "include/blet/args/valid.h: IValid::isValid", "src/argument.cpp: toNumber_"]}
{"id": "C77", "title": "Options inserted into a command line affect only themselves; later occurrences win", "statement": "Complete option occurrences (option words with their values) inserted into a command line where a new word begins (prog $OPTIONS \"$@\", or at its end, or in between) do not make a readable line unreadable nor the reverse: a ParseArgumentException about the line stays the same exception. An accepted line stays accepted, unless help or version is asked for or the values of an inserted option are refused (by its validator or destination). All other options, the positionals and the additional arguments are the same as without the insertion. An inserted option counts its insertions; if it does not collect values, a later occurrence on the line leaves it as it was but for the count, otherwise it has the values of its last insertion; an APPEND or EXTEND option has the values before, those inserted and those behind, in this order.", "quantifier": "all reachable parsers, all command lines, all places, all numbers and kinds of inserted occurrences, all spellings and values", "why_tests_cant": "ranges over all parsers, lines, places and inserted occurrences, and interacts with variable-length values that end at the next option word", "anchors": ["src/args.cpp: parseArguments, parseShortArgument, parseLongArgument, parsePositionnalArgument_, endOfInfinite"]}
{"id": "C78", "title": "Repeating a declaration call has no further effect", "statement": "A declaration call that was accepted (action, required, help, metavar, nargs, defaults, valid, dest on an argument, a setting of the parser, clear()) can be made again with the same arguments: it is accepted and the parser is the same afterwards; flag() with the same flag is refused the second time without effect.", "quantifier": "all reachable parsers, all arguments, all methods and parameters", "why_tests_cant": "ranges over all histories and parameters; the failures need particular kinds of arguments", "anchors": ["src/argument.cpp: action, typeConstructor_, defaultsConstructor_, flag", "include/blet/args/argument.h: nargs, defaults, valid, dest", "src/args.cpp: clear"]}
{"id": "C79", "title": "A call that runs out of memory", "statement": "Whichever allocation of a call fails (std::bad_alloc leaves the call): with enough memory the call does exactly what it does without failures; a declaration call that runs out of memory leaves every other argument, every registered name and the settings of the parser as they were, new names are among those it was given, and what it left can be taken back; removeArguments, help, metavar, required, valid and the setters of texts have no effect at all, clear() and the setters of modes and widths never run out of memory; an interrupted parseArguments keeps every declaration; and after any such history every registered name still finds an argument that lists it.", "quantifier": "all histories of calls that complete or run out of memory, all calls and parameters, every allocation at which memory can run out", "why_tests_cant": "the failing allocation ranges over every allocation of every call in every state", "anchors": ["src/args.cpp: addArgument, removeArguments, clear, parseArguments", "src/argument.cpp: flag, action, defaultsConstructor_", "include/blet/args/argument.h: nargs, defaults, valid, dest, help, metavar"]}
{"id": "C80", "title": "Defined behaviour after running out of memory", "statement": "After any history of calls that completed or ran out of memory at any allocation, and in which dest() was not called on the help or version option, every further call has defined behaviour: addArgument and argument() with any chain of methods, removeArguments of distinct names, parseArguments of any command line with a program name, the setters and clear(); also a call that itself runs out of memory up to that point; and reading a registered name gives an argument. Without the proviso the same holds of every call but parseArguments.", "quantifier": "all histories of calls that complete or run out of memory, all further calls and command lines", "why_tests_cant": "half-made arguments and torn lists arise in as many ways as there are allocations and interleavings of calls", "anchors": ["src/args.cpp: addArgument, removeArguments, parseArguments, clear", "src/argument.cpp: typeConstructor_, action, flag", "include/blet/args/argument.h: dest"]}
{"id": "C81", "title": "Giving a default explicitly", "statement": "If a command line is accepted without an option, and the values that the option then has by default are given to it explicitly at a place where options are read, the longer line is accepted as well; the option is present, once, and has the same values; every other argument, the order of the arguments and the additional arguments are unchanged; and the destinations get exactly the same values (unless the option has a custom destination, which is also told the presence, or groups for a vector of vectors).", "quantifier": "all usable parsers, accepted command lines, options with values, places and spellings of the insertion, validators that accept the default as it is", "why_tests_cant": "ranges over all parsers, lines, places of insertion and validators", "anchors": ["src/args.cpp: parseArguments", "include/blet/args/argument.h: defaults"]}
{"id": "C82", "title": "The usage does not depend on the command lines parsed", "statement": "Once the parser has its help option and the name of the program (after the first parse, or declared and set before), no parse, whether it returns or throws, changes what getUsage() returns; and the help option, met on a later command line, prints exactly the text that getUsage() returned before, however many lines were parsed in between. Before that, a parse changes it only by adding the help option it makes and the name in argv[0].", "quantifier": "all reachable parsers, all finite sequences of command lines with any mixture of outcomes", "why_tests_cant": "all sequences of parses and all outcomes; the text depends on every argument", "anchors": ["src/usage.cpp: getUsage", "src/args.cpp: parseArguments", "include/blet/args/usage.h: getUsage"]}
{"id": "C83", "title": "A -- in front of words without dashes", "statement": "A \"--\" put in front of the remaining words of a command line changes nothing if none of them begins with a dash (\"-\" alone and the empty word are allowed) and it is not put between an option and its values: the outcome, be it a return, an exception or an exit, is the same, and after a return the object is the same. A \"--\" at the end of a line that has none never changes anything.", "quantifier": "all usable parsers, all command lines (accepted or not), all places between two pieces", "why_tests_cant": "ranges over all parsers, lines and places", "anchors": ["src/args.cpp: parseArguments, parsePositionnalArgument_"]}
{"id": "C84", "title": "The flags of an option: order, repetition and flag()", "statement": "The order in which the flags of an option are given to addArgument does not matter and repeating one changes nothing: if none of them is taken, both declarations are refused or both give exactly the same object. A flag that is free may be given to addArgument together with the others or to flag() right afterwards: the outcome is the same, so is the outcome of every call that sets up the parser afterwards, and the objects that result answer alike (same lookups, same list, same usage, same outcome and values for every command line).", "quantifier": "all reachable objects, all lists of flags, all methods chained after them, all later set-up calls, all command lines", "why_tests_cant": "ranges over all lists of flags, later calls and lines", "anchors": ["src/args.cpp: addArgument", "src/argument.cpp: flag", "include/blet/args/args.h: argumentExists, updateArgument"]}
{"id": "C85", "title": "Options may be given anywhere", "statement": "A group of options with their values may be put at the front, at the end or at any other place of a command line where a new word is expected, and in any order of the options: the outcome is the same and after a return the object is the same, provided that the rest of the line does not itself give one of these options. In particular prog $OPTIONS \"$@\" and prog \"$@\" $OPTIONS are the same.", "quantifier": "all usable parsers, all lines (readable or not), all groups of option occurrences, all pairs of places", "why_tests_cant": "ranges over all parsers, lines, groups and places", "anchors": ["src/args.cpp: parseArguments, parseLongArgument, parseShortArgument, parsePositionnalArgument_"]}
{"id": "C86", "title": "Flags without a value may be bundled in front of any option", "statement": "For any single-letter flags a, b, ... of options without a value (no abort flag among them) and any X that does not begin with '=' or '-', the word -abX is -a -b -X, whatever X is: an option whose value is in the same word (-abn=v, -abnv) or in the following words (-abp 1 2), further flags, or a word that is an error. The outcome, including the message of the error, is the same and after a return the object is the same. In alternative mode this holds when neither --abX nor --X is a declared long flag.", "quantifier": "all usable parsers, all bundles of flags, all X, all lines and places where a new word is expected", "why_tests_cant": "ranges over all parsers, bundles, continuations and lines", "anchors": ["src/args.cpp: parseShortArgument, parseArguments"]}
{"id": "C87", "title": "Starting the program without arguments", "statement": "A program started without arguments (argv is the program name alone) never gets a usage or parse error. If some argument is required, parseArguments throws ArgumentRequiredException for the first required argument in listing order, whether or not it has default values. If no argument is required and none has a destination, it returns, whatever validators there are, even when these would refuse the default values: afterwards every argument is absent with count 0 and the additional arguments are those from before. So without destinations it returns exactly when nothing is required; with destinations, the only other error is that of a default value that cannot be converted for its destination.", "quantifier": "all usable parsers", "why_tests_cant": "ranges over all parsers", "anchors": ["src/args.cpp: parseArguments (lines 110-160)", "include/blet/args/argument.h: isRequired, isExists"]}
