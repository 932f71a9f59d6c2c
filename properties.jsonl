{"id": "C01", "title": "Simplifying a bounds expression never changes its value", "statement": "Whenever splint simplifies a buffer-bounds expression (built from integer literals, storage names, +, -, maxSet, maxRead, minSet, minRead), the simplified expression denotes the same integer as the original one for every assignment of integers to the storage names that gives pointers the usual bounds laws (maxSet(p+i) = maxSet(p)-i, maxRead(p+i) = maxRead(p)-i, and declared constants their declared value).", "quantifier": "for every bounds expression of any depth and every assignment of values to the names in it", "why_tests_cant": "Expressions have unbounded depth and any literals; a test fixes finitely many shapes, while the rewriting is applied recursively and several times to whatever the user's code contains.", "anchors": ["src/constraintExpr.c: constraintExpr_simplify, constraintExpr_propagateConstants, constraintExpr_removeZero, constraintExpr_simplifybinaryExpr, constraintExpr_simplifyunaryExpr", "src/constraintTerm.c: constraintTerm_simplify, constraintTerm_getValue"]}
{"id": "C02", "title": "A bounds requirement is only discharged when it really follows", "statement": "If splint stays silent about a bounds requirement because a single known postcondition satisfies it, then every assignment of integers to the names that makes the known postcondition true makes the requirement true.", "quantifier": "for every pair of requirement and known fact, with any comparison operator and any operand expressions, and every assignment of values", "why_tests_cant": "Soundness is a statement about all assignments of integers to the program's variables and all operand expressions; each test run only exercises one pair and cannot show absence of an unsound pair.", "anchors": ["src/constraintResolve.c: constraint_satisfies, rangeCheck, arithType_canResolve"]}
{"id": "C03", "title": "A requirement silently dropped as always true is always true", "statement": "If splint classifies a bounds requirement as trivially true and therefore never reports it, the requirement holds for every assignment of values to the names in it.", "quantifier": "for every requirement (any operator, any operand expressions) and every assignment of values", "why_tests_cant": "The classification is made once for a formula whose variables range over all integers; tests sample values.", "anchors": ["src/constraintResolve.c: constraint_isAlwaysTrue", "src/constraintExpr.c: constraintExpr_similar, constraintExpr_canGetValue"]}
{"id": "C04", "title": "Merging a new bound into a set of bounds never changes what the set says", "statement": "Adding a bound to a collection of known bounds gives a collection whose conjunction is equivalent to the old conjunction together with the new bound, even though the new bound is dropped when the collection is considered to imply it already.", "quantifier": "for every collection, every added bound, every sequence of additions and every assignment of values", "why_tests_cant": "Collections grow through the whole analysis of a function; only an inductive argument covers every history of additions.", "anchors": ["src/constraintList.c: constraintList_add, constraintList_addListFree", "src/constraintResolve.c: constraintList_resolve, constraintList_addConstraintFree"]}
{"id": "C05", "title": "Simplification of a bounds constraint terminates and keeps its truth value", "statement": "Simplifying a whole constraint (moving literals across the comparison, swapping sides, folding constants) always terminates and yields a constraint that is true for exactly the same assignments as the original.", "quantifier": "for every constraint and every assignment of values", "why_tests_cant": "Termination and equivalence quantify over all constraints of any size and all values; the swap step is recursive, so a missed case shows up as a hang rather than a failing assertion.", "anchors": ["src/constraintResolve.c: constraint_simplify, flipAr", "src/constraintExpr.c: constraintExpr_solveBinaryExpr"]}
{"id": "C06", "title": "Substituting known inequalities into a requirement never weakens it", "statement": "When splint rewrites a requirement using known inequalities before trying to discharge it, establishing the rewritten requirement together with the known facts establishes the original requirement.", "quantifier": "for every requirement, every set of known facts and every assignment of values", "why_tests_cant": "It is an implication between formulas over all integers for all collections of facts.", "anchors": ["src/constraintResolve.c: inequalitySubstitute, inequalitySubstituteStrong, constraintList_substitute"]}
{"id": "C07", "title": "#if expressions are evaluated as C prescribes", "statement": "For every integer constant expression a source file may put after #if or #elif, splint's preprocessor computes the value C prescribes for intmax_t/uintmax_t arithmetic: precedence and associativity of all operators, unary operators, conditional, comma, signedness propagation and wrap-around.", "quantifier": "for every expression of any nesting depth", "why_tests_cant": "The set of expressions is infinite and bugs sit in the interaction of operator priorities on the parse stack; tests only ever cover a finite set of shapes.", "anchors": ["src/cppexp.c: cppExp_parseExpression, left_shift, right_shift, cppexp_lex"]}
{"id": "C08", "title": "Unevaluated operands of #if operators cause no diagnostics", "statement": "In an #if expression, a division by zero inside the operand that &&, || or ?: leaves unevaluated is never reported and never aborts the directive, while one in an evaluated operand always is.", "quantifier": "for every expression and every nesting of &&, || and ?:", "why_tests_cant": "The skip depth must be balanced for every nesting; an off-by-one only shows for particular nestings.", "anchors": ["src/cppexp.c: cppExp_parseExpression (skip_evaluation)"]}
{"id": "C09", "title": "Integer constants in #if are read with their exact value and signedness", "statement": "Every decimal, octal and hexadecimal integer constant with any legal u/l suffix is read by the preprocessor with the value C gives it, is unsigned exactly when it has a u suffix or does not fit in a signed long, and is rejected when it is malformed.", "quantifier": "for every spelling of an integer constant", "why_tests_cant": "There are infinitely many spellings and the overflow test is a modular-arithmetic trick that only fails for rare values.", "anchors": ["src/cppexp.c: cppexp_parseNumber"]}
{"id": "C10", "title": "Conditional inclusion keeps exactly the group C selects", "statement": "For every properly nested sequence of #if/#ifdef/#ifndef/#elif/#else/#endif directives and text lines, the text lines that reach the checker are exactly those in the groups C selects: of every chain the first group whose condition holds, else the #else group; conditions of skipped groups are not evaluated.", "quantifier": "for every properly nested file of any length and depth and every truth value of the conditions", "why_tests_cant": "Nesting is unbounded and the implementation alternates between two scanners (processing and skipping) that share one stack; only induction over the nesting covers all files.", "anchors": ["src/cpplib.c: do_if, do_elif, do_else, do_endif, do_xifdef, conditional_skip, skip_if_group"]}
{"id": "C11", "title": "Skipping an already guarded header changes nothing", "statement": "When splint does not read a header again because it was recognised as wrapped in an include guard and the guard macro is defined, reading it again would have produced no output and no new macro; and every header of the usual guarded shape is recognised. The header begins, after white space and comments, with #ifndef; that #ifndef has no #elif; and no file without any token is included after it.", "quantifier": "for every header file contents of that form, every macro environment at the first and at the second inclusion, and every effect of the lines", "why_tests_cant": "It is an equivalence between two behaviours over all header texts.", "anchors": ["src/cpplib.c: do_xifdef, conditional_skip, do_else, do_elif, do_endif (control_macro), redundant_include_p"]}
{"id": "C12", "title": "#define/#undef behave as a finite map from names to definitions", "statement": "After any history of #define and #undef, a name expands to the definition most recently given to it and not since undefined, and other names are unaffected.", "quantifier": "for every sequence of definitions and undefinitions, including names that share a hash bucket", "why_tests_cant": "Histories are unbounded and the failure modes are hash-chain manipulations that depend on collisions.", "anchors": ["src/cpphash.c: cpphash_install, cpphash_installMacro, cpphash_lookup, hashNode_delete", "src/cpplib.c: do_defineAux, do_undef"]}
{"id": "C13", "title": "Macros given before the first file are unchanged for every file", "statement": "Command-line and built-in macro definitions saved before the first file is processed are back in force, with identical parameters and replacement lists, when each further file starts.", "quantifier": "for every macro table contents and every history of definitions made while processing a file", "why_tests_cant": "It is a round-trip over all macro definitions (any number of parameters and uses) and all intervening histories.", "anchors": ["src/cpphash.c: cppReader_saveHashtab, cppReader_restoreHashtab, hashNode_copy"]}
{"id": "C14", "title": "A redefinition is silent exactly when it is the same up to white space", "statement": "Redefining a macro is accepted without a warning exactly when both definitions have the same parameters and the two replacement lists are the same up to the amount of white space between tokens. This is for bodies of 7-bit characters without # or ##, with no white space inside string or character literals, and parameter lists without '...'.", "quantifier": "for every pair of parameter lists and replacement lists meeting the conditions", "why_tests_cant": "The comparison walks two segmented texts; equivalence for all texts cannot be enumerated.", "anchors": ["src/cpplib.c: create_definition, collect_expansion, compare_defs, comp_def_part, do_define"]}
{"id": "C15", "title": "Suppression comments hide exactly the region they delimit", "statement": "In ordinary source files (not system headers, not derived from one another) whose suppression comments are met in the order of the text of each file, possibly several times and with other files in between, a message for a flag other than a name check is hidden exactly when a region opened by an ignore or count comment before it in its file has not been closed since (a count comment closes at the next line), or its flag was last locally turned off, or its flag is off and was not last locally turned on. Name-check messages are hidden at least inside regions and where their flag or the flag for all name checks was last locally turned off.", "quantifier": "for every sequence of suppression comments, local flag comments and messages over any number of files, and every message location and flag", "why_tests_cant": "Regions, files and locations form an unbounded space; an off-by-one at a region boundary hides or shows a real error.", "anchors": ["src/flagMarkerList.c: flagMarkerList_add, flagMarkerList_suppressError, flagMarkerList_inIgnore", "src/context.c: context_suppressFlagMsg"]}
{"id": "C16", "title": "No message is reported twice for the same place", "statement": "For every sequence of messages generated at known locations of source files (not library entries, and no two files derived from the same source), a message is reported exactly when no earlier message has the same file, line, column and text: none is reported twice and none that differs is lost.", "quantifier": "for every sequence of messages, in any order of locations", "why_tests_cant": "The log is a sorted array searched with early exit; correctness of lookup depends on the sortedness invariant over the entire history.", "anchors": ["src/messageLog.c: messageLog_add", "src/llerror.c: llgenerrorreal"]}
{"id": "C17", "title": "Repeated messages beyond the limit are counted, not lost", "statement": "With -limit n, for any sequence of messages, every accepted message is either printed or included in a printed '(k more similar errors unprinted)' line; the sum of both equals the number of accepted messages once output is flushed.", "quantifier": "for every sequence of messages and every limit", "why_tests_cant": "The counter is reset at message changes, so correctness is an invariant over the whole run.", "anchors": ["src/llerror.c: llgenerrorreal, cleanupMessages"]}
{"id": "C18", "title": "CSV error output can be read back", "statement": "Every row of the CSV error file, parsed by the usual CSV rules, yields exactly the fields of the message reported.", "quantifier": "for every message text", "why_tests_cant": "Message text comes from arbitrary user source (string literals, identifiers); a round trip must hold for all texts.", "anchors": ["src/llerror.c: generateCSV"]}
{"id": "C19", "title": "Wrapping long messages loses no text", "statement": "Printing a message or hint comes to an end, preserves all its text characters in order, and produces no line longer than the line length, when the indentation (with the indentation codes in the text) is at most max(4, line length - 21); error messages come to an end and preserve their text for every line and location length, and one-line error messages fit in every line length of at least 42.", "quantifier": "for every message text, indentation, location length and line length", "why_tests_cant": "Splitting is a greedy loop over arbitrary text with several break heuristics.", "anchors": ["src/llerror.c: mstring_split, printError, printIndentMessage"]}
{"id": "C20", "title": "Equivalent spellings of a flag name the same flag", "statement": "A flag name written with dashes, underscores or blanks anywhere, or with the long words of the program's table (function, variable, constant, \u2026 the singular global excepted) instead of their abbreviations, or both, selects the same flag as its listed name; every flag is selected by its own listed name and no spelling selects two flags. Spellings of the mode names are recognised as modes.", "quantifier": "for every flag of the table and every mixture of separators and long words in its name", "why_tests_cant": "Insertions are unbounded and the textual replacements interact (one replacement can create or destroy another).", "anchors": ["src/flags.c: canonicalizeFlag, flags_identifyFlagAux", "src/flags.def", "src/cstring.c: cstring_replaceLit, cstring_stripChars"]}
{"id": "C21", "title": "/*@=flag@*/ restores the command-line setting", "statement": "After any history of files and of local /*@+flag@*/, /*@-flag@*/ and /*@=flag@*/ comments (mode names apart), /*@=flag@*/ leaves a simple flag with the value it had from the command line (mode, options, rc files) and leaves the other flags untouched; a compound flag gets its own setting back; and at the end of every file all flags are as the command line set them.", "quantifier": "for every simple flag, every command-line configuration and every history of control comments over any number of files", "why_tests_cant": "Histories and configurations are unbounded; group flags fan out to subflags.", "anchors": ["src/context.c: context_fileSetFlag, context_restoreFlag, context_setFlagAux, context_saveFlagSettings, context_restoreFlagSettings, context_exitCFile", "src/cscannerHelp.c: cscannerHelp_handleSpecial"]}
{"id": "C22", "title": "A mode gives the same checking whatever came before", "statement": "Selecting a mode (weak, standard, checks, strict) turns on exactly the mode flags listed for it and turns off every other mode flag, whatever the earlier settings; flags that are not mode flags and numeric values keep their settings.", "quantifier": "for every earlier flag state and every mode", "why_tests_cant": "There are 2^n earlier states.", "anchors": ["src/context.c: context_setModeAux, conext_resetAllFlags, context_resetModeFlags", "src/intSet.c"]}
{"id": "C23", "title": "Numeric options never take an out-of-range value", "statement": "After any sequence of options, each numeric option has the last value accepted for it, read left to right (its default, a number given for it, or the limit of the language standard asked for); values are never negative (the message limit is -1 when unlimited) and the line length is at least the minimum, in every run including comments and modes; a setting that is refused leaves all values unchanged.", "quantifier": "for every sequence of settings with any digit strings that fit an int", "why_tests_cant": "Invariant over all histories; also decimal text to integer conversion for all digit strings.", "anchors": ["src/context.c: context_setValue, context_getValue, context_setValueAndFlag", "src/flags.c: flags_setValueFlag", "src/cstring.c: cstring_toPosInt"]}
{"id": "C24", "title": "Security risk levels stay ordered", "statement": "In every run, whatever the options, modes, comments and file ends, if checking for an ITS4 risk level is on then checking for every less severe level is on as well.", "quantifier": "for every sequence of flag settings, mode selections, comments and file ends", "why_tests_cant": "An invariant over all histories of settings.", "anchors": ["src/context.c: context_setFlagAux (FLG_ITS4MOSTRISKY ... FLG_ITS4LOWRISK)"]}
{"id": "C25", "title": "The symbol index is a faithful string-to-number map", "statement": "Take any history of insert, update, rename (to an equal spelling) and remove on splint's string index, over names of 7-bit characters and numbers other than the reserved 'does not exist' number. If every insert is of an absent name and every other operation is of a present one, no internal error is reported and looking up any name returns the number most recently associated with it, or 'does not exist' if none, through every growth of the table; otherwise an internal error is reported.", "quantifier": "for every initial size, every table of hash random numbers, every such history and every set of names, including colliding ones", "why_tests_cant": "Refinement over unbounded histories; rehashing and bucket growth only trigger at particular sizes.", "anchors": ["src/cstringTable.c: cstringTable_insert, cstringTable_lookup, cstringTable_update, cstringTable_replaceKey, cstringTable_remove, cstringTable_rehash"]}
{"id": "C26", "title": "The generic name table is a faithful map", "statement": "After any history of insert, update and remove on the generic name table, a lookup returns the value most recently stored under that name, and names never stored or removed are absent.", "quantifier": "for every history of operations and every set of names", "why_tests_cant": "Refinement over unbounded histories with resizing.", "anchors": ["src/genericTable.c: genericTable_insert, genericTable_update, genericTable_remove, genericTable_lookup, genericTable_contains"]}
{"id": "C27", "title": "A set of integers answers membership correctly", "statement": "After any sequence of insertions into splint's integer set, membership of a number is reported exactly when it was inserted, and the size equals the number of distinct inserted numbers.", "quantifier": "for every sequence of insertions and every query", "why_tests_cant": "Insertion order matters; only some orders go wrong.", "anchors": ["src/intSet.c: intSet_insert, intSet_member"]}
{"id": "C28", "title": "Source locations are totally ordered", "statement": "Comparison of source locations is a total order (antisymmetric, transitive): unknown locations first, then file, line and column, and zero exactly for two unknown locations or the same file, line and column. 'Strictly before' is this order on known locations; inside one file 'not after' is its non-strict form; for locations in source files not derived from one another, equality holds exactly when comparison gives zero.", "quantifier": "for every triple of locations", "why_tests_cant": "Order laws quantify over all triples; sorting and the message log rely on them.", "anchors": ["src/fileloc.c: fileloc_compare, fileloc_equal, fileloc_lessthan, fileloc_notAfter"]}
{"id": "C29", "title": "Integers written to a library file are read back unchanged", "statement": "Every integer splint writes in decimal into a library dump is read back as the same integer, and reading stops exactly behind it.", "quantifier": "for every int value and every following text", "why_tests_cant": "There are 2^32 values and any continuation; the error affects only some of them.", "anchors": ["src/reader.c: reader_getInt", "src/message.c (%d)"]}
{"id": "C30", "title": "Constant values survive dumping to a library", "statement": "A constant's value (integer, character, double or string) written into a library and loaded again is the same value.", "quantifier": "for every constant value", "why_tests_cant": "Infinitely many strings and 2^64 integers.", "anchors": ["src/multiVal.c: multiVal_dump, multiVal_undump"]}
{"id": "C31", "title": "Bounds annotations survive dumping to a library", "statement": "A function's requires/ensures bounds constraint written to a library and loaded again is the same constraint (operator, sides, role).", "quantifier": "for every constraint of any depth", "why_tests_cant": "Recursive format: a round trip over all trees.", "anchors": ["src/constraint.c: constraint_dump, constraint_undump", "src/constraintExpr.c: constraintExpr_dump, constraintExpr_undump", "src/constraintTerm.c: constraintTerm_dump, constraintTerm_undump"]}
{"id": "C32", "title": "Type descriptions survive dumping to a library", "statement": "The type table written to a library and loaded again has the same entries at the same indices (named types under their numbers in the library, internal parser markers dropped), and the text after the table is left for the next reader, provided no line reaches 16382 characters; so type numbers stored elsewhere in the library keep their meaning.", "quantifier": "for every type table with int-sized numbers and names free of the format's own delimiters; in particular every table built by the type constructors", "why_tests_cant": "A round trip over all tables; four abbreviated line formats overlap.", "anchors": ["src/cttable.i: ctentry_dump, ctentry_undump, cttable_dump, cttable_load", "src/ctbase.i: ctbase_dump, ctbase_undump"]}
{"id": "C33", "title": "Pointer-to and dereference are inverse on every type", "statement": "In every reachable type table, building 'pointer to T' (or 'array of T' of unspecified size) twice gives the same type, dereferencing it gives T again, and distinct element types give distinct pointer types; an array of n elements keeps its element type and size; building types never changes the meaning of types built before.", "quantifier": "for every history of type constructions", "why_tests_cant": "Invariant of a table of memo links over all histories.", "anchors": ["src/ctype.c: ctype_makePointer, ctype_makeArray, ctype_makeFixedArray, ctype_baseArrayPtr", "src/cttable.i: cttable_init, cttable_addDerived"]}
{"id": "C34", "title": "Relaxing a type-matching flag never adds type errors", "statement": "For every pair of primitive types, turning on a flag documented as relaxing type checking (relaxtypes, ignorequals, ignoresigns, relaxquals, floatdouble, matchanyintegral, charint, shortint, longint) never turns an accepted assignment into a rejected one.", "quantifier": "for all pairs of primitive types and all settings of all other flags", "why_tests_cant": "More than 2^14 flag settings times 361 pairs; nobody writes those tests.", "anchors": ["src/cprim.c: cprim_closeEnoughAux"]}
{"id": "C35", "title": "An arbitrary integral type never matches a non-integer", "statement": "Whatever the flags other than relaxtypes, a value of an arbitrary integral type (/*@integraltype@*/ and its signed and unsigned variants) matches only integral (or, with charint, character) types, in both argument orders.", "quantifier": "for all flags and all primitive types", "why_tests_cant": "All flag combinations times all types, and both argument orders.", "anchors": ["src/cprim.c: cprim_closeEnoughAux", "src/Headers/cprim.h"]}
{"id": "C36", "title": "Nested array declarations keep C's dimension order", "statement": "Declaring T a[n1][n2]...[nk] (each dimension given or left open) builds the type 'array of n1 of (array of n2 of (... T))': the dimensions read back from outermost to innermost are exactly n1, ..., nk in order.", "quantifier": "for every element type and every list of dimensions", "why_tests_cant": "The number of dimensions is unbounded.", "anchors": ["src/ctype.c: ctype_makeInnerFixedArray, ctype_makeInnerArray, ctype_makeFixedArray"]}
{"id": "C37", "title": "File-name extension handling respects directories", "statement": "Adding an extension adds it exactly when the last path component has none, removing \"any extension\" removes only the extension of the last component, and cleaning a path only drops its leading \"./\".", "quantifier": "for every path string", "why_tests_cant": "Paths are arbitrary strings; dots in directory names are the problematic case.", "anchors": ["src/fileLib.c: fileLib_addExtension, fileLib_withoutExtension, fileLib_removePath, fileLib_getExtension"]}
{"id": "C38", "title": "Look-alike and prefix name comparison is symmetric", "statement": "Whether two names are distinct, the same, or differ only in look-alike characters, letter case or beyond the significant length does not depend on the order in which the two names are given.", "quantifier": "for every pair of names and every significant length", "why_tests_cant": "Pairs of strings of any length and any length limit.", "anchors": ["src/cstring.c: cstring_genericEqual"]}
{"id": "C39", "title": "String literal length is the number of characters C stores", "statement": "The length splint uses for a string literal equals the number of characters of the C string it denotes, for all escape sequences and adjacent-literal concatenations.", "quantifier": "for every literal text", "why_tests_cant": "Literals are arbitrary and escape sequences interact with following digits.", "anchors": ["src/cstring.c: cstring_lengthExpandEscapes via mstring_doExpandEscapes, mstring_doMergeString / cscannerHelp string processing"]}
{"id": "C40", "title": "Searching a sorted name list finds every member", "statement": "Looking a name up in splint's sorted lists (C++ keywords, names reserved by the standard library) finds it exactly when it is an element, without failing an internal assertion or reading outside the list; in any other sorted list exactly the last entry can be missed, and exactly for a known set of list lengths.", "quantifier": "for every non-empty name; for every sorted list", "why_tests_cant": "Binary search index arithmetic fails only for particular list lengths and positions.", "anchors": ["src/cstring.c: cstring_bsearch"]}
{"id": "C41", "title": "Options are taken in order, each exactly once", "statement": "A command line built from file names, flags in any spelling and with - or --, options followed by their argument, mode names, -I/-S directories (joined or apart) and -D/-U definitions has exactly the effects of its items, in the order written, and each option is acted on in exactly one of the two passes (message-control flags, -f and -nof beforehand; everything else in its turn), provided -i and obsolete flags are not used and, for the first pass, arguments do not themselves look like options. A flag ends with the setting of its last occurrence.", "quantifier": "for every sequence of items, of any length, with any spellings and arguments", "why_tests_cant": "Argument vectors are unbounded.", "anchors": ["src/flags.c: flags_processFlags, flags_identifyFlag", "src/llmain.c: main (first pass)"]}
{"id": "C42", "title": "Every generated source position is the position of the text", "statement": "While a file is read, the line and column reported for the next character are 1 + the newlines before it and 1 + the characters since the last newline, however reading, backing up, marking, returning to marks and position queries are interleaved. After #line n, with no newline read since positions were last synchronised (that is, no multi-line comment before the directive on its line), the next line is reported as n, the one after as n+1 and so on.", "quantifier": "for every text and every schedule of reads, marks, returns, synchronisations and queries", "why_tests_cant": "The tracker is incremental and cached, so correctness quantifies over schedules of queries.", "anchors": ["src/cpplib.c: adjust_position, update_position, cppBuffer_getLineAndColumn, parseSetMark, parseGotoMark, parseMoveMark, do_line"]}
{"id": "C43", "title": "Storage references survive dumping to a library", "statement": "A storage reference (parameter, global, field, array element, pointer target, address, conjunction, with or without a known value) written into a library, for instance in a modifies or globals clause, and loaded again denotes the same storage with the same value at the same place.", "quantifier": "for every storage reference of any depth and every text following it", "why_tests_cant": "References are trees of unbounded depth and the format has no explicit end marker, so correctness depends on every nesting and every following character.", "anchors": ["src/sRef.c: sRef_dump, sRef_dumpBody, sRef_undump, sRef_undumpBody", "src/reader.c: reader_getInt", "src/multiVal.c: multiVal_dump, multiVal_undump"]}
{"id": "C44", "title": "Rewriting a requirement with known equalities never changes what it says", "statement": "When splint replaces subexpressions of a bounds requirement using equalities that hold at that point (in whichever direction and in the order they are listed), the rewritten requirement is defined and true for exactly the same assignments of values as the original, among the assignments that satisfy the equalities.", "quantifier": "for every requirement, every list of known facts, every choice of direction for equalities that mention themselves, and every assignment of values", "why_tests_cant": "The replacement is applied to every matching subexpression for a list of facts of any length; equivalence is over all assignments.", "anchors": ["src/constraintResolve.c: constraint_substitute, constraint_searchandreplace, constraint_adjust", "src/constraintExpr.c: constraintExpr_searchandreplace, constraintExpr_similar"]}
{"id": "C45", "title": "Base names and extension tests look only at the last path component", "statement": "Removing the path of a file name leaves exactly its last component; a file has a given extension, or is a header file, or a C file (.c .C .h .H .lh .xh .y .l), exactly when its last component does; removing a given extension removes it exactly when the last component has it; dropping leading \"./\" drops all of them and nothing else. Dots in directory names never matter.", "quantifier": "for every path string, every non-empty extension without a directory separator", "why_tests_cant": "Paths are arbitrary strings; dots and separators may be anywhere.", "anchors": ["src/fileLib.c: fileLib_removePath, fileLib_hasExtension, fileLib_withoutExtension, isHeaderFile, removePreDirs"]}
{"id": "C46", "title": "Unlimited name comparison is exact and symmetric", "statement": "When all characters of a name are significant, the comparison of two names answers distinct, same, differing only in case, or differing only in look-alike characters exactly when that is so, in either order; case-insensitive equality is equality of the upper-cased texts; and no comparison, with any limit, reads past the end of a name.", "quantifier": "for every pair of names, every combination of the case and look-alike settings", "why_tests_cant": "Pairs of strings of any length with any mixture of case and look-alike differences.", "anchors": ["src/cstring.c: cstring_genericEqual, lookLike, cstring_equalCaseInsensitive", "src/usymtab.c: checkDistinctInternalName, checkDistinctExternalName"]}
{"id": "C47", "title": "Expanding a string literal never overruns its buffer", "statement": "Expanding the escapes of a literal, and merging adjacent literals, comes to an end and stores only inside the buffer allocated for the result, however malformed the text is.", "quantifier": "for every text, including truncated and invalid escapes and unbalanced quotes", "why_tests_cant": "All texts, with escapes truncated at any point.", "anchors": ["src/cstring.c: doMergeString, doExpandEscapes"]}
{"id": "C48", "title": "Line numbers after preprocessing stay in step with the source", "statement": "After any sequence of source lines, made of multi-line comments, strings with newlines or backslash-continuations, continuations outside strings and multi-line directives, a reader of the preprocessed text who counts newlines and obeys line markers is on the right source line, provided no line mixes string continuations with at least as many (but fewer than eight more) lines lost outside strings.", "quantifier": "for every sequence of source lines of any composition", "why_tests_cant": "The output counter is resynchronised lazily with a threshold of eight lines; errors need particular combinations of pieces on one line and then persist for the rest of the file.", "anchors": ["src/cpplib.c: output_line_command, cppGetToken (string, comment, backslash and newline cases)"]}
{"id": "C49", "title": "Comments end where C says and leave the layout unchanged", "statement": "A comment read by the preprocessor extends, after joining spliced lines, from /* to the first following */ (or from // to the end of the line), its newlines are counted, and only an unclosed comment runs into the end of the file. What is written for it has the same length with newlines at the same places, if the comment marker is not a newline and a syntactic comment ends in an unspliced */; an ordinary comment becomes only blanks and newlines; a syntactic comment keeps its text apart from marker characters; suppression regions are entered and left exactly by texts starting with ignore and end.", "quantifier": "for every text, marker character and flag setting", "why_tests_cant": "Comment ends interact with line splices, nested openers and the edit-in-place of the buffer; an error misplaces every later message of the file.", "anchors": ["src/cpplib.c: skip_comment, cpp_handleComment"]}
{"id": "C50", "title": "Between ordinary types relaxing flags never add type errors", "statement": "For two primitive types which are not arbitrary integral types, turning on relaxtypes, ignorequals, ignoresigns, floatdouble, matchanyintegral, charint, shortint or longint never turns an accepted assignment into a rejected one, nor does relaxquals unless a short is expected and an int given; with none of these flags on a type matches only itself.", "quantifier": "for all pairs of ordinary primitive types, both depths, and all settings of all other flags", "why_tests_cant": "2^13 settings times 256 pairs times two depths; one inverted test is invisible elsewhere.", "anchors": ["src/cprim.c: cprim_closeEnoughAux, cprim_closeEnough, cprim_closeEnoughDeep", "src/Headers/cprim.h"]}
{"id": "C51", "title": "Where an arbitrary integral type is expected only integers are accepted", "statement": "Unless relaxtypes is on, an assignment to an object of an arbitrary integral type (signed, unsigned or either) is accepted only from an integer type, or with charint from a character type.", "quantifier": "for all settings of the other flags, all primitive types and both depths", "why_tests_cant": "All flag combinations times all types; the comparison recurses through stand-in types.", "anchors": ["src/cprim.c: cprim_closeEnoughAux, cprim_closeEnough, cprim_closeEnoughDeep", "src/Headers/cprim.h"]}
{"id": "C52", "title": "relaxquals accepts exactly the conversions which keep every value", "statement": "With relaxquals (and none of the flags declaring types equivalent) an assignment between ordinary primitive types is accepted exactly if it widens within the signed integers, the unsigned integers or the reals; in every implementation of C each value of the source type is then a value of the target type.", "quantifier": "for all pairs of ordinary primitive types and all conforming implementations", "why_tests_cant": "Quantifies over implementations (integer widths, floating formats), not over runs.", "anchors": ["src/cprim.c: cprim_closeEnoughAux, cprim_closeEnough, cprim_closeEnoughDeep", "src/Headers/cprim.h"]}
{"id": "C53", "title": "Equivalence flags make the named types match in both directions", "statement": "With charint (shortint, longint, floatdouble) char and int (short and int, long and int, float and double) match in both directions, with ignoresigns each signed type matches its unsigned variant in both directions, with relaxtypes all numeric types match, whatever the other flags are.", "quantifier": "for all settings of the other flags and both depths", "why_tests_cant": "All combinations of thirteen flags in both directions.", "anchors": ["src/cprim.c: cprim_closeEnoughAux, cprim_closeEnough, cprim_closeEnoughDeep", "src/Headers/cprim.h"]}
{"id": "C54", "title": "relaxquals does not loosen the comparison of pointers", "statement": "Whether pointers to two ordinary primitive types match does not depend on relaxquals: int * is not accepted for long * although int is for long.", "quantifier": "for all pairs of ordinary primitive types and all other flags", "why_tests_cant": "All flag settings times all pairs.", "anchors": ["src/cprim.c: cprim_closeEnoughAux, cprim_closeEnough, cprim_closeEnoughDeep", "src/Headers/cprim.h"]}
{"id": "C55", "title": "Declarations without parentheses get the type C gives them", "statement": "A name declared by any legal declarator made of stars, array suffixes and a parameter list, without parentheses around a declarator, has exactly the type the C standard gives it (pointers, dimensions in order, function results).", "quantifier": "for every legal declarator without grouping parentheses", "why_tests_cant": "Declarators nest without bound and splint builds the type by rewriting an incomplete type at every grammar action.", "anchors": ["src/cgrammar.y: namedDeclBase, namedDecl, abstractDecl, plainNamedDeclBase", "src/ctype.c: ctype_makeInnerArray, ctype_makeInnerFixedArray, ctype_adjustPointers, ctype_expectFunction", "src/ctbase.i: ctbase_makeFunction, ctbase_newBase, ctbase_newBaseExpFcn", "src/idDecl.c: idDecl_fixBase, idDecl_notExpectingFunction"]}
{"id": "C56", "title": "Pointers to functions get the type C gives them", "statement": "A name declared as a pointer of any depth to a function returning a pointer of any depth, or as an array of unspecified size of such pointers, has exactly the type the C standard gives it.", "quantifier": "for all numbers of stars inside and outside the parentheses and all numbers of unsized array suffixes", "why_tests_cant": "Unbounded nesting; the code handles it by turning the inside of the parentheses inside out in three loops.", "anchors": ["src/cgrammar.y: namedDeclBase, namedDecl, abstractDecl, plainNamedDeclBase", "src/ctype.c: ctype_makeInnerArray, ctype_makeInnerFixedArray, ctype_adjustPointers, ctype_expectFunction", "src/ctbase.i: ctbase_makeFunction, ctbase_newBase, ctbase_newBaseExpFcn", "src/idDecl.c: idDecl_fixBase, idDecl_notExpectingFunction"]}
{"id": "C57", "title": "Functions returning function pointers are called with the right arguments", "statement": "For a name declared like signal, as a function returning a pointer to a function, the first call takes the first parameter list, calling the result takes the second one, and the final result has the type C gives it; no other parameter lists are accepted.", "quantifier": "for all parameter lists and all pointer depths of the final result", "why_tests_cant": "Holds for every pair of parameter lists and every depth; the order of the two lists is decided by two nested rewriting steps.", "anchors": ["src/cgrammar.y: namedDeclBase, namedDecl, abstractDecl, plainNamedDeclBase", "src/ctype.c: ctype_makeInnerArray, ctype_makeInnerFixedArray, ctype_adjustPointers, ctype_expectFunction", "src/ctbase.i: ctbase_makeFunction, ctbase_newBase, ctbase_newBaseExpFcn", "src/idDecl.c: idDecl_fixBase, idDecl_notExpectingFunction"]}
{"id": "C58", "title": "Every declaration gets the type C gives it", "statement": "A name declared by any legal declarator has exactly the type the C standard gives it.", "quantifier": "for every legal declarator", "why_tests_cant": "Declarators nest without bound.", "anchors": ["src/cgrammar.y: namedDeclBase, namedDecl, abstractDecl, plainNamedDeclBase", "src/ctype.c: ctype_makeInnerArray, ctype_makeInnerFixedArray, ctype_adjustPointers, ctype_expectFunction", "src/ctbase.i: ctbase_makeFunction, ctbase_newBase, ctbase_newBaseExpFcn", "src/idDecl.c: idDecl_fixBase, idDecl_notExpectingFunction"]}
{"id": "C59", "title": "Stricter modes check at least as much", "statement": "In the order weak, standard, checks, strict, each mode turns on every check the previous mode turns on, and each relaxation (a flag whose documentation says it allows something or makes types equivalent) that is on in a mode is on in all weaker modes. No two of the modes are the same.", "quantifier": "for all settings in effect before the mode is selected, all pairs of modes, all flags", "why_tests_cant": "Whether a message is suppressed in a mode depends on about two hundred and fifty flags and on all settings before the mode option; tests look at a few flags from the default settings.", "anchors": ["src/context.c: context_setMode, context_setModeAux, context_resetModeFlags", "src/flags.def"]}
{"id": "C60", "title": "No missed path without return", "statement": "If some execution of a function with a result reaches the end of its body without a return, splint checking that function reports a path with no return, or reports some code of it as unreachable.", "quantifier": "for every function body (all statement forms, any nesting, goto and labels, switches with and without default or over enumerations, calls of functions declared never to return), every execution, with the unreachable flag on or off and any suppression of its messages", "why_tests_cant": "The result is computed by combining exit codes over arbitrary nestings of statements, while the truth depends on every execution, including jumps into the middle of statements and loops run any number of times.", "anchors": ["src/exprNode.c: exprNode_concat, exprNode_if, exprNode_ifelse, exprNode_while, exprNode_doWhile, exprNode_for, exprNode_switch, checkSwitchExpr, exprNode_mustEscape", "src/varKinds.c: exitkind_combine, exitkind_makeConditional", "src/exprChecks.c: exprNode_checkFunctionBody"]}
{"id": "C61", "title": "Path-with-no-return messages are exact in structured code", "statement": "In a function body built from expression statements without comma operators, blocks, if, if-else, while and for loops with a test of unknown value, return, break and continue, and with no code reported unreachable, splint reports a path with no return exactly when control can reach the end of the body.", "quantifier": "for every such body of any size and nesting, and every choice of which unreachable-code messages are suppressed", "why_tests_cant": "Both directions quantify over all programs of the class and all their executions; a test only compares one program with one expectation.", "anchors": ["src/exprNode.c: exprNode_concat, exprNode_if, exprNode_ifelse, exprNode_while, exprNode_doWhile, exprNode_for, exprNode_switch, checkSwitchExpr, exprNode_mustEscape", "src/varKinds.c: exitkind_combine, exitkind_makeConditional", "src/exprChecks.c: exprNode_checkFunctionBody"]}
{"id": "C62", "title": "Code reported unreachable is never executed", "statement": "Replacing code that splint reports as unreachable by any other code without labels changes no run of the function.", "quantifier": "for every function body, every set of reported places replaced at once, every replacement, every run (entered at the top or at a label), with any suppression of messages", "why_tests_cant": "Never being executed is a statement about all runs, including those through infinite loops, exhaustive switches and goto.", "anchors": ["src/exprNode.c: exprNode_concat, exprNode_if, exprNode_ifelse, exprNode_while, exprNode_doWhile, exprNode_for, exprNode_switch, checkSwitchExpr, exprNode_mustEscape", "src/varKinds.c: exitkind_combine, exitkind_makeConditional", "src/exprChecks.c: exprNode_checkFunctionBody"]}
{"id": "C63", "title": "No missed fall-through into a case", "statement": "If splint gives no fall-through message at a case or default that is not marked as fallthrough, then control cannot come to it from the statements before it, unless the last of these is itself a case, default or label.", "quantifier": "for every sequence of statements before the case (labels not inside inner switches or hidden in unreachable code, cases directly in their switch) and every execution of it from any entry point", "why_tests_cant": "The message looks only at the exit code of the last statement, blocks opened; that this suffices depends on all executions of all statements that can stand there.", "anchors": ["src/exprNode.c: exprNode_concat, exprNode_lastStatement, exprNode_mustEscape"]}
{"id": "C64", "title": "No missed path without return in functions without labels", "statement": "In a function without labels in which every case stands directly in the statement list of its switch, if some execution reaches the end of the body then splint reports a path with no return, or reports some code as unreachable.", "quantifier": "for every such function body, every execution, any flag setting and suppression of the unreachable-code messages; enumeration members distinct, and a switch over an enumeration only sees its members", "why_tests_cant": "Quantifies over all programs and all executions, with loops run any number of times and switches with any set of cases.", "anchors": ["src/exprNode.c: exprNode_concat, exprNode_if, exprNode_ifelse, exprNode_while, exprNode_doWhile, exprNode_for, exprNode_switch, checkSwitchExpr, exprNode_mustEscape", "src/varKinds.c: exitkind_combine, exitkind_makeConditional", "src/exprChecks.c: exprNode_checkFunctionBody"]}
{"id": "C65", "title": "Null tests guard what they test, on both branches", "statement": "Let a condition be built from null tests of storage (p, p == NULL, NULL == p, p != NULL, NULL != p, an assigned variable so tested, calls of functions annotated nullwhentrue or falsewhennull) and other comparisons, with !, && and ||, no second operand assigning what the first tests. Then whatever splint takes to be non-null where the condition is true is non-null whenever it evaluates to true, and whatever it takes to be non-null where the condition is false is non-null whenever it evaluates to false.", "quantifier": "for every such condition of any size, every store (with any aliasing), every evaluation, and every storage path made of variables, fields and either dereferences or elements with constant index", "why_tests_cant": "Conditions nest without bound and each is to be right in every store; a test evaluates one condition in one store.", "anchors": ["src/guardSet.c: guardSet_and, guardSet_or, guardSet_invert, guardSet_isGuarded, guardSet_mustBeNull", "src/sRefSet.c: sRefSet_insert, sRefSet_union, sRefSet_intersect, sRefSet_member", "src/sRef.c: sRef_similar, sRef_realSame", "src/exprNode.c: exprNode_makeOp, exprNode_preOp, reflectNullTest, exprNode_produceGuards, functionCallSafe", "src/cgrammar.y: logicalAndExpr, logicalOrExpr"]}
{"id": "C66", "title": "Conclusions from conditions follow the laws of logic", "statement": "A conjunction guards on its true branch exactly what one of its operands guards, and on its false branch exactly what both operands guard there; dually for disjunctions; negation exchanges the branches; double negation, parentheses and De Morgan's laws change nothing; and p, p != NULL, NULL != p, !(p == NULL) and !(NULL == p) lead to the same conclusions, as do !p, p == NULL and NULL == p.", "quantifier": "for all expressions a and b and all references (for the intersection on the other branch: conditions as in C65 and references told apart)", "why_tests_cant": "Laws over all pairs of conditions of any size.", "anchors": ["src/guardSet.c: guardSet_and, guardSet_or, guardSet_invert, guardSet_isGuarded, guardSet_mustBeNull", "src/sRefSet.c: sRefSet_insert, sRefSet_union, sRefSet_intersect, sRefSet_member", "src/sRef.c: sRef_similar, sRef_realSame", "src/exprNode.c: exprNode_makeOp, exprNode_preOp, reflectNullTest, exprNode_produceGuards, functionCallSafe", "src/cgrammar.y: logicalAndExpr, logicalOrExpr"]}
{"id": "C67", "title": "Conclusions from any condition are right", "statement": "Whatever splint takes to be non-null on a branch of any condition is non-null whenever that branch is taken.", "quantifier": "for every expression used as a condition, every store and every evaluation", "why_tests_cant": "Quantifies over all expressions and all stores.", "anchors": ["src/guardSet.c: guardSet_and, guardSet_or, guardSet_invert, guardSet_isGuarded, guardSet_mustBeNull", "src/sRefSet.c: sRefSet_insert, sRefSet_union, sRefSet_intersect, sRefSet_member", "src/sRef.c: sRef_similar, sRef_realSame", "src/exprNode.c: exprNode_makeOp, exprNode_preOp, reflectNullTest, exprNode_produceGuards, functionCallSafe", "src/cgrammar.y: logicalAndExpr, logicalOrExpr", "src/exprNode.c: exprNode_comma, exprNode_cond, exprNode_isUnknownConstant, exprNode_isNullValue, exprNode_arrayFetch"]}
{"id": "C68", "title": "A for condition leads to the same conclusions as a while condition", "statement": "The same condition leads to the same conclusions in the body and after the loop whether it is the condition of a for or of a while loop.", "quantifier": "for every expression used as a condition and every reference", "why_tests_cant": "Quantifies over all conditions.", "anchors": ["src/cgrammar.y: forPred", "src/exprNode.c: exprNode_forPred, exprNode_whilePred, exprNode_produceGuards", "src/context.c: context_enterForClause, context_enterWhileClause"]}
{"id": "C69", "title": "No complaint means no null dereference", "statement": "If splint complains of no dereference in the body of a function whose variables start with correct null annotations, then no run of the body dereferences a null pointer.", "quantifier": "for every body made of null tests with !, && and ||, dereferences, assignments, blocks, if, while, do, break, continue, return and calls, of any size; every initial store agreeing with the annotations; every run; and every setting of the flag for unreachable code", "why_tests_cant": "Programs nest without bound, and loops give runs of unbounded length.", "anchors": ["src/usymtab.c: usymtab_popBranches, updateNullState, usymtab_popTrueBranch, usymtab_popOrBranch, usymtab_popAndBranch, usymtab_altBranch, usymtab_lookupAux, usymtab_addGuards, usymtab_unguard, usymtab_isGuarded", "src/uentry.c: uentry_mergeState, uentry_mergeUses, uentry_setState", "src/sRef.c: sRef_combineNullState, sRef_possiblyNull", "src/transferChecks.c: transferChecks_assign", "src/exprNode.c: exprNode_preOp, checkSafeUse, updateAliases", "src/context.c: context_exitTrueClause, context_exitClause, context_exitWhileClause, context_exitDoWhileClause"]}
{"id": "C70", "title": "A dereference after a null test is not complained of", "statement": "If every dereference of a variable comes where a test has settled that it is not null (in the branch of an if or while whose condition says so, on the right of && or ||, after an if whose other branch returns, breaks, continues or calls a function which does not return, after a while or do loop whose condition being false says so), with no assignment to the variable in between, then splint gives no null message about the variable.", "quantifier": "for every body of any size made of null tests, dereferences, assignments, blocks, if, while, do and jumps, every annotation of the variables, every variable, and all settings of the flags whileloopexec and unreachable", "why_tests_cant": "The test and the dereference may be separated by any number of statements, blocks, branches and loops.", "anchors": ["src/usymtab.c: usymtab_popBranches, updateNullState, usymtab_popTrueBranch, usymtab_popOrBranch, usymtab_popAndBranch, usymtab_altBranch, usymtab_lookupAux, usymtab_addGuards, usymtab_unguard, usymtab_isGuarded", "src/uentry.c: uentry_mergeState, uentry_mergeUses, uentry_setState", "src/sRef.c: sRef_combineNullState, sRef_possiblyNull", "src/transferChecks.c: transferChecks_assign", "src/exprNode.c: exprNode_preOp, checkSafeUse, updateAliases", "src/context.c: context_exitTrueClause, context_exitClause, context_exitWhileClause, context_exitDoWhileClause"]}
{"id": "C71", "title": "In straight-line code the null messages are exact", "statement": "In a body without conditions on branches and without jumps, splint complains of a dereference if and only if some run from a store agreeing with the annotations dereferences a null pointer; and some such run does so at the variable of the first complaint.", "quantifier": "for every sequence of dereferences, comparisons, assignments and blocks of any length and every annotation of the variables by null, notnull or nothing", "why_tests_cant": "Sequences are unbounded and the equivalence quantifies over all runs.", "anchors": ["src/usymtab.c: usymtab_popBranches, updateNullState, usymtab_popTrueBranch, usymtab_popOrBranch, usymtab_popAndBranch, usymtab_altBranch, usymtab_lookupAux, usymtab_addGuards, usymtab_unguard, usymtab_isGuarded", "src/uentry.c: uentry_mergeState, uentry_mergeUses, uentry_setState", "src/sRef.c: sRef_combineNullState, sRef_possiblyNull", "src/transferChecks.c: transferChecks_assign", "src/exprNode.c: exprNode_preOp, checkSafeUse, updateAliases", "src/context.c: context_exitTrueClause, context_exitClause, context_exitWhileClause, context_exitDoWhileClause"]}
{"id": "C72", "title": "No complaint means no use of an undefined variable", "statement": "If splint gives no message about use before definition in the body of a function, then no run of the body uses the value of a local variable which has not been given one.", "quantifier": "for every body made of expressions with assignments, &&, ||, ?: and comma, blocks, if, while, do, for, switch, break, continue, return and calls, of any size; every set of variables defined at first; every run from any store in which these have values; and every setting of the flags for unreachable code and obvious loops", "why_tests_cant": "Programs nest without bound, loops give runs of unbounded length, and the absence of a message is a claim about all runs.", "anchors": ["src/exprNode.c: exprNode_checkUse, exprNode_checkSet, exprNode_op, exprNode_assign, exprNode_cond, exprNode_comma, exprNode_switch, exprNode_for, exprNode_effect, exprNode_statement", "src/usymtab.c: usymtab_popBranches, usymtab_popAndBranch, usymtab_popOrBranch, usymtab_newCase, usymtab_exitSwitch, usymtab_quietExitScope, usymtab_lookupSafe", "src/uentry.c: uentry_mergeState", "src/sRef.c: sRef_combineDefState, sRef_setDefined, sRef_isValidLvalue", "src/context.c: context_enterSwitch, context_exitSwitch, context_exitClause, context_hideControl, context_protectVars"]}
{"id": "C73", "title": "A variable complained of is used undefined in some run", "statement": "If splint complains that a variable is used before definition, the variable is not initialised at first, and from any store in which just this variable has no value some run of the body uses it.", "quantifier": "for every body of any size whose tests may have any value, every set of variables defined at first, every variable complained of, every such store, and all settings of the flags", "why_tests_cant": "The run has to be found for programs of any size; the claim is about the existence of executions, not the output of splint.", "anchors": ["src/exprNode.c: exprNode_checkUse, exprNode_checkSet, exprNode_op, exprNode_assign, exprNode_cond, exprNode_comma, exprNode_switch, exprNode_for, exprNode_effect, exprNode_statement", "src/usymtab.c: usymtab_popBranches, usymtab_popAndBranch, usymtab_popOrBranch, usymtab_newCase, usymtab_exitSwitch, usymtab_quietExitScope, usymtab_lookupSafe", "src/uentry.c: uentry_mergeState", "src/sRef.c: sRef_combineDefState, sRef_setDefined, sRef_isValidLvalue", "src/context.c: context_enterSwitch, context_exitSwitch, context_exitClause, context_hideControl, context_protectVars"]}
{"id": "C74", "title": "A for loop taken to be executed at least once is", "statement": "If splint takes a for loop to be executed at least once because of the constants in its initialisation and test, then its first test is true.", "quantifier": "for every loop variable, all constants, every comparison and every store", "why_tests_cant": "The constants are unbounded; the errors occur only when they are equal or for ==.", "anchors": ["src/exprNode.c: exprNode_loopMustExec, exprNode_for", "src/context.c: context_exitClause"]}
{"id": "C75", "title": "In straight-line code the messages about undefined variables are exact", "statement": "In a sequence of expressions without conditional evaluation, in which operands do not interfere, splint complains of a variable if and only if it is not defined at first and what is first done with it is to read it; and it complains of each variable at most once.", "quantifier": "for every sequence of expressions of any length and size, every set of variables defined at first, every variable, and all settings of the flags", "why_tests_cant": "Sequences and expressions are unbounded.", "anchors": ["src/exprNode.c: exprNode_checkUse, exprNode_checkSet, exprNode_op, exprNode_assign, exprNode_cond, exprNode_comma, exprNode_switch, exprNode_for, exprNode_effect, exprNode_statement", "src/usymtab.c: usymtab_popBranches, usymtab_popAndBranch, usymtab_popOrBranch, usymtab_newCase, usymtab_exitSwitch, usymtab_quietExitScope, usymtab_lookupSafe", "src/uentry.c: uentry_mergeState", "src/sRef.c: sRef_combineDefState, sRef_setDefined, sRef_isValidLvalue", "src/context.c: context_enterSwitch, context_exitSwitch, context_exitClause, context_hideControl, context_protectVars"]}
{"id": "C76", "title": "Type specifiers denote the type C gives them", "statement": "A declaration whose type specifiers C allows is accepted without a message about them and declares its variable with the type C gives these specifiers, whatever their order and wherever storage classes and qualifiers stand among them.", "quantifier": "for every list of type specifiers, storage classes and qualifiers of any length whose specifiers are one of the multisets of ISO C, in any order, with ignorequals on or off", "why_tests_cant": "Qualifiers and annotations may be interspersed without bound, and the number of orders is large; the wrong types are accepted silently.", "anchors": ["src/cgrammar.y: completeType, typeSpecifier, typeModifier", "src/ctype.c: ctype_combine, ctype_fromQual, ctype_resolve"]}
{"id": "C77", "title": "The order of integer type specifiers does not matter", "statement": "Declarations whose specifiers are int, long, short, signed and unsigned words that C allows together have the same type, without messages, in every order of the words and with any storage classes and qualifiers among them.", "quantifier": "for every two orders of a list of allowed integer type specifiers, with any storage classes and qualifiers anywhere among them", "why_tests_cant": "There are many orders, and any number of qualifiers and annotations may stand between the words.", "anchors": ["src/cgrammar.y: completeType, typeSpecifier, typeModifier", "src/ctype.c: ctype_combine, ctype_fromQual, ctype_resolve"]}
{"id": "C78", "title": "Contradictory type specifiers are reported", "statement": "A declaration whose type specifiers C does not allow together gives a message.", "quantifier": "for every list of type specifiers of any length which is not one of the multisets of ISO C", "why_tests_cant": "There are infinitely many lists of specifiers which are not allowed.", "anchors": ["src/cgrammar.y: completeType, typeSpecifier, typeModifier", "src/ctype.c: ctype_combine, ctype_fromQual, ctype_resolve"]}
{"id": "C79", "title": "printf: a message about the number of arguments exactly if the number is wrong", "statement": "For a call of a function like printf whose format is made up as C describes, splint gives a message about the number of arguments if and only if the number of arguments is not the number which the format needs, counting one for each star.", "quantifier": "for every format made of any number of texts, %% and directives with any flags, widths, precisions, modifiers and conversions of C, and every list of arguments", "why_tests_cant": "Formats and argument lists are unbounded, and the errors depend on the order of flags.", "anchors": ["src/exprNode.c: checkPrintfArgs, checkScanfArgs, isFlagKey, exprNode_stringLiteral"]}
{"id": "C80", "title": "printf: one message for each argument of a wrong type, and no other", "statement": "For a call of a function like printf whose format is made up as C describes, splint gives, in order, one message for each argument whose type is not that which its directive needs, with the number of the argument and the type needed, and then one about the number of arguments if it is wrong; if there are enough arguments it says nothing else.", "quantifier": "for every format made of any number of texts, %% and directives with any flags, widths, precisions, modifiers and conversions of C, every list of arguments and every relation between types and arguments", "why_tests_cant": "Formats and argument lists are unbounded; the claim includes the absence of other messages.", "anchors": ["src/exprNode.c: checkPrintfArgs, checkScanfArgs, isFlagKey, exprNode_stringLiteral"]}
{"id": "C81", "title": "The check of a format stays inside of the format", "statement": "Whatever the format of a call of a function like printf or scanf is and whatever the arguments are, splint comes to the end of the check without reading behind the end of the format, without using a variable that has no value, and without stopping the run.", "quantifier": "for every text as a format and every list of arguments, with or without errors", "why_tests_cant": "Formats are arbitrary texts, and a read behind the end usually goes unnoticed.", "anchors": ["src/exprNode.c: checkPrintfArgs, checkScanfArgs, isFlagKey, exprNode_stringLiteral"]}
{"id": "C82", "title": "scanf: a message about the number of arguments exactly if the number is wrong", "statement": "For a call of a function like scanf whose format is made up as C describes, splint gives a message about the number of arguments if and only if the number of arguments is not the number of directives which are not suppressed.", "quantifier": "for every format made of any number of texts, %% and directives, suppressed or not, with any widths, modifiers, conversions and character sets of C, and every list of arguments", "why_tests_cant": "Formats, character sets and argument lists are unbounded.", "anchors": ["src/exprNode.c: checkPrintfArgs, checkScanfArgs, isFlagKey, exprNode_stringLiteral"]}
{"id": "C83", "title": "scanf: one message for each argument of a wrong type, and no other", "statement": "For a call of a function like scanf whose format is made up as C describes, splint gives, in order, one message for each argument whose type is not that which its directive needs, and then one about the number of arguments if it is wrong; if there are enough arguments it says nothing else.", "quantifier": "for every format made of any number of texts, %% and directives, every list of arguments and every relation between types and arguments", "why_tests_cant": "Formats and argument lists are unbounded; the claim includes the absence of other messages.", "anchors": ["src/exprNode.c: checkPrintfArgs, checkScanfArgs, isFlagKey, exprNode_stringLiteral"]}
{"id": "C84", "title": "Hidden representations do not change type errors", "statement": "Without +forwarddecl, whether a value of one type is accepted where another is expected, and whether two declarations agree, does not depend on how those abstract types are represented to whose representation the code at this place has no access.", "quantifier": "for every two symbol tables that differ at most in the representations of inaccessible abstract types, all flags (forwarddecl off) and every two types of any depth", "why_tests_cant": "It is a statement about pairs of runs, for all representations that could be chosen.", "anchors": ["src/ctbase.i: ctbase_genMatch, ctbase_realType", "src/ctype.c: ctype_match, ctype_matchDef, ctype_genMatch, ctype_realType", "src/uentry.c: uentry_getRealType", "src/usymtab.c: usymtab_matchForwardStruct"]}
{"id": "C85", "title": "An abstract type matches nothing but itself", "statement": "Whatever the other flags are, if a value of one type is accepted where another is expected then the two types agree about abstract types to which there is no access: at every place inside of them where one has an abstract type the other has the same one, except that pointers to void match pointers to abstract types with +abstvoidp.", "quantifier": "for all flags, every symbol table and every two types of any depth", "why_tests_cant": "Types are nested without bound and there are hundreds of combinations of flags.", "anchors": ["src/ctbase.i: ctbase_genMatch, ctbase_realType", "src/ctype.c: ctype_match, ctype_matchDef, ctype_genMatch, ctype_realType", "src/uentry.c: uentry_getRealType"]}
{"id": "C86", "title": "Exactly the assignments are accepted that C allows without a cast", "statement": "With the flags off that make splint accept more, a value is accepted where another type is expected if and only if C allows it without a cast: the same type, pointers to compatible types, a pointer to void with a pointer to an object, arrays and functions being converted to pointers; arithmetic types must be the same, or with relaxquals the given one may be narrower.", "quantifier": "for every symbol table and every two types of any depth, with relaxquals on or off", "why_tests_cant": "Types are nested without bound, and both directions are claimed.", "anchors": ["src/ctbase.i: ctbase_genMatch, ctbase_realType", "src/ctype.c: ctype_match, ctype_matchDef, ctype_genMatch, ctype_realType", "src/uentry.c: uentry_getRealType"]}
{"id": "C87", "title": "A type always matches itself under another name", "statement": "Two types which are the same once typedefs, and abstract types to whose representation there is access, are replaced by what they stand for are always accepted for each other, and two declarations with them always agree, whatever the flags.", "quantifier": "for all flags, every symbol table and every two types of any depth with typedefs of any length", "why_tests_cant": "Chains of typedefs and nesting of types are unbounded; the claim is for all combinations of flags.", "anchors": ["src/ctbase.i: ctbase_genMatch, ctbase_realType", "src/ctype.c: ctype_match, ctype_matchDef, ctype_genMatch, ctype_realType", "src/uentry.c: uentry_getRealType"]}
{"id": "C88", "title": "The comparison of types ends", "statement": "Comparing two types which stand for types of C comes to an end.", "quantifier": "for all flags, every symbol table and every two types built with pointers, arrays, functions, structures, typedefs and abstract types that stand for a type of C", "why_tests_cant": "Termination for all inputs cannot be tested.", "anchors": ["src/ctbase.i: ctbase_genMatch, ctbase_realType", "src/ctype.c: ctype_match, ctype_matchDef, ctype_genMatch, ctype_realType", "src/uentry.c: uentry_getRealType"]}
{"id": "C89", "title": "Two declarations agree exactly if their types are compatible", "statement": "With the flags off that make splint accept more (relaxquals may be on), two declarations of one name are taken to agree if and only if their types are compatible in the sense of C.", "quantifier": "for every symbol table and every two types of any depth", "why_tests_cant": "Types are nested without bound, and both directions are claimed.", "anchors": ["src/ctbase.i: ctbase_genMatch, ctbase_realType", "src/ctype.c: ctype_match, ctype_matchDef, ctype_genMatch, ctype_realType", "src/uentry.c: uentry_getRealType"]}
{"id": "C90", "title": "Variables taken to hold the same storage do hold it", "statement": "When splint takes two local variables to hold the same storage, they do hold the same storage (or nothing both).", "quantifier": "for every straight-line sequence, of any length and with any number of local variables, of creating storage, copying a variable, releasing and using", "why_tests_cant": "Programs are unbounded sequences of statements on any number of variables.", "anchors": ["src/aliasTable.c: aliasTable_addMustAlias, aliasTable_clearAliases, aliasTable_canAlias, aliasTable_aliasedBy", "src/usymtab.c: usymtab_addMustAlias, usymtab_clearAlias, usymtab_allAliases", "src/exprNode.c: updateAliases, exprNode_checkUse, exprNode_assign"]}
{"id": "C91", "title": "Variables holding the same storage are known to", "statement": "When two local variables hold the same storage splint knows it.", "quantifier": "for every straight-line sequence, of any length and with any number of local variables, of creating storage, copying a variable, releasing and using", "why_tests_cant": "Programs are unbounded sequences of statements on any number of variables.", "anchors": ["src/aliasTable.c: aliasTable_addMustAlias, aliasTable_clearAliases, aliasTable_canAlias, aliasTable_aliasedBy", "src/usymtab.c: usymtab_addMustAlias, usymtab_clearAlias, usymtab_allAliases", "src/exprNode.c: updateAliases, exprNode_checkUse, exprNode_assign"]}
{"id": "C92", "title": "Uses of released or undefined storage are reported", "statement": "If splint reports no use of released or undefined storage in a function then, when it runs, it uses neither released nor undefined storage.", "quantifier": "for every straight-line sequence, of any length and with any number of local variables, of creating storage, copying a variable, releasing and using", "why_tests_cant": "Programs are unbounded sequences of statements on any number of variables. Aliases make the use of one variable depend on the release of another.", "anchors": ["src/aliasTable.c: aliasTable_addMustAlias, aliasTable_clearAliases, aliasTable_canAlias, aliasTable_aliasedBy", "src/usymtab.c: usymtab_addMustAlias, usymtab_clearAlias, usymtab_allAliases", "src/exprNode.c: updateAliases, exprNode_checkUse, exprNode_assign", "src/transferChecks.c: checkTransferAssignAux, checkTransferAux, dependentReference, canLoseLocalReference", "src/sRef.c: sRef_kill, sRef_killComplete"]}
{"id": "C93", "title": "No false alarms about uses", "statement": "Splint reports no use of released or undefined storage in code which uses neither.", "quantifier": "for every straight-line sequence, of any length and with any number of local variables, of creating storage, copying a variable, releasing and using", "why_tests_cant": "Programs are unbounded sequences of statements on any number of variables.", "anchors": ["src/aliasTable.c: aliasTable_addMustAlias, aliasTable_clearAliases, aliasTable_canAlias, aliasTable_aliasedBy", "src/usymtab.c: usymtab_addMustAlias, usymtab_clearAlias, usymtab_allAliases", "src/exprNode.c: updateAliases, exprNode_checkUse, exprNode_assign", "src/transferChecks.c: checkTransferAssignAux, checkTransferAux, dependentReference, canLoseLocalReference", "src/sRef.c: sRef_kill, sRef_killComplete"]}
{"id": "C94", "title": "All storage is released by a function about which nothing is said", "statement": "If splint reports nothing about a function then all the storage it creates has been released when it ends, however it was copied between variables.", "quantifier": "for every straight-line sequence, of any length and with any number of local variables, of creating storage, copying a variable, releasing and using", "why_tests_cant": "Programs are unbounded sequences of statements on any number of variables.", "anchors": ["src/aliasTable.c: aliasTable_addMustAlias, aliasTable_clearAliases, aliasTable_canAlias, aliasTable_aliasedBy", "src/usymtab.c: usymtab_addMustAlias, usymtab_clearAlias, usymtab_allAliases", "src/exprNode.c: updateAliases, exprNode_checkUse, exprNode_assign", "src/transferChecks.c: checkTransferAssignAux, checkTransferAux, dependentReference, canLoseLocalReference", "src/sRef.c: sRef_kill, sRef_killComplete", "src/usymtab.c: usymtab_checkFinalScope"]}
{"id": "C95", "title": "All storage is released by an inner block about which nothing is said", "statement": "If splint reports nothing about an inner block then all the storage which is created in it and held only by its variables has been released when it ends.", "quantifier": "for every straight-line sequence, of any length and with any number of local variables, of creating storage, copying a variable, releasing and using", "why_tests_cant": "Programs are unbounded sequences of statements on any number of variables.", "anchors": ["src/aliasTable.c: aliasTable_addMustAlias, aliasTable_clearAliases, aliasTable_canAlias, aliasTable_aliasedBy", "src/usymtab.c: usymtab_addMustAlias, usymtab_clearAlias, usymtab_allAliases", "src/exprNode.c: updateAliases, exprNode_checkUse, exprNode_assign", "src/transferChecks.c: checkTransferAssignAux, checkTransferAux, dependentReference, canLoseLocalReference", "src/sRef.c: sRef_kill, sRef_killComplete", "src/usymtab.c: usymtab_checkFinalScope"]}
{"id": "C96", "title": "Nothing is said about a function exactly if it is correct and leak-free", "statement": "Splint reports nothing about a function if and only if it uses neither released nor undefined storage and all the storage it creates has been released when it ends.", "quantifier": "for every straight-line sequence, of any length and with any number of local variables, of creating storage, copying a variable, releasing and using", "why_tests_cant": "Programs are unbounded sequences of statements on any number of variables. Both directions are claimed.", "anchors": ["src/aliasTable.c: aliasTable_addMustAlias, aliasTable_clearAliases, aliasTable_canAlias, aliasTable_aliasedBy", "src/usymtab.c: usymtab_addMustAlias, usymtab_clearAlias, usymtab_allAliases", "src/exprNode.c: updateAliases, exprNode_checkUse, exprNode_assign", "src/transferChecks.c: checkTransferAssignAux, checkTransferAux, dependentReference, canLoseLocalReference", "src/sRef.c: sRef_kill, sRef_killComplete", "src/usymtab.c: usymtab_checkFinalScope"]}
{"id": "C97", "title": "Uses of released storage are reported with branches and loops", "statement": "If splint reports no use of released or undefined storage and no inconsistency between branches in a function then, whatever way is taken through it, it uses neither released nor undefined storage.", "quantifier": "for every nesting of sequences, conditionals, while and do loops and returns over any number of local variables, and every way through it", "why_tests_cant": "Programs are nested without bound and the ways through a loop are infinitely many.", "anchors": ["src/usymtab.c: usymtab_popBranches, usymtab_altBranch, usymtab_popTrueBranch", "src/uentry.c: uentry_mergeState, uentry_incompatibleMemoryStates", "src/sRef.c: sRef_mergeStateAux, sRef_combineAliasKinds, sRef_combineDefState", "src/aliasTable.c: aliasTable_levelUnion", "src/transferChecks.c: checkTransferAssignAux, checkTransferAux", "src/context.c: context_exitWhileClause, context_exitDoWhileClause"]}
{"id": "C98", "title": "No false alarms about uses with branches and loops", "statement": "Splint reports no use of released or undefined storage in a function which uses neither, whatever way is taken through it.", "quantifier": "for every nesting of sequences, conditionals, while and do loops and returns over any number of local variables, and every way through it", "why_tests_cant": "Programs are nested without bound and the ways through a loop are infinitely many.", "anchors": ["src/usymtab.c: usymtab_popBranches, usymtab_altBranch, usymtab_popTrueBranch", "src/uentry.c: uentry_mergeState, uentry_incompatibleMemoryStates", "src/sRef.c: sRef_mergeStateAux, sRef_combineAliasKinds, sRef_combineDefState", "src/aliasTable.c: aliasTable_levelUnion", "src/transferChecks.c: checkTransferAssignAux, checkTransferAux"]}
{"id": "C99", "title": "All storage is released on every way through a function about which nothing is said", "statement": "If splint reports nothing about a function then, whatever way is taken through it, all the storage it creates has been released when it returns.", "quantifier": "for every nesting of sequences, conditionals, while and do loops and returns over any number of local variables, and every way through it", "why_tests_cant": "Programs are nested without bound and the ways through a loop are infinitely many.", "anchors": ["src/usymtab.c: usymtab_popBranches, usymtab_altBranch, usymtab_popTrueBranch", "src/uentry.c: uentry_mergeState, uentry_incompatibleMemoryStates", "src/sRef.c: sRef_mergeStateAux, sRef_combineAliasKinds, sRef_combineDefState", "src/aliasTable.c: aliasTable_levelUnion", "src/transferChecks.c: checkTransferAssignAux, checkTransferAux", "src/usymtab.c: usymtab_checkFinalScope"]}
{"id": "C100", "title": "Exactness for functions which copy no variables", "statement": "For functions which create storage for each local variable where it is declared, copy no variables, and have no do loops and no statements after a return: splint reports nothing if and only if, whatever way is taken through the function, it uses no released storage and has released all the storage it created when it returns.", "quantifier": "for every nesting of sequences, conditionals, while and do loops and returns over any number of local variables, and every way through it; both directions", "why_tests_cant": "Programs are nested without bound and the ways through a loop are infinitely many. Both directions are claimed.", "anchors": ["src/usymtab.c: usymtab_popBranches, usymtab_altBranch, usymtab_popTrueBranch", "src/uentry.c: uentry_mergeState, uentry_incompatibleMemoryStates", "src/sRef.c: sRef_mergeStateAux, sRef_combineAliasKinds, sRef_combineDefState", "src/aliasTable.c: aliasTable_levelUnion", "src/transferChecks.c: checkTransferAssignAux, checkTransferAux", "src/usymtab.c: usymtab_checkFinalScope", "src/context.c: context_returnFunction"]}
{"id": "C101", "title": "Conflicts between unordered accesses are reported", "statement": "If splint (with evalorder) says nothing about an expression, then no execution of it modifies a variable or array element which another part, not ordered with respect to the modification, uses or modifies.", "quantifier": "for every expression over integer variables, arrays and functions with globals lists and modifies clauses, nested to any depth, and every execution of it", "why_tests_cant": "Expressions are nested without bound, and which accesses conflict depends on the values of subscripts and on what the functions do.", "anchors": ["src/exprNode.c: checkExpressionDefined, checkExpressionDefinedAux, exprNode_makeOp, exprNode_assign, exprNode_checkUse, exprNode_checkSet, checkAnyCall, checkGlobMods", "src/sRef.c: sRef_same, sRef_similar, sRef_includedBy, sRef_fixBaseParam", "src/sRefSet.c: sRefSet_member, sRefSet_union", "src/exprNode.c: checkSequencing, checkSequencingOne"]}
{"id": "C102", "title": "An expression about which nothing is said has one result", "statement": "If splint (with evalorder) says nothing about an expression, then its value and the values of all variables after it do not depend on the order in which operands and arguments are evaluated nor on whether side effects happen at once or at the next sequence point.", "quantifier": "for every expression over integer variables, arrays and functions with globals lists and modifies clauses, nested to any depth, and every execution of it; all ways of evaluating the operands one before the other, from every state", "why_tests_cant": "Expressions are nested without bound, and which accesses conflict depends on the values of subscripts and on what the functions do. The number of orders is exponential.", "anchors": ["src/exprNode.c: checkExpressionDefined, checkExpressionDefinedAux, exprNode_makeOp, exprNode_assign, exprNode_checkUse, exprNode_checkSet, checkAnyCall, checkGlobMods", "src/sRef.c: sRef_same, sRef_similar, sRef_includedBy, sRef_fixBaseParam", "src/sRefSet.c: sRefSet_member, sRefSet_union", "src/exprNode.c: checkSequencing, checkSequencingOne"]}
{"id": "C103", "title": "No false alarms about order of evaluation", "statement": "If splint (with evalorder) reports that an expression depends on the order of evaluation, then some execution of it modifies a variable or element which another part, not ordered with respect to the modification, uses or modifies.", "quantifier": "for every expression over integer variables, arrays and functions with globals lists and modifies clauses, nested to any depth, and every execution of it (conditions may come out either way and variables may have any values)", "why_tests_cant": "Expressions are nested without bound, and which accesses conflict depends on the values of subscripts and on what the functions do. A witness must be found for each report.", "anchors": ["src/exprNode.c: checkExpressionDefined, checkExpressionDefinedAux, exprNode_makeOp, exprNode_assign, exprNode_checkUse, exprNode_checkSet, checkAnyCall, checkGlobMods", "src/sRef.c: sRef_same, sRef_similar, sRef_includedBy, sRef_fixBaseParam", "src/sRefSet.c: sRefSet_member, sRefSet_union", "src/exprNode.c: checkSequencing, checkSequencingOne"]}
{"id": "C104", "title": "Functions modify only what their modifies clause lists", "statement": "If splint says nothing about a function with a modifies clause, then no execution of its body modifies storage visible to the caller except what the clause lists, what is reached from that, and what is reached from parameters annotated only.", "quantifier": "for every function body built from assignments, calls, branches and loops over variables, globals, pointers, elements and members nested to any depth, every modifies clause, and every execution from every storage", "why_tests_cant": "Bodies, clauses and the storage at entry are unbounded, and what a place stands for depends on all pointers assigned before.", "anchors": ["src/sRef.c: sRef_checkModify, sRef_checkModifyVal, sRef_doModify, sRef_doModifyVal, sRef_similar, sRef_includedBy, sRef_fixBase, sRef_fixBaseParam, sRef_aliasCheckPred", "src/aliasTable.c: aliasTable_addMustAlias, aliasTable_clearAliases, aliasTable_canAlias, aliasTable_aliasedBy, aliasTable_levelUnion", "src/exprChecks.c: exprNode_checkModify, exprNode_checkCallModifyVal, exprNode_checkAllMods", "src/exprNode.c: checkGlobMods, checkAnyCall, updateAliases", "src/usymtab.c: usymtab_addMustAlias, usymtab_allAliases, usymtab_handleParams", "src/context.c: context_checkGlobMod", "src/clabstract.c: modListArrayFetch"]}
{"id": "C105", "title": "No false alarms about undocumented modifications", "statement": "If splint reports an undocumented modification, then every execution which gets to the statement reported modifies (or gives to a function to modify) storage which is visible to the caller and not listed.", "quantifier": "for every function body built from assignments, calls, branches and loops over variables, globals, pointers, elements and members nested to any depth, every modifies clause, and every execution from every storage", "why_tests_cant": "Bodies, clauses and the storage at entry are unbounded, and what a place stands for depends on all pointers assigned before. That a message is true needs the storage of every execution.", "anchors": ["src/sRef.c: sRef_checkModify, sRef_checkModifyVal, sRef_doModify, sRef_doModifyVal, sRef_similar, sRef_includedBy, sRef_fixBase, sRef_fixBaseParam, sRef_aliasCheckPred", "src/aliasTable.c: aliasTable_addMustAlias, aliasTable_clearAliases, aliasTable_canAlias, aliasTable_aliasedBy, aliasTable_levelUnion", "src/exprChecks.c: exprNode_checkModify, exprNode_checkCallModifyVal, exprNode_checkAllMods", "src/exprNode.c: checkGlobMods, checkAnyCall, updateAliases", "src/usymtab.c: usymtab_addMustAlias, usymtab_allAliases, usymtab_handleParams", "src/context.c: context_checkGlobMod", "src/clabstract.c: modListArrayFetch"]}
{"id": "C106", "title": "What is listed in a modifies clause is modified, or reported", "statement": "With the flag mustmod, an item of the modifies clause is reported as not modified if and only if no execution of the body modifies what it stands for or what is reached from it; an item which is not reported is modified by every execution.", "quantifier": "for every function body built from assignments, calls, branches and loops over variables, globals, pointers, elements and members nested to any depth, every modifies clause, and every execution from every storage; every item of the clause", "why_tests_cant": "Bodies, clauses and the storage at entry are unbounded, and what a place stands for depends on all pointers assigned before.", "anchors": ["src/sRef.c: sRef_checkModify, sRef_checkModifyVal, sRef_doModify, sRef_doModifyVal, sRef_similar, sRef_includedBy, sRef_fixBase, sRef_fixBaseParam, sRef_aliasCheckPred", "src/aliasTable.c: aliasTable_addMustAlias, aliasTable_clearAliases, aliasTable_canAlias, aliasTable_aliasedBy, aliasTable_levelUnion", "src/exprChecks.c: exprNode_checkModify, exprNode_checkCallModifyVal, exprNode_checkAllMods", "src/exprNode.c: checkGlobMods, checkAnyCall, updateAliases", "src/usymtab.c: usymtab_addMustAlias, usymtab_allAliases, usymtab_handleParams", "src/context.c: context_checkGlobMod", "src/clabstract.c: modListArrayFetch"]}
{"id": "C107", "title": "Replacing a macro call neither joins nor splits tokens", "statement": "The text put in the place of a macro call has exactly the tokens of the definition with those of the arguments in the place of the parameters, and the tokens of the text before and behind the call stay the same.", "quantifier": "for every definition, all arguments, and every text before and behind the call", "why_tests_cant": "Definitions, arguments and the text around them are unbounded, and whether two characters join depends on all pairs of tokens that can become neighbours.", "anchors": ["src/cpplib.c: collect_expansion, cpplib_macroExpand, push_macro_expansion, unsafe_chars, cpplib_getTokenAux"]}
{"id": "C108", "title": "The # operator gives the spelling of the argument as one string literal", "statement": "A parameter behind # becomes the string literal that the C standard describes: the spelling of the tokens of the argument, one space where there was white space between tokens, backslashes before quotes and backslashes of literals. It is one token.", "quantifier": "for every argument", "why_tests_cant": "Arguments are unbounded texts with literals, escapes and white space in any order.", "anchors": ["src/cpplib.c: cpplib_macroExpand"]}
{"id": "C109", "title": "Macros are replaced to the end, but not within themselves", "statement": "Replacing macros without parameters ends for every set of definitions, also if they refer to each other, and gives the tokens of the text with every name of a macro replaced by the replaced tokens of its definition, except that a macro is not replaced again within its own replacement.", "quantifier": "for every table of macros and every text", "why_tests_cant": "Termination for all sets of definitions, including circular ones, cannot be tested.", "anchors": ["src/cpplib.c: cpplib_getTokenAux, cpplib_macroExpand, push_macro_expansion, cppReader_macroCleanup, collect_expansion"]}
{"id": "C110", "title": "The arguments of a macro call are what was written", "statement": "For arguments in which parentheses match and commas stand only within parentheses or literals, without comments, # and @, the arguments of a call are what was written between the commas, unchanged, and reading goes on behind the closing parenthesis. For any text, if arguments are found, then the arguments with commas between them and the parenthesis behind are the text read.", "quantifier": "for every list of arguments and every text behind the call", "why_tests_cant": "Arguments are unbounded and parentheses are nested to any depth.", "anchors": ["src/cpplib.c: macarg, cpplib_macroExpand, cpplib_getTokenAux"]}
{"id": "C111", "title": "The number of arguments of a macro call is reported exactly if it is wrong", "statement": "A call is reported if and only if the number of arguments differs from the number of parameters, where a call of a macro without parameters may have white space between its parentheses.", "quantifier": "for every number of parameters and all arguments", "why_tests_cant": "Numbers of parameters and arguments are unbounded.", "anchors": ["src/cpplib.c: cpplib_macroExpand"]}
{"id": "C112", "title": "Misplaced # and ## in definitions are reported", "statement": "A definition of a macro with parameters is reported if and only if a # in it is not followed by a parameter, or it begins or ends with ##.", "quantifier": "for all parameters and every definition", "why_tests_cant": "Definitions are unbounded, and # may be in literals or far from what follows it.", "anchors": ["src/cpplib.c: collect_expansion"]}
{"id": "C113", "title": "The ## operator joins its operands", "statement": "Where a definition has x ## y, the text of the arguments is put together without white space between them.", "quantifier": "for all names of parameters, all arguments, and any white space around ##", "why_tests_cant": "Arguments are unbounded texts, with marks from earlier replacements.", "anchors": ["src/cpplib.c: collect_expansion, cpplib_macroExpand"]}
{"id": "C114", "title": "A statement reported to have no effect changes nothing", "statement": "If a statement is reported to have no effect, then in every execution, whatever the order of evaluation, all objects keep their values; if it is reported to have no effect except through unconstrained functions, then only objects declared outside of functions change. If nothing is reported, then some execution modifies an object.", "quantifier": "for every expression, all declarations of functions, all functions that keep to them, every state and every order of evaluation", "why_tests_cant": "Expressions, orders of evaluation and the functions called are unbounded.", "anchors": ["src/exprChecks.c: exprChecks_checkStatementEffect", "src/sRefSet.c: sRefSet_hasRealElement, sRefSet_hasUnconstrained", "src/exprNode.c: exprNode_statement"]}
{"id": "C115", "title": "A loop reported to be infinite never ends", "statement": "If a while loop is reported as an infinite loop, then its condition has the same value in every round, and if it is true at the beginning then no execution of the loop ends.", "quantifier": "for every condition and body, all declarations of functions, all functions that keep to them, every state, any number of rounds", "why_tests_cant": "That a loop never ends in any state cannot be observed by running it.", "anchors": ["src/exprNode.c: checkInfiniteLoop, exprNode_while, exprNode_whilePred, exprNode_concat, exprNode_switch"]}
{"id": "C116", "title": "If nothing is said about a loop, something its condition depends on may change", "statement": "If the condition of a loop reads objects and the loop is not reported, then some execution of the condition accesses an object which some execution of an expression of the loop modifies.", "quantifier": "for every condition and body and all declarations of functions", "why_tests_cant": "Conditions and bodies are unbounded, and the claim is about the absence of messages for all of them.", "anchors": ["src/exprNode.c: checkInfiniteLoop, exprNode_while, exprNode_doWhile, exprNode_for"]}
{"id": "C117", "title": "A shift about which nothing is said has non-negative operands", "statement": "If nothing is reported about a shift, then in every environment neither operand has a negative value; for a variable as the right operand the message is given exactly if its type has negative values.", "quantifier": "for all operand expressions, values of the variables, widths of the integer types, and settings of the other flags", "why_tests_cant": "Expressions and values of variables are unbounded, and the widths of types vary with the implementation of C.", "anchors": ["src/exprNode.c: exprNode_makeOp, checkIntegral, checkNumerics", "src/exprNode.c: exprNode_isNonNegative", "src/ctype.c: ctype_isUnsigned, ctype_widest", "src/multiVal.c: multiVal_add, multiVal_subtract, multiVal_multiply, multiVal_divide, multiVal_invert"]}
{"id": "C118", "title": "An operation on bits about which nothing is said has non-negative operands", "statement": "If nothing is reported about &, | or ^ with bitwiseops set, then in every environment neither operand has a negative value.", "quantifier": "for all operand expressions, values of the variables, widths of the integer types, and settings of the other flags", "why_tests_cant": "Expressions and values of variables are unbounded, and the widths of types vary with the implementation of C.", "anchors": ["src/exprNode.c: exprNode_makeOp, checkIntegral, checkNumerics", "src/exprNode.c: exprNode_isNonNegative", "src/ctype.c: ctype_isUnsigned, ctype_widest"]}
{"id": "C119", "title": "The type splint gives to an expression is the one C gives", "statement": "If nothing is reported about an arithmetic expression, then the type that the checks of its context use is the type the expression has by the rules of C (integer promotions and usual arithmetic conversions).", "quantifier": "for all arithmetic expressions, widths of the integer types, and settings of the flags", "why_tests_cant": "Expressions are unbounded and the widths of types vary with the implementation of C.", "anchors": ["src/exprNode.c: checkNumerics, exprNode_makeOp, exprNode_preOp", "src/ctype.c: ctype_resolveNumerics, ctype_widest, ctype_biggerType", "src/cprim.c: cprim_getExpectedBits"]}
{"id": "C120", "title": "A comparison of an unsigned value with zero is reported exactly if its result is always the same", "statement": "If a comparison with zero is reported (unsignedcompare), then its result is the same in all environments; for a variable compared with the constant 0 the converse holds too.", "quantifier": "for all operand expressions, values of the variables, widths of the integer types, and settings of the other flags", "why_tests_cant": "That a comparison never changes its result is a claim about all values of its variables.", "anchors": ["src/exprNode.c: exprNode_makeOp, checkIntegral, checkNumerics", "src/exprNode.c: exprNode_isZero", "src/ctype.c: ctype_isUnsigned"]}
{"id": "C121", "title": "Operators about which nothing is said are applied to operands C allows", "statement": "If nothing is reported about an expression, then every operator in it has operands of the kinds the rules of C allow (integer, arithmetic, scalar, pointer and integer, pointer and null pointer constant). Arithmetic expressions over numbers are never reported.", "quantifier": "for all expressions with operands of all types, all settings of the other flags, and any matching of pointer types", "why_tests_cant": "Expressions are unbounded; the claim is about the absence of messages for all of them under all settings.", "anchors": ["src/exprNode.c: exprNode_makeOp, checkIntegral, checkNumerics", "src/exprNode.c: exprNode_preOp, exprNode_matchTypes, exprNode_matchLiteral", "src/context.c: context_typeofZero", "src/ctype.c: ctype_isRealNumeric, ctype_isRealInt, ctype_isRealBool, ctype_isRealPointer"]}
{"id": "C122", "title": "Arithmetic on a possibly null pointer is reported exactly if the pointer is possibly null", "statement": "With nullpointerarith set, adding an integer to a pointer or subtracting it is reported exactly if the pointer may be null there.", "quantifier": "for all pointer and array types, integer expressions, and settings of the other flags", "why_tests_cant": "Integer expressions and settings of flags are too many to enumerate.", "anchors": ["src/exprNode.c: exprNode_makeOp, checkIntegral, checkNumerics", "src/exprNode.c: exprNode_isZero", "src/context.c: context_typeofZero"]}
{"id": "C123", "title": "A constant accepted by its value where another integer type is expected fits that type", "statement": "If a constant expression of another type is accepted where an integer type is expected because its value is known, then that type can represent the value.", "quantifier": "for all constant expressions, integer types, widths of the types, and settings of the flags", "why_tests_cant": "Constants, widths and settings are too many to enumerate.", "anchors": ["src/exprNode.c: exprNode_matchLiteral, exprNode_matchType", "src/multiVal.c: multiVal_forceInt"]}
{"id": "C124", "title": "The known value of a constant expression is its value in C", "statement": "If splint takes the value of an expression as known, it is the value the expression has; constant expressions whose parts fit a long get their value.", "quantifier": "for all expressions, values of variables, widths of the types, and settings of the flags", "why_tests_cant": "Constant expressions are unbounded.", "anchors": ["src/multiVal.c: multiVal_add, multiVal_subtract, multiVal_multiply, multiVal_divide, multiVal_invert", "src/exprNode.c: exprNode_makeOp, exprNode_preOp, exprNode_cast"]}
{"id": "C125", "title": "A representation is accessible exactly where there is a reason for it", "statement": "The representation of an abstract type is accessible at a point exactly if the type was defined, or an access comment for it stood, in a file of the same module; or the file has the name of the type (accessfile); or a function or macro is being read that has access because of its name.", "quantifier": "for all sequences of files, line directives, type definitions, comments, function and macro definitions and declarations, and all settings of accessmodule, accessfile and nocomments", "why_tests_cant": "The sequence of files and definitions before a point is unbounded, and access depends on all of it.", "anchors": ["src/context.c: context_hasAccess, context_enterFunction, context_addFileAccessType, context_removeFileAccessType, setModuleAccess, context_setFilename, context_exitFunction", "src/usymtab.c: usymtab_supAbstractTypeEntry", "src/cscannerHelp.c: handling of access and noaccess comments"]}
{"id": "C126", "title": "The last access or noaccess comment decides until the file is left", "statement": "After an access comment for an abstract type it is accessible, and after a noaccess comment it is not, in the file and in every function, until another comment for the type or the end of the file.", "quantifier": "for all sequences of definitions and comments before and after the comment, and all settings of the flags", "why_tests_cant": "What is read before and after a comment is unbounded.", "anchors": ["src/context.c: context_hasAccess, context_enterFunction, context_addFileAccessType, context_removeFileAccessType, setModuleAccess, context_setFilename, context_exitFunction", "src/cscannerHelp.c: handling of access and noaccess comments"]}
{"id": "C127", "title": "Including a file does not change what is accessible after it", "statement": "After any included files, at the outer level of a file of the same module, exactly those types are accessible that were so before, apart from types that were defined or named in access comments meanwhile.", "quantifier": "for all sequences of events before and within the included files, and all settings of the flags", "why_tests_cant": "Included files are unbounded in number and content.", "anchors": ["src/context.c: context_setFilename, setModuleAccess, insertModuleAccess, addModuleAccess"]}
{"id": "C128", "title": "A cast about which nothing is said does not break an abstraction", "statement": "If nothing is reported about a cast, then no abstract type without access lies under the type cast to or from, apart from casts between matching types that are no pointers. If something is reported, then there is such a type.", "quantifier": "for all types built from pointers, arrays and type names, all definitions of names, all sets of accessible types, and any matching of types", "why_tests_cant": "Types and chains of type definitions are unbounded.", "anchors": ["src/exprNode.c: exprNode_cast", "src/uentry.c: uentry_getRealType", "src/ctype.c: ctype_realType, ctype_getBaseType, ctype_isRealAbstract, ctype_isRealAP"]}
{"id": "C129", "title": "Every type named in an access comment is taken into account", "statement": "The names in an access or noaccess comment, separated by commas or white space, are all read, in order, and nothing else is.", "quantifier": "for all lists of names and all separators", "why_tests_cant": "The text of a comment is unbounded.", "anchors": ["src/cscannerHelp.c: handling of access and noaccess comments"]}
{"id": "C130", "title": "A missing case is reported exactly if a member of the type is not handled", "statement": "In a switch over an enumerated type, a message is given exactly if the switch does nothing for the value of some member; it lists these members in the order of their declaration, and is given once.", "quantifier": "for all statements of a switch, of any size, with all labels and names, all enumerated types and all values of their members", "why_tests_cant": "The statements of a switch, the members of a type and their values are unbounded.", "anchors": ["src/exprNode.c: checkSwitchExpr, exprNode_switch, exprNode_flatten, exprNode_getUentry, exprNode_rootVarName", "src/enumNameList.c: enumNameList_member, enumNameList_subtract, enumNameList_unparse"]}
{"id": "C131", "title": "Repeated labels of a switch are reported", "statement": "A message is given for each case label with the value of an earlier one, and for each default after the first, and for no other.", "quantifier": "for all statements of a switch, of any size, with all labels and names, all enumerated types and all values of their members", "why_tests_cant": "The statements of a switch, the members of a type and their values are unbounded.", "anchors": ["src/exprNode.c: checkSwitchExpr, exprNode_switch, exprNode_flatten, exprNode_getUentry, exprNode_rootVarName", "src/enumNameList.c: enumNameList_member, enumNameList_subtract, enumNameList_unparse"]}
{"id": "C132", "title": "A case which is no member of the type is reported", "statement": "In a switch over an enumerated type a message is given for every case label which is not a member of that type, and for no member.", "quantifier": "for all statements of a switch, of any size, with all labels and names, all enumerated types and all values of their members", "why_tests_cant": "The statements of a switch, the members of a type and their values are unbounded.", "anchors": ["src/exprNode.c: checkSwitchExpr, exprNode_switch, exprNode_flatten, exprNode_getUentry, exprNode_rootVarName", "src/enumNameList.c: enumNameList_member, enumNameList_subtract, enumNameList_unparse"]}
{"id": "C133", "title": "Code before the first case of a switch is reported", "statement": "A message is given exactly if something executable is written in a switch before the first label.", "quantifier": "for all statements of a switch, of any size", "why_tests_cant": "The statements of a switch, the members of a type and their values are unbounded.", "anchors": ["src/exprNode.c: exprNode_switch, exprNode_firstStatement, exprNode_isCaseMarker, exprNode_isDefaultMarker, exprNode_isLabelMarker"]}
{"id": "C134", "title": "Control passes by no switch taken to handle all values", "statement": "If what is true before a switch is not taken to be possible after it, then control goes to a label of the switch for every value of the test.", "quantifier": "for all statements of a switch, of any size, with all labels and names, all enumerated types and all values of their members, all values of the test", "why_tests_cant": "The statements of a switch, the members of a type and their values are unbounded.", "anchors": ["src/exprNode.c: checkSwitchExpr, exprNode_switch, exprNode_flatten, exprNode_getUentry, exprNode_rootVarName", "src/usymtab.c: usymtab_exitSwitch"]}
{"id": "C135", "title": "If no bounds message is given, no access is out of bounds", "statement": "If bounds checking gives no message for a function, then in every execution of it every array access is within the array.", "quantifier": "for all function bodies of any length, all sizes of arrays, all values of the variables and all executions", "why_tests_cant": "Bodies, sizes and values are unbounded, and an out-of-bounds access need not show when a program is run.", "anchors": ["src/constraintGeneration.c: exprNode_generateConstraints, exprNode_stmtList, doIf, doIfElse, constraintList_makeFixedArrayConstraints, exprNode_booleanTraverse, exprNode_exprTraverse", "src/constraintResolve.c: doResolve, doResolveOr, constraintList_reflectChanges, constraintList_mergeRequires, constraintList_mergeEnsures, exprNode_mergeResolve, constraint_substitute", "src/exprChecks.c: exprNode_checkFunction"]}
{"id": "C136", "title": "A bounds message about two numbers is true", "statement": "If a bounds message says that a number has to be at least another one (a likely error), then every execution of the function makes an access beyond the end of an array.", "quantifier": "for all function bodies of any length, all sizes of arrays, all values of the variables and all executions", "why_tests_cant": "Bodies, sizes and values are unbounded, and an out-of-bounds access need not show when a program is run.", "anchors": ["src/constraintGeneration.c: exprNode_generateConstraints, exprNode_stmtList, doIf, doIfElse, constraintList_makeFixedArrayConstraints, exprNode_booleanTraverse, exprNode_exprTraverse", "src/constraintResolve.c: doResolve, doResolveOr, constraintList_reflectChanges, constraintList_mergeRequires, constraintList_mergeEnsures, exprNode_mergeResolve, constraint_substitute", "src/exprChecks.c: exprNode_checkFunction", "src/constraint.c: constraint_printError, constraint_isConstantOnly"]}
{"id": "C137", "title": "No bounds message for code whose accesses are all within bounds", "statement": "If in every execution every access is within its array, bounds checking gives no message.", "quantifier": "for all function bodies of any length, all sizes of arrays, all values of the variables and all executions", "why_tests_cant": "Bodies, sizes and values are unbounded, and an out-of-bounds access need not show when a program is run.", "anchors": ["src/constraintGeneration.c: exprNode_generateConstraints, exprNode_stmtList, doIf, doIfElse, constraintList_makeFixedArrayConstraints, exprNode_booleanTraverse, exprNode_exprTraverse", "src/constraintResolve.c: doResolve, doResolveOr, constraintList_reflectChanges, constraintList_mergeRequires, constraintList_mergeEnsures, exprNode_mergeResolve, constraint_substitute", "src/exprChecks.c: exprNode_checkFunction"]}
{"id": "C138", "title": "A store guarded by a comparison is accepted exactly if it is right", "statement": "For a function if (x < n) a[x + k] = v; with numbers n, k and an array a of fixed size, of absolute values below 2^29, there is no bounds message exactly if no value of x makes an access beyond the end of the array; otherwise there is one message, of a possible error, and the condition it gives on x is the right one.", "quantifier": "for all variables, arrays, sizes and numbers n and k, all values of x", "why_tests_cant": "There are too many combinations of sizes and numbers; those at the limit matter.", "anchors": ["src/constraintGeneration.c: exprNode_generateConstraints, exprNode_stmtList, doIf, doIfElse, constraintList_makeFixedArrayConstraints, exprNode_booleanTraverse, exprNode_exprTraverse", "src/constraintResolve.c: doResolve, doResolveOr, constraintList_reflectChanges, constraintList_mergeRequires, constraintList_mergeEnsures, exprNode_mergeResolve, constraint_substitute", "src/exprChecks.c: exprNode_checkFunction"]}
{"id": "C139", "title": "Names refer to the innermost declaration", "statement": "Every name in a function body is taken to refer to its innermost declaration in scope, or to none if there is none, by the rules of C.", "quantifier": "for all function bodies with blocks, conditions, loops and switches nested to any depth, any names and declarations", "why_tests_cant": "Copies of a variable are made for every branch it is used in and merged again at the end; programs can be nested to any depth, in any combination of branches, blocks and cases.", "anchors": ["src/usymtab.c: usymtab_lookupAux, usymtab_addRefEntry, usymtab_dropEnv, usymtab_supEntryAux, usymtab_enterScope, usymtab_exitScope", "src/usymtab.c: usymtab_popBranches, usymtab_popAndBranch, usymtab_popOrBranch, usymtab_newCase, usymtab_exitSwitch, usymtab_allUsed"]}
{"id": "C140", "title": "Exactly the variables never used are reported", "statement": "For each variable declared in a function body the message that it is declared but not used is given exactly if no name in the body refers to it; it is given once, at the end of its block, in the order of the declarations.", "quantifier": "for all function bodies with blocks, conditions, loops and switches nested to any depth, any names and declarations", "why_tests_cant": "Copies of a variable are made for every branch it is used in and merged again at the end; programs can be nested to any depth, in any combination of branches, blocks and cases.", "anchors": ["src/usymtab.c: usymtab_lookupAux, usymtab_addRefEntry, usymtab_dropEnv, usymtab_supEntryAux, usymtab_enterScope, usymtab_exitScope", "src/usymtab.c: usymtab_popBranches, usymtab_popAndBranch, usymtab_popOrBranch, usymtab_newCase, usymtab_exitSwitch, usymtab_allUsed", "src/uentry.c: uentry_mergeSetStates, uentry_setState, uentry_mergeUses"]}
{"id": "C141", "title": "Exactly the shadowing declarations are reported", "statement": "In function bodies whose switches have a case and declare nothing directly in their own block, the message that a declaration shadows an outer one is given exactly for the declarations of a name which is declared in an enclosing block or globally, and names the innermost of these.", "quantifier": "for all function bodies with blocks, conditions, loops and switches nested to any depth, any names and declarations", "why_tests_cant": "Copies of a variable are made for every branch it is used in and merged again at the end; programs can be nested to any depth, in any combination of branches, blocks and cases.", "anchors": ["src/usymtab.c: usymtab_lookupAux, usymtab_addRefEntry, usymtab_dropEnv, usymtab_supEntryAux, usymtab_enterScope, usymtab_exitScope"]}
{"id": "C142", "title": "A name passes its prefix exactly if it begins as the prefix says", "statement": "With a namespace prefix set, an identifier of the name space is reported as not consistent with it exactly if its name does not begin with characters denoted by those of the prefix (Figure 23 of the manual) and, if the prefix ends in a star, does not go on with characters denoted by the one before the star to its end.", "quantifier": "for all identifiers (any name, kind and scope) and all settings of the flags; for all prefix strings", "why_tests_cant": "Any string can be a prefix and any string a name; the combinations of kinds of identifiers, prefixes set and exclusions cannot be enumerated.", "anchors": ["src/nameChecks.c: matchPrefixChar, matchPrefix, checkPrefix, excludeCodes", "src/uentry.c: uentry_checkName, uentry_isFileStatic, uentry_isGlobalVariable, uentry_isVisibleExternally, uentry_isExported", "src/Headers/constants.h: PFX_UPPERCASE ... PFX_ANYLETTERDIGIT"]}
{"id": "C143", "title": "The most specific prefix that is set governs a name", "statement": "Each identifier is compared with the prefix of the most specific of the name spaces it is in that has a prefix, and with no other: members of enumerations with enumprefix, else constprefix, else externalprefix; types, global variables, constants and iterators with their own prefix, else externalprefix; every other identifier with the prefix of its own name space only.", "quantifier": "for all identifiers (any name, kind and scope) and all settings of the flags", "why_tests_cant": "Any string can be a prefix and any string a name; the combinations of kinds of identifiers, prefixes set and exclusions cannot be enumerated.", "anchors": ["src/nameChecks.c: matchPrefixChar, matchPrefix, checkPrefix, excludeCodes", "src/uentry.c: uentry_checkName, uentry_isFileStatic, uentry_isGlobalVariable, uentry_isVisibleExternally, uentry_isExported"]}
{"id": "C144", "title": "Exclusions report exactly the foreign names that use a prefix", "statement": "With the exclude flag of a prefix on, the message that an identifier is not in the name space but matches its prefix is given exactly for the identifiers outside the name space whose names match it.", "quantifier": "for all identifiers (any name, kind and scope) and all settings of the flags", "why_tests_cant": "Any string can be a prefix and any string a name; the combinations of kinds of identifiers, prefixes set and exclusions cannot be enumerated.", "anchors": ["src/nameChecks.c: matchPrefixChar, matchPrefix, checkPrefix, excludeCodes"]}
{"id": "C145", "title": "Names reserved by the standard are reported, and only they", "statement": "A declared name is reported as reserved exactly if it is in the list of names of the standard library or of one of the forms the standard reserves: beginning with an underscore (file scope), an underscore and an underscore or capital (any scope), E and a digit or capital, LC_ and a capital, SIG or SIG_ and a capital, and for identifiers with external linkage is/to/str/mem/wcs and a lower case letter or a function of <math.h> with f or l appended; all functions of the library are among them.", "quantifier": "for all identifiers (any name, kind and scope) and all settings of the flags", "why_tests_cant": "Any string can be a prefix and any string a name; the combinations of kinds of identifiers, prefixes set and exclusions cannot be enumerated.", "anchors": ["src/nameChecks.c: checkAnsiName", "src/Headers/reservedNames.nf", "src/cstring.c: cstring_bsearch, cstring_equalPrefixLit", "src/uentry.c: uentry_checkName, uentry_isFileStatic, uentry_isGlobalVariable, uentry_isVisibleExternally, uentry_isExported"]}
{"id": "C146", "title": "Words of C++ are reported", "statement": "With +cppnames exactly the names that are words of C++ but not of C are reported.", "quantifier": "for all names", "why_tests_cant": "Names are arbitrary strings, found by a search in a sorted list that depends on its length and order.", "anchors": ["src/nameChecks.c: checkCppName, cppNames", "src/cstring.c: cstring_bsearch"]}
{"id": "C147", "title": "Names of parameters in declarations", "statement": "With -declparamprefix exactly the named parameters of declarations that do not begin with the prefix are reported; with +declparamname every named parameter; with +declparammatch exactly the parameters whose names in declaration and definition differ once the prefix is taken away.", "quantifier": "for all parameter lists and all prefixes", "why_tests_cant": "Any string can be a prefix and any string a name; the combinations of kinds of identifiers, prefixes set and exclusions cannot be enumerated.", "anchors": ["src/nameChecks.c: checkParamNames", "src/uentry.c: checkFunctionConformance (parameter names)"]}
{"id": "C148", "title": "Integer constants are read with the value C gives them", "statement": "Every integer constant of C (decimal, octal, hexadecimal, with any suffix) is read as one token with exactly the value C gives it and without a message; binary constants too, with a message exactly without +gnuextensions; and nothing else is accepted silently as an integer constant.", "quantifier": "for all constants of the notations of C99 with all suffixes, any number of digits, followed by any text that does not go on like a number or name, and all settings of the flags", "why_tests_cant": "Constants have any number of digits and 23 suffixes, and compete with each other for the longest match; the overflow shows only at particular values.", "anchors": ["src/cscanner.l: rules for integer constants", "src/cscannerHelp.c: cscannerHelp_processHex, cscannerHelp_processOctal, cscannerHelp_processBinary, cscannerHelp_processDec, processSuffix, cscannerHelp_returnInt"]}
{"id": "C149", "title": "Integer constants have the type C gives them", "statement": "The integer type of an integer constant is the first of the list of C99 6.4.4.1 for its notation and suffix that can represent its value.", "quantifier": "for all constants of the notations of C99 with all suffixes, any number of digits, followed by any text that does not go on like a number or name, and all settings of the flags", "why_tests_cant": "Constants have any number of digits and 23 suffixes, and compete with each other for the longest match; the overflow shows only at particular values.", "anchors": ["src/cscanner.l: rules for integer constants", "src/cscannerHelp.c: cscannerHelp_processHex, cscannerHelp_processOctal, cscannerHelp_processBinary, cscannerHelp_processDec, processSuffix, cscannerHelp_returnInt", "src/context.c: context_typeofZero, context_typeofOne"]}
{"id": "C150", "title": "Character constants are read with the value C gives them", "statement": "Every character constant of C with one character, plain or wide, is read as one token with the value C gives it.", "quantifier": "for all characters and escape sequences (simple, octal, hexadecimal), plain and wide, followed by any text", "why_tests_cant": "Escapes are of any length and any text may follow; that wide constants always have the same value shows only when values are compared.", "anchors": ["src/cscanner.l: rules for character constants", "src/cscannerHelp.c: cscannerHelp_processChar, cscannerHelp_returnChar", "src/exprNode.c: exprNode_charLiteral"]}
{"id": "C151", "title": "A constant is null exactly if it is zero", "statement": "An integer constant is treated as a null pointer exactly if its value is 0, whatever its notation and suffix, and with +zeroptr (+zerobool) exactly the constants with value 0 may be used as pointers (booleans).", "quantifier": "for all constants of the notations of C99 with all suffixes, any number of digits, followed by any text that does not go on like a number or name, and all settings of the flags", "why_tests_cant": "Constants have any number of digits and 23 suffixes, and compete with each other for the longest match; the overflow shows only at particular values.", "anchors": ["src/cscanner.l: rules for integer constants", "src/cscannerHelp.c: cscannerHelp_processHex, cscannerHelp_processOctal, cscannerHelp_processBinary, cscannerHelp_processDec, processSuffix, cscannerHelp_returnInt", "src/exprNode.c: exprNode_numLiteral", "src/context.c: context_typeofZero"]}
{"id": "C152", "title": "An initializer that passes is valid C", "statement": "If no message is given for an initializer with braces, it is a valid initializer of C for the type of the variable: no excess values, and every value fits the part it initializes.", "quantifier": "for all types (arrays, structures and unions nested to any depth), all initializers and all relations between values and types", "why_tests_cant": "Types and initializers are trees of any depth and width; mistakes may be at any place in them and interact with the counts and the limit on errors.", "anchors": ["src/exprNode.c: exprNode_checkOneInit, exprNode_makeInitBlock", "src/cgrammar.y: init, designation, initList"]}
{"id": "C153", "title": "Valid complete initializers are not reported", "statement": "A valid initializer that gives every element and field a value is not reported.", "quantifier": "for all types (arrays, structures and unions nested to any depth), all initializers and all relations between values and types; for all settings of the flags", "why_tests_cant": "Types and initializers are trees of any depth and width; mistakes may be at any place in them and interact with the counts and the limit on errors.", "anchors": ["src/exprNode.c: exprNode_checkOneInit, exprNode_makeInitBlock", "src/cgrammar.y: init, designation, initList"]}
{"id": "C154", "title": "Messages about initializers say what is wrong and where", "statement": "Each message about an initializer points at a part which has the mistake it names (more or fewer values than the array has elements or the structure has fields, not one value for a union, a block for a scalar, a value that does not fit), and its flag is on; conversely each such mistake of a part (reached through structures with the right number of values) is reported if its flag is on, unless the message is given that additional errors are not reported.", "quantifier": "for all types (arrays, structures and unions nested to any depth), all initializers and all relations between values and types; for all settings of the flags", "why_tests_cant": "Types and initializers are trees of any depth and width; mistakes may be at any place in them and interact with the counts and the limit on errors.", "anchors": ["src/exprNode.c: exprNode_checkOneInit, exprNode_makeInitBlock", "src/cgrammar.y: init, designation, initList"]}
{"id": "C155", "title": "Errors in long initializers are limited, and this is said", "statement": "For an array initialized by more than six values, messages concern at most four elements, and the message that additional errors are not reported is given exactly if there are further ones; blocks of up to six values are reported in full.", "quantifier": "for all types (arrays, structures and unions nested to any depth), all initializers and all relations between values and types", "why_tests_cant": "Types and initializers are trees of any depth and width; mistakes may be at any place in them and interact with the counts and the limit on errors.", "anchors": ["src/exprNode.c: exprNode_checkOneInit, exprNode_makeInitBlock", "src/cgrammar.y: init, designation, initList"]}
{"id": "C156", "title": "A name reported as exported but not used outside its module is not used elsewhere", "statement": "If a function or variable is reported as exported but not used outside a module, it is defined, it is used, and no other source file uses it; so it can be made static.", "quantifier": "for all sequences of declarations, definitions and uses of a global name in any files, all base names and special files, all settings of the flags", "why_tests_cant": "Uses come in any number and order from any number of files, and only two places of them are kept; tests see a few orders of a few files.", "anchors": ["src/uentry.c: uentry_setUsed, uentry_mergeDefinition, uentry_setDeclared, uentry_setDefined", "src/filelocList.c: filelocList_add, filelocList_addUndefined, filelocList_addDifferentFile", "src/fileloc.c: fileloc_sameModule", "src/usymtab.c: usymtab_exportLocal, usymtab_allUsed", "src/llmain.c: main"]}
{"id": "C157", "title": "Every name used in one module only is reported", "statement": "With +exportlocal each exported function or variable that is used, but only (outside the texts of macros) in the module that defines it, is reported, whatever the flag that shows uses.", "quantifier": "for all sequences of declarations, definitions and uses of a global name in any files, all base names and special files, all settings of the flags", "why_tests_cant": "Uses come in any number and order from any number of files, and only two places of them are kept; tests see a few orders of a few files.", "anchors": ["src/uentry.c: uentry_setUsed, uentry_mergeDefinition, uentry_setDeclared, uentry_setDefined", "src/filelocList.c: filelocList_add, filelocList_addUndefined, filelocList_addDifferentFile", "src/fileloc.c: fileloc_sameModule", "src/usymtab.c: usymtab_exportLocal, usymtab_allUsed", "src/llmain.c: main"]}
{"id": "C158", "title": "The order of files and uses does not matter to messages about exported names", "statement": "Without +showuses, whether a name is reported as exported but not used outside its module depends only on the module of its first declaration, its definition and the set of places that use it or declare it again, not on the order or number of uses; and at most two places are kept for each name.", "quantifier": "for all pairs of histories of a name with the same module of the first declaration, the same definition and the same places of uses, in any order and number", "why_tests_cant": "Uses come in any number and order from any number of files, and only two places of them are kept; tests see a few orders of a few files.", "anchors": ["src/uentry.c: uentry_setUsed, uentry_mergeDefinition, uentry_setDeclared, uentry_setDefined", "src/filelocList.c: filelocList_add, filelocList_addUndefined, filelocList_addDifferentFile", "src/fileloc.c: fileloc_sameModule", "src/usymtab.c: usymtab_exportLocal, usymtab_allUsed", "src/llmain.c: main"]}
{"id": "C159", "title": "Unused global names are reported, used ones are not", "statement": "A function, iterator, constant, member of an enumeration, type or variable declared in a file is reported as not used exactly if it is never used and the flag of its kind is on; no name is reported both as not used and as not used outside its module; main is never reported.", "quantifier": "for all sequences of declarations, definitions and uses of a global name in any files, all base names and special files, all settings of the flags", "why_tests_cant": "Uses come in any number and order from any number of files, and only two places of them are kept; tests see a few orders of a few files.", "anchors": ["src/uentry.c: uentry_setUsed, uentry_mergeDefinition, uentry_setDeclared, uentry_setDefined", "src/filelocList.c: filelocList_add, filelocList_addUndefined, filelocList_addDifferentFile", "src/fileloc.c: fileloc_sameModule", "src/usymtab.c: usymtab_exportLocal, usymtab_allUsed", "src/llmain.c: main"]}
