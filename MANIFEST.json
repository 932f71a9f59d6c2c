{
 "claims": [
  {
   "property": "C01",
   "status": "partial",
   "theorems": [
    "C01_simplify_value_partial",
    "C01_nested_minus_refuted",
    "C01_constant_difference_refuted",
    "C01_large_literal_refuted"
   ],
   "note": "Full statement false (5 - (3 - i), differences of two declared constants, literals beyond int: refuted with witnesses). Termination and value preservation proved by induction for every well-typed expression of the class `regular` (every + or - node has a name occurring once on the left, or a right operand that is constant or starts with a name occurring once)."
  },
  {
   "property": "C02",
   "status": "partial",
   "theorems": [
    "C02_discharged_follows_partial",
    "C02_strict_refuted"
   ],
   "note": "Full statement false for strict comparisons (i > 3 discharged by i >= 3). Proved otherwise for operands without a + (0 - b), sizeof, and constants adding up to 2^31 or more."
  },
  {
   "property": "C03",
   "status": "partial",
   "theorems": [
    "C03_always_true_partial",
    "C03_zero_minus_refuted",
    "C03_sizeof_refuted",
    "C03_wrong_union_member_refuted"
   ],
   "note": "Full statement false: i <= i + (0 - 5), maxSet(p) >= sizeof(p) - 1 for elements larger than a byte; one input reads the wrong union member. Proved for the remaining requirements."
  },
  {
   "property": "C04",
   "status": "partial",
   "theorems": [
    "C04_add_all_partial",
    "C04_merge_partial",
    "C04_alternative_refuted",
    "C04_strict_refuted"
   ],
   "note": "Full statement false with alternatives and strict comparisons (witnesses). Proved for every sequence of additions of single-alternative non-strict bounds."
  },
  {
   "property": "C05",
   "status": "partial",
   "theorems": [
    "C05_simplify_constraint_partial",
    "C05_simplify_constraint_refuted"
   ],
   "note": "Full statement false outside the class (5 - (3 - i) >= j). Termination and equivalence proved for the class `solvable`."
  },
  {
   "property": "C06",
   "status": "partial",
   "theorems": [
    "C06_strong_substitute_partial",
    "C06_strong_rewrite_sound",
    "C06_plain_substitute_refuted",
    "C06_last_attempt_refuted"
   ],
   "note": "Strong form proved (rewriting without restriction; with the final simplification for the class of C05). The plain form and the last-attempt form are refuted with witnesses."
  },
  {
   "property": "C07",
   "status": "partial",
   "theorems": [
    "C07_value_partial",
    "C07_unary_operand_refuted",
    "C07_unary_nested_refuted",
    "C07_unary_grouping_refuted",
    "C07_shift_refuted",
    "C07_nested_conditional_refuted",
    "C07_skipped_type_refuted",
    "C07_skipped_overflow_refuted"
   ],
   "note": "Proved for every tree of the C grammar in the supported class (simulation of the operator stack machine); full statement refuted: 2 * -3 and !-1 are syntax errors, -6u / 4 groups as -(6u / 4), shifts by 32 and more, nested ?: in the middle operand, unsignedness of a skipped division, overflow in skipped operands."
  },
  {
   "property": "C08",
   "status": "partial",
   "theorems": [
    "C08_division_by_zero_partial",
    "C08_skipped_operand_silent_partial",
    "C08_skipped_type_refuted"
   ],
   "note": "Division by zero reported exactly when evaluated, for the supported class of C07; refuted outside it (skipped signed/unsigned division loses its type)."
  },
  {
   "property": "C09",
   "status": "partial",
   "theorems": [
    "C09_value_partial",
    "C09_rejects_partial",
    "C09_no_digits_refuted",
    "C09_long_long_refuted"
   ],
   "note": "Exact characterisation of what is read for every integer constant with C90 suffixes, and of what is accepted in silence; refuted: 0xu accepted, 1ll rejected; undefined behaviour from 2^63 on is part of the statement."
  },
  {
   "property": "C10",
   "status": "proved",
   "theorems": [
    "C10_selected_groups",
    "C10_nesting_errors",
    "C10_unterminated_refuted"
   ],
   "note": "For every properly nested file (any depth and length), any effects of lines and conditions: the environment reached is the one C prescribes, the stack is restored, no error. For arbitrary files the number of errors is exactly the number of misplaced #elif/#else/#endif. Finding (C10_unterminated_refuted, outside the statement): a conditional still open at the end of a file is not reported."
  },
  {
   "property": "C11",
   "status": "proved",
   "theorems": [
    "C11_recognised",
    "C11_skip_changes_nothing",
    "C11_second_reading_silent",
    "C11_elif_refuted",
    "C11_undef_before_refuted",
    "C11_quiet_include_refuted"
   ],
   "note": "Proved for headers whose first line (after comments) is #ifndef, with no #elif belonging to it and no inclusion of a file without tokens. Each of the three conditions is shown to be needed by a refutation (C11_elif_refuted, C11_undef_before_refuted, C11_quiet_include_refuted): without it splint can drop text or definitions C would keep."
  },
  {
   "property": "C12",
   "status": "proved",
   "theorems": [
    "C12_finite_map",
    "C12_other_names"
   ],
   "note": "Proved at pointer level: doubly linked chains in a heap, any history of #define/#undef/built-in installation, any collisions. Every operation is defined behaviour (no use of freed or null nodes, every walk ends)."
  },
  {
   "property": "C13",
   "status": "partial",
   "theorems": [
    "C13_restored_partial",
    "C13_parameter_uses_refuted",
    "C13_noexpand_refuted"
   ],
   "note": "False of the code: hashNode_copy keeps only one parameter use, does not set its nchars, and leaves noExpand and rest_args unset (C13_parameter_uses_refuted, C13_noexpand_refuted). Proved: the set of names, parameter counts, texts, positions and built-ins come back after any intervening history."
  },
  {
   "property": "C14",
   "status": "proved",
   "theorems": [
    "C14_silent_iff_same",
    "C14_silent_iff_text",
    "C14_literal_white_refuted",
    "C14_paste_refuted",
    "C14_variadic_refuted",
    "C14_high_character_refuted"
   ],
   "note": "Both directions for all bodies and parameter lists meeting the stated conditions; the conditions on #, white space in literals, \"...\" and 8-bit characters are each shown necessary by a refutation (C14_*_refuted)."
  },
  {
   "property": "C15",
   "status": "proved",
   "theorems": [
    "C15_hidden_iff",
    "C15_hidden_names",
    "C15_nested_line_refuted",
    "C15_order_refuted",
    "C15_system_refuted"
   ],
   "note": "Full characterisation proved for every history of comments and messages in ordinary user files; the preconditions (text order within a file, no system header) are shown necessary by refutations, and a counted line inside a region is shown to end the region."
  },
  {
   "property": "C16",
   "status": "proved",
   "theorems": [
    "C16_first_occurrences",
    "C16_library_refuted",
    "C16_unknown_refuted",
    "C16_derived_refuted"
   ],
   "note": "Full statement proved for every sequence; the restriction to known source locations is shown necessary by three refutations."
  },
  {
   "property": "C17",
   "status": "proved",
   "theorems": [
    "C17_conservation",
    "C17_unlimited",
    "C17_run",
    "C17_change",
    "C17_similar_refuted",
    "C17_no_flush_refuted"
   ],
   "note": "Conservation proved for every history and limit, with the exact output for each run of equal messages; C17_similar_refuted records that only identical texts count as similar, C17_no_flush_refuted that the final flush matters."
  },
  {
   "property": "C18",
   "status": "partial",
   "theorems": [
    "C18_round_trip_partial",
    "C18_quote_refuted",
    "C18_comma_refuted"
   ],
   "note": "False in general: texts with a double quote and file names with a comma are refuted; the round trip is proved for all files of messages without those characters."
  },
  {
   "property": "C19",
   "status": "proved",
   "theorems": [
    "C19_indent_message",
    "C19_finished",
    "C19_error",
    "C19_error_fits",
    "C19_indent_refuted",
    "C19_multiline_refuted",
    "C19_narrow_refuted"
   ],
   "note": "Proved with exact bounds; larger indentations are refuted for every line length (printing never ends), as are multi-line messages and line lengths below 42."
  },
  {
   "property": "C20",
   "status": "proved",
   "theorems": [
    "C20_every_spelling_selects_the_flag",
    "C20_spellings_are_distinct",
    "C20_mode_names",
    "C20_global_refuted",
    "C20_idempotent_refuted"
   ],
   "note": "Spellings are given by an inductive specification (21 long/short pairs, separators anywhere). Refuted and not part of the claim: the manual's pair global/glob is not implemented (globaluse is unknown), and canonicalising is not idempotent (func-tion). The four options whose argument is part of the word (-I -S -D -U) are apart."
  },
  {
   "property": "C21",
   "status": "proved",
   "theorems": [
    "C21_files_leave_no_flag_changed",
    "C21_restore",
    "C21_restore_own_setting",
    "C21_restore_compound_refuted",
    "C21_mode_comment_refuted",
    "C21_value_comment_refuted",
    "C21_idem_refuted"
   ],
   "note": "Stated for simple flags and for files without mode names in comments; refuted and not part of the claim: restoring a compound flag (after /*@=null@*/ null dereference checking is off in the default mode), mode names and numeric values in comments outlive the file, a flag that cannot be turned off is turned on by restoring it."
  },
  {
   "property": "C22",
   "status": "proved",
   "theorems": [
    "C22_mode_decides",
    "C22_mode_keeps_values",
    "C22_same_whatever_before"
   ],
   "note": "Exact: after a mode is selected a mode flag is on iff the mode lists it; other flags and all numeric values are kept."
  },
  {
   "property": "C23",
   "status": "proved",
   "theorems": [
    "C23_values",
    "C23_name_lengths",
    "C23_in_range",
    "C23_refused",
    "C23_big_number_refuted"
   ],
   "note": "Numbers above INT_MAX are undefined behaviour in the conversion (C23_big_number_refuted), a distinct outcome in the model; message limit -1 means unlimited. A line length below 20 becomes 20."
  },
  {
   "property": "C24",
   "status": "proved",
   "theorems": [
    "C24_levels_ordered",
    "C24_severe_levels_refuted"
   ],
   "note": "Restated to the direction the code implements; the other direction is refuted (+its4low alone)."
  },
  {
   "property": "C25",
   "status": "proved",
   "theorems": [
    "C25_history_faithful",
    "C25_misuse_reported",
    "C25_eight_bit_name_refuted",
    "C25_reserved_number_refuted"
   ],
   "note": "Full statement proved. The two preconditions are shown necessary: an 8-bit character in a name gives an out-of-bounds read, and storing the reserved number hides entries (refutations)."
  },
  {
   "property": "C26",
   "status": "partial",
   "theorems": [
    "C26_history_faithful_partial",
    "C26_misuse_reported_partial",
    "C26_growth_overflow_refuted",
    "C26_duplicate_keeps_old_refuted"
   ],
   "note": "Proved for at most 50512 insertions into a table created with at most 214750 buckets; beyond that the int arithmetic of growth overflows (refuted for 82000 buckets and 50619 insertions). Duplicate inserts keep the old value but are reported."
  },
  {
   "property": "C27",
   "status": "partial",
   "theorems": [
    "C27_no_invention_partial",
    "C27_no_loss_partial",
    "C27_ascending_partial",
    "C27_member_refuted",
    "C27_size_refuted",
    "C27_overread_refuted",
    "C27_uninitialised_refuted"
   ],
   "note": "Full statement false (order 3,2,1 loses a member and miscounts; the fifth ascending insertion reads past the array; uninitialised slots are compared). Proved: nothing is invented, nothing is lost from the iteration in the absence of coincidences with uninitialised memory, and ascending histories of up to four numbers are exact."
  },
  {
   "property": "C28",
   "status": "proved",
   "theorems": [
    "C28_total_order",
    "C28_lessthan",
    "C28_notAfter",
    "C28_equal_source",
    "C28_equal_library_refuted",
    "C28_equal_derived_refuted"
   ],
   "note": "Full statement proved; the restriction of the equality clause is shown necessary by two refutations (library locations, derived files)."
  },
  {
   "property": "C29",
   "status": "partial",
   "theorems": [
    "C29_written_numeral_standard",
    "C29_read_back_partial",
    "C29_read_back_iff",
    "C29_read_back_refuted"
   ],
   "note": "Full statement false: a negative int is read back only if it has one significant digit (-12 reads as -8). Exact characterisation proved (C29_read_back_iff), non-negative case proved."
  },
  {
   "property": "C30",
   "status": "partial",
   "theorems": [
    "C30_long_iff",
    "C30_char_iff",
    "C30_string_partial",
    "C30_string_constant_refuted",
    "C30_double_refuted",
    "C30_long_refuted"
   ],
   "note": "Full statement false for longs outside int, most negative ints, doubles (two decimals), and string constants in the constant line format. Exact condition proved for integers and characters; strings proved only when directly followed by '#'."
  },
  {
   "property": "C31",
   "status": "partial",
   "theorems": [
    "C31_constraint_read_back_partial",
    "C31_list_read_back_partial",
    "C31_name_refuted",
    "C31_literal_refuted"
   ],
   "note": "Full statement false: terms named Result/Param/sRef_dump and integer literals that do not survive C29 come back different (refuted with witnesses). Everything else, including whole lists, proved by induction."
  },
  {
   "property": "C32",
   "status": "proved",
   "theorems": [
    "C32_roundtrip",
    "C32_identity",
    "C32_reachable",
    "C32_long_line",
    "C32_long_line_refuted",
    "C32_named_bool_refuted",
    "C32_empty_member_refuted"
   ],
   "note": "Proved: exact content after loading for every non-empty table whose numbers fit in an int, whose texts do not contain their own end markers and whose lines are shorter than 16382 characters; identity when there are no parser-internal markers and no user type called like the boolean type; every table the modelled constructors can build satisfies the conditions on kinds and links. Refutations show the conditions are needed: lines of 16382 and 16383 characters are written but are fatal on loading (C32_long_line); pointers to a user type named like the boolean type come back as pointers to the built-in one. Parameter and field lists are modelled as their text."
  },
  {
   "property": "C33",
   "status": "proved",
   "theorems": [
    "C33_pointer",
    "C33_array",
    "C33_fixed_array",
    "C33_distinct",
    "C33_meaning_unique",
    "C33_meaning_built",
    "C33_meaning_kept",
    "C33_fixed_array_refuted"
   ],
   "note": "Proved for every history of constructions and every answer of the two sharing tests (parameters): asking again gives the same pointer / unspecified-size array type without changing the table, dereferencing gives the element type, distinct element types have distinct pointer types, every type number has exactly one structural meaning and it never changes. The reserved slot of the boolean type (index 57) is not an 'existing' type. C33_fixed_array_refuted: equal fixed-size arrays are new type numbers each time, so 'the same type' is only claimed for pointers and arrays of unspecified size."
  },
  {
   "property": "C34",
   "status": "partial",
   "theorems": [
    "C34_relaxing_flags_partial",
    "C34_relaxquals_exactly_partial",
    "C34_relaxquals_refuted",
    "C34_ignoresigns_refuted",
    "C34_ignorequals_refuted",
    "C34_matchanyintegral_refuted",
    "C34_longintegral_refuted"
   ],
   "note": "Proved for relaxtypes, floatdouble, charint, shortint, longint over all pairs and settings; relaxquals: exact characterisation of the one situation in which it adds an error; refuted for relaxquals (+longint), ignoresigns and ignorequals (arbitrary unsigned integral types, inverted test), matchanyintegral (with relaxtypes). See C50 for ordinary types."
  },
  {
   "property": "C35",
   "status": "partial",
   "theorems": [
    "C35_given_partial",
    "C35_signed_refuted",
    "C35_signed_matches_everything",
    "C35_relaxtypes_refuted"
   ],
   "note": "Proved with relaxtypes off and unless the value is of the arbitrary signed type with matchanyintegral on; refuted in that case (it matches every primitive type) and with relaxtypes."
  },
  {
   "property": "C36",
   "status": "proved",
   "theorems": [
    "C36_dimensions"
   ],
   "note": "Proved for every reachable table, every element type which is not itself an array and every list of dimensions, each given or left open. (The parser applies the dimensions to a fresh 'unknown' type, so the restriction on the element type is met there.)"
  },
  {
   "property": "C37",
   "status": "partial",
   "theorems": [
    "C37_add_partial",
    "C37_remove_partial",
    "C37_directory_dot_add",
    "C37_directory_dot_refuted",
    "C37_clean_partial",
    "C37_clean_unterminated",
    "C37_clean_refuted"
   ],
   "note": "True when no directory name contains a dot or the last component has an extension (C37_add_partial, C37_remove_partial); false for dotted directories such as \"../lib/ansi\" (nothing added; removal yields \".\"). Cleaning \"./x\" returns an unterminated buffer (C37_clean_unterminated)."
  },
  {
   "property": "C38",
   "status": "partial",
   "theorems": [
    "C38_answers_partial",
    "C38_order_matters_iff_partial",
    "C38_exact_length",
    "C38_order_refuted"
   ],
   "note": "Exact: order matters iff there is a limit, one name has exactly that length, the other is longer and they agree up to the limit (C38_order_matters_iff_partial); C38_order_refuted: \"abc\"/\"abcd\" with 3 significant characters."
  },
  {
   "property": "C39",
   "status": "partial",
   "theorems": [
    "C39_length_partial",
    "C39_warning_partial",
    "C39_final_null_partial",
    "C39_octal_refuted",
    "C39_adjacent",
    "C39_adjacent_refuted",
    "C39_octal_value_refuted"
   ],
   "note": "Holds for a single literal in which short octal escapes are not followed by 8 or 9; \"\\18\" and every pair of adjacent literals give a wrong or undefined length, and octal values are wrong (\"\\07\" taken for a null character)."
  },
  {
   "property": "C40",
   "status": "proved",
   "theorems": [
    "C40_cpp_names",
    "C40_reserved_names",
    "C40_any_list",
    "C40_last_entry_refuted"
   ],
   "note": "Exact for both lists in the source (C40_cpp_names, C40_reserved_names). For other lists the last entry is missed exactly for lengths 1, 4-5, 10-13, 22-29, ... (C40_any_list, C40_last_entry_refuted)."
  },
  {
   "property": "C41",
   "status": "proved",
   "theorems": [
    "C41_command_line_left_to_right",
    "C41_options_file_in_order",
    "C41_first_pass",
    "C41_last_occurrence_wins",
    "C41_init_option_refuted",
    "C41_obsolete_flag_refuted",
    "C41_long_directory_refuted",
    "C41_mode_spelling_refuted",
    "C41_argument_as_option_refuted"
   ],
   "note": "Command line and options file as item lists; -i (drops the rest), obsolete flags (table overrun), --Idir, separated mode names and option-like arguments in the first pass are refuted separately and excluded by the well-formedness condition."
  },
  {
   "property": "C42",
   "status": "proved",
   "theorems": [
    "C42_position",
    "C42_line_directive",
    "C42_line_directive_exact",
    "C42_line_after_comment_refuted"
   ],
   "note": "Positions are exact for every legal schedule of reading, marks and synchronisation; after #line n the exact line is given, and it is the expected one when no newline was read since the last synchronisation (the refutation shows that this is needed: a multi-line comment before #line is counted twice)."
  },
  {
   "property": "C43",
   "status": "partial",
   "theorems": [
    "C43_sref_read_back_partial",
    "C43_value_position_refuted",
    "C43_index_refuted"
   ],
   "note": "Full statement false: a value attached to a compound reference is written exactly like one attached to its inner reference; string/double values and multi-digit negative indices do not survive. The rest is proved by induction over references."
  },
  {
   "property": "C44",
   "status": "proved",
   "theorems": [
    "C44_equalities_sound"
   ],
   "note": "Proved for the replacement loop for every direction choice; the simplification that follows it is the subject of C05."
  },
  {
   "property": "C45",
   "status": "proved",
   "theorems": [
    "C45_base_name",
    "C45_has_extension",
    "C45_header_file",
    "C45_c_file",
    "C45_without_extension",
    "C45_leading_dots"
   ],
   "note": "All paths; extensions without a directory separator."
  },
  {
   "property": "C46",
   "status": "proved",
   "theorems": [
    "C46_answers",
    "C46_lookalike",
    "C46_letter_case",
    "C46_symmetric",
    "C46_case_insensitive",
    "C46_no_overrun"
   ],
   "note": "toupper of the C locale; names are NUL-free C strings."
  },
  {
   "property": "C47",
   "status": "proved",
   "theorems": [
    "C47_expansion_fits",
    "C47_merge_fits"
   ],
   "note": "Signed overflow in hexadecimal escapes of 8 and more significant digits is a separate outcome (UB), not excluded."
  },
  {
   "property": "C48",
   "status": "proved",
   "theorems": [
    "C48_lines_in_step",
    "C48_exactly_good_lines",
    "C48_stays_wrong",
    "C48_mixed_continuations_refuted"
   ],
   "note": "Proved for all sequences of good lines, the condition shown exact, and the lasting error of other lines computed; refuted without the condition (a string continued by backslash-newline plus a continuation outside it shifts all later line numbers by two)."
  },
  {
   "property": "C49",
   "status": "proved",
   "theorems": [
    "C49_extent",
    "C49_block_skipped",
    "C49_line_skipped",
    "C49_unterminated",
    "C49_layout_kept",
    "C49_newlines_written",
    "C49_ordinary_blank",
    "C49_annotation_kept",
    "C49_ignore_exactly",
    "C49_nestcomment_dead",
    "C49_nestcomment_refuted",
    "C49_spliced_end_refuted",
    "C49_star_marker_refuted",
    "C49_newline_marker_refuted",
    "C49_commentchar_default_refuted"
   ],
   "note": "Extent (both directions), layout, blanking, annotation text and suppression triggers proved for all texts; refutations show the preconditions needed (spliced */, marker * or newline) and two code defects (nestcomment test never true; commentchar without a character)."
  },
  {
   "property": "C50",
   "status": "proved",
   "theorems": [
    "C50_ordinary_types",
    "C50_no_flags"
   ],
   "note": "All nine flags; relaxquals except where a short is expected and an int given (C34_relaxquals_refuted shows the exception is real)."
  },
  {
   "property": "C51",
   "status": "proved",
   "theorems": [
    "C51_expected"
   ],
   "note": "With relaxtypes off; C35_relaxtypes_refuted shows that is needed."
  },
  {
   "property": "C52",
   "status": "proved",
   "theorems": [
    "C52_relaxquals_widening",
    "C52_relaxquals_safe"
   ],
   "note": "Proved: exact characterisation of acceptance over all pairs of ordinary primitive types, and value preservation in every implementation described by the ranking constraints of the C standard (parameters of the specification)."
  },
  {
   "property": "C53",
   "status": "partial",
   "theorems": [
    "C53_equivalences_partial",
    "C53_relaxtypes_partial",
    "C53_longint_refuted",
    "C53_longint_exactly_partial"
   ],
   "note": "Proved for charint, shortint, floatdouble, ignoresigns and relaxtypes; refuted for longint, with the exact condition under which it works."
  },
  {
   "property": "C54",
   "status": "proved",
   "theorems": [
    "C54_deep",
    "C54_arbitrary_refuted"
   ],
   "note": "For ordinary types; C54_arbitrary_refuted shows the restriction is needed."
  },
  {
   "property": "C55",
   "status": "proved",
   "theorems": [
    "C55_unparenthesised"
   ],
   "note": "Proved for every legal declarator without parentheses, in declarations, abstract declarators and old-style headers. Parameter lists are opaque; the base type is not itself a pointer, array or function type."
  },
  {
   "property": "C56",
   "status": "proved",
   "theorems": [
    "C56_function_pointer",
    "C56_sizes_lost",
    "C56_sizes_refuted"
   ],
   "note": "Proved for every number of stars inside and outside the parentheses and any number of unsized array suffixes. C56_sizes_lost / C56_sizes_refuted: with sized arrays of function pointers every size is forgotten (int (*x[3])(void) becomes an array of unspecified size), so the statement is limited to suffixes without size."
  },
  {
   "property": "C57",
   "status": "proved",
   "theorems": [
    "C57_function_returning_function",
    "C57_pointers_lost"
   ],
   "note": "Proved for every number of stars on the final result. The type stored is 'function returning function' (C57_pointers_lost: the pointer is always dropped, however many stars were written), which agrees with C only as far as calling goes, because splint lets functions and pointers to functions be called alike."
  },
  {
   "property": "C58",
   "status": "partial",
   "theorems": [
    "C58_declared_partial",
    "C58_parenthesised_lost",
    "C58_parenthesised_refuted",
    "C58_pointer_to_array",
    "C58_pointer_to_array_refuted"
   ],
   "note": "False in general; the provable part is C58_declared_partial (declarators without parentheses and function pointers). Refuted: anything in parentheses not followed by a suffix loses its structure (int (*x), int (x[5]), int (x(p)) are all int: C58_parenthesised_lost for every inner declarator), a pointer to an array becomes an array of pointers (C58_pointer_to_array), sizes of arrays of function pointers are lost (C56_sizes_refuted)."
  },
  {
   "property": "C59",
   "status": "proved",
   "theorems": [
    "C59_modes_ordered",
    "C59_all_flags_ordered",
    "C59_modes_differ"
   ],
   "note": "Order proved on every mode flag whatever the settings before, and on every flag of the table from the same settings; flags which allow something (boolint, charint, relaxquals, ...) are listed in the specification and compared the other way round."
  },
  {
   "property": "C60",
   "status": "partial",
   "theorems": [
    "C60_no_missed_fall_off_partial",
    "C60_label_in_switch_refuted",
    "C60_nested_case_refuted",
    "C60_hidden_label_refuted"
   ],
   "note": "Proved for functions with no label inside a switch, with the cases of each switch directly in its body (blocks allowed), and with no label or case hidden in a statement control cannot reach from the statement before it. Refuted without each of these: a label in a switch after a return, a case nested in an if before the first case, a label inside a block whose unreachable-code message is suppressed. See C64 for the label-free part."
  },
  {
   "property": "C61",
   "status": "proved",
   "theorems": [
    "C61_exact",
    "C61_comma_refuted",
    "C61_do_refuted",
    "C61_continue_refuted"
   ],
   "note": "Structured code: no labels, switch, do, infinite loops, comma; C61_comma_refuted, C61_do_refuted and C61_continue_refuted show that outside this the message can be wrong (a false alarm)."
  },
  {
   "property": "C62",
   "status": "partial",
   "theorems": [
    "C62_unreachable_sound_partial",
    "C62_label_refuted"
   ],
   "note": "Proved when no label or case stands inside the code in question; refuted with a label in a block after a return."
  },
  {
   "property": "C63",
   "status": "proved",
   "theorems": [
    "C63_no_missed_fall_through",
    "C63_label_refuted"
   ],
   "note": "C63_label_refuted shows that the exception for labels matters: a label before the case silences the message though control falls through."
  },
  {
   "property": "C64",
   "status": "proved",
   "theorems": [
    "C64_no_missed_fall_off"
   ],
   "note": "The label-free part of C60."
  },
  {
   "property": "C65",
   "status": "proved",
   "theorems": [
    "C65_guards_sound"
   ],
   "note": "Conditions of other forms are the subject of C67, which is refuted for several of them."
  },
  {
   "property": "C66",
   "status": "proved",
   "theorems": [
    "C66_conjunction",
    "C66_negation",
    "C66_spelling"
   ],
   "note": ""
  },
  {
   "property": "C67",
   "status": "partial",
   "theorems": [
    "C67_values_partial",
    "C67_compared_refuted",
    "C67_index_refuted",
    "C67_element_refuted",
    "C67_constant_refuted",
    "C67_comma_refuted",
    "C67_comma_value_refuted",
    "C67_conditional_refuted",
    "C67_conditional_ref_refuted",
    "C67_bitor_refuted",
    "C67_complement_refuted",
    "C67_pointer_sum_refuted",
    "C67_assigned_refuted"
   ],
   "note": "Proved only that conditions made of arithmetic, relational operators and casts of numbers lead to no conclusion (and C65 for the usual null tests). Refuted for: comparing a test with 0; elements with variable index; a[1] against *a; constants of unknown value; comma expressions (twice); conditional expressions (twice); bitwise operators; pointer sums; assignment in the second operand of &&."
  },
  {
   "property": "C68",
   "status": "partial",
   "theorems": [
    "C68_for_partial",
    "C68_for_refuted"
   ],
   "note": "Proved in one direction, and both when the condition is not a bare pointer; refuted for the bare pointer, where for ( ; p; ) does not guard p."
  },
  {
   "property": "C69",
   "status": "partial",
   "theorems": [
    "C69_no_null_dereference_partial",
    "C69_break_refuted",
    "C69_continue_refuted",
    "C69_do_break_refuted",
    "C69_second_round_refuted",
    "C69_or_exit_refuted",
    "C69_assigned_branch_refuted",
    "C69_mark_refuted",
    "C69_constant_refuted",
    "C69_loopexec_refuted"
   ],
   "note": "Proved for bodies whose loops assign no pointers and, if left by break, compare none; whose do loops have no break or continue of their own; without a call that does not return on the right of a || comparing pointers; and whose branches assign a pointer compared by the condition only if they do not end normally, or have no branches inside and the other branch may end normally. Refuted, each by a program, where one of these is dropped, for null constants of abstract types, and with the flag whileloopexec."
  },
  {
   "property": "C70",
   "status": "proved",
   "theorems": [
    "C70_tested_dereference"
   ],
   "note": ""
  },
  {
   "property": "C71",
   "status": "proved",
   "theorems": [
    "C71_straight_line_exact"
   ],
   "note": ""
  },
  {
   "property": "C72",
   "status": "partial",
   "theorems": [
    "C72_no_message_no_undefined_use_partial",
    "C72_case_without_assignment_refuted",
    "C72_switch_on_undefined_variable_refuted",
    "C72_break_before_return_refuted",
    "C72_assignment_after_and_refuted",
    "C72_for_increment_refuted",
    "C72_for_test_refuted",
    "C72_continue_refuted",
    "C72_break_in_do_refuted",
    "C72_break_in_obvious_loop_refuted",
    "C72_comma_refuted",
    "C72_loops_taken_to_be_executed_refuted"
   ],
   "note": "Proved with whileloopexec and forloopexec off for bodies in which operands do not interfere, the right of && assigns nothing that may be undefined, do loops have no break or continue of their own, the increments of for loops assign only variables in use by then, loops taken to be executed really are, switches do not test a mere variable, and what a switch assigns is mentioned in every case after which control may be after the switch, with breaks only at the ends of cases. Refuted, each by a program, where one of these is dropped."
  },
  {
   "property": "C73",
   "status": "partial",
   "theorems": [
    "C73_complaints_are_real_partial",
    "C73_return_before_else_refuted",
    "C73_endless_loop_refuted"
   ],
   "note": "Proved for bodies of expressions without conditional evaluation, if, while and do whose tests are calls, where no statement follows one never left at its end, and a branch never left at its end which has an else mentions what the else assigns. Refuted where the else alone assigns the variable, and for endless loops."
  },
  {
   "property": "C74",
   "status": "partial",
   "theorems": [
    "C74_obvious_loop_begins_partial",
    "C74_comparison_refuted",
    "C74_undefined_use_after_loop_refuted"
   ],
   "note": "Proved for !=, <= and >=; refuted for ==, < and >, with a use of an undefined variable that goes unreported in consequence."
  },
  {
   "property": "C75",
   "status": "proved",
   "theorems": [
    "C75_straight_line_code"
   ],
   "note": ""
  },
  {
   "property": "C76",
   "status": "partial",
   "theorems": [
    "C76_specifiers_denote_partial",
    "C76_char_unsigned_refuted",
    "C76_double_long_refuted",
    "C76_char_signed_refuted",
    "C76_signed_char_refuted"
   ],
   "note": "Proved: every list C allows is accepted silently and has the right type if and only if neither char nor double stands before another specifier. Refuted for char unsigned, double long and char signed; signed char is not kept apart from char."
  },
  {
   "property": "C77",
   "status": "proved",
   "theorems": [
    "C77_integers_any_order"
   ],
   "note": ""
  },
  {
   "property": "C78",
   "status": "partial",
   "theorems": [
    "C78_bad_specifiers_reported_partial",
    "C78_long_long_long_refuted",
    "C78_int_int_refuted",
    "C78_signed_unsigned_refuted",
    "C78_long_float_refuted",
    "C78_float_char_refuted",
    "C78_double_short_refuted",
    "C78_unsigned_enum_refuted",
    "C78_ignorequals_refuted"
   ],
   "note": "Proved for lists of int, long, short and unsigned with at most one int and two long, with ignorequals off. Refuted for long long long, int int, signed unsigned, long float, float char, double short, and with ignorequals on."
  },
  {
   "property": "C79",
   "status": "partial",
   "theorems": [
    "C79_printf_number_partial",
    "C79_flag_order_refuted",
    "C79_error_argument_refuted"
   ],
   "note": "Proved for formats in which no other flag stands behind a flag 0, and arguments without errors; refuted for %0-*d, and for an argument with an error for a star."
  },
  {
   "property": "C80",
   "status": "partial",
   "theorems": [
    "C80_printf_types_partial",
    "C80_long_double_refuted",
    "C80_long_count_refuted",
    "C80_short_count_refuted"
   ],
   "note": "Proved for formats in which no other flag stands behind a flag 0, n has no modifier and l does not stand before conversions of doubles; refuted for %lf, %ln and %hn."
  },
  {
   "property": "C81",
   "status": "partial",
   "theorems": [
    "C81_any_format_partial",
    "C81_percent_at_end_refuted",
    "C81_open_set_overrun_refuted",
    "C81_open_set_fatal_refuted",
    "C81_width_m_refuted"
   ],
   "note": "Proved for formats without [ and m whose last character cannot stand inside of a directive. Refuted for 100% and %[ (reads behind the end of the text), %[abc (fatal error) and %5m (variable without value)."
  },
  {
   "property": "C82",
   "status": "partial",
   "theorems": [
    "C82_scanf_number_partial",
    "C82_suppressed_set_refuted",
    "C82_negated_bracket_refuted"
   ],
   "note": "Proved for formats in which suppressed sets, and negated sets with a closing bracket, have no percent sign; refuted for %*[^%d] and %[^]%d]."
  },
  {
   "property": "C83",
   "status": "partial",
   "theorems": [
    "C83_scanf_types_partial",
    "C83_pointer_refuted",
    "C83_char_refuted",
    "C83_long_count_refuted"
   ],
   "note": "Proved for formats as in C82 without %p, without modifiers of n and without the modifier hh; refuted for %p, %hhd and %ln."
  },
  {
   "property": "C84",
   "status": "proved",
   "theorems": [
    "C84_hidden_representations",
    "C84_forwarddecl_refuted"
   ],
   "note": "Without forwarddecl; with it refuted."
  },
  {
   "property": "C85",
   "status": "partial",
   "theorems": [
    "C85_abstract_types_partial",
    "C85_array_refuted",
    "C85_boolean_refuted",
    "C85_forwarddecl_refuted"
   ],
   "note": "Proved for types without arrays of abstract types, when the number of a type name is not the index of a boolean type, without forwarddecl. Refuted: an array of an abstract type for void *; a boolean for an abstract type; forwarddecl."
  },
  {
   "property": "C86",
   "status": "partial",
   "theorems": [
    "C86_exact_partial",
    "C86_unnamed_structures_refuted",
    "C86_void_pointers_refuted",
    "C86_fixed_array_refuted",
    "C86_parameters_refuted",
    "C86_void_name_refuted",
    "C86_pointer_to_array_refuted",
    "C86_array_of_functions_refuted",
    "C86_pointer_to_function_pointer_refuted"
   ],
   "note": "Proved for types without pointers to void, arrays and functions inside of other types, without names for void, and with relaxquals for types without functions and arrays of known size. Refuted in seven ways, e.g. char ** accepted for void **, int[3] for long *, a pointer to an array for a pointer to a pointer."
  },
  {
   "property": "C87",
   "status": "proved",
   "theorems": [
    "C87_same_type"
   ],
   "note": ""
  },
  {
   "property": "C88",
   "status": "proved",
   "theorems": [
    "C88_comparison_ends",
    "C88_cycle_refuted"
   ],
   "note": "Refuted for typedefs that stand for each other, which C does not allow."
  },
  {
   "property": "C89",
   "status": "partial",
   "theorems": [
    "C89_redeclaration_partial",
    "C89_array_size_refuted",
    "C89_void_pointer_refuted",
    "C89_function_pointer_refuted"
   ],
   "note": "Proved for types without pointers to void and arrays, when not one is a function and the other a pointer. Refuted for these: int a[3] and int a[4], void *p and char *p, int f () and int ( *f) () are accepted together."
  },
  {
   "property": "C90",
   "status": "proved",
   "theorems": [
    "C90_known_aliases_real"
   ],
   "note": ""
  },
  {
   "property": "C91",
   "status": "partial",
   "theorems": [
    "C91_same_storage_known_partial",
    "C91_pairs_known_partial",
    "C91_three_variables_refuted",
    "C91_self_assignment_refuted"
   ],
   "note": "Proved if no variable is assigned to itself and only variables are copied whose storage was not copied from another variable since they were assigned, and, both ways, if no storage is held by three variables at a time. Refuted otherwise: q = p; r = p; p = q; and p = p;."
  },
  {
   "property": "C92",
   "status": "partial",
   "theorems": [
    "C92_bad_uses_reported_partial",
    "C92_two_variables_partial",
    "C92_three_variables_refuted",
    "C92_self_assignment_refuted"
   ],
   "note": "Proved for the code of C91, in particular for two variables without self-assignment. Refuted with three variables, and with a self-assignment: use after release with no message."
  },
  {
   "property": "C93",
   "status": "proved",
   "theorems": [
    "C93_no_false_use"
   ],
   "note": ""
  },
  {
   "property": "C94",
   "status": "proved",
   "theorems": [
    "C94_leaks_reported"
   ],
   "note": ""
  },
  {
   "property": "C95",
   "status": "partial",
   "theorems": [
    "C95_block_leaks_reported_partial",
    "C95_aliased_refuted"
   ],
   "note": "Proved for blocks which copy no variables. Refuted with a copy: the two variables excuse each other."
  },
  {
   "property": "C96",
   "status": "partial",
   "theorems": [
    "C96_silent_exactly_if_good_partial",
    "C96_two_variables_partial",
    "C96_assigned_once_partial",
    "C96_false_alarm_refuted",
    "C96_false_leak_refuted"
   ],
   "note": "Proved in both directions as long as no storage is held by three variables at a time, without self-assignment; no false alarms also for code which assigns each variable once. Refuted with three variables in both directions (false leak, false alarm about dependent storage; and C92)."
  },
  {
   "property": "C97",
   "status": "partial",
   "theorems": [
    "C97_branches_safe_partial",
    "C97_loops_safe_partial",
    "C97_loop_copies_refuted",
    "C97_do_loop_refuted",
    "C97_released_kept_partial"
   ],
   "note": "Proved without loops for ways along which only variables are copied that are up to date (C91), and with while loops for functions which copy no variables. Refuted otherwise: a copy in use across a while loop, and a release in a do loop."
  },
  {
   "property": "C98",
   "status": "partial",
   "theorems": [
    "C98_no_false_use_partial",
    "C98_returning_branch_refuted"
   ],
   "note": "Proved for functions without returns in branches, with any copies and loops. Refuted with a return in a branch which copies a variable: the copy is remembered after the branch."
  },
  {
   "property": "C99",
   "status": "partial",
   "theorems": [
    "C99_branches_leak_free_partial",
    "C99_owner_kept_partial",
    "C99_copies_refuted",
    "C99_undefined_refuted",
    "C99_error_kind_refuted",
    "C99_do_loop_refuted"
   ],
   "note": "Proved for functions which copy no variables, create storage for each variable where it is declared, and have no do loops and no statements after a return. Refuted otherwise: copies in two branches, variables with storage in one branch only, a variable whose state was found inconsistent, and do loops."
  },
  {
   "property": "C100",
   "status": "proved",
   "theorems": [
    "C100_exact_without_copies",
    "C100_unreachable_refuted"
   ],
   "note": ""
  },
  {
   "property": "C101",
   "status": "partial",
   "theorems": [
    "C101_silent_no_conflict_partial",
    "C101_call_on_right_refuted",
    "C101_subscript_refuted",
    "C101_pointer_refuted",
    "C101_comma_subscript_refuted",
    "C101_global_array_refuted",
    "C101_chosen_argument_refuted",
    "C101_unconstrained_refuted"
   ],
   "note": "Proved for expressions in which right operands are not themselves calls, left operands call no function which modifies what its argument points to, subscripts do not modify elements of their array and are no comma or conditional expressions, arrays are given to functions by name, and functions have modifies clauses and no arrays in their globals lists. Each restriction is shown to be needed by a refutation."
  },
  {
   "property": "C102",
   "status": "partial",
   "theorems": [
    "C102_order_irrelevant_partial",
    "C102_call_on_right_refuted",
    "C102_subscript_refuted"
   ],
   "note": "Proved for the same expressions as C101, when functions keep to their globals lists and modifies clauses. Refuted for g + f () where f modifies g and for a[a[0]++] = 7."
  },
  {
   "property": "C103",
   "status": "partial",
   "theorems": [
    "C103_report_conflict_partial",
    "C103_exact_partial",
    "C103_comma_refuted",
    "C103_call_in_operand_refuted",
    "C103_unconstrained_refuted",
    "C103_comma_subscript_refuted"
   ],
   "note": "Proved for expressions with constants or variables as subscripts, right sides of = without sequence points (or a call itself), and arrays named as arguments where functions modify through pointers, apart from messages about unconstrained functions. Together with C101 this gives exactness. Refuted for x = (x++, 3), x = f () + 1 and, with evalorderuncon, g = f ()."
  },
  {
   "property": "C104",
   "status": "partial",
   "theorems": [
    "C104_silent_keeps_clause_partial",
    "C104_own_successor_refuted",
    "C104_stored_pointer_refuted",
    "C104_address_of_parameter_refuted",
    "C104_address_of_pointer_refuted",
    "C104_address_given_to_function_refuted",
    "C104_second_time_refuted",
    "C104_unconstrained_refuted",
    "C104_callee_stores_pointer_refuted",
    "C104_search_limit_refuted",
    "C104_unknown_global_refuted",
    "C104_index_ignored_refuted"
   ],
   "note": "Proved for bodies in which pointers are stored only in local pointer variables and parameters (never from a place which starts at the same variable, nor within loops), places have at most seven steps, addresses of variables are taken only if they hold numbers, globals are checked, the flags modglobs and moduncon are set (or every called function has a clause), and called functions store no pointers. Each restriction is shown to be needed by a refutation."
  },
  {
   "property": "C105",
   "status": "partial",
   "theorems": [
    "C105_message_is_true_partial",
    "C105_global_alias_refuted",
    "C105_address_of_parameter_refuted",
    "C105_member_of_parameter_refuted",
    "C105_element_of_address_refuted",
    "C105_aliased_parameters_refuted"
   ],
   "note": "Proved for straight-line bodies as in C104 in which either no addresses are taken or no elements are fetched, addresses are not taken of parameters or members of variables, and called functions modify what their parameters point to, when no two ways lead to the same object at entry: one statement of the body stores only where it must not, or calls a function one of whose listed items stands only for what must not be modified. Refuted for g = h; g = NULL, addresses of parameters and their members, elements of addresses, and parameters with the same value."
  },
  {
   "property": "C106",
   "status": "partial",
   "theorems": [
    "C106_reported_items_untouched_partial",
    "C106_unreported_items_modified_partial",
    "C106_modified_below_refuted",
    "C106_aliased_parameters_refuted",
    "C106_branch_refuted",
    "C106_call_refuted"
   ],
   "note": "The first half is proved for bodies as in C105 with branches and loops but without calls, the second for straight-line bodies without calls. Refuted for calls (both halves), parameters with the same value, and branches."
  },
  {
   "property": "C107",
   "status": "partial",
   "theorems": [
    "C107_call_replaced_partial",
    "C107_plain_replaced_partial",
    "C107_divide_refuted",
    "C107_arrow_refuted",
    "C107_number_refuted",
    "C107_wide_refuted",
    "C107_dollar_refuted",
    "C107_dot_refuted"
   ],
   "note": "Proved for definitions without comments, @ and ##, in which every # stands before a parameter, arguments whose literals are closed, and neighbours other than / and *, - and >, a word ending with $ and what continues it, L and a string made by #, and . and a digit. Each exception is shown to be needed by a refutation; parameters within numbers are replaced too. The part not proved: definitions with ## (see C113), rest arguments."
  },
  {
   "property": "C108",
   "status": "partial",
   "theorems": [
    "C108_string_spelled_partial",
    "C108_not_ascii_refuted",
    "C108_control_refuted",
    "C108_at_sign_refuted"
   ],
   "note": "Proved for arguments in which literals are closed, without comments, @ and backslashes outside of literals, with printing ASCII characters apart from white space. Refuted for characters outside of ASCII and control characters (more bytes are stored than reserved) and for @."
  },
  {
   "property": "C109",
   "status": "partial",
   "theorems": [
    "C109_rescan_partial",
    "C109_joined_refuted"
   ],
   "note": "Proved for the texts written one after another, for macros without parameters whose definitions have no comments, @ and #. Refuted for the text as a whole: two tokens written one after another can join when the output is read again. Macros with parameters are not covered."
  },
  {
   "property": "C110",
   "status": "proved",
   "theorems": [
    "C110_arguments_as_written",
    "C110_nothing_lost"
   ],
   "note": ""
  },
  {
   "property": "C111",
   "status": "partial",
   "theorems": [
    "C111_count_reported_partial",
    "C111_empty_argument_refuted"
   ],
   "note": "Proved apart from calls with nothing between the parentheses of macros with one parameter. Refuted for these: f() is reported, f( ) is not."
  },
  {
   "property": "C112",
   "status": "partial",
   "theorems": [
    "C112_hash_reported_partial",
    "C112_paste_first_reported_partial",
    "C112_paste_last_refuted"
   ],
   "note": "Proved for definitions without ## (both directions, for # ) and for ## at the front. Refuted for ## at the end, if white space follows it."
  },
  {
   "property": "C113",
   "status": "partial",
   "theorems": [
    "C113_paste_joins_partial",
    "C113_marker_refuted",
    "C113_next_argument_refuted",
    "C113_minus_refuted"
   ],
   "note": "Proved for definitions consisting of two parameters and ##, if the second argument has no mark @- and the first does not end with a minus sign. Refuted for an argument that begins with a marker for a space (from another macro), for a mark in the argument behind the one that is joined (undefined behaviour), and for a minus sign behind a newline. Missing: ## in longer definitions."
  },
  {
   "property": "C114",
   "status": "partial",
   "theorems": [
    "C114_noeffect_partial",
    "C114_noeffectuncon_partial",
    "C114_silent_effect_partial",
    "C114_conditional_argument_refuted",
    "C114_result_in_parentheses_refuted"
   ],
   "note": "Proved if functions are given arrays by name (not through a conditional or comma), for functions that keep to their declarations; the converse if what a function modifies through an argument is an array. Refuted for a conditional argument; results thrown away are only reported if the statement is a call outermost."
  },
  {
   "property": "C115",
   "status": "partial",
   "theorems": [
    "C115_infinite_loop_partial",
    "C115_all_loops_partial",
    "C115_jumps_refuted",
    "C115_switch_refuted",
    "C115_global_array_refuted",
    "C115_conditional_argument_refuted",
    "C115_comma_subscript_refuted"
   ],
   "note": "Proved for bodies without break, return and switch, subscripts that are no commas or conditionals, arrays given by name, and conditions calling no functions with arrays in their globals lists. Each exception is shown to be needed by a refutation."
  },
  {
   "property": "C116",
   "status": "partial",
   "theorems": [
    "C116_silent_loop_partial",
    "C116_other_loops_refuted",
    "C116_comma_subscript_refuted"
   ],
   "note": "Proved for while loops in which subscripts are constants or variables, what is assigned has no sequence points inside or is a call, and what functions modify through a pointer is an array given by name. Refuted for do and for loops, which are never checked, and for comma expressions as subscripts."
  },
  {
   "property": "C117",
   "status": "partial",
   "theorems": [
    "C117_shift_partial",
    "C117_variable_partial",
    "C117_promotion_refuted",
    "C117_literal_refuted",
    "C117_enum_refuted",
    "C117_cast_refuted",
    "C117_wrapped_refuted",
    "C117_bitwise_refuted",
    "C117_exact_refuted"
   ],
   "note": "Proved with shiftnegative, shiftimplementation and bitwiseops on, if arithmetic on an unsigned operand is carried out in an unsigned type, without enumerated types and if no constant part wraps; exact for variables as right operands. Refuted for unsigned short operands, long constants beside unsigned ones, enumerated types, casts, wrapping constants, and without bitwiseops; not exact for bool and character constants."
  },
  {
   "property": "C118",
   "status": "partial",
   "theorems": [
    "C118_bits_partial",
    "C118_right_refuted",
    "C118_promotion_refuted"
   ],
   "note": "Proved under the conditions of C117 for the left operand, and for the right operand if the left one is not constant. Refuted for constant left operands (5 | x) and for unsigned short operands."
  },
  {
   "property": "C119",
   "status": "partial",
   "theorems": [
    "C119_type_partial",
    "C119_mixed_refuted",
    "C119_real_refuted",
    "C119_short_refuted",
    "C119_literal_refuted",
    "C119_remainder_refuted"
   ],
   "note": "Proved for expressions over int, long and long long (or all unsigned) without casts, comparisons and the constant 0. Refuted for int with unsigned, long with double, unsigned short, long constants, and remainders of mixed types."
  },
  {
   "property": "C120",
   "status": "partial",
   "theorems": [
    "C120_same_partial",
    "C120_variable_partial",
    "C120_left_partial",
    "C120_meaningful_refuted",
    "C120_left_refuted",
    "C120_signed_refuted"
   ],
   "note": "Proved for < and >= with a constant on the right and <= with a constant on the left, if arithmetic on an unsigned operand is carried out in an unsigned type; exact for a variable and the constant 0. Refuted: u <= 0, 0 < u and 0 >= u are reported though they depend on u; 0 > u and i < 0u are not reported though always false."
  },
  {
   "property": "C121",
   "status": "partial",
   "theorems": [
    "C121_constraints_partial",
    "C121_comparison_partial",
    "C121_quiet_partial",
    "C121_minus_refuted",
    "C121_zero_refuted",
    "C121_real_refuted",
    "C121_strictops_refuted",
    "C121_false_refuted"
   ],
   "note": "Proved with strictops, type, boolops and ptrnumcompare on, apart from: an integer minus a pointer, arithmetic on a real and an integer, pointers compared by order with integers, and pointers compared with integers in which 0 is an operand. Each is needed. + - * / and signs on numbers other than char and bool never lead to messages, under any flags. Refuted without strictops; valid expressions reported: 1 + a (array), p - q, 0 == p, ~0 + i."
  },
  {
   "property": "C122",
   "status": "partial",
   "theorems": [
    "C122_null_partial",
    "C122_right_refuted",
    "C122_zero_refuted",
    "C122_plus_zero_refuted"
   ],
   "note": "Proved for a variable plus or minus an integer expression without the constant 0. Refuted: i + p with a null p is accepted, 0l + p is reported for a p that is not null, and p + 0 is not seen as pointer arithmetic."
  },
  {
   "property": "C123",
   "status": "partial",
   "theorems": [
    "C123_literal_partial",
    "C123_short_refuted",
    "C123_int_refuted"
   ],
   "note": "Proved for types of the rank of int or more and constants that fit an int. Refuted for short, and for constants that do not fit an int."
  },
  {
   "property": "C124",
   "status": "partial",
   "theorems": [
    "C124_known_partial",
    "C124_complete_partial",
    "C124_wrap_refuted",
    "C124_overflow_refuted",
    "C124_char_refuted"
   ],
   "note": "Proved for values that need no reduction to their type; complete for constants other than 0 combined by + - * / and signs. Refuted: values are not reduced (1u - 2u, (char) 300), splint overflows its own long for valid unsigned long expressions, and the minus of a character constant is an internal bug with charint."
  },
  {
   "property": "C125",
   "status": "partial",
   "theorems": [
    "C125_access_has_a_reason_partial",
    "C125_a_reason_gives_access_partial",
    "C125_same_name_refuted",
    "C125_constants_refuted",
    "C125_include_in_function_refuted",
    "C125_declarations_refuted",
    "C125_file_name_refuted"
   ],
   "note": "Proved in both directions for files, functions, macros and iterators; the second direction without noaccess comments for the type. Not for declarations of functions. Refuted: files of the same name in other directories, constants and iterators named like a type, files included in functions, declarations of functions, and accessfile before another file is entered."
  },
  {
   "property": "C126",
   "status": "partial",
   "theorems": [
    "C126_access_comment_partial",
    "C126_noaccess_comment_partial",
    "C126_noaccess_access_refuted",
    "C126_early_noaccess_refuted",
    "C126_iterator_refuted"
   ],
   "note": "Proved for an access comment with no earlier noaccess comment in force, and for a noaccess comment where the type is accessible, outside declarations of functions (and iterators, for noaccess). Refuted: noaccess followed by access, noaccess for a type that is not accessible, noaccess in an iterator."
  },
  {
   "property": "C127",
   "status": "partial",
   "theorems": [
    "C127_include_keeps_access_partial",
    "C127_include_gives_no_access_partial",
    "C127_noaccess_forgotten_refuted",
    "C127_access_forgotten_refuted",
    "C127_comment_in_header_refuted"
   ],
   "note": "Proved with accessmodule for types without noaccess comments (kept), and for types never refused and not named like the file (nothing gained). Refuted: noaccess comments are forgotten, access comments are forgotten without accessmodule, access comments last for other files of the same name."
  },
  {
   "property": "C128",
   "status": "partial",
   "theorems": [
    "C128_silent_cast_partial",
    "C128_message_is_true",
    "C128_casts_are_checked",
    "C128_hidden_pointer_refuted",
    "C128_access_to_another_refuted",
    "C128_same_type_refuted"
   ],
   "note": "Messages are proved true for all types; silence is proved to mean no crossing for non-zero expressions, without voidabstract, if no pointer is hidden behind a type name and the written names themselves are not accessible. Refuted: names for pointers to abstract types, access to a type defined by another abstract one, casts to the same pointer type reported."
  },
  {
   "property": "C129",
   "status": "partial",
   "theorems": [
    "C129_all_names_read_partial",
    "C129_newline_refuted",
    "C129_blank_before_comma_refuted"
   ],
   "note": "Proved for names separated by a comma or blank followed by any white space. Refuted for newlines and tabs after a name, and for a blank before a comma."
  },
  {
   "property": "C130",
   "status": "partial",
   "theorems": [
    "C130_silence_covers",
    "C130_exact_partial",
    "C130_once",
    "C130_same_value_refuted",
    "C130_not_a_name_refuted",
    "C130_inner_default_refuted"
   ],
   "note": "Silence is proved to mean that every member has a case (no restriction); the message is proved exact, with its text, where all labels are names standing directly in the switch and a label with the value of a member is its name. Refuted: members of the same value, labels which are no names, labels inside of other statements."
  },
  {
   "property": "C131",
   "status": "partial",
   "theorems": [
    "C131_duplicates_true",
    "C131_default_true",
    "C131_exact_partial",
    "C131_default_exact_partial",
    "C131_silence_partial",
    "C131_integers_refuted",
    "C131_same_value_refuted",
    "C131_inner_refuted"
   ],
   "note": "Messages are proved true (no restriction); one message for each repetition is proved where all labels are names standing directly in a switch over an enumerated type. Refuted: repeated integers, members of the same value, labels inside of other statements."
  },
  {
   "property": "C132",
   "status": "partial",
   "theorems": [
    "C132_names_exact_partial",
    "C132_number_refuted",
    "C132_inner_refuted"
   ],
   "note": "Proved exact for names standing directly in the switch. Refuted: numbers, and names inside of other statements."
  },
  {
   "property": "C133",
   "status": "partial",
   "theorems": [
    "C133_silence_partial",
    "C133_said_partial",
    "C133_hidden_refuted",
    "C133_declaration_refuted",
    "C133_empty_refuted"
   ],
   "note": "Proved in both directions, silence without declarations of types, messages without empty blocks and declarations of variables without initial value. Refuted: two declarations of types hide a statement, a declared variable is taken for a statement, an empty switch is reported."
  },
  {
   "property": "C134",
   "status": "partial",
   "theorems": [
    "C134_members_partial",
    "C134_other_types",
    "C134_exact_partial",
    "C134_other_types_exact_partial",
    "C134_other_value_refuted"
   ],
   "note": "Proved for integers and for the values of members; exact for switches whose labels are names standing directly in them. Refuted: a value which is that of no member."
  },
  {
   "property": "C135",
   "status": "partial",
   "theorems": [
    "C135_silence_no_access_beyond_end_partial",
    "C135_negative_index_refuted",
    "C135_copied_then_changed_refuted",
    "C135_body_of_if_refuted",
    "C135_loop_refuted",
    "C135_check_after_use_refuted",
    "C135_may_return_refuted",
    "C135_nested_difference_refuted",
    "C135_constant_on_the_left_refuted",
    "C135_alternatives_refuted"
   ],
   "note": "Proved for straight-line code in which a variable is not assigned once it was mentioned, for upper ends, indices being a variable or number plus and minus numbers. Refuted: negative indices, variables copied then changed, assignments in the body of an if, all rounds of a loop but the first, a check made after the use, a body that only may return, differences of differences, constants on the left of a test, alternatives."
  },
  {
   "property": "C136",
   "status": "partial",
   "theorems": [
    "C136_message_about_numbers_true_partial",
    "C136_unreachable_refuted",
    "C136_body_of_if_refuted"
   ],
   "note": "Proved for the same code as C135. Refuted: code never executed, assignments in the body of an if."
  },
  {
   "property": "C137",
   "status": "partial",
   "theorems": [
    "C137_constant_stores_exact_partial",
    "C137_read_refuted",
    "C137_read_after_write_refuted",
    "C137_if_else_refuted",
    "C137_early_return_refuted",
    "C137_known_bound_refuted"
   ],
   "note": "Proved, as an equivalence, for stores at indices which are numbers. Refuted: reads of elements not written in the function, reads after a write at a variable index, different values in two branches, an early return before an access at a computed index, a test against a variable of known value."
  },
  {
   "property": "C138",
   "status": "proved",
   "theorems": [
    "C138_guarded_store_exact",
    "C138_guarded_store_message",
    "C138_wide_numbers_refuted"
   ],
   "note": "The bound on the numbers is needed: they are cut to 32 bits (refuted without)."
  },
  {
   "property": "C139",
   "status": "partial",
   "theorems": [
    "C139_innermost",
    "C139_case_declaration_refuted"
   ],
   "note": "Proved for bodies in which switches have a case and declare nothing directly in their own block. Refuted for variables declared after a case label: they are unknown in the following cases."
  },
  {
   "property": "C140",
   "status": "partial",
   "theorems": [
    "C140_unused",
    "C140_order",
    "C140_switch_block_refuted",
    "C140_switch_shadow_refuted",
    "C140_empty_switch_refuted"
   ],
   "note": "Proved for bodies in which switches have a case and declare nothing directly in their own block. Refuted: variables declared in the block of a switch are never reported; an outer variable counts as used if one of its name declared in the block of a switch is used; a switch without cases in a case of another one makes used variables reported."
  },
  {
   "property": "C141",
   "status": "proved",
   "theorems": [
    "C141_shadow"
   ],
   "note": "For bodies in which switches have a case and declare nothing directly in their own block, as the statement says."
  },
  {
   "property": "C142",
   "status": "partial",
   "theorems": [
    "C142_plain",
    "C142_star_partial",
    "C142_no_false_message_partial",
    "C142_skipped_character_refuted",
    "C142_short_name_refuted"
   ],
   "note": "Exact for prefixes without a star; with a star what passes is characterised exactly and names that fit are not reported if long enough. Refuted: the second character matched by the star is not looked at (the manual's \"~*\" lets Ab pass); \"T^*\" does not accept T."
  },
  {
   "property": "C143",
   "status": "partial",
   "theorems": [
    "C143_most_specific",
    "C143_unique",
    "C143_copies",
    "C143_iterators_refuted"
   ],
   "note": "Proved except for iterators without an iterprefix. Refuted: an iterator, which is exported, is not compared with the external prefix."
  },
  {
   "property": "C144",
   "status": "partial",
   "theorems": [
    "C144_excluded_partial",
    "C144_excluded_plain_partial",
    "C144_constants_refuted",
    "C144_iterators_refuted",
    "C144_exported_constant_refuted",
    "C144_unchecked_macro_refuted"
   ],
   "note": "Proved for nine of the eleven flags; for externalprefixexclude except for unchecked macros, iterators and constants with a prefix of their own. Refuted: constprefixexclude and iterprefixexclude do nothing; exported constants with a constprefix are reported not to be external; unchecked macros are not reported."
  },
  {
   "property": "C145",
   "status": "partial",
   "theorems": [
    "C145_due",
    "C145_library_functions_partial",
    "C145_math_refuted",
    "C145_eof_refuted",
    "C145_enum_refuted"
   ],
   "note": "Proved: when each message is due, for all names; every function of the library except those of <math.h> is reported. Refuted: functions named like those of <math.h> (sqrt) are not reported; members of enumerations beginning with an underscore are not; EOF is reported as a name for <errno.h>."
  },
  {
   "property": "C146",
   "status": "partial",
   "theorems": [
    "C146_cpp_partial",
    "C146_missing_refuted",
    "C146_extra_refuted"
   ],
   "note": "Proved up to five missing and two extra words, named in the theorem. Refuted for typename (missing) and const_class (extra)."
  },
  {
   "property": "C147",
   "status": "partial",
   "theorems": [
    "C147_prefix",
    "C147_names",
    "C147_match",
    "C147_unnamed",
    "C147_codes_refuted",
    "C147_both_refuted"
   ],
   "note": "Proved for literal prefixes and for each flag alone. Refuted: the codes of Figure 23 have no meaning in this prefix; +declparamname does nothing when a prefix is set."
  },
  {
   "property": "C148",
   "status": "partial",
   "theorems": [
    "C148_values",
    "C148_bound",
    "C148_big_refuted",
    "C148_binary",
    "C148_octal_refuted",
    "C148_suffix_refuted"
   ],
   "note": "Proved for values up to LONG_MAX, with the bound shown exact, and for binary constants. Refuted: for 0xffffffffffffffff the value is computed by signed overflow; 08 and 1lL are accepted without a message."
  },
  {
   "property": "C149",
   "status": "partial",
   "theorems": [
    "C149_types_partial",
    "C149_hex_refuted",
    "C149_dec_refuted"
   ],
   "note": "Proved: the type given is always the first of C's list for the suffix, and is that of C exactly if the value fits it. Refuted for 0xffffffff (unsigned int in C) and 9999999999 (long in C), both taken as int."
  },
  {
   "property": "C150",
   "status": "partial",
   "theorems": [
    "C150_values_partial",
    "C150_wide_partial",
    "C150_wide_refuted",
    "C150_escape_refuted",
    "C150_octal_refuted"
   ],
   "note": "Proved exactly for which constants the value is right: all characters, the escapes n, t, double quote, quote, backslash, and whatever denotes 0; all others are taken as 0. Refuted: \\a and \\r have equal values, \\101 is 0, L'a' has the value of a quote."
  },
  {
   "property": "C151",
   "status": "partial",
   "theorems": [
    "C151_zero_partial",
    "C151_long_refuted"
   ],
   "note": "Proved, except that only constants without a suffix get the type of a pointer or boolean. Refuted for 0L with +zeroptr."
  },
  {
   "property": "C152",
   "status": "partial",
   "theorems": [
    "C152_silence_partial",
    "C152_short_struct_refuted",
    "C152_pointer_refuted",
    "C152_designation_refuted"
   ],
   "note": "Proved with +initsize, +fullinitblock and type checking, for initializers without designations and without blocks for pointers. Refuted without these: with -fullinitblock the values of a short structure are not looked at, a block for a pointer passes, designations (index and value) are not checked."
  },
  {
   "property": "C153",
   "status": "partial",
   "theorems": [
    "C153_exact_partial",
    "C153_full",
    "C153_elision_refuted",
    "C153_scalar_refuted",
    "C153_string_refuted"
   ],
   "note": "Proved: with the flags on, exactly the initializers with all braces and a fitting value for every part pass (no designations, blocks for pointers, strings in braces), and these pass whatever the flags. Refuted: int a[2][2] = {1,1,1,1}, int x = {1} and char s[6] = {\"hello\"} are valid and complete but reported."
  },
  {
   "property": "C154",
   "status": "proved",
   "theorems": [
    "C154_right",
    "C154_all"
   ],
   "note": "Every message is right and of a flag that is on; every mistake of a part, reached by position, is reported unless the message is given that further errors are not."
  },
  {
   "property": "C155",
   "status": "partial",
   "theorems": [
    "C155_limit",
    "C155_short",
    "C155_cutoff_refuted"
   ],
   "note": "Proved: at most four elements of an array with more than six values are reported, the cut off is announced only when four are, never for blocks of up to six. Refuted: it is also announced when there is no further error."
  },
  {
   "property": "C156",
   "status": "partial",
   "theorems": [
    "C156_message_partial",
    "C156_message_of",
    "C156_untracked",
    "C156_other_file_refuted",
    "C156_not_used_refuted"
   ],
   "note": "Proved for modules as splint knows them (files with the same base name). Refuted for files: a function defined in a/util.c and used in b/util.c is reported. Refuted for uses: a function declared with extern in a header that is read for two files is reported though nothing uses it."
  },
  {
   "property": "C157",
   "status": "partial",
   "theorems": [
    "C157_exact_partial",
    "C157_showuses_partial",
    "C157_other_header_refuted",
    "C157_extern_refuted",
    "C157_showuses_refuted"
   ],
   "note": "Proved exactly: if the first declaration is in the module of the definition, or with +showuses, and there is no further declaration with extern. Refuted: declared in api.h, defined and used only in impl.c: not reported, but reported with +showuses; an extern declaration in another file counts as a use there."
  },
  {
   "property": "C158",
   "status": "proved",
   "theorems": [
    "C158_order",
    "C158_two_kept"
   ],
   "note": "Only the set of places decides; the bound on the kept places loses nothing."
  },
  {
   "property": "C159",
   "status": "partial",
   "theorems": [
    "C159_unused_partial",
    "C159_special",
    "C159_exclusive",
    "C159_main",
    "C159_extern_refuted",
    "C159_header_refuted"
   ],
   "note": "Proved: reported exactly if neither used nor declared again with extern, by the message of its kind; never both messages; main gets neither. Refuted: a variable that is only declared again with extern, or a function with an extern declaration in a header that is read for two files, is not reported."
  }
 ]
}