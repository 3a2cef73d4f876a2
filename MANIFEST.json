{"claims": [
 {"property": "C01", "status": "proved", "theorems": ["C01_path", "C01_script"], "note": "Go's goroutine stack limit for very deep nesting is not modelled."},
 {"property": "C02", "status": "proved", "theorems": ["C02_path_grammar"], "note": ""},
 {"property": "C03", "status": "partial", "theorems": ["C03_script_grammar", "C03_documented_accepted", "C03_documented_partial", "C03_refuted"], "note": "Exact for the grammar as implemented (C03_script_grammar). The documented grammar is met except for texts ending in an escaped quote, where the statement is false (C03_refuted)."},
 {"property": "C04", "status": "proved", "theorems": ["C04_path", "C04_script", "C04_path_reprint", "C04_script_reprint"], "note": "Regular expressions whose pattern ends in a backslash have no notation, so they are not writable; every tree the parser returns is writable (C04_path_reprint, C04_script_reprint)."},
 {"property": "C05", "status": "proved", "theorems": ["C05_any_key"], "note": ""},
 {"property": "C06", "status": "partial", "theorems": ["C06_code_point", "C06_json_partial", "C06_utf8", "C06_refuted"], "note": "Proved for escapes outside the surrogate range in any context and for JSON's rule unless a lone surrogate stands directly before a pair, where it is false (C06_refuted)."},
 {"property": "C07", "status": "partial", "theorems": ["C07_path", "C07_script_partial", "C07_refuted"], "note": "Proved for all paths. For scripts it is proved except for texts ending in an escaped quote, where it is false (C07_refuted)."},
 {"property": "C08", "status": "proved", "theorems": ["C08_value", "C08_negative", "C08_path_range", "C08_script_range"], "note": ""},
 {"property": "C09", "status": "proved", "theorems": ["C09_path_wf", "C09_script_wf"], "note": "literal_floats: strconv.ParseFloat gives neither NaN nor -0 for a text starting with a digit."},
 {"property": "C10", "status": "proved", "theorems": ["C10_small_order", "C10_index_order", "C10_order_injective"], "note": ""},
 {"property": "C11", "status": "proved", "theorems": ["C11_constants", "C11_table"], "note": "For programs of every size."},
 {"property": "C12", "status": "partial", "theorems": ["C12_too_many_constants", "C12_exactly", "C12_encodes_partial", "C12_short", "C12_union_panics_refuted", "C12_union_empty_refuted"], "note": "Proved for programs below 2^22 orders, which includes every text of up to 3 MiB (C12_short); the limit on constants is exact. False above: operand counts and branch targets are not checked (C12_union_panics_refuted, C12_union_empty_refuted)."},
 {"property": "C13", "status": "proved", "theorems": ["C13_meaning", "C13_every", "C13_exact", "C13_steps", "C13_steps_every"], "note": "Both directions: evaluation gives a meaning, and each meaning is what evaluation gives for some orders of iteration over maps. For programs below 2^22 orders. Operators are taken from the machine (operates) and characterised in C30 to C46."},
 {"property": "C14", "status": "partial", "theorems": ["C14_no_panic_partial", "C14_strides_partial", "C14_refuted"], "note": "Proved for programs below 2^22 orders whose slices do not overflow on an array of the document; false otherwise (C14_refuted, C12_union_panics_refuted)."},
 {"property": "C15", "status": "partial", "theorems": ["C15_ends_partial", "C15_steps_partial", "C15_bound_partial", "C15_refuted"], "note": "Proved for programs below 2^22 orders, with a bound in terms of path and document alone; false for larger programs (C15_refuted)."},
 {"property": "C16", "status": "partial", "theorems": ["C16_heights_partial", "C16_no_underflow_partial", "C16_between_steps_partial", "C16_end_partial", "C16_refuted"], "note": "Proved for programs below 2^22 orders; false for larger ones (C16_refuted)."},
 {"property": "C17", "status": "partial", "theorems": ["C17_within_partial", "C17_refuted"], "note": "Proved for all results except nulls from paths with a filter; false there (C17_refuted)."},
 {"property": "C18", "status": "proved", "theorems": ["C18_results"], "note": "Of every program, compiled or not."},
 {"property": "C19", "status": "proved", "theorems": ["C19_exclusive", "C19_one_outcome"], "note": ""},
 {"property": "C20", "status": "proved", "theorems": ["C20_member"], "note": ""},
 {"property": "C21", "status": "proved", "theorems": ["C21_index"], "note": ""},
 {"property": "C22", "status": "proved", "theorems": ["C22_wild"], "note": ""},
 {"property": "C23", "status": "partial", "theorems": ["C23_slice_partial", "C23_refuted"], "note": "Exact, including when a slice panics; the stated rule is false for strides that overflow (C23_refuted)."},
 {"property": "C24", "status": "partial", "theorems": ["C24_literal_partial", "C24_wild", "C24_refuted"], "note": "Proved for literal selectors and wildcards unless a slice meets a candidate that is not an array, where it is false (C24_refuted)."},
 {"property": "C25", "status": "partial", "theorems": ["C25_exact", "C25_union_partial", "C25_refuted"], "note": "Exact for literal selectors (C25_exact); the stated rule holds unless a slice meets a candidate that is not an array, where it is false (C25_refuted)."},
 {"property": "C26", "status": "partial", "theorems": ["C26_exact", "C26_filter_partial", "C26_refuted", "C26_together_refuted"], "note": "Exact (C26_exact); the stated rule holds unless no candidate has a child, where it is false (C26_refuted)."},
 {"property": "C27", "status": "partial", "theorems": ["C27_select_partial", "C27_wild", "C27_refuted", "C27_filter", "C27_script"], "note": "All kinds of .. steps; filters and scripts are also evaluated once if there is no container, so the stated rule is false there (C27_refuted)."},
 {"property": "C28", "status": "proved", "theorems": ["C28_scripts", "C28_scope"], "note": "For paths below 2^22 orders."},
 {"property": "C29", "status": "proved", "theorems": ["C29_reordered", "C29_lone", "C29_slice_refuted", "C29_keys_refuted"], "note": "Errors may differ in which one is found first. The restrictions are needed (C29_slice_refuted, C29_keys_refuted)."},
 {"property": "C30", "status": "proved", "theorems": ["C30_arithmetic"], "note": ""},
 {"property": "C31", "status": "proved", "theorems": ["C31_division", "C31_wrap"], "note": ""},
 {"property": "C32", "status": "proved", "theorems": ["C32_failure", "C32_minus"], "note": ""},
 {"property": "C33", "status": "proved", "theorems": ["C33_logic"], "note": "If both operands of || failed, the result is a failure, though not the second one's."},
 {"property": "C34", "status": "proved", "theorems": ["C34_order", "C34_trichotomy", "C34_floats"], "note": ""},
 {"property": "C35", "status": "partial", "theorems": ["C35_reflexive_partial", "C35_exact", "C35_refuted"], "note": "True exactly of documents without json.Number and NaN values (C35_exact); false for a json.Number (C35_refuted)."},
 {"property": "C36", "status": "partial", "theorems": ["C36_symmetric_partial", "C36_arrays", "C36_objects", "C36_refuted"], "note": "Proved unless objects at the same place have null members, where it is false (C36_refuted)."},
 {"property": "C37", "status": "partial", "theorems": ["C37_ecma_partial", "C37_negation", "C37_refuted"], "note": "Negation proved for all values; the rules are proved for the values described by fair and are false outside (C37_refuted)."},
 {"property": "C38", "status": "proved", "theorems": ["C38_member", "C38_error"], "note": ""},
 {"property": "C39", "status": "proved", "theorems": ["C39_match", "C39_errors"], "note": "The verdict itself is the regexp library's."},
 {"property": "C40", "status": "proved", "theorems": ["C40_reason", "C40_none"], "note": "For programs below 2^22 orders."},
 {"property": "C41", "status": "proved", "theorems": ["C41_predicates", "C41_others", "C41_arrays"], "note": ""},
 {"property": "C42", "status": "partial", "theorems": ["C42_numbers_partial", "C42_min_strings", "C42_max_strings", "C42_otherwise", "C42_max_strings_refuted", "C42_integers_refuted"], "note": "Numbers (as doubles, no NaN) and min of strings; max of strings is their minimum (C42_max_strings), so the statement is false of it (C42_max_strings_refuted), and so is membership for integers that are no doubles (C42_integers_refuted)."},
 {"property": "C43", "status": "proved", "theorems": ["C43_folds", "C43_failures"], "note": ""},
 {"property": "C44", "status": "proved", "theorems": ["C44_length"], "note": ""},
 {"property": "C45", "status": "partial", "theorems": ["C45_abs_partial", "C45_abs_refuted", "C45_rounding", "C45_to_number"], "note": "Proved except for abs of the most negative Go int, where it is false (C45_abs_refuted)."},
 {"property": "C46", "status": "proved", "theorems": ["C46_unknown", "C46_count", "C46_value"], "note": ""},
 {"property": "C47", "status": "proved", "theorems": ["C47_result", "C47_text", "C47_progress", "C47_ends", "C47_returns", "C47_producer", "C47_received", "C47_observed"], "note": "For programs below 2^22 orders. Unbuffered channels and goroutines as in Conc.v; within one range over a map the order is a parameter."},
 {"property": "C48", "status": "partial", "theorems": ["C48_success_partial", "C48_one_partial", "C48_error_partial", "C48_refuted"], "note": "Proved when Eval returns values. Refuted when it returns an error inside a loop (C48_refuted); then at most one goroutine is left, and C48_error_partial says exactly when."},
 {"property": "C49", "status": "proved", "theorems": ["C49_result", "C49_same", "C49_returns", "C49_ends"], "note": "For accepted paths below 2^22 orders (C49_result, C49_same: any program). Steps of different evaluations alternate order by order and producer step by producer step; C50_writes says which storage a step touches."},
 {"property": "C50", "status": "proved", "theorems": ["C50_writes", "C50_own", "C50_separate", "C50_frozen", "C50_document", "C50_program", "C50_result", "C50_private"], "note": "What operators and functions compute is made of parts of their operands and new storage by definition of the heap model (Heap.v, made); selection, the stack, popN, append, loops, channels and results are modelled slice by slice."},
 {"property": "C51", "status": "proved", "theorems": ["C51_must", "C51_text"], "note": "The text of MustCompile's panic is not modelled."},
 {"property": "C52", "status": "partial", "theorems": ["C52_exact", "C52_values", "C52_lines", "C52_cut", "C52_ends", "C52_encodes", "C52_long_refuted"], "note": "encoding/json, the files and failing reads and writes are parameters. Proved as stated except for -l with a line of 65536 bytes or more, where one line per line is refuted (C52_long_refuted)."},
 {"property": "C53", "status": "proved", "theorems": ["C53_composition", "C53_empty", "C53_text", "C53_texts"], "note": "For paths below 2^22 orders."},
 {"property": "C54", "status": "partial", "theorems": ["C54_subscript", "C54_bounds_partial", "C54_refuted"], "note": "Proved for script subscripts; bounds of slices count as 0, so the stated rule is false for them (C54_refuted)."},
 {"property": "C55", "status": "proved", "theorems": ["C55_keys", "C55_keys_other", "C55_tokenize", "C55_tokenize_other"], "note": ""},
 {"property": "C56", "status": "proved", "theorems": ["C56_member", "C56_index", "C56_minus", "C56_array"], "note": ""},
 {"property": "C57", "status": "proved", "theorems": ["C57_values"], "note": "If strconv.ParseFloat gives binary64 numbers. Integers are not covered: lengths are not bounded in the model."},
 {"property": "C58", "status": "proved", "theorems": ["C58_used", "C58_all"], "note": ""},
 {"property": "C59", "status": "proved", "theorems": ["C59_slice", "C59_index"], "note": "Slices with constant bounds. These operators are in the machine but in no compiled path (C58)."},
 {"property": "C60", "status": "proved", "theorems": ["C60_path", "C60_script", "C60_offset"], "note": "Error values, not the wording of messages. An error without offset (strings, escapes, numbers) is shown to hold of some place of the text."},
 {"property": "C61", "status": "proved", "theorems": ["C61_path", "C61_script"], "note": "Errors that carry an offset. One byte after the offset can matter: '$[-' is refused at 1, '$[-5]' is not."},
 {"property": "C62", "status": "proved", "theorems": ["C62_path", "C62_script", "C62_compile", "C62_blanks_path", "C62_blanks_script"], "note": "For script expressions the tokens are the implementation's (C07_refuted): a literal left unclosed after an escaped quote at the end of the text counts as one."},
 {"property": "C63", "status": "proved", "theorems": ["C63_notation"], "note": "A negative index after a dot is excluded: it does not count from the end there (C63_ex_negative)."},
 {"property": "C64", "status": "proved", "theorems": ["C64_listing", "C64_total"], "note": "%q of strings and fmt.Sprint of floats are parameters."},
 {"property": "C65", "status": "proved", "theorems": ["C65_panics", "C65_ambiguous"], "note": ""},
 {"property": "C66", "status": "proved", "theorems": ["C66_status", "C66_no_panic", "C66_refused"], "note": ""},
 {"property": "C67", "status": "proved", "theorems": ["C67_parse", "C67_compile", "C67_eval"], "note": "The texts of errors of package regexp and the formatting of floats are parameters."},
 {"property": "C68", "status": "proved", "theorems": ["C68_equality"], "note": "strconv.ParseFloat, the formatting of floats and conversions of floats beyond int64 are parameters."},
 {"property": "C69", "status": "partial", "theorems": ["C69_width_partial", "C69_refuted"], "note": "Excepted is the least integer: abs of it as an int is itself, as an int64 ErrOverflow (C69_refuted). Assumed is that fmt.Sprint prints int and int64 alike."},
 {"property": "C70", "status": "proved", "theorems": ["C70_listing"], "note": "Assumed is that fmt.Sprint prints maps with the same members alike, whatever their order (it sorts keys)."},
 {"property": "C71", "status": "proved", "theorems": ["C71_silent", "C71_line", "C71_file", "C71_tells", "C71_colon_refuted"], "note": "The texts of errors of encoding/json, os and bufio reads are parameters; with a colon in a file name telling reasons apart is refuted (C71_colon_refuted).  What the Go runtime writes on a panic is not modelled."},
 {"property": "C72", "status": "proved", "theorems": ["C72_shape", "C72_scalars"], "note": ""},
 {"property": "C73", "status": "proved", "theorems": ["C73_not", "C73_and_or"], "note": "For && and || expressions that call keys() are left out: its result can differ from one evaluation to the next."},
 {"property": "C74", "status": "proved", "theorems": ["C74_section", "C74_cut", "C74_single", "C74_reverse", "C74_stride"], "note": "Strides that overflow int64 are left out (they panic, C23)."},
 {"property": "C75", "status": "proved", "theorems": ["C75_direct"], "note": ""},
 {"property": "C76", "status": "proved", "theorems": ["C76_panic", "C76_jpath"], "note": "Assumes of strconv.Quote that it is a prefix code starting with a double quote, and of strconv.CanBackquote that it rejects backquotes (hypothesis quotes)."},
 {"property": "C77", "status": "proved", "theorems": ["C77_prefix", "C77_all", "C77_ends", "C77_blocks"], "note": ""},
 {"property": "C78", "status": "partial", "theorems": ["C78_partial", "C78_noticed", "C78_silent", "C78_refuted"], "note": "False of the code: the result of the final flush is dropped (C78_refuted; C78_silent for every output of at most 4096 bytes). C78_partial bounds what is lost, C78_noticed: any other failing write is reported with status 1."},
 {"property": "C79", "status": "proved", "theorems": ["C79_relocation"], "note": ""},
 {"property": "C80", "status": "proved", "theorems": ["C80_unfold", "C80_steps"], "note": ""},
 {"property": "C81", "status": "proved", "theorems": ["C81_texts", "C81_constant", "C81_refuted"], "note": "Assumes of strconv.Quote that it starts with a double quote and is a prefix code (hypothesis quoting)."},
 {"property": "C82", "status": "proved", "theorems": ["C82_grows", "C82_slice_refuted", "C82_negative_refuted", "C82_filter_refuted"], "note": "For paths of names, strings and integers, * and .. (integers from the end only if arrays keep their lengths). With slices, negative indices of growing arrays, or filters it is false: C82_slice_refuted, C82_negative_refuted, C82_filter_refuted."},
 {"property": "C83", "status": "proved", "theorems": ["C83_bound", "C83_doubling"], "note": ""},
 {"property": "C84", "status": "partial", "theorems": ["C84_alone", "C84_in_path_partial", "C84_refuted"], "note": "False of the code for texts that end in an escaped quote, which ParseScriptExpression accepts unclosed (C84_refuted). C84_alone holds of all texts, C84_in_path_partial of all others."},
 {"property": "C85", "status": "proved", "theorems": ["C85_outcome", "C85_panics", "C85_parsed"], "note": "C85_panics is for paths of up to 2^22 parts; in larger ones the error of too many values may come first (C85_outcome). Leaves have the operator of their type, and no pointer is shared or nil."},
 {"property": "C86", "status": "partial", "theorems": ["C86_shaped_partial", "C86_ends_refuted", "C86_panics_refuted"], "note": "Proved of paths shaped like parsed ones (wf_path) with fewer than 2^22 orders. False of others: C86_ends_refuted (never ends), C86_panics_refuted."},
 {"property": "C87", "status": "proved", "theorems": ["C87_main", "C87_unique", "C87_refuses", "C87_help", "C87_path", "C87_late"], "note": "The rules of Go's package flag, which is not in the repository, are modelled from its documentation (Flags.v)."},
 {"property": "C88", "status": "proved", "theorems": ["C88_same", "C88_error"], "note": "Assumes that %q and the texts of floats can be told apart (quoting, sharp_floats, plain_texts)."},
 {"property": "C89", "status": "proved", "theorems": ["C89_operators", "C89_folds", "C89_determined"], "note": "Go's float64 arithmetic is taken to be IEEE 754 binary64 rounding to nearest even, as the model has it (F64.v); what is proved is that the model's operations are that."},
 {"property": "C90", "status": "proved", "theorems": ["C90_transitive", "C90_irreflexive", "C90_mirror", "C90_trichotomy", "C90_le", "C90_eq", "C90_refuted"], "note": "C90_refuted shows that the exception to transitivity in C90_le and C90_eq occurs: the integer 2^53+1, the double 2^53 and the integer 2^53."},
 {"property": "C91", "status": "proved", "theorems": ["C91_reads", "C91_decimal", "C91_equals"], "note": "0 == \"1.5\" is how the code behaves, not what ECMA-262 says (C37_refuted); what ParseFloat accepts is a parameter."},
 {"property": "C92", "status": "proved", "theorems": ["C92_commutes", "C92_associates", "C92_distributes", "C92_minus", "C92_divides", "C92_refuted"], "note": "C92_refuted: sums of doubles are not associative."},
 {"property": "C93", "status": "proved", "theorems": ["C93_sum", "C93_prod", "C93_avg", "C93_order", "C93_extremes", "C93_between", "C93_refuted", "C93_keys", "C93_contains"], "note": "C93_refuted shows where the laws end: sums of doubles, and Booleans before numbers in max."},
 {"property": "C94", "status": "proved", "theorems": ["C94_context", "C94_same", "C94_ne", "C94_not_and", "C94_not_or", "C94_and", "C94_swap", "C94_eq", "C94_steady", "C94_refuted"], "note": "C94_refuted: f() + g() and g() + f(), groupings of ||, nin and !in, >= and !< are not equivalent."},
 {"property": "C95", "status": "proved", "theorems": ["C95_filters", "C95_same", "C95_equivalent", "C95_not", "C95_associates", "C95_commutes", "C95_distributes", "C95_in", "C95_refuted"], "note": "C95_refuted: with null in the list, in and == differ on missing members."},
 {"property": "C96", "status": "proved", "theorems": ["C96_reads", "C96_different", "C96_selects", "C96_exact", "C96_results", "C96_index_refuted"], "note": "For texts of up to 3 MiB, so that they compile (C12_short). C96_index_refuted: $[0] selects the member \"0\" of an object."},
 {"property": "C97", "status": "proved", "theorems": ["C97_once", "C97_count", "C97_order", "C97_once_refuted", "C97_order_refuted"], "note": "A filter may give a single null that is not in the document (C17). C97_once_refuted and C97_order_refuted show that the conditions are needed."},
 {"property": "C98", "status": "proved", "theorems": ["C98_places", "C98_everything", "C98_named"], "note": "For steps whose arguments are names, strings and integers. Slices and filters are not in the pattern."},
 {"property": "C99", "status": "proved", "theorems": ["C99_outside", "C99_elsewhere", "C99_unaffected"], "note": "For steps whose arguments are names, strings and integers."},
 {"property": "C100", "status": "proved", "theorems": ["C100_reference"], "note": "For steps whose arguments are names, strings and integers; the evaluator is find_path in SpecFind.v."},
 {"property": "C101", "status": "proved", "theorems": ["C101_renamed", "C101_integers_refuted"], "note": "C101_integers_refuted: the condition on members named by integers is needed, as $[0] selects the member \"0\" of an object."},
 {"property": "C102", "status": "proved", "theorems": ["C102_reference", "C102_unordered"], "note": "exact order where the order of members is of no importance, a permutation where slices meet arrays only; beyond that C29_slice_refuted shows the values themselves depend on the order"},
 {"property": "C103", "status": "proved", "theorems": ["C103_reference", "C103_unordered"], "note": "exact order where the order of members is of no importance, a permutation where slices meet arrays only; where objects have several members the result of keys has the order of iteration: such paths are covered by C13, not by this evaluator"},
 {"property": "C104", "status": "proved", "theorems": ["C104_listed", "C104_wild"], "note": "C104_wild is the converse for paths that end in *"},
 {"property": "C105", "status": "proved", "theorems": ["C105_result", "C105_flat", "C105_exact", "C105_lines", "C105_order", "C105_end"], "note": "Run never sets the field tracing; the theorems are about a machine with the field set. The encoder is a parameter."}
]}
