{"claims": [
{"property": "C01", "status": "proved", "theorems": ["C01_protected_bindings_never_change", "C01_builtins_stay_bound", "C01_environment_assign_refuted"], "note": "Holds for every execution that does not enter environment-assign!, which ignores protection (finding)."},
{"property": "C02", "status": "proved", "theorems": ["C02_sandbox_confined", "C02_restricted_names", "C02_unrestricted_function_refuted"], "note": "Holds whenever no unrestricted environment or function is reachable; a reachable unrestricted function leaks (finding)."},
{"property": "C03", "status": "proved", "theorems": ["C03_restriction_permanent", "C03_restriction_inherited", "C03_parent_permanent", "C03_states_well_formed"], "note": ""},
{"property": "C04", "status": "proved", "theorems": ["C04_data_unchanged", "C04_frames_unchanged", "C04_complement_refuted"], "note": "Holds for every execution that enters none of the listed writing built-ins; complement and intersection are on the list because they can change an existing association list (finding)."},
{"property": "C05", "status": "proved", "theorems": ["C05_cons", "C05_accessors", "C05_list", "C05_length", "C05_append", "C05_append_none", "C05_append_associative", "C05_reverse", "C05_reverse_twice", "C05_nth", "C05_list_ref", "C05_ordinals"], "note": ""},
{"property": "C06", "status": "proved", "theorems": ["C06_take", "C06_drop", "C06_take_drop", "C06_list_head", "C06_list_tail", "C06_sublist", "C06_sublist_empty", "C06_sublist_error", "C06_last_pair", "C06_last_pair_empty", "C06_take_bytes", "C06_drop_bytes", "C06_negative_bytes_refuted"], "note": "A negative count crashes take and drop on a bytearray (finding)."},
{"property": "C07", "status": "proved", "theorems": ["C07_size", "C07_bad_size", "C07_predicate"], "note": ""},
{"property": "C08", "status": "proved", "theorems": ["C08_map", "C08_for_each", "C08_any", "C08_every", "C08_filter", "C08_remove", "C08_find", "C08_find_tail", "C08_member", "C08_fold_left", "C08_fold_right", "C08_reduce_left", "C08_reduce_right", "C08_new_list", "C08_undisturbed", "C08_error_refuted"], "note": "For callbacks that do not themselves change the cells of the lists being walked. find and find-tail replace the callback's error; filter, remove, find call the callback without arguments on a Go nil element, which only json->lisp produces (finding)."},
{"property": "C09", "status": "proved", "theorems": ["C09_permutation", "C09_ordered", "C09_integers"], "note": "sort.Slice is modelled by insertion sort. C09_integers uses the axioms of the standard library's real numbers (< goes through float32)."},
{"property": "C10", "status": "proved", "theorems": ["C10_union", "C10_firsts", "C10_intersection", "C10_complement", "C10_nan_refuted"], "note": "For lists of trees without frames or floats; NaN escapes removal (finding)."},
{"property": "C11", "status": "proved", "theorems": ["C11_equal", "C11_not_equal", "C11_improper_refuted", "C11_symmetric_refuted"], "note": "For trees without frames or floats. Improper lists and association lists break it (findings)."},
{"property": "C12", "status": "proved", "theorems": ["C12_copy", "C12_strings_refuted", "C12_empty_refuted", "C12_alist_refuted"], "note": "Includes frames. Strings and the cells of empty lists stay shared, association lists come back reversed (findings)."},
{"property": "C13", "status": "proved", "theorems": ["C13_round_trip", "C13_equal", "C13_backslash", "C13_backslash_refuted", "C13_quote_refuted", "C13_symbol_refuted"], "note": "Trees of int64 integers, booleans, UTF-8 strings without backslash, writable symbols, bytearrays and nested proper or dotted lists. A string with a backslash never comes back (C13_backslash, finding); (quote a b) and symbols that cannot be written do not either (findings)."},
{"property": "C14", "status": "proved", "theorems": ["C14_blank", "C14_token", "C14_tokens_end", "C14_parse_end", "C14_parse_all_end", "C14_total", "C14_expression", "C14_end_of_input", "C14_unclosed", "C14_unclosed_all", "C14_dangling_refuted", "C14_closing_refuted"], "note": "An unclosed text is an error unless its last token is a quote, backquote, comma or point (finding); closing parentheses alone read as symbols (finding)."},
{"property": "C15", "status": "proved", "theorems": ["C15_literal"], "note": "Decimal, negative, #x, 0x and #b literals of any length followed by a blank, bracket, quote, comment or the end."},
{"property": "C16", "status": "proved", "theorems": ["C16_call", "C16_call_any", "C16_lambda", "C16_define_function", "C16_free_names", "C16_parents", "C16_rest_only_refuted"], "note": "For parameter lists other than a lone rest parameter, which is never bound (finding)."},
{"property": "C17", "status": "proved", "theorems": ["C17_if", "C17_if_without_else", "C17_when", "C17_unless", "C17_and", "C17_or", "C17_cond", "C17_case", "C17_case_key_fails", "C17_not"], "note": ""},
{"property": "C18", "status": "proved", "theorems": ["C18_let", "C18_let_star", "C18_letrec", "C18_named_let", "C18_fresh", "C18_let_star_scope_refuted"], "note": ""},
{"property": "C19", "status": "proved", "theorems": ["C19_define", "C19_set", "C19_assign", "C19_add"], "note": ""},
{"property": "C20", "status": "proved", "theorems": ["C20_template", "C20_fills", "C20_copy", "C20_name", "C20_splice_refuted", "C20_dotted_refuted"], "note": "C20_template: every template and any expressions, order of evaluation, errors and assembly. C20_fills and C20_copy: the resulting data when the expressions leave existing data alone. Findings: splicing a list that ends in an empty cell adds a (), a dotted template loses its tail."},
{"property": "C21", "status": "proved", "theorems": ["C21_macro"], "note": ""},
{"property": "C22", "status": "proved", "theorems": ["C22_no_error", "C22_handled", "C22_not_a_handler", "C22_success_handler", "C22_crash", "C22_do_step_refuted"], "note": "Propagation is part of the theorem of each form; errors in do steps are swallowed (finding)."},
{"property": "C23", "status": "proved", "theorems": ["C23_terminates", "C23_has_slot", "C23_own", "C23_inherited", "C23_missing", "C23_or_nil", "C23_bad_parent_refuted"], "note": "All prototype graphs (cycles included) and all visiting orders. C23_inherited also says that an override on the way hides the value. Finding (C23_bad_parent_refuted): a '*:'-slot holding a non-frame value makes the search crash with a nil dereference."},
{"property": "C24", "status": "proved", "theorems": ["C24_set", "C24_set_get", "C24_remove", "C24_clone", "C24_method_write"], "note": "only_frame says that nothing else in the whole state changed. C24_clone gives a new address, so updates of original and clone are independent by C24_set and C24_remove."},
{"property": "C25", "status": "proved", "theorems": ["C25_plus", "C25_minus", "C25_times", "C25_divide", "C25_divide_by_zero", "C25_remainder", "C25_plus_commutes", "C25_times_commutes", "C25_nested", "C25_modulo_zero_refuted"], "note": "% and modulo by zero crash (finding)."},
{"property": "C26", "status": "proved", "theorems": ["C26_pow", "C26_negative_refuted"], "note": "A negative exponent answers 1 (finding)."},
{"property": "C27", "status": "proved", "theorems": ["C27_exact", "C27_monotone", "C27_large_refuted"], "note": "Exact up to 2^24, monotone for all 64-bit integers; larger integers may compare as equal (finding). Uses the axioms of the standard library's real numbers."},
{"property": "C28", "status": "proved", "theorems": ["C28_and", "C28_or", "C28_not", "C28_not_involution", "C28_left_shift", "C28_right_shift", "C28_negative_count"], "note": ""},
{"property": "C29", "status": "proved", "theorems": ["C29_interval_step", "C29_interval", "C29_interval_from_one", "C29_terms", "C29_wrong_direction", "C29_max_refuted"], "note": "The loop never ends when the bound is the largest integer (finding). C29_interval_step, C29_wrong_direction use the axioms of the standard library's real numbers (sign test through float32)."},
{"property": "C30", "status": "proved", "theorems": ["C30_round_trip", "C30_round_trip_decimal"], "note": ""},
{"property": "C31", "status": "proved", "theorems": ["C31_min", "C31_max"], "note": ""},
{"property": "C32", "status": "proved", "theorems": ["C32_make", "C32_make_nil", "C32_to_list", "C32_list_and_back", "C32_bytes_and_back", "C32_extract_byte", "C32_replace_byte", "C32_replace_bad", "C32_extract_bytes", "C32_extract_bytes_bad", "C32_extract_overflow_refuted", "C32_append_bytes"], "note": "An overflowing position + count passes the range check of extract-bytes and fewer bytes come back (finding)."},
{"property": "C33", "status": "proved", "theorems": ["C33_split", "C33_pieces", "C33_unique", "C33_join", "C33_join_only", "C33_split_then_join", "C33_join_then_split"], "note": "Strings are byte sequences. Also with an empty separator for split-then-join."},
{"property": "C34", "status": "proved", "theorems": ["C34_substring", "C34_substring_bad", "C34_substring_negative_refuted", "C34_length", "C34_null", "C34_parts", "C34_order", "C34_irreflexive", "C34_transitive", "C34_total", "C34_ignoring_case"], "note": "A negative start crashes substring (finding). Case folding uses the Unicode tables, which are a parameter of the state; the -ci comparisons are tied to string-downcase."},
{"property": "C35", "status": "proved", "theorems": ["C35_assoc", "C35_acons", "C35_acons_new", "C35_acons_none", "C35_acons_update", "C35_dissoc", "C35_dissoc_repeated_refuted", "C35_alist", "C35_pairlis", "C35_pairlis_none", "C35_pairlis_lengths", "C35_pairlis_bad", "C35_pairlis_alist_refuted"], "note": "Atomic keys. dissoc needs unique keys: with a repeated key it changes what another key leads to (finding). pairlis is proved for a third argument without any of the keys; one made by acons is refused (finding)."},
{"property": "C36", "status": "proved", "theorems": ["C36_grammar", "C36_accepted", "C36_refused", "C36_counts"], "note": ""},
{"property": "C37", "status": "proved", "theorems": ["C37_machine", "C37_fifo", "C37_tickets", "C37_once", "C37_capacity", "C37_after_close", "C37_end_of_stream", "C37_make", "C37_make_default", "C37_made_fresh", "C37_write", "C37_read", "C37_try_write", "C37_try_read", "C37_close"], "note": "Every history of any number of goroutines, from the creation of the channel on. C37_machine gives the exact machine, the others its consequences in terms of accepted writes and requests; C37_write, _read, ... tie the built-ins to the actions."},
{"property": "C38", "status": "proved", "theorems": ["C38_orderly", "C38_stays_orderly", "C38_forked", "C38_fork", "C38_first_join", "C38_result", "C38_send_free", "C38_ready", "C38_join"], "note": "C38_result: the value left and delivered is what the call of the function produced (nil after an error or panic). C38_join covers calls whose other actions are interleaved with anything. A join by the process on itself answers nil at once, by design of the code."},
{"property": "C39", "status": "proved", "theorems": ["C39_started", "C39_schedule", "C39_at_most_once", "C39_progress", "C39_signal_sent", "C39_coalesce", "C39_wake", "C39_sleep", "C39_abandon", "C39_reset", "C39_reset_refuted"], "note": "C39_at_most_once and C39_progress give the only shapes of a scheduled process. Finding (C39_reset_refuted): reset-timeout answers OK for a task that has already run."},
{"property": "C40", "status": "proved", "theorems": ["C40_linear", "C40_additions", "C40_load", "C40_store", "C40_add", "C40_swap", "C40_compare_and_swap"], "note": "Linearizable because each built-in is exactly one action (C40_load ... C40_compare_and_swap) and the actions form a run of one integer (C40_linear)."},
{"property": "C41", "status": "proved", "theorems": ["C41_distinct", "C41_calls", "C41_user_symbol_refuted"], "note": "Finding (C41_user_symbol_refuted): a program that writes GENSYM-0 itself gets the symbol gensym returns; the property only speaks of generated symbols."},
{"property": "C42", "status": "proved", "theorems": ["C42_names", "C42_equal", "C42_settled", "C42_one_object_refuted"], "note": "Equality of symbols follows the names in every interleaving; two first calls of Intern for a name can answer two different objects (finding). Proved on the lock-level model (Locks.v)."},
{"property": "C43", "status": "proved", "theorems": ["C43_reading", "C43_writing", "C43_round_trip", "C43_back", "C43_unambiguous", "C43_colon_refuted", "C43_large_refuted", "C43_null_refuted"], "note": "Texts are those of RFC 8259 with any white space, escapes and member order. Reading gives data standing for the document, writing gives a text of it, and both round trips hold; a text has one meaning. Floats are outside the fragment. Findings: a trailing colon of a name is lost, integers beyond 2^53 change, null vanishes, becomes a string or crashes. The text layer (encoding/json) is library code and is modelled by json_encode and json_decode."},
{"property": "C44", "status": "proved", "theorems": ["C44_format", "C44_total", "C44_printable", "C44_each", "C44_arguments", "C44_cut_refuted", "C44_at_refuted"], "note": "The control string decides the result of format: literal text, ~a/~s with column widths, ~%, ~~, line continuation, errors and crashes; every control string is covered. Findings: a control string that ends inside a directive crashes; an @ modifier holds for all later directives."},
{"property": "C45", "status": "proved", "theorems": ["C45_literal", "C45_symbol", "C45_lookup"], "note": ""},
{"property": "C46", "status": "proved", "theorems": ["C46_function", "C46_builtin", "C46_builtin_refuted"], "note": "Built-ins: nil-terminated list, at least one argument, quote not rebound (otherwise findings)."},
{"property": "C47", "status": "proved", "theorems": ["C47_begin", "C47_do"], "note": "do: every execution described by the specification is what do does; steps must have two or three parts and bind unprotected names."},
{"property": "C48", "status": "proved", "theorems": ["C48_exclusion", "C48_in_turn", "C48_set", "C48_remove", "C48_get", "C48_has", "C48_clone", "C48_no_deadlock", "C48_cycle_refuted", "C48_panic_refuted"], "note": "Proved on the lock-level model (Locks.v): mutual exclusion and no lost updates for all interleavings, no deadlock for acyclic prototypes; a frame that is its own ancestor can deadlock, and a panicking Get keeps its lock (findings)."},
{"property": "C49", "status": "proved", "theorems": ["C49_send", "C49_missing", "C49_self", "C49_slots", "C49_send_super_refuted"], "note": "Receiver, self and slot visibility for send. Finding (C49_send_super_refuted): methods reached through send-super do not run in the receiver's context and do not see its slots."},
{"property": "C50", "status": "proved", "theorems": ["C50_kinds", "C50_nil", "C50_not_nil", "C50_exclusive"], "note": "The kinds are listed in SpecData.v; channels, processes and atomics satisfy none of the predicates, a Go nil is list?, pair? and alist?."},
{"property": "C51", "status": "proved", "theorems": ["C51_call", "C51_builtin", "C51_restricted"], "note": ""},
{"property": "C52", "status": "proved", "theorems": ["C52_unreached"], "note": ""},
{"property": "C53", "status": "proved", "theorems": ["C53_no_dangling", "C53_result"], "note": ""},
{"property": "C54", "status": "proved", "theorems": ["C54_no_crash", "C54_each", "C54_parent_refuted"], "note": "Quantifies over all goroutines and schedules; the host must hand in only built-ins of the table. C54_each shows that every listed built-in except union does crash in some execution, C54_parent_refuted that ill-formed parent slots do (findings). No crash of union is known: its result list is private to it, which the policy argument does not see. Stack and memory exhaustion and Go's concurrent-map check are outside the model."},
{"property": "C55", "status": "proved", "theorems": ["C55_bytes", "C55_genuine"], "note": "Invariant of all executions of any number of goroutines, from any state and host values that satisfy it. In Go the element type byte enforces the range; the theorem shows that the model, whose bytes are integers, needs no such truncation anywhere."},
{"property": "C56", "status": "proved", "theorems": ["C56_succ", "C56_pred", "C56_parity", "C56_sign", "C56_abs", "C56_float_and_back", "C56_integer", "C56_never_inf_nan", "C56_only_numbers", "C56_only_integers", "C56_abs_large_refuted", "C56_abs_negative_refuted", "C56_float_large_refuted"], "note": "Findings: abs of an integer beyond 2^24 can be wrong or negative, float loses integers beyond 2^24. Go leaves out-of-range float-to-integer conversions to the implementation; the model has the amd64 result (the smallest integer)."},
{"property": "C57", "status": "proved", "theorems": ["C57_floor", "C57_ceiling", "C57_integer", "C57_float", "C57_abs", "C57_sign", "C57_bits", "C57_from_bits", "C57_inf_nan"], "note": "floor and ceiling use the axioms of the standard library's reals through Flocq. Float arguments are assumed to be binary32 floats where stated; all NaNs are one value in the model."},
{"property": "C58", "status": "proved", "theorems": ["C58_trim", "C58_trim_blanks", "C58_trim_unique", "C58_case", "C58_case_in_place", "C58_capitalize_empty_refuted"], "note": "Sets and converted texts are ASCII; the trimmed text is arbitrary bytes. Capitalizing the empty string crashes (C58_capitalize_empty_refuted)."},
{"property": "C59", "status": "proved", "theorems": ["C59_chain", "C59_tap", "C59_eval", "C59_eval_in", "C59_eval_only_in_environments", "C59_global_eval", "C59_error", "C59_time", "C59_time_error", "C59_named_lambda", "C59_defmacro", "C59_expand", "C59_expand_only_macros", "C59_definition_of", "C59_definition_only_functions", "C59_evaluated_again_refuted"], "note": "-> and => insert the value as code, so a symbol or list is evaluated again (C59_evaluated_again_refuted). The elapsed time is an arbitrary 64-bit integer; the clock is not modelled. C59_expand is stated for macros whose parameter list is a list (see C16_rest_only_refuted for the other case)."},
{"property": "C60", "status": "proved", "theorems": ["C60_bound", "C60_reference_type", "C60_assigned", "C60_lookup", "C60_lookup_macro", "C60_assign", "C60_define", "C60_definable", "C60_only_environments_and_symbols", "C60_has_parent", "C60_parent", "C60_global", "C60_the_environment", "C60_the_environment_only_at_top", "C60_procedure_environment", "C60_restrict", "C60_bound_names", "C60_macro_names", "C60_bindings", "C60_make_top_level", "C60_find_top_level"], "note": "C60_bound_names, C60_macro_names and C60_bindings assume that the environment's bindings were made under symbols (string parameters are possible in Go) and, for C60_bindings, that values refer to existing cells (C53)."},
{"property": "C61", "status": "proved", "theorems": ["C61_write_line", "C61_write_log", "C61_str", "C61_write_string", "C61_write", "C61_newline", "C61_to_port", "C61_refused", "C61_intern", "C61_intern_only_strings", "C61_text", "C61_text_unique", "C61_text_exists", "C61_frame", "C61_opaque"], "note": "The console is one event; standard output, standard error (where write-line goes) and the loggers are not told apart. Float texts are not part of C61_text."},
{"property": "C62", "status": "proved", "theorems": ["C62_path", "C62_path_total", "C62_path_zero", "C62_path_only_numbers", "C62_path_negative_refuted", "C62_flatten", "C62_flatten_proper", "C62_flatten_deep", "C62_flatten_atom", "C62_flatten_refuted", "C62_rassoc", "C62_make_frame", "C62_make_frame_odd", "C62_make_frame_keys", "C62_frame_keys", "C62_frame_values"], "note": "Findings: a negative path number loops for ever; flatten keeps an empty list that ends a sublist and loses the last atom of a dotted one. rassoc is for keys and values without frames."},
{"property": "C63", "status": "proved", "theorems": ["C63_program", "C63_broken_off", "C63_empty_refuted", "C63_first", "C63_parse", "C63_load", "C63_load_name"], "note": "The grammar of SpecText.v leaves out floats, computed bytearrays and expressions written without any separator after a closing parenthesis. Finding: an empty list ends the program silently."},
{"property": "C64", "status": "proved", "theorems": ["C64_refused", "C64_accepted", "C64_null_refuted", "C64_exact"], "note": "encoding/json is modelled by json_decode (Json.v): that model is proved to accept exactly the texts of the grammar in SpecJsonText.v. The wording of encoding/json's error, printed after the complaint, and the nesting limit of Go 1.15 and later are not modelled. Uses the axioms of the real numbers. Finding: null alone crashes."},
{"property": "C65", "status": "proved", "theorems": ["C65_equal", "C65_not_equal", "C65_reflexive", "C65_symmetric", "C65_transitive", "C65_one_tree", "C65_empty_slot_refuted", "C65_nan_refuted", "C65_cyclic_refuted"], "note": "Trees are finite and a frame's slot names are distinct (Go maps). Extends C11 to floats and frames. Findings: slots holding (), NaN, frames that hold themselves."},
{"property": "C66", "status": "proved", "theorems": ["C66_plus", "C66_minus", "C66_times", "C66_divide", "C66_divide_zero", "C66_compare", "C66_min_max", "C66_unique", "C66_exact", "C66_not_a_number_refuted", "C66_negate_refuted"], "note": "The specification speaks of exact real values and the nearest of all float32 numbers; the theorems use the axioms of the standard library's real numbers. Values are int64 integers and float32 numbers."},
{"property": "C67", "status": "proved", "theorems": ["C67_value", "C67_program", "C67_one_meaning", "C67_factorial", "C67_closures", "C67_quicksort", "C67_sum_of_squares", "C67_loop", "C67_euclid", "C67_mutual", "C67_own_functions", "C67_power", "C67_same_value", "C67_same_program"], "note": "Names are those a programmer may choose: not reader shortcuts, not self, not words of the language. Comparisons are of numbers of at most 24 bits (C27). Quoted data are trees of integers, truth values, strings, symbols and lists; filter and reverse are applied to lists without empty lists among their elements (finding on callbacks given the empty list); let* is left out because a closure made in one of its initialisers sees the bindings made after it. Nothing is said about programs that the rules give no value (errors, endless recursion); memory and the Go stack are unlimited in the model."},
{"property": "C68", "status": "proved", "theorems": ["C68_apply_slot", "C68_apply_slot_missing", "C68_send_super", "C68_selector", "C68_apply_slot_super", "C68_outside", "C68_self"], "note": "Methods whose parameter list is a single rest symbol are excluded (as in C49). That a method reached by send-super does not see the receiver's slots is the finding C49_send_super_refuted."},
{"property": "C69", "status": "proved", "theorems": ["C69_split_chars", "C69_trim", "C69_case", "C69_case_in_place", "C69_one_text", "C69_capitalize_refuted"], "note": "Texts that are not valid UTF-8 are outside (C58 covers ASCII sets on arbitrary bytes). The case tables of Go's unicode package are a parameter. C69_capitalize_refuted: what comes out for a non-ASCII first character follows current Go; older releases leave the bytes alone, which does not capitalize either."},
{"property": "C70", "status": "proved", "theorems": ["C70_open", "C70_open_new", "C70_open_refused", "C70_close", "C70_close_refused", "C70_write_bytes", "C70_write_bytes_refused", "C70_stream", "C70_read", "C70_read_end", "C70_read_broken", "C70_read_kept", "C70_alternate_refuted", "C70_read_refused", "C70_eof", "C70_write_read", "C70_list_directory", "C70_list_directory_refused", "C70_random_byte", "C70_random_byte_any", "C70_millis", "C70_sleep", "C70_quit", "C70_panic", "C70_profile"], "note": "The operating system is the oracle: whether it refuses, what a file delivers, the clock and chance are arbitrary; whether it stores what it accepted is outside. The tokenizer that is kept between reads follows from the history of reads; the text of a port is taken as a whole (Go: in pieces of 4096 bytes), so a file that grows while it is read is outside. C70_alternate_refuted: reading two ports in turn loses what was buffered of the first."},
{"property": "C71", "status": "proved", "theorems": ["C71_accounts"], "note": "The argument expressions and the computations in between are those of C67 (they do not themselves call the accounts). The value is that of the last call; since the sequence is arbitrary, this covers every call."},
{"property": "C72", "status": "proved", "theorems": ["C72_expression", "C72_program", "C72_no_value", "C72_sum"], "note": "Excluded because they do not give errors in this implementation: taking car, cdr or length of something that is not a list, names without a value, and % by zero, which is a Go panic (recorded as a finding). For a filter predicate with a wrong answer the theorem asks that the predicate has a value for every element."},
{"property": "C73", "status": "proved", "theorems": ["C73_unchanged", "C73_session", "C73_session_later", "C73_factorial"], "note": "Redefining a function that is already defined and the REPL's own line editing are not covered; unchanged means keeps [] of SpecCore.v, which lets the note on function objects whether they were last found in a frame change, as the code does."},
{"property": "C74", "status": "proved", "theorems": ["C74_objects"], "note": "One level of prototypes and a method of this shape; lookup through any graph of prototypes is C23. Amounts are evaluated in the caller's environment and contain no messages themselves."},
{"property": "C75", "status": "proved", "theorems": ["C75_value", "C75_error", "C75_session"], "note": "Handlers are lambdas of one parameter whose body is an expression of the functional core; on-error stands at the top of a text (nested on its guarded side), not inside the functions of the core. The third argument of on-error and handlers that are not functions are C22. The messages of the interpreter's own errors are not pinned."},
{"property": "C76", "status": "proved", "theorems": ["C76_session", "C76_callers"], "note": "Definitions are of the form (define (f x ...) body), at top level. Built-in functions can not be redefined (C16) and are not among the names. Names that the state already binds before the session are not redefined (their bindings could be shared with other names)."},
{"property": "C77", "status": "proved", "theorems": ["C77_expansion", "C77_value", "C77_unfolding", "C77_count", "C77_expand", "C77_definition", "C77_session", "C77_unevaluated"], "note": "Templates use ,p for parameters only: ,@p and unquoted expressions are covered by C20, not by these theorems; macros have no rest parameter and are defined at top level. Value statements (C77_value, C77_session) are for uses whose filled-in template is an expression of the functional core; C77_expansion has no such restriction. Macros are not hygienic: names in the fixed text also mean what they mean at the use, which C77_expansion says too."}
]}
