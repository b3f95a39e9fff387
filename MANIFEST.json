{
 "claims": [
  {
   "property": "C01",
   "status": "proved",
   "theorems": [
    "C01_handles_unique",
    "C01_requests_succeed"
   ],
   "note": "Any interleaving of requests from any number of threads; below counter exhaustion requests never fail."
  },
  {
   "property": "C02",
   "status": "proved",
   "theorems": [
    "C02_is_global_exact",
    "C02_ranges_disjoint",
    "C02_bound_tight"
   ],
   "note": ""
  },
  {
   "property": "C03",
   "status": "proved",
   "theorems": [
    "C03_type_equality_structural",
    "C03_types_stable",
    "C03_ty_eqb"
   ],
   "note": ""
  },
  {
   "property": "C04",
   "status": "proved",
   "theorems": [
    "C04_size_mod",
    "C04_size_exact"
   ],
   "note": ""
  },
  {
   "property": "C05",
   "status": "proved",
   "theorems": [
    "C05_value_uses_complete",
    "C05_bb_uses_complete",
    "C05_value_uses_each",
    "C05_bb_uses_each"
   ],
   "note": ""
  },
  {
   "property": "C06",
   "status": "proved",
   "theorems": [
    "C06_use_lists_exact",
    "C06_untidy_remove_bb_refuted"
   ],
   "note": "Every history of API operations satisfying the two stated obligations (tidy, releases_globals); the obligations are shown necessary by C06_untidy_remove_bb_refuted and C16."
  },
  {
   "property": "C07",
   "status": "proved",
   "theorems": [
    "C07_no_dangling"
   ],
   "note": "Every tidy history."
  },
  {
   "property": "C08",
   "status": "proved",
   "theorems": [
    "C08_remove_value_iff",
    "C08_remove_value_effect"
   ],
   "note": "Removal through Function::dfg_mut().remove_value."
  },
  {
   "property": "C09",
   "status": "proved",
   "theorems": [
    "C09_replace_iff",
    "C09_replace_effect",
    "C09_update_effect"
   ],
   "note": "replace_value_with and update_value (closure editing the kind)."
  },
  {
   "property": "C10",
   "status": "proved",
   "theorems": [
    "C10_remove_bb_iff",
    "C10_remove_bb_effect"
   ],
   "note": ""
  },
  {
   "property": "C11",
   "status": "proved",
   "theorems": [
    "C11_local_builder_iff",
    "C11_local_builder_value",
    "C11_global_builder",
    "C11_well_typed"
   ],
   "note": "Builders of koopa/src/ir/builder.rs; the history theorem needs replacements to keep type and constness (builders_only)."
  },
  {
   "property": "C12",
   "status": "proved",
   "theorems": [
    "C12_decides",
    "C12_reflexive",
    "C12_symmetric",
    "C12_transitive",
    "C12_same_type_and_shape",
    "C12_finite",
    "C12_cyclic_diverges_refuted"
   ],
   "note": "Decides equality of finite unfoldings; C12_cyclic_diverges_refuted shows that finiteness is needed."
  },
  {
   "property": "C13",
   "status": "proved",
   "theorems": [
    "C13_no_duplicates",
    "C13_insert_inst",
    "C13_insert_block",
    "C13_remove_inst",
    "C13_remove_block",
    "C13_entry_first"
   ],
   "note": "The external key-node-list crate is modelled as a list."
  },
  {
   "property": "C14",
   "status": "proved",
   "theorems": [
    "C14_parent_bb_exact",
    "C14_clear_stale_refuted",
    "C14_remove_block_stale_refuted",
    "C14_double_insert_refuted"
   ],
   "note": "Under the stated discipline; the three _refuted theorems show each rule is needed."
  },
  {
   "property": "C15",
   "status": "proved",
   "theorems": [
    "C15_layouts_exact",
    "C15_remove_func_iff"
   ],
   "note": ""
  },
  {
   "property": "C16",
   "status": "partial",
   "theorems": [
    "C16_remove_func_releases_globals_refuted"
   ],
   "note": "False of the code: refuted with a witness (C16_..._refuted)."
  },
  {
   "property": "C17",
   "status": "proved",
   "theorems": [
    "C17_names_unique",
    "C17_names_unique_koopa",
    "C17_without_proviso_refuted",
    "C17_name_found"
   ],
   "note": "Any sequence of requests, scope changes and prefix changes; specialised to the Koopa generator; C17_without_proviso_refuted shows the proviso is needed. usize next_id does not wrap (assumption)."
  },
  {
   "property": "C18",
   "status": "proved",
   "theorems": [
    "C18_names_stable",
    "C18_given_name_kept"
   ],
   "note": ""
  },
  {
   "property": "C19",
   "status": "proved",
   "theorems": [
    "C19_progress",
    "C19_ends"
   ],
   "note": "Any reader (bytes and I/O errors), any number of calls."
  },
  {
   "property": "C20",
   "status": "proved",
   "theorems": [
    "C20_token_spans"
   ],
   "note": "Positions are u32 (wrapping); text between an error and the next token is not described."
  },
  {
   "property": "C21",
   "status": "proved",
   "theorems": [
    "C21_doc",
    "C21_layout"
   ],
   "note": ""
  },
  {
   "property": "C22",
   "status": "proved",
   "theorems": [
    "C22_print_lex"
   ],
   "note": "Any following text that does not extend the token."
  },
  {
   "property": "C23",
   "status": "proved",
   "theorems": [
    "C23_terminates",
    "C23_parser_terminates"
   ],
   "note": "Lexer, parser, builder and driver loops all have fuel bounded by the input; running out is excluded. Logging to stderr is not modelled."
  },
  {
   "property": "C24",
   "status": "proved",
   "theorems": [
    "C24_no_error_lost",
    "C24_accepts",
    "C24_counted",
    "C24_statement_errors"
   ],
   "note": "The counters are explicit; log messages are not modelled."
  },
  {
   "property": "C25",
   "status": "proved",
   "theorems": [
    "C25_block_shape",
    "C25_next_shape",
    "C25_block_targets"
   ],
   "note": ""
  },
  {
   "property": "C26",
   "status": "proved",
   "theorems": [
    "C26_type_round_trip",
    "C26_show_injective",
    "C26_no_unit"
   ],
   "note": "Includes that printed types determine the type."
  },
  {
   "property": "C27",
   "status": "proved",
   "theorems": [
    "C27_syntax_round_trip",
    "C27_text_injective"
   ],
   "note": "ASCII names; the format is described on syntax trees in PrintSpec.v."
  },
  {
   "property": "C28",
   "status": "proved",
   "theorems": [
    "C28_canonical_text",
    "C28_any_text_refuted"
   ],
   "note": "Canonical texts are described on syntax trees (CanonSpec.v): numbering of names, order of blocks, argument counts. C28_any_text_refuted: other accepted texts of the same format need not come back."
  },
  {
   "property": "C29",
   "status": "proved",
   "theorems": [
    "C29_printed_again",
    "C29_printed_well_formed",
    "C29_any_name_refuted",
    "C29_any_length_refuted"
   ],
   "note": "For accepted ASCII texts of fewer than 2^30 values, blocks and functions whose functions have ordinary names and whose arrays have fewer than 2^63 elements: the program is printed, the text is canonical and well-formed, it is accepted with no errors, and it is printed as the same bytes. C29_any_name_refuted, C29_any_length_refuted: why the hypotheses are needed."
  },
  {
   "property": "C30",
   "status": "partial",
   "theorems": [
    "C30_no_panic_refuted",
    "C30_no_panic_partial"
   ],
   "note": "False of the code: refuted by texts on which the builder panics (undefined jump target, zero-length array, missing arguments, misplaced aggregates). The lexer and parser never panic."
  },
  {
   "property": "C31",
   "status": "partial",
   "theorems": [
    "C31_enough_arguments_partial",
    "C31_argument_count_refuted"
   ],
   "note": "False of the code: the length check in generate_args compares a list with itself, so surplus arguments are accepted (refuted). C31_enough_arguments_partial: there are never too few, in blocks that can be reached."
  },
  {
   "property": "C32",
   "status": "proved",
   "theorems": [
    "C32_resolution",
    "C32_predecessors",
    "C32_dominating"
   ],
   "note": "Resolution for any control-flow graph; the recorded predecessors are the control-flow edges; dominating definitions are found. The last needs that no block parameter has the name of a function parameter (which the builder does not check, see C35)."
  },
  {
   "property": "C33",
   "status": "partial",
   "theorems": [
    "C33_ssa_refuted"
   ],
   "note": "False of the code: refuted by an accepted text whose use is not dominated by the definition."
  },
  {
   "property": "C34",
   "status": "proved",
   "theorems": [
    "C34_blocks_kept",
    "C34_block_names"
   ],
   "note": "About the list of blocks that the builder goes on with."
  },
  {
   "property": "C35",
   "status": "partial",
   "theorems": [
    "C35_names_once_partial",
    "C35_block_param_refuted",
    "C35_global_refuted",
    "C35_unreachable_refuted"
   ],
   "note": "Proved for what the builder checks; false for block parameters against function parameters, function parameters against global variables, and unreachable blocks (refuted with witnesses)."
  },
  {
   "property": "C36",
   "status": "proved",
   "theorems": [
    "C36_pass_order"
   ],
   "note": "Passes are arbitrary (possibly panicking) functions; the hash map iteration order is arbitrary."
  },
  {
   "property": "C37",
   "status": "proved",
   "theorems": [
    "C37_llvm_text",
    "C37_front_end",
    "C37_phis"
   ],
   "note": "The whole LLVM text is described (LlvmSpec.v), for every iteration order of the use sets. The writer never fails in the model."
  },
  {
   "property": "C38",
   "status": "partial",
   "theorems": [
    "C38_names_differ_partial",
    "C38_block_value_refuted"
   ],
   "note": "Proved for each function, when no name of the program looks like a temporary name, for values and for blocks separately; false across values and blocks (refuted with a witness): blocks and values are named independently."
  },
  {
   "property": "C39",
   "status": "proved",
   "theorems": [
    "C39_null_buffer",
    "C39_large_buffer",
    "C39_small_buffer",
    "C39_in_bounds"
   ],
   "note": "The text is arbitrary; memory behind the buffer is a byte list."
  },
  {
   "property": "C40",
   "status": "proved",
   "theorems": [
    "C40_round_trip",
    "C40_any_order",
    "C40_round_trip_result",
    "C40_any_order_result",
    "C40_any_program_refuted"
   ],
   "note": "Both directions return, and the result is isomorphic. For regular programs (RawSpec.v: well typed, nothing dangling, everything listed once) that are buildable (RawTotalSpec.v: names are names and contain no zero byte, users of values are part of the program - the builder panics otherwise - and no function has a parameter of type unit). C40_any_program_refuted: without discovery order the blocks come back in another order; C40_any_order says in which."
  },
  {
   "property": "C41",
   "status": "proved",
   "theorems": [
    "C41_fold_agrees",
    "C41_fold_meaning",
    "C41_fold_undef",
    "C41_pass_replaces",
    "C41_pass_layout",
    "C41_pass_terminates"
   ],
   "note": "Both overflow-check settings; including the whole eval_const pass and its loop. eval_bb_params is not modelled."
  },
  {
   "property": "C42",
   "status": "proved",
   "theorems": [
    "C42_function",
    "C42_program",
    "C42_accepted",
    "C42_effects"
   ],
   "note": "Every function of a consistent program of sensible shape, and every program that the front end returns; all iteration orders of hash tables. Stated for runs that end without panic; C47 says which do."
  },
  {
   "property": "C43",
   "status": "partial",
   "theorems": [
    "C43_simultaneous_partial",
    "C43_swap_refuted"
   ],
   "note": "False of the code: refuted with a witness (swap); proved when no argument is a parameter bound earlier in the same jump."
  },
  {
   "property": "C44",
   "status": "proved",
   "theorems": [
    "C44_consistent"
   ],
   "note": "Stated for texts whose initializers have fewer than 2^30 values: beyond that global identifiers run into local ones (see C02)."
  },
  {
   "property": "C45",
   "status": "proved",
   "theorems": [
    "C45_block_parameters",
    "C45_function_parameters"
   ],
   "note": ""
  },
  {
   "property": "C46",
   "status": "proved",
   "theorems": [
    "C46_global_names",
    "C46_front_end",
    "C46_forward_call_refuted"
   ],
   "note": "Proved for all programs of the front end and for API programs whose callees are listed first; refuted with a witness without that condition."
  },
  {
   "property": "C47",
   "status": "proved",
   "theorems": [
    "C47_total",
    "C47_global_panics",
    "C47_no_panic_refuted"
   ],
   "note": "C47_no_panic_refuted: without the condition on global values the claim is false."
  },
  {
   "property": "C48",
   "status": "proved",
   "theorems": [
    "C48_program_is_text"
   ],
   "note": "For every text the driver accepts; the bound on initializer values is where identifiers of global values run out. C48_distinguishes shows that the specification tells programs apart."
  },
  {
   "property": "C49",
   "status": "proved",
   "theorems": [
    "C49_well_formed_accepted"
   ],
   "note": "The rules are in AcceptSpec.v. How far they are necessary is C52. The bound is where identifiers run out."
  },
  {
   "property": "C50",
   "status": "proved",
   "theorems": [
    "C50_operands_available"
   ],
   "note": "Availability is by control flow and layout order (ScopeSpec.v), not by dominance, which the front end does not check (C33)."
  },
  {
   "property": "C51",
   "status": "proved",
   "theorems": [
    "C51_returns_fit"
   ],
   "note": "The typing rules of C44 relate operands to instructions only; what a function returns is the separate rule checked here."
  },
  {
   "property": "C52",
   "status": "proved",
   "theorems": [
    "C52_accepted_exactly",
    "C52_mistakes_rejected"
   ],
   "note": "Both directions. The mistakes that are not looked for are in TameSpec.v; that accepted texts can have them is refuted under C31 and C35. A symbol may be used in all blocks that control can reach from its definition and that come later (C33)."
  },
  {
   "property": "C53",
   "status": "proved",
   "theorems": [
    "C53_raw_form",
    "C53_raw_form_made"
   ],
   "note": "For programs that are regular (RawSpec.v) and whose use lists are exact (C02, C04): whenever build_on returns (first theorem), and it does return for buildable programs (second theorem). Pointers are identifiers and the memory is three tables; layout of the structures in memory is not modelled."
  },
  {
   "property": "C54",
   "status": "proved",
   "theorems": [
    "C54_same_behaviour",
    "C54_cleaned",
    "C54_bound",
    "C54_converse_refuted"
   ],
   "note": "For runs of the example interpreter that end with a result (C54_same_behaviour); dead code that panics or fails is a different matter (C54_converse_refuted). Runs that use dangling pointers or the memory of foreign functions have no result in the model. The bound on recursion has no influence (C54_bound)."
  },
  {
   "property": "C55",
   "status": "proved",
   "theorems": [
    "C55_same_behaviour",
    "C55_converse_refuted"
   ],
   "note": "For runs of the example interpreter that end with a result; a division by zero that panics is folded to an undefined value (C55_converse_refuted). The pass is built with the same overflow checks as the interpreter. New values get numbers that are not in use (C01); stated for runs of the pass that end without panic (it panics on undefined operands, and on overflow when checks are on)."
  },
  {
   "property": "C56",
   "status": "proved",
   "theorems": [
    "C56_same_behaviour",
    "C56_every_program_refuted"
   ],
   "note": "For whole runs from text to text. For runs of the example interpreter that end with a result, and runs of the optimizer that write a text: it panics on programs that use global variables (C56_every_program_refuted). The numbers of new values continue those of the front end, which are shown to be unused. The result is the program that is printed; that its text is read back to the same program is not part of the claim."
  },
  {
   "property": "C57",
   "status": "proved",
   "theorems": [
    "C57_built",
    "C57_meaning",
    "C57_behaviour",
    "C57_unmatched",
    "C57_unmatched_refuted"
   ],
   "note": "The meaning of brainfuck programs is in BrainfuckSpec.v: a tape of 65536 cells of 32 bits, all zero, head at the first. C57_unmatched and C57_unmatched_refuted: brackets need not match. The bound on the length is where identifiers run out. Reading and writing files is not modelled."
  },
  {
   "property": "C58",
   "status": "proved",
   "theorems": [
    "C58_complete",
    "C58_regular"
   ],
   "note": "Stated on programs only (CompleteSpec.v); regular is the record of RawSpec.v."
  },
  {
   "property": "C59",
   "status": "proved",
   "theorems": [
    "C59_raw_and_back",
    "C59_any_text_refuted"
   ],
   "note": "Closes the gap between C40, whose hypotheses are about programs, and texts: regular (C58), walk exists, buildable, depth and counters bounded by the number of parts. Domination is stated on paths of the control flow graph (DominSpec.v). The front end accepts non-dominating uses (C33), and then the raw generator can panic: C59_any_text_refuted."
  },
  {
   "property": "C60",
   "status": "proved",
   "theorems": [
    "C60_utf8",
    "C60_parse",
    "C60_delete",
    "C60_dump_length",
    "C60_dump",
    "C60_dump_zero",
    "C60_told_length",
    "C60_round_trip"
   ],
   "note": "Memory is a finite map from addresses to bytes; accesses outside it are the outcome Undefined. C60_told_length: the length told for a null buffer does not count the zero byte, the length that is asked for does. The round trip has the hypotheses of C29. Files, standard input and output and file descriptors are not modelled."
  },
  {
   "property": "C61",
   "status": "proved",
   "theorems": [
    "C61_raw_and_back",
    "C61_builder_once",
    "C61_same_builder_refuted"
   ],
   "note": "C61_same_builder_refuted: building the same program twice with one builder aborts (raw/builder.rs:40-44 looks up the users of every value in the tables, but only values that are met for the first time have them)."
  },
  {
   "property": "C62",
   "status": "partial",
   "theorems": [
    "C62_positions",
    "C62_one_line",
    "C62_several_lines",
    "C62_no_panic",
    "C62_tokens",
    "C62_any_file_refuted",
    "C62_line_end_refuted"
   ],
   "note": "The claim is proved for files of ASCII characters and spans between tokens (C62_tokens), and for all files in UTF-8 where the span begins and ends at characters of one byte that belong to lines (C62_no_panic, C62_one_line, C62_several_lines). For other files it is false: C62_any_file_refuted (a character of several bytes that starts no token is reported by its first byte, and slicing the line there panics) and C62_line_end_refuted (a slash before CRLF). The width of the column of line numbers, computed with floating point numbers, is a parameter."
  },
  {
   "property": "C63",
   "status": "proved",
   "theorems": [
    "C63_same_runs",
    "C63_raw_and_back_runs"
   ],
   "note": "Behaviour is that of the model of the example interpreter (InterpModel), with any bound on the recursion; C63_same_runs is an equality of outcomes, so panics, errors and exhausted bounds agree as well."
  },
  {
   "property": "C64",
   "status": "proved",
   "theorems": [
    "C64_printed_runs",
    "C64_printed_functions",
    "C64_same_text_runs"
   ],
   "note": "The hypotheses are those of C29 (without them the printed text need not be accepted: C29_any_name_refuted, C29_any_length_refuted). Behaviour is that of the model of the example interpreter (InterpModel), with any bound on the recursion."
  },
  {
   "property": "C65",
   "status": "proved",
   "theorems": [
    "C65_no_panic",
    "C65_any_text_refuted"
   ],
   "note": "Panics are those of the model of the example interpreter (InterpModel): they include missing values, blocks and functions, operands of the wrong kind and blocks without end, not the exhaustion of the stack. The operators that can fail (division, and all arithmetic when overflow is checked) are excluded by no_traps. Without domination the claim is false: C65_any_text_refuted."
  },
  {
   "property": "C66",
   "status": "proved",
   "theorems": [
    "C66_memory_safe",
    "C66_safe",
    "C66_escape_refuted",
    "C66_array_store_refuted"
   ],
   "note": "Undefined behaviour is XBeyond of the model of the example interpreter (InterpModel). keeping is the condition on stores, results and foreign functions; without it the claim is false: C66_escape_refuted, C66_array_store_refuted."
  },
  {
   "property": "C67",
   "status": "proved",
   "theorems": [
    "C67_calls",
    "C67_run"
   ],
   "note": "Boxes of the model of the example interpreter (InterpModel) stand for the Pin<Box<Val>> of allocations. numbered holds in the initial state and is kept."
  },
  {
   "property": "C68",
   "status": "proved",
   "theorems": [
    "C68_ends",
    "C68_total",
    "C68_loop_refuted"
   ],
   "note": "falls asks for a rank of the blocks that falls along jumps, branches and calls; for finite programs this says that there are no loops and no recursion. The depth is the fuel of the model of the example interpreter (InterpModel), whose stack is unbounded. Without falls the claim is false: C68_loop_refuted."
  },
  {
   "property": "C69",
   "status": "proved",
   "theorems": [
    "C69_load_store",
    "C69_others",
    "C69_alloc"
   ],
   "note": "Memory is that of the model of the example interpreter (InterpModel): boxes, and ways into arrays that name the buffers on the way. Stores through pointers that foreign functions returned are outside of the model (XBeyond). apart, copy and zero_of are the specification (StoreSpec.v)."
  },
  {
   "property": "C70",
   "status": "proved",
   "theorems": [
    "C70_getelemptr",
    "C70_getptr",
    "C70_access",
    "C70_variables"
   ],
   "note": "Pointers are those of the model of the example interpreter (InterpModel); elem_ptr (ElemSpec.v) is the specification. Pointers that foreign functions returned are not covered. Indices are i32 in the code, and index + offset does not overflow isize; the model uses unbounded integers."
  }
 ]
}