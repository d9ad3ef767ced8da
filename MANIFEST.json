{
 "claims": [
  {
   "property": "C01",
   "status": "proved",
   "theorems": [
    "C01_emit_disasm",
    "C01_emit_total",
    "C01_emit_len",
    "C01_listing",
    "C01_text_injective"
   ],
   "note": ""
  },
  {
   "property": "C02",
   "status": "proved",
   "theorems": [
    "C02_lengths_agree"
   ],
   "note": ""
  },
  {
   "property": "C03",
   "status": "proved",
   "theorems": [
    "C03_fixup_local"
   ],
   "note": ""
  },
  {
   "property": "C04",
   "status": "proved",
   "theorems": [
    "C04_has_operand_wrong",
    "C04_has_operand_refuted"
   ],
   "note": ""
  },
  {
   "property": "C05",
   "status": "proved",
   "theorems": [
    "C05_image_round_trip"
   ],
   "note": ""
  },
  {
   "property": "C06",
   "status": "proved",
   "theorems": [
    "C06_image_loses",
    "C06_identity_refuted",
    "C06_nul_truncated"
   ],
   "note": ""
  },
  {
   "property": "C07",
   "status": "proved",
   "theorems": [
    "C07_truncated_rejected"
   ],
   "note": ""
  },
  {
   "property": "C08",
   "status": "proved",
   "theorems": [
    "C08_bad_magic_rejected"
   ],
   "note": ""
  },
  {
   "property": "C09",
   "status": "proved",
   "theorems": [
    "C09_trailing_bytes"
   ],
   "note": ""
  },
  {
   "property": "C10",
   "status": "proved",
   "theorems": [
    "C10_line_table",
    "C10_line_table_sorted",
    "C10_line_table_reload"
   ],
   "note": ""
  },
  {
   "property": "C11",
   "status": "proved",
   "theorems": [
    "C11_function_find",
    "C11_function_find_pc"
   ],
   "note": ""
  },
  {
   "property": "C12",
   "status": "proved",
   "theorems": [
    "C12_syscall_resolve",
    "C12_add_syscall"
   ],
   "note": ""
  },
  {
   "property": "C13",
   "status": "proved",
   "theorems": [
    "C13_line_order"
   ],
   "note": ""
  },
  {
   "property": "C14",
   "status": "proved",
   "theorems": [
    "C14_source_lines"
   ],
   "note": ""
  },
  {
   "property": "C15",
   "status": "proved",
   "theorems": [
    "C15_prefix_skip",
    "C15_failed_load_poisons"
   ],
   "note": ""
  },
  {
   "property": "C16",
   "status": "proved",
   "theorems": [
    "C16_import_path",
    "C16_import_path_rooted"
   ],
   "note": ""
  },
  {
   "property": "C17",
   "status": "proved",
   "theorems": [
    "C17_total",
    "C17_outcomes"
   ],
   "note": ""
  },
  {
   "property": "C18",
   "status": "proved",
   "theorems": [
    "C18_comment_at_eof"
   ],
   "note": ""
  },
  {
   "property": "C19",
   "status": "proved",
   "theorems": [
    "C19_round_trip"
   ],
   "note": ""
  },
  {
   "property": "C20",
   "status": "proved",
   "theorems": [
    "C20_words"
   ],
   "note": ""
  },
  {
   "property": "C21",
   "status": "proved",
   "theorems": [
    "C21_integers",
    "C21_alone"
   ],
   "note": ""
  },
  {
   "property": "C22",
   "status": "proved",
   "theorems": [
    "C22_lines"
   ],
   "note": ""
  },
  {
   "property": "C23",
   "status": "proved",
   "theorems": [
    "C23_blanks",
    "C23_boundaries"
   ],
   "note": ""
  },
  {
   "property": "C24",
   "status": "proved",
   "theorems": [
    "C24_precedence"
   ],
   "note": ""
  },
  {
   "property": "C25",
   "status": "proved",
   "theorems": [
    "C25_expression_text",
    "C25_print_parse",
    "C25_unambiguous"
   ],
   "note": ""
  },
  {
   "property": "C26",
   "status": "proved",
   "theorems": [
    "C26_program_text",
    "C26_print_parse",
    "C26_source",
    "C26_unambiguous"
   ],
   "note": ""
  },
  {
   "property": "C27",
   "status": "proved",
   "theorems": [
    "C27_minus_on_last",
    "C27_minus_pair"
   ],
   "note": ""
  },
  {
   "property": "C28",
   "status": "proved",
   "theorems": [
    "C28_not_on_last",
    "C28_not_pair",
    "C28_not_right",
    "C28_infix_not",
    "C28_infix_not_argument"
   ],
   "note": ""
  },
  {
   "property": "C29",
   "status": "proved",
   "theorems": [
    "C29_terminates",
    "C29_front_end"
   ],
   "note": ""
  },
  {
   "property": "C30",
   "status": "proved",
   "theorems": [
    "C30_innermost_declaration",
    "C30_after_analysis",
    "C30_undeclared_rejected"
   ],
   "note": ""
  },
  {
   "property": "C31",
   "status": "proved",
   "theorems": [
    "C31_no_duplicates",
    "C31_accepted",
    "C31_function"
   ],
   "note": ""
  },
  {
   "property": "C32",
   "status": "proved",
   "theorems": [
    "C32_arity_checked",
    "C32_direct_calls"
   ],
   "note": ""
  },
  {
   "property": "C33",
   "status": "proved",
   "theorems": [
    "C33_constants",
    "C33_only_constants_replaced",
    "C33_assignment_rejected"
   ],
   "note": ""
  },
  {
   "property": "C34",
   "status": "proved",
   "theorems": [
    "C34_folding",
    "C34_folds",
    "C34_pass",
    "C34_only_error"
   ],
   "note": ""
  },
  {
   "property": "C35",
   "status": "proved",
   "theorems": [
    "C35_after_return",
    "C35_what_is_removed",
    "C35_only_functions",
    "C35_pass"
   ],
   "note": ""
  },
  {
   "property": "C36",
   "status": "proved",
   "theorems": [
    "C36_branch_removal",
    "C36_nothing_left",
    "C36_no_idle_loop",
    "C36_whole_optimiser"
   ],
   "note": ""
  },
  {
   "property": "C37",
   "status": "proved",
   "theorems": [
    "C37_second_branch",
    "C37_optimiser_changes_result"
   ],
   "note": ""
  },
  {
   "property": "C38",
   "status": "proved",
   "theorems": [
    "C38_expression"
   ],
   "note": "Forward simulation on the ideal heap for every expression; the machine may instead run into a stack of more than 2^31-1 values. Programs are those with program_ok, which run_sema_ok/run_optimize_ok/build_parts show for everything the front end accepts."
  },
  {
   "property": "C39",
   "status": "proved",
   "theorems": [
    "C39_function",
    "C39_call",
    "C39_init"
   ],
   "note": "Functions, the CALL instruction and @init; outcomes Undefined (overflow, assertion, variable without value) and Timeout of the source semantics promise nothing."
  },
  {
   "property": "C40",
   "status": "proved",
   "theorems": [
    "C40_targets",
    "C40_ranges"
   ],
   "note": "For every generated program that fits 32-bit operands."
  },
  {
   "property": "C41",
   "status": "proved",
   "theorems": [
    "C41_different",
    "C41_range",
    "C41_arguments",
    "C41_in_the_program"
   ],
   "note": "Slots, arguments, frame size, and their appearance in the generated program."
  },
  {
   "property": "C42",
   "status": "proved",
   "theorems": [
    "C42_stale_value"
   ],
   "note": "Finding: concrete program, built and run."
  },
  {
   "property": "C43",
   "status": "proved",
   "theorems": [
    "C43_add_sub_mul",
    "C43_div_mod",
    "C43_div_overflow",
    "C43_divide_by_zero"
   ],
   "note": ""
  },
  {
   "property": "C44",
   "status": "proved",
   "theorems": [
    "C44_binary_total",
    "C44_unary_total"
   ],
   "note": ""
  },
  {
   "property": "C45",
   "status": "proved",
   "theorems": [
    "C45_integer_order",
    "C45_string_equality",
    "C45_none_equality",
    "C45_equality_symmetric",
    "C45_equality_reflexive",
    "C45_mixed_equality_rounds"
   ],
   "note": ""
  },
  {
   "property": "C46",
   "status": "proved",
   "theorems": [
    "C46_concat_left",
    "C46_concat_right",
    "C46_integer_text",
    "C46_not_associative"
   ],
   "note": ""
  },
  {
   "property": "C47",
   "status": "proved",
   "theorems": [
    "C47_logic",
    "C47_jumps"
   ],
   "note": ""
  },
  {
   "property": "C48",
   "status": "proved",
   "theorems": [
    "C48_store",
    "C48_load",
    "C48_literal",
    "C48_read_after_write"
   ],
   "note": ""
  },
  {
   "property": "C49",
   "status": "proved",
   "theorems": [
    "C49_read",
    "C49_write"
   ],
   "note": ""
  },
  {
   "property": "C50",
   "status": "proved",
   "theorems": [
    "C50_get",
    "C50_set",
    "C50_globals_persist"
   ],
   "note": ""
  },
  {
   "property": "C51",
   "status": "proved",
   "theorems": [
    "C51_get",
    "C51_set"
   ],
   "note": ""
  },
  {
   "property": "C52",
   "status": "proved",
   "theorems": [
    "C52_call",
    "C52_call_return",
    "C52_return_underflow",
    "C52_return_finishes"
   ],
   "note": ""
  },
  {
   "property": "C53",
   "status": "proved",
   "theorems": [
    "C53_cycle_accounting"
   ],
   "note": ""
  },
  {
   "property": "C54",
   "status": "proved",
   "theorems": [
    "C54_slicing",
    "C54_any_two_slicings"
   ],
   "note": ""
  },
  {
   "property": "C55",
   "status": "proved",
   "theorems": [
    "C55_finished_stays",
    "C55_failed_is_finished"
   ],
   "note": ""
  },
  {
   "property": "C56",
   "status": "proved",
   "theorems": [
    "C56_breakpoints",
    "C56_only_this",
    "C56_step",
    "C56_resume_stops",
    "C56_no_breakpoints"
   ],
   "note": ""
  },
  {
   "property": "C57",
   "status": "proved",
   "theorems": [
    "C57_collection_preserves"
   ],
   "note": ""
  },
  {
   "property": "C58",
   "status": "proved",
   "theorems": [
    "C58_no_dangling",
    "C58_reachable_states_safe",
    "C58_no_dangling_access"
   ],
   "note": ""
  },
  {
   "property": "C59",
   "status": "proved",
   "theorems": [
    "C59_collection_invisible"
   ],
   "note": ""
  },
  {
   "property": "C60",
   "status": "proved",
   "theorems": [
    "C60_acyclic_collection_ends"
   ],
   "note": ""
  },
  {
   "property": "C61",
   "status": "proved",
   "theorems": [
    "C61_cyclic_collection_never_completes"
   ],
   "note": ""
  },
  {
   "property": "C62",
   "status": "proved",
   "theorems": [
    "C62_collection_overflow",
    "C62_scalars_copied_per_reference"
   ],
   "note": ""
  },
  {
   "property": "C63",
   "status": "proved",
   "theorems": [
    "C63_arena"
   ],
   "note": ""
  },
  {
   "property": "C64",
   "status": "proved",
   "theorems": [
    "C64_round",
    "C64_stops_on_failure"
   ],
   "note": ""
  },
  {
   "property": "C65",
   "status": "proved",
   "theorems": [
    "C65_skipped",
    "C65_then_runs",
    "C65_wait"
   ],
   "note": ""
  },
  {
   "property": "C66",
   "status": "proved",
   "theorems": [
    "C66_spawn",
    "C66_bad_spawn",
    "C66_array_argument_aborts"
   ],
   "note": ""
  },
  {
   "property": "C67",
   "status": "proved",
   "theorems": [
    "C67_wrong_count",
    "C67_call_once_crashes",
    "C67_right_count"
   ],
   "note": ""
  },
  {
   "property": "C68",
   "status": "proved",
   "theorems": [
    "C68_reports_first_slice",
    "C68_call_init_too_early"
   ],
   "note": ""
  },
  {
   "property": "C69",
   "status": "proved",
   "theorems": [
    "C69_abs",
    "C69_abs_float",
    "C69_bitand",
    "C69_len",
    "C69_chr",
    "C69_new_array",
    "C69_new_array_bad_size",
    "C69_wrong_kind",
    "C69_wrong_kind2"
   ],
   "note": ""
  },
  {
   "property": "C70",
   "status": "proved",
   "theorems": [
    "C70_min_max",
    "C70_small_integers",
    "C70_large_integers_differ"
   ],
   "note": ""
  },
  {
   "property": "C71",
   "status": "proved",
   "theorems": [
    "C71_registered_arity",
    "C71_bound_to_its_function",
    "C71_others_untouched"
   ],
   "note": ""
  },
  {
   "property": "C72",
   "status": "proved",
   "theorems": [
    "C72_count_ignored",
    "C72_refuted"
   ],
   "note": ""
  },
  {
   "property": "C73",
   "status": "proved",
   "theorems": [
    "C73_rounding"
   ],
   "note": ""
  },
  {
   "property": "C74",
   "status": "proved",
   "theorems": [
    "C74_lexical_grammar",
    "C74_unambiguous"
   ],
   "note": ""
  },
  {
   "property": "C75",
   "status": "proved",
   "theorems": [
    "C75_wrong_token"
   ],
   "note": ""
  },
  {
   "property": "C76",
   "status": "proved",
   "theorems": [
    "C76_blank_body"
   ],
   "note": ""
  },
  {
   "property": "C77",
   "status": "proved",
   "theorems": [
    "C77_import_abort",
    "C77_var_import_abort"
   ],
   "note": ""
  },
  {
   "property": "C78",
   "status": "proved",
   "theorems": [
    "C78_meaning_depends_on_addresses"
   ],
   "note": ""
  },
  {
   "property": "C79",
   "status": "proved",
   "theorems": [
    "C79_global_not",
    "C79_global_minus_variable",
    "C79_global_function_name"
   ],
   "note": ""
  },
  {
   "property": "C80",
   "status": "proved",
   "theorems": [
    "C80_duplicate_syscall"
   ],
   "note": ""
  },
  {
   "property": "C81",
   "status": "proved",
   "theorems": [
    "C81_const_none_rejected"
   ],
   "note": ""
  },
  {
   "property": "C82",
   "status": "proved",
   "theorems": [
    "C82_host_sees_source"
   ],
   "note": "End to end: build, call_init, call_once on the collected heap against the source semantics. Hypotheses beyond acceptance: operands fit 32 bits, host strings without NUL bytes, @init ended within its 8192 cycles, and with the optimiser on no literal node is shared."
  },
  {
   "property": "C83",
   "status": "proved",
   "theorems": [
    "C83_host_gets_answers"
   ],
   "note": "Ideal (unbounded) heap; completes C82 by excluding divergence."
  },
  {
   "property": "C84",
   "status": "proved",
   "theorems": [
    "C84_no_early_collection",
    "C84_collects_when_crowded",
    "C84_room_for_each_instruction"
   ],
   "note": "Stated for the shipped arena size of 1 MiB and the shipped trigger."
  },
  {
   "property": "C85",
   "status": "proved",
   "theorems": [
    "C85_arithmetic",
    "C85_comparison",
    "C85_valid"
   ],
   "note": "The IEEE operations are the standard library's SpecFloat, with 24 bits of precision and exponents up to 128."
  },
  {
   "property": "C86",
   "status": "proved",
   "theorems": [
    "C86_compiles",
    "C86_optimiser_keeps"
   ],
   "note": "The condition is on the tree after the optimiser; C86_optimiser_keeps relates it to the tree before."
  },
  {
   "property": "C87",
   "status": "proved",
   "theorems": [
    "C87_no_crash",
    "C87_always_answers"
   ],
   "note": "Imports are excluded here. The excluded sources are the subject of C79, C80 and C88."
  },
  {
   "property": "C88",
   "status": "proved",
   "theorems": [
    "C88_constant_as_variable"
   ],
   "note": ""
  },
  {
   "property": "C89",
   "status": "proved",
   "theorems": [
    "C89_each_file_once"
   ],
   "note": ""
  },
  {
   "property": "C90",
   "status": "proved",
   "theorems": [
    "C90_imports_end",
    "C90_no_endless_import",
    "C90_build_answers"
   ],
   "note": ""
  },
  {
   "property": "C91",
   "status": "proved",
   "theorems": [
    "C91_endless_self_import"
   ],
   "note": ""
  },
  {
   "property": "C92",
   "status": "proved",
   "theorems": [
    "C92_reset_then_init"
   ],
   "note": "With the optimiser on, no literal node may be shared (the condition of C82). The world (output, random state) is the host's and is kept."
  },
  {
   "property": "C93",
   "status": "proved",
   "theorems": [
    "C93_reset_dangles",
    "C93_global_becomes_argument"
   ],
   "note": ""
  },
  {
   "property": "C94",
   "status": "proved",
   "theorems": [
    "C94_handlers_only_watch",
    "C94_slice",
    "C94_once_per_thread",
    "C94_call",
    "C94_round"
   ],
   "note": "Handlers are observers: a handler that changes the vm is outside the model."
  },
  {
   "property": "C95",
   "status": "proved",
   "theorems": [
    "C95_line_of_the_next",
    "C95_wrong_line",
    "C95_no_line"
   ],
   "note": ""
  },
  {
   "property": "C96",
   "status": "proved",
   "theorems": [
    "C96_optimiser_safe",
    "C96_optimised_host"
   ],
   "note": "Condition on the text (ShareSpec.v) instead of the condition on the analysed tree in C36 and C82. C37 shows why it is needed."
  },
  {
   "property": "C97",
   "status": "proved",
   "theorems": [
    "C97_function_lines",
    "C97_init_lines",
    "C97_nothing_else"
   ],
   "note": ""
  },
  {
   "property": "C98",
   "status": "proved",
   "theorems": [
    "C98_lines_are_source_lines",
    "C98_every_answer"
   ],
   "note": "The size bound keeps the unsigned line number of get_line exact."
  },
  {
   "property": "C99",
   "status": "proved",
   "theorems": [
    "C99_stack_discipline",
    "C99_driver_programs"
   ],
   "note": ""
  },
  {
   "property": "C100",
   "status": "proved",
   "theorems": [
    "C100_step",
    "C100_runs",
    "C100_reasons",
    "C100_in_bounds",
    "C100_from_text"
   ],
   "note": "C100_step: one instruction in any sensible state. C100_runs: any host history with the collector. C100_reasons and C100_in_bounds: programs that use no syscall as a value. C100_from_text: from source text with the driver's syscalls. The states on which a crash is blamed (leads) are those that the threads the host asks for can reach, in any interleaving. Examples: C100_ex, C100_crash_ex."
  },
  {
   "property": "C101",
   "status": "proved",
   "theorems": [
    "C101_listing"
   ],
   "note": "Stated by a relation between programs and texts that does not mention the printing loop. Example: the first lines of the listing of a small program."
  },
  {
   "property": "C102",
   "status": "proved",
   "theorems": [
    "C102_tree_dump"
   ],
   "note": "Finding. Reading a node of a class that the collector does not record counts as a use of deleted memory; whether it shows depends on the allocator. The nodes are those of the tree after the optimiser. '%f' is an arbitrary function."
  },
  {
   "property": "C103",
   "status": "proved",
   "theorems": [
    "C103_binary_is_no_image"
   ],
   "note": "Finding."
  },
  {
   "property": "C104",
   "status": "proved",
   "theorems": [
    "C104_exit_code",
    "C104_files",
    "C104_crashes"
   ],
   "note": "C104_exit_code, C104_files, C104_crashes. Which files can be created is a parameter; output files are assumed not to be sources of the same run; console texts are left out."
  },
  {
   "property": "C105",
   "status": "proved",
   "theorems": [
    "C105_texts_are_written",
    "C105_no_zero_bytes",
    "C105_image_is_the_program"
   ],
   "note": "C105_texts_are_written, C105_no_zero_bytes, C105_image_is_the_program. An empty text is allowed besides written ones. With it C82, C96 and C100_from_text no longer assume that the program's strings are free of zero bytes."
  },
  {
   "property": "C106",
   "status": "proved",
   "theorems": [
    "C106_says_what_the_source_says",
    "C106_refusals",
    "C106_crashes",
    "C106_main_with_parameters",
    "C106_temp_bin"
   ],
   "note": "C106_says_what_the_source_says, C106_refusals, C106_crashes, C106_temp_bin and the finding C106_main_with_parameters. '%f' is an arbitrary function; the texts of errors are left out, their kind and line are not (C94, C98)."
  },
  {
   "property": "C107",
   "status": "proved",
   "theorems": [
    "C107_syscall_table",
    "C107_registered_twice",
    "C107_driver_binds_all"
   ],
   "note": "C107_syscall_table, C107_registered_twice, C107_driver_binds_all. With it C105_image_is_the_program asks only that registered names are short and free of zero bytes."
  },
  {
   "property": "C108",
   "status": "proved",
   "theorems": [
    "C108_only_paints",
    "C108_drawing_stays_inside",
    "C108_plot",
    "C108_not_numbers",
    "C108_negative_size"
   ],
   "note": "C108_only_paints, C108_plot, C108_not_numbers, C108_drawing_stays_inside; finding C108_negative_size. Example: C108_ex, a history with every kind of call."
  },
  {
   "property": "C109",
   "status": "proved",
   "theorems": [
    "C109_circle",
    "C109_lopsided",
    "C109_radius_zero",
    "C109_negative_radius"
   ],
   "note": "C109_circle; findings C109_lopsided, C109_radius_zero, C109_negative_radius. Between the two radii either may be. A state meeting the hypotheses is in C108_ex."
  },
  {
   "property": "C110",
   "status": "proved",
   "theorems": [
    "C110_line",
    "C110_every_column",
    "C110_end_missing",
    "C110_too_long"
   ],
   "note": "C110_line, C110_every_column; findings C110_end_missing, C110_too_long. A left shift is taken to be a multiplication."
  },
  {
   "property": "C111",
   "status": "proved",
   "theorems": [
    "C111_flip",
    "C111_wide",
    "C111_tall"
   ],
   "note": "C111_flip; findings C111_wide, C111_tall. Example in C108_ex."
  },
  {
   "property": "C112",
   "status": "proved",
   "theorems": [
    "C112_video",
    "C112_cls",
    "C112_setrgb",
    "C112_old_surface"
   ],
   "note": "C112_video, C112_cls, C112_setrgb; finding C112_old_surface."
  },
  {
   "property": "C113",
   "status": "proved",
   "theorems": [
    "C113_one_predecessor",
    "C113_never_zero",
    "C113_repeats_from_the_start",
    "C113_rand"
   ],
   "note": "C113_rand, C113_never_zero, C113_one_predecessor, C113_repeats_from_the_start."
  },
  {
   "property": "C114",
   "status": "proved",
   "theorems": [
    "C114_putc",
    "C114_puts",
    "C114_getc",
    "C114_gets",
    "C114_gets_at_the_end",
    "C114_wrong_kind",
    "C114_none"
   ],
   "note": "C114_putc, C114_puts, C114_getc, C114_gets, C114_wrong_kind, C114_none; finding C114_gets_at_the_end."
  },
  {
   "property": "C115",
   "status": "proved",
   "theorems": [
    "C115_step_line",
    "C115_step_inst",
    "C115_as_resume",
    "C115_returns",
    "C115_no_collection",
    "C115_endless"
   ],
   "note": "C115_step_line, C115_step_inst, C115_as_resume, C115_returns; findings C115_no_collection, C115_endless. Examples: C115_ex, C115_returns_ex, C115_endless_ex."
  },
  {
   "property": "C116",
   "status": "proved",
   "theorems": [
    "C116_fetch",
    "C116_jump",
    "C116_string",
    "C116_image"
   ],
   "note": "Finding. C116_image, C116_fetch, C116_jump, C116_string. Example: C116_ex."
  },
  {
   "property": "C117",
   "status": "proved",
   "theorems": [
    "C117_rounds_make_a_call",
    "C117_then_nothing",
    "C117_result_is_gone"
   ],
   "note": "C117_rounds_make_a_call is the property; C117_then_nothing and C117_result_is_gone say what later rounds do. Examples: C117_ex, C117_seen, C117_rest_ex."
  },
  {
   "property": "C118",
   "status": "proved",
   "theorems": [
    "C118_world_goes_on",
    "C118_call",
    "C118_refused",
    "C118_in_source"
   ],
   "note": "C118_call, C118_refused (one call, on any heap), C118_in_source (the same in the meaning of the source), C118_world_goes_on (any history). Examples: C118_ex, C118_call_ex."
  },
  {
   "property": "C119",
   "status": "proved",
   "theorems": [
    "C119_game",
    "C119_same_answer",
    "C119_exit_codes",
    "C119_keys"
   ],
   "note": "C119_game is the property, C119_exit_codes the other outcomes, C119_keys is about keydown, C119_same_answer justifies making the picture from the calls. The findings are in C119_game (second and third) and C119_failing (first and second). Examples: C119_ex, C119_failing, C119_others."
  },
  {
   "property": "C120",
   "status": "proved",
   "theorems": [
    "C120_binds_all",
    "C120_offers",
    "C120_verified",
    "C120_calls",
    "C120_crashes"
   ],
   "note": "C120_binds_all, C120_offers, C120_verified, C120_calls, C120_crashes. Example: C120_ex."
  },
  {
   "property": "C121",
   "status": "proved",
   "theorems": [
    "C121_arithmetic",
    "C121_integer",
    "C121_unique",
    "C121_exact",
    "C121_by_zero"
   ],
   "note": "C121_arithmetic, C121_integer; C121_unique shows that the specification determines the result, C121_exact that exact results stay, C121_by_zero is division by zero. Example: C121_ex."
  },
  {
   "property": "C122",
   "status": "proved",
   "theorems": [
    "C122_integer",
    "C122_float",
    "C122_one_text",
    "C122_one_integer_text",
    "C122_fits",
    "C122_cut"
   ],
   "note": "C122_integer, C122_float with C122_one_text and C122_one_integer_text (the specification determines the text); C122_fits says when nothing is cut. Finding: C122_cut. Example: C122_ex."
  },
  {
   "property": "C123",
   "status": "proved",
   "theorems": [
    "C123_token",
    "C123_as_written",
    "C123_not_the_nearest",
    "C123_not_as_written"
   ],
   "note": "C123_token (one or two roundings, overflow), C123_as_written. Findings: C123_not_the_nearest, C123_not_as_written. Example: C123_ex."
  },
  {
   "property": "C124",
   "status": "proved",
   "theorems": [
    "C124_sqrt",
    "C124_special",
    "C124_exact",
    "C124_fraction",
    "C124_unique",
    "C124_trigonometry"
   ],
   "note": "C124_sqrt with C124_unique, C124_exact and C124_fraction (the specification agrees with that of C121 if the root is rational); C124_special; C124_trigonometry. Example: C124_ex."
  },
  {
   "property": "C125",
   "status": "proved",
   "theorems": [
    "C125_fib",
    "C125_fib_overflows",
    "C125_factoral",
    "C125_wday",
    "C125_one_day"
   ],
   "note": "C125_fib, C125_factoral and C125_wday for all arguments, C125_one_day; finding: C125_fib_overflows. Example: C125_ex."
  },
  {
   "property": "C126",
   "status": "proved",
   "theorems": [
    "C126_called",
    "C126_distinct",
    "C126_which",
    "C126_compiled",
    "C126_calls",
    "C126_element_of_none"
   ],
   "note": "C126_called, C126_distinct, C126_compiled, C126_calls; findings: C126_which, C126_element_of_none. Example: C126_ex."
  },
  {
   "property": "C127",
   "status": "proved",
   "theorems": [
    "C127_inside",
    "C127_no_guard",
    "C127_both_sides"
   ],
   "note": "C127_both_sides, C127_inside; finding: C127_no_guard. Example: C127_ex."
  }
 ]
}