{
 "claims": [
  {
   "property": "C01",
   "status": "proved",
   "theorems": [
    "C01_solutions_up_to_sound"
   ],
   "note": "all grids with entries 0-9, all limits"
  },
  {
   "property": "C02",
   "status": "proved",
   "theorems": [
    "C02_solutions_up_to_complete"
   ],
   "note": ""
  },
  {
   "property": "C03",
   "status": "proved",
   "theorems": [
    "C03_solutions_up_to_distinct_and_limited"
   ],
   "note": ""
  },
  {
   "property": "C04",
   "status": "proved",
   "theorems": [
    "C04_solver_total"
   ],
   "note": "bounds-checked accessors give Panic, unbounded loops take fuel; neither is reachable"
  },
  {
   "property": "C05",
   "status": "proved",
   "theorems": [
    "C05_solutions_count_exact",
    "C05_number_of_solutions_is_unique"
   ],
   "note": ""
  },
  {
   "property": "C06",
   "status": "proved",
   "theorems": [
    "C06_solutions_up_to_buffer"
   ],
   "note": ""
  },
  {
   "property": "C07",
   "status": "proved",
   "theorems": [
    "C07_some_solution"
   ],
   "note": ""
  },
  {
   "property": "C08",
   "status": "proved",
   "theorems": [
    "C08_solution_is_unique"
   ],
   "note": ""
  },
  {
   "property": "C09",
   "status": "partial",
   "theorems": [
    "C09_solution_complete_17_clues_partial",
    "C09_solution_complete_partial",
    "C09_few_digits_never_unique",
    "C09_solution_iff_partial",
    "C09_needs_17_clues_partial",
    "C09_missed_puzzle_partial",
    "C09_empty_rows_never_unique",
    "C09_empty_cols_never_unique"
   ],
   "note": "the 17-clue theorem of McGuire et al. is an explicit hypothesis, and proved equivalent to the full statement; everything else, including the 8-digit early exit, is proved"
  },
  {
   "property": "C10",
   "status": "proved",
   "theorems": [
    "C10_is_uniquely_solvable_exact"
   ],
   "note": ""
  },
  {
   "property": "C11",
   "status": "proved",
   "theorems": [
    "C11_is_solved_exact"
   ],
   "note": ""
  },
  {
   "property": "C12",
   "status": "proved",
   "theorems": [
    "C12_n_clues_counts_filled_cells",
    "C12_n_clues_shuffle"
   ],
   "note": ""
  },
  {
   "property": "C45",
   "status": "proved",
   "theorems": [
    "C45_larger_limit_extends"
   ],
   "note": ""
  },
  {
   "property": "C44",
   "status": "proved",
   "theorems": [
    "C44_shrink_mask",
    "C44_locked_candidates_same_band",
    "C44_locked_minirows",
    "C44_column_single",
    "C44_locked_candidates_neighbor_band",
    "C44_row_mask",
    "C44_self_mask",
    "C44_other_band_mask",
    "C44_neighbor_subbands"
   ],
   "note": "each table is compared with a definition in terms of cells of a band (TableSpec.v); the same-band table is specified on minirows present in the argument, which is all the code uses"
  },
  {
   "property": "C41",
   "status": "proved",
   "theorems": [
    "C41_set_algebra",
    "C41_set_tests",
    "C41_len_is_cardinality",
    "C41_operations_stay_in_range",
    "C41_from_bits",
    "C41_extensional"
   ],
   "note": ""
  },
  {
   "property": "C42",
   "status": "proved",
   "theorems": [
    "C42_iteration",
    "C42_unique",
    "C42_one_possibility"
   ],
   "note": ""
  },
  {
   "property": "C43",
   "status": "proved",
   "theorems": [
    "C43_cell_conversions",
    "C43_house_cells",
    "C43_line_cells",
    "C43_row_col_block_cells",
    "C43_chute_cells",
    "C43_miniline_cells",
    "C43_positions",
    "C43_cell_at",
    "C43_cell_at_inverts_position",
    "C43_line_cell_at",
    "C43_cells_at",
    "C43_line_cells_at",
    "C43_single_cell",
    "C43_band_positions",
    "C43_chute_of",
    "C43_house_of",
    "C43_house_of_line",
    "C43_as_line_set",
    "C43_neighbors",
    "C43_neighbors_set",
    "C43_miniline_neighbors",
    "C43_chute_minilines"
   ],
   "note": ""
  },
  {
   "property": "C50",
   "status": "partial",
   "theorems": [
    "C50_new_checked_exact",
    "C50_digit_new_exact",
    "C50_candidate_new_exact",
    "C50_position_new_debug",
    "C50_position_new_panics_refuted"
   ],
   "note": "false as stated: without debug assertions the position constructors accept out-of-range numbers (refuted with a witness for each type); the remaining parts are proved"
  },
  {
   "property": "C13",
   "status": "proved",
   "theorems": [
    "C13_line_accepts"
   ],
   "note": ""
  },
  {
   "property": "C14",
   "status": "proved",
   "theorems": [
    "C14_line_errors"
   ],
   "note": ""
  },
  {
   "property": "C15",
   "status": "proved",
   "theorems": [
    "C15_line_round_trip",
    "C15_line_characters"
   ],
   "note": ""
  },
  {
   "property": "C16",
   "status": "proved",
   "theorems": [
    "C16_from_bytes",
    "C16_from_bytes_slice",
    "C16_iter"
   ],
   "note": ""
  },
  {
   "property": "C17",
   "status": "proved",
   "theorems": [
    "C17_block_accepts",
    "C17_block_valid"
   ],
   "note": "exact: Ok(g) iff the text is in one of the two block formats of ParseSpec.v and writes g"
  },
  {
   "property": "C18",
   "status": "proved",
   "theorems": [
    "C18_block_total",
    "C65_block_errors",
    "C65_one_fault"
   ],
   "note": ""
  },
  {
   "property": "C19",
   "status": "partial",
   "theorems": [
    "C19_not_enough_rows_off_by_one",
    "C19_not_enough_rows_refuted"
   ],
   "note": "false as stated: the count is always one too large (refuted with a witness; proved for every bare text with fewer than nine rows); the permissive parser's count is exact, see C51"
  },
  {
   "property": "C20",
   "status": "proved",
   "theorems": [
    "C20_display_round_trip",
    "C20_display_layout"
   ],
   "note": ""
  },
  {
   "property": "C21",
   "status": "proved",
   "theorems": [
    "C21_serde_round_trip",
    "C21_deserialize_valid"
   ],
   "note": "serde data formats abstracted to a string or a byte string"
  },
  {
   "property": "C22",
   "status": "proved",
   "theorems": [
    "C22_line_order"
   ],
   "note": ""
  },
  {
   "property": "C51",
   "status": "proved",
   "theorems": [
    "C51_permissive_exact"
   ],
   "note": ""
  },
  {
   "property": "C25",
   "status": "proved",
   "theorems": [
    "C25_generate_total",
    "C25_generate_keeps_solution"
   ],
   "note": "the shuffled cell order is an arbitrary permutation of the cells"
  },
  {
   "property": "C26",
   "status": "proved",
   "theorems": [
    "C26_generate_minimal",
    "C26_generate_minimal_single"
   ],
   "note": ""
  },
  {
   "property": "C27",
   "status": "proved",
   "theorems": [
    "C27_generate_symmetric",
    "C27_generate_preserves_symmetry",
    "C27_corresponding_cells_exact"
   ],
   "note": ""
  },
  {
   "property": "C28",
   "status": "partial",
   "theorems": [
    "C28_multiple_unchanged",
    "C28_invalid_unchanged_refuted",
    "C28_invalid_partial"
   ],
   "note": "false for invalid sources (refuted with a witness: a solved grid with one wrong digit becomes a different, uniquely solvable puzzle); proved for sources with several solutions"
  },
  {
   "property": "C23",
   "status": "proved",
   "theorems": [
    "C23_generate_solved"
   ],
   "note": "random number generator: arbitrary first-row permutation and arbitrary sequence of gen_range results"
  },
  {
   "property": "C24",
   "status": "proved",
   "theorems": [
    "C24_search_bounded",
    "C23_generate_solved"
   ],
   "note": ""
  },
  {
   "property": "C52",
   "status": "proved",
   "theorems": [
    "C52_every_grid_generated"
   ],
   "note": ""
  },
  {
   "property": "C53",
   "status": "proved",
   "theorems": [
    "C53_generate_puzzle",
    "C53_generate_default",
    "C53_generate_from"
   ],
   "note": ""
  },
  {
   "property": "C54",
   "status": "partial",
   "theorems": [
    "C54_single_cell_minimal_refuted",
    "C26_generate_minimal_single"
   ],
   "note": "false as stated: refuted with a witness for HalfRotation; true for Symmetry::None, where it is C26"
  },
  {
   "property": "C29",
   "status": "proved",
   "theorems": [
    "C29_shuffle_class"
   ],
   "note": ""
  },
  {
   "property": "C30",
   "status": "proved",
   "theorems": [
    "C30_random_genuine"
   ],
   "note": ""
  },
  {
   "property": "C31",
   "status": "partial",
   "theorems": [
    "C31_canonical_iff_equivalent",
    "C31_puzzles_same_solution",
    "C31_puzzles_partial",
    "C31_puzzles_refuted"
   ],
   "note": "proved for solved grids (where it even decides equivalence) and for puzzles whose solution has only the trivial automorphism; false for other puzzles (refuted with a witness)"
  },
  {
   "property": "C32",
   "status": "proved",
   "theorems": [
    "C32_canonical_minlex",
    "C33_canonicalized_total"
   ],
   "note": ""
  },
  {
   "property": "C33",
   "status": "proved",
   "theorems": [
    "C33_canonicalized_total"
   ],
   "note": ""
  },
  {
   "property": "C34",
   "status": "proved",
   "theorems": [
    "C34_automorphism_count",
    "C33_canonicalized_total"
   ],
   "note": ""
  },
  {
   "property": "C55",
   "status": "proved",
   "theorems": [
    "C55_random_bijective",
    "C55_apply_is_sym",
    "C55_shuffle_reaches_class"
   ],
   "note": ""
  },
  {
   "property": "C35",
   "status": "proved",
   "theorems": [
    "C35_deductions_sound"
   ],
   "note": "for all solvers the public functions produce"
  },
  {
   "property": "C36",
   "status": "proved",
   "theorems": [
    "C36_ok_is_solution",
    "C36_ok_any_solver"
   ],
   "note": ""
  },
  {
   "property": "C37",
   "status": "proved",
   "theorems": [
    "C37_grid_correct"
   ],
   "note": ""
  },
  {
   "property": "C38",
   "status": "proved",
   "theorems": [
    "C38_solve_total",
    "C38_from_sudoku_total",
    "C38_from_grid_state_total",
    "C38_all_strategies"
   ],
   "note": "loops have fuel; the theorem excludes running out of it"
  },
  {
   "property": "C39",
   "status": "partial",
   "theorems": [
    "C39_naked_single_left_refuted",
    "C39_no_hidden_single_left",
    "C39_no_single_left"
   ],
   "note": "false as stated: refuted with a puzzle on which a naked single is left; proved for hidden singles, and for both kinds with the list [HiddenSingles, NakedSingles]"
  },
  {
   "property": "C40",
   "status": "proved",
   "theorems": [
    "C40_deductions_readable",
    "C40_is_empty"
   ],
   "note": ""
  },
  {
   "property": "C46",
   "status": "partial",
   "theorems": [
    "C46_blocked_refuted",
    "C46_candidates_exact",
    "C46_solvable_unblocked",
    "C46_to_sudoku_exact",
    "C46_to_sudoku_any"
   ],
   "note": "false for puzzles with a cell without candidates (refuted with a witness); proved for all others, which includes all solvable puzzles"
  },
  {
   "property": "C47",
   "status": "partial",
   "theorems": [
    "C47_insert_rejects_refuted",
    "C47_insert_exact"
   ],
   "note": "false as documented (refuted with a witness); the exact condition under which it fails is proved"
  },
  {
   "property": "C48",
   "status": "partial",
   "theorems": [
    "C48_recognises_solved_refuted",
    "C48_never_recognised",
    "C48_solves_solved",
    "C48_solves_full"
   ],
   "note": "false as stated (refuted); proved for solve with a non-empty list of strategies"
  },
  {
   "property": "C49",
   "status": "partial",
   "theorems": [
    "C49_mutant_fish_refuted",
    "C40_deductions_readable"
   ],
   "note": "false: proved that the mutant fish never deduce anything in any run"
  },
  {
   "property": "C56",
   "status": "proved",
   "theorems": [
    "C56_avoidable_rectangles_panic",
    "C38_solve_total"
   ],
   "note": ""
  },
  {
   "property": "C57",
   "status": "partial",
   "theorems": [
    "C57_strategies_exhausted",
    "C57_single_strategy_refuted"
   ],
   "note": "proved without bound for every strategy after the first, and for the first unless it is NakedSingles or the only one; false of NakedSingles as first strategy (C39) and of lists of one strategy (refuted)"
  },
  {
   "property": "C58",
   "status": "proved",
   "theorems": [
    "C58_deductions_justified",
    "C58_justified_sound",
    "C58_justified_unique"
   ],
   "note": ""
  },
  {
   "property": "C59",
   "status": "proved",
   "theorems": [
    "C59_cell_state_text"
   ],
   "note": ""
  },
  {
   "property": "C60",
   "status": "proved",
   "theorems": [
    "C60_print_table",
    "C60_grid_state_text",
    "C60_table_shape",
    "C60_read_table",
    "C60_read_cut",
    "C60_read_solutions"
   ],
   "note": ""
  },
  {
   "property": "C61",
   "status": "proved",
   "theorems": [
    "C61_display_total",
    "C61_display_exact",
    "C61_display_read"
   ],
   "note": ""
  },
  {
   "property": "C62",
   "status": "proved",
   "theorems": [
    "C62_grid_state_total",
    "C62_cell_state_total"
   ],
   "note": ""
  },
  {
   "property": "C63",
   "status": "partial",
   "theorems": [
    "C63_cell_state_harmless_refuted"
   ],
   "note": "false: witness in which cell_state makes solve fail"
  },
  {
   "property": "C64",
   "status": "partial",
   "theorems": [
    "C64_read_words",
    "C64_words_exist",
    "C64_read_total_refuted"
   ],
   "note": "false for texts with a plus sign; proved for all others"
  },
  {
   "property": "C65",
   "status": "proved",
   "theorems": [
    "C65_block_errors",
    "C65_one_fault"
   ],
   "note": ""
  },
  {
   "property": "C66",
   "status": "proved",
   "theorems": [
    "C66_block_position",
    "C66_line_position"
   ],
   "note": ""
  },
  {
   "property": "C67",
   "status": "partial",
   "theorems": [
    "C67_block_messages",
    "C67_line_messages",
    "C67_slice_messages",
    "C67_slice_length",
    "C67_permissive_messages",
    "C67_entries_found_refuted",
    "C67_line_number_refuted"
   ],
   "note": "messages are distinct; two messages of the block parser print a row index where another number is announced"
  },
  {
   "property": "C68",
   "status": "proved",
   "theorems": [
    "C68_entries_fit",
    "C68_eliminations_fit",
    "C68_byte_refuted"
   ],
   "note": "for all implemented strategy lists; the bound on eliminations holds for grids with a completion; the last theorem refutes the guess of a source comment"
  },
  {
   "property": "C69",
   "status": "partial",
   "theorems": [
    "C69_ok_after_any_calls_refuted",
    "C69_ok_if_solvable"
   ],
   "note": "false after cell_state has hidden a contradiction; true if the inserted digits have a completion"
  },
  {
   "property": "C70",
   "status": "proved",
   "theorems": [
    "C70_constructors",
    "C70_solve_returns",
    "C70_changes_return",
    "C70_queries_return"
   ],
   "note": ""
  },
  {
   "property": "C71",
   "status": "proved",
   "theorems": [
    "C71_rectangles_exact",
    "C71_rectangles_sound",
    "C71_rectangles_complete"
   ],
   "note": ""
  },
  {
   "property": "C72",
   "status": "partial",
   "theorems": [
    "C72_sets_exact",
    "C72_search_returns_refuted"
   ],
   "note": "the table is exact; the search that uses it panics for all inputs"
  },
  {
   "property": "C73",
   "status": "partial",
   "theorems": [
    "C73_links_exact",
    "C73_links_sound",
    "C73_links_complete",
    "C73_all_links_refuted"
   ],
   "note": "sound, and complete for candidates that are not one of only two in their cell; false for those"
  },
  {
   "property": "C74",
   "status": "proved",
   "theorems": [
    "C74_shuffle_uniform"
   ],
   "note": ""
  },
  {
   "property": "C75",
   "status": "proved",
   "theorems": [
    "C75_class_size",
    "C75_reported_count"
   ],
   "note": ""
  },
  {
   "property": "C76",
   "status": "proved",
   "theorems": [
    "C76_more_strategies_find_more",
    "C76_order_irrelevant",
    "C76_any_order_refuted"
   ],
   "note": "the condition on the lists is part of the property; the last theorem shows that it is needed"
  },
  {
   "property": "C77",
   "status": "proved",
   "theorems": [
    "C77_solvers_agree",
    "C77_digits_agree"
   ],
   "note": ""
  },
  {
   "property": "C78",
   "status": "proved",
   "theorems": [
    "C78_solver_symmetric",
    "C78_solution_fixed"
   ],
   "note": ""
  },
  {
   "property": "C79",
   "status": "proved",
   "theorems": [
    "C79_strategies_symmetric",
    "C79_shuffle_keeps_strategies",
    "C79_any_list_refuted"
   ],
   "note": "for lists that exhaust what their strategies can turn into; this condition is part of the property; the last theorem shows that it is needed"
  },
  {
   "property": "C80",
   "status": "proved",
   "theorems": [
    "C80_split_exact",
    "C80_euler_prints_sum",
    "C80_euler_some_solutions",
    "C80_euler_panics",
    "C80_euler_returns"
   ],
   "note": ""
  },
  {
   "property": "C81",
   "status": "partial",
   "theorems": [
    "C81_example_block",
    "C81_example_line",
    "C81_bars_need_dashes",
    "C81_shipped_example_refuted"
   ],
   "note": "the comment on bars is false: examples/example.rs panics on its own literal, which has bars but no lines of dashes; the exact output is proved for all texts (with the condition of 17 clues, see C09)"
  },
  {
   "property": "C82",
   "status": "proved",
   "theorems": [
    "C82_at_most_648",
    "C82_puzzle_at_most_648",
    "C82_highest",
    "C82_reported_count",
    "C82_many_shuffles",
    "C82_several_solutions_more"
   ],
   "note": ""
  },
  {
   "property": "C83",
   "status": "proved",
   "theorems": [
    "C83_turns_are_shuffles",
    "C83_eight_turns"
   ],
   "note": ""
  },
  {
   "property": "C84",
   "status": "proved",
   "theorems": [
    "C84_from_exact",
    "C84_generated_exact",
    "C84_minimal_puzzles"
   ],
   "note": ""
  },
  {
   "property": "C85",
   "status": "proved",
   "theorems": [
    "C85_unchanged_exact",
    "C85_idempotent"
   ],
   "note": ""
  },
  {
   "property": "C86",
   "status": "proved",
   "theorems": [
    "C86_generated_clues",
    "C86_minimal_clues"
   ],
   "note": ""
  },
  {
   "property": "C87",
   "status": "proved",
   "theorems": [
    "C87_any_proof_found",
    "C87_solves_exactly",
    "C87_candidates_exact",
    "C87_any_list_refuted"
   ],
   "note": "the condition on the list is part of the property; the last theorem shows that it is needed"
  },
  {
   "property": "C88",
   "status": "proved",
   "theorems": [
    "C88_count_split",
    "C88_count_monotone",
    "C88_solution_kept"
   ],
   "note": ""
  },
  {
   "property": "C89",
   "status": "proved",
   "theorems": [
    "C89_same_solutions"
   ],
   "note": ""
  },
  {
   "property": "C90",
   "status": "proved",
   "theorems": [
    "C90_idempotent",
    "C90_fixed_exactly"
   ],
   "note": ""
  },
  {
   "property": "C91",
   "status": "proved",
   "theorems": [
    "C91_same_result",
    "C91_results_exactly",
    "C91_results_count",
    "C91_one_result"
   ],
   "note": ""
  },
  {
   "property": "C92",
   "status": "proved",
   "theorems": [
    "C92_same_state",
    "C92_restored",
    "C92_looked_at"
   ],
   "note": ""
  },
  {
   "property": "C93",
   "status": "proved",
   "theorems": [
    "C93_staged",
    "C93_any_list_refuted"
   ],
   "note": ""
  },
  {
   "property": "C94",
   "status": "proved",
   "theorems": [
    "C94_naked_hidden",
    "C94_hidden_naked",
    "C94_fish_fish"
   ],
   "note": ""
  },
  {
   "property": "C95",
   "status": "proved",
   "theorems": [
    "C95_subsets",
    "C95_no_subsets",
    "C95_no_fish"
   ],
   "note": ""
  },
  {
   "property": "C96",
   "status": "proved",
   "theorems": [
    "C96_solved",
    "C96_puzzle"
   ],
   "note": ""
  },
  {
   "property": "C97",
   "status": "proved",
   "theorems": [
    "C97_line_not_block",
    "C97_block_not_line",
    "C97_line_not_permissive",
    "C97_nine_lines_refuted"
   ],
   "note": ""
  },
  {
   "property": "C98",
   "status": "proved",
   "theorems": [
    "C98_every_grid",
    "C98_permissive_extends",
    "C98_permissive_extends_refuted",
    "C98_display_refuted"
   ],
   "note": ""
  },
  {
   "property": "C99",
   "status": "proved",
   "theorems": [
    "C99_carried",
    "C99_any_shuffle",
    "C99_renamed",
    "C99_transposed",
    "C99_reversed",
    "C99_any_symmetry_refuted"
   ],
   "note": ""
  },
  {
   "property": "C100",
   "status": "proved",
   "theorems": [
    "C100_complete",
    "C100_implied_exact",
    "C100_finer_first",
    "C100_coarser_first_refuted"
   ],
   "note": ""
  },
  {
   "property": "C101",
   "status": "proved",
   "theorems": [
    "C101_depth",
    "C101_no_cut",
    "C101_at_most_82"
   ],
   "note": ""
  }
 ]
}