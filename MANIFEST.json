{
 "claims": [
  {
   "property": "C01",
   "status": "proved",
   "theorems": [
    "C01_write_one_field"
   ],
   "note": ""
  },
  {
   "property": "C02",
   "status": "proved",
   "theorems": [
    "C02_candidate_writes"
   ],
   "note": ""
  },
  {
   "property": "C03",
   "status": "proved",
   "theorems": [
    "C03_new_sudoku",
    "C03_history"
   ],
   "note": ""
  },
  {
   "property": "C04",
   "status": "proved",
   "theorems": [
    "C04_copy"
   ],
   "note": ""
  },
  {
   "property": "C05",
   "status": "proved",
   "theorems": [
    "C05_objects_are_values",
    "C05_distinct",
    "C05_other_objects",
    "C05_copy_independent"
   ],
   "note": ""
  },
  {
   "property": "C06",
   "status": "proved",
   "theorems": [
    "C06_comparison"
   ],
   "note": ""
  },
  {
   "property": "C07",
   "status": "partial",
   "theorems": [
    "C07_eq_symmetric_partial",
    "C07_eq_preorder_partial",
    "C07_eq_symmetric_refuted"
   ],
   "note": "False of the code in general (witness: 1x1 against 4x4); proved for sudokus with equally many rows, with the exact condition otherwise."
  },
  {
   "property": "C08",
   "status": "proved",
   "theorems": [
    "C08_empty_filled"
   ],
   "note": ""
  },
  {
   "property": "C09",
   "status": "proved",
   "theorems": [
    "C09_units",
    "C09_methods"
   ],
   "note": ""
  },
  {
   "property": "C10",
   "status": "proved",
   "theorems": [
    "C10_surrounding",
    "C09_methods"
   ],
   "note": ""
  },
  {
   "property": "C11",
   "status": "proved",
   "theorems": [
    "C11_box",
    "C11_part",
    "C11_box_part",
    "C11_units"
   ],
   "note": ""
  },
  {
   "property": "C12",
   "status": "proved",
   "theorems": [
    "C12_reject"
   ],
   "note": ""
  },
  {
   "property": "C13",
   "status": "proved",
   "theorems": [
    "C13_calc_candidates"
   ],
   "note": ""
  },
  {
   "property": "C14",
   "status": "proved",
   "theorems": [
    "C14_init_candidates"
   ],
   "note": ""
  },
  {
   "property": "C15",
   "status": "proved",
   "theorems": [
    "C15_no_solution_lost"
   ],
   "note": ""
  },
  {
   "property": "C16",
   "status": "proved",
   "theorems": [
    "C16_find_conflicts"
   ],
   "note": ""
  },
  {
   "property": "C17",
   "status": "proved",
   "theorems": [
    "C17_is_solved",
    "C17_is_solved_any",
    "C17_range_needed_refuted",
    "spec_valid_grid"
   ],
   "note": "Proved for numbers in 0..N as stated; the refuted theorem shows that this hypothesis is needed."
  },
  {
   "property": "C18",
   "status": "proved",
   "theorems": [
    "C18_bruteforce_sound"
   ],
   "note": ""
  },
  {
   "property": "C19",
   "status": "proved",
   "theorems": [
    "C19_bruteforce_complete"
   ],
   "note": ""
  },
  {
   "property": "C20",
   "status": "proved",
   "theorems": [
    "C20_bruteforce_conflict"
   ],
   "note": ""
  },
  {
   "property": "C21",
   "status": "proved",
   "theorems": [
    "C21_bruteforce_restores"
   ],
   "note": ""
  },
  {
   "property": "C22",
   "status": "proved",
   "theorems": [
    "C22_dlx_sound"
   ],
   "note": ""
  },
  {
   "property": "C23",
   "status": "proved",
   "theorems": [
    "C23_dlx_complete"
   ],
   "note": ""
  },
  {
   "property": "C24",
   "status": "proved",
   "theorems": [
    "C24_dlx_invalid"
   ],
   "note": ""
  },
  {
   "property": "C25",
   "status": "proved",
   "theorems": [
    "C25_undo",
    "C25_select"
   ],
   "note": ""
  },
  {
   "property": "C26",
   "status": "proved",
   "theorems": [
    "C26_same_solutions",
    "C26_range_needed_refuted"
   ],
   "note": "Range hypothesis as in the statement; the refuted theorem shows it is needed."
  },
  {
   "property": "C27",
   "status": "proved",
   "theorems": [
    "C27_is_unique"
   ],
   "note": ""
  },
  {
   "property": "C28",
   "status": "proved",
   "theorems": [
    "C28_create_solution"
   ],
   "note": ""
  },
  {
   "property": "C29",
   "status": "proved",
   "theorems": [
    "C29_generate_unique"
   ],
   "note": ""
  },
  {
   "property": "C30",
   "status": "proved",
   "theorems": [
    "C30_generate_min_count"
   ],
   "note": ""
  },
  {
   "property": "C31",
   "status": "proved",
   "theorems": [
    "C31_generate_symmetry"
   ],
   "note": ""
  },
  {
   "property": "C32",
   "status": "proved",
   "theorems": [
    "C32_generate_minimal",
    "C32_class_none"
   ],
   "note": ""
  },
  {
   "property": "C33",
   "status": "proved",
   "theorems": [
    "C33_generate_rejects"
   ],
   "note": ""
  },
  {
   "property": "C34",
   "status": "proved",
   "theorems": [
    "C34_template_success",
    "C34_template_failure",
    "C34_template_negative"
   ],
   "note": ""
  },
  {
   "property": "C35",
   "status": "proved",
   "theorems": [
    "C35_singles_sound"
   ],
   "note": ""
  },
  {
   "property": "C36",
   "status": "proved",
   "theorems": [
    "C36_naked_sound",
    "C36_hidden_sound"
   ],
   "note": ""
  },
  {
   "property": "C37",
   "status": "proved",
   "theorems": [
    "C37_pointing_sound"
   ],
   "note": ""
  },
  {
   "property": "C38",
   "status": "proved",
   "theorems": [
    "C38_fish_sound"
   ],
   "note": "n >= 1; a fish of size 0 does not exist in the code base."
  },
  {
   "property": "C39",
   "status": "proved",
   "theorems": [
    "C39_steps_apply",
    "C39_calculate"
   ],
   "note": "For NakedSingle the theorem assumes that no field has the candidate 0; BasicFish of size 0 is excluded (no such class)."
  },
  {
   "property": "C40",
   "status": "proved",
   "theorems": [
    "C40_solve"
   ],
   "note": ""
  },
  {
   "property": "C41",
   "status": "partial",
   "theorems": [
    "C41_solve_terminates_partial",
    "C41_diverges",
    "C41_stops_or_never",
    "C41_solve_terminates_refuted"
   ],
   "note": "False of the code: solve() loops forever whenever an empty field has no possible value (C41_diverges, for every such sudoku). Termination proved for all sudokus with a solution; every other sudoku either stops within states_bound rounds or never."
  },
  {
   "property": "C42",
   "status": "proved",
   "theorems": [
    "C42_deduction_preserves",
    "C42_solve_steps"
   ],
   "note": ""
  },
  {
   "property": "C43",
   "status": "proved",
   "theorems": [
    "C43_rate"
   ],
   "note": ""
  },
  {
   "property": "C44",
   "status": "partial",
   "theorems": [
    "C44_score_partial",
    "C44_score_bound_refuted"
   ],
   "note": "The upper bound 10*empty is false of the code (witness: 14 empty fields, score 142); proved with the additional factor N."
  },
  {
   "property": "C45",
   "status": "proved",
   "theorems": [
    "C45_apply_all"
   ],
   "note": ""
  },
  {
   "property": "C46",
   "status": "proved",
   "theorems": [
    "C46_hints"
   ],
   "note": ""
  },
  {
   "property": "C47",
   "status": "proved",
   "theorems": [
    "C47_order",
    "C47_less",
    "C47_sorted"
   ],
   "note": "The order of tuples is stated by the first place where they differ (SpecStepOrder.v)."
  },
  {
   "property": "C48",
   "status": "proved",
   "theorems": [
    "C48_roundtrip_digits"
   ],
   "note": ""
  },
  {
   "property": "C49",
   "status": "proved",
   "theorems": [
    "C49_roundtrip_separated"
   ],
   "note": "Also for separators with digits or signs after the first character; only the first character and | matter."
  },
  {
   "property": "C50",
   "status": "proved",
   "theorems": [
    "C50_roundtrip_candidates"
   ],
   "note": ""
  },
  {
   "property": "C51",
   "status": "partial",
   "theorems": [
    "C51_unambiguous_partial",
    "C51_ambiguous_partial",
    "C51_unambiguous_refuted"
   ],
   "note": "False of the code for candidates with several digits ({12} and {1,2} are both written 12); proved for one-digit numbers and candidates, with the exact condition otherwise."
  },
  {
   "property": "C52",
   "status": "proved",
   "theorems": [
    "C52_box_size",
    "C52_recovered"
   ],
   "note": "Floats are replaced by exact square roots (equal for fewer than 2^52 fields)."
  },
  {
   "property": "C53",
   "status": "proved",
   "theorems": [
    "C53_blanks"
   ],
   "note": ""
  },
  {
   "property": "C54",
   "status": "partial",
   "theorems": [
    "C54_view_rectangular_partial",
    "C54_view_rectangular_refuted"
   ],
   "note": "False of the code for boxes of height 1 (the rule is too long); proved for height >= 2 with the exact position of every field, bar and plus sign."
  },
  {
   "property": "C55",
   "status": "proved",
   "theorems": [
    "C55_view_number_sep"
   ],
   "note": ""
  },
  {
   "property": "C56",
   "status": "proved",
   "theorems": [
    "C56_roundtrip",
    "C56_empty_encode",
    "C56_empty_decode"
   ],
   "note": "For non-empty collections, as stated; the empty collection is encoded as the empty string, which decode rejects."
  },
  {
   "property": "C57",
   "status": "proved",
   "theorems": [
    "C57_canonical"
   ],
   "note": ""
  },
  {
   "property": "C58",
   "status": "proved",
   "theorems": [
    "C58_value_error"
   ],
   "note": ""
  },
  {
   "property": "C59",
   "status": "proved",
   "theorems": [
    "C59_groups",
    "C59_out_of_range",
    "C59_cells"
   ],
   "note": ""
  },
  {
   "property": "C60",
   "status": "partial",
   "theorems": [
    "C60_repeated_partial",
    "C60_adjacent_overwrites",
    "C60_repeated_refuted"
   ],
   "note": "False of the code for an immediate repetition (r1r2c3 means r2c3); proved for repetitions after another qualifier."
  },
  {
   "property": "C61",
   "status": "partial",
   "theorems": [
    "C61_exact_run_partial",
    "C61_illegal_rejected",
    "C61_whitespace_refuted"
   ],
   "note": "False of the code: only the exact sequence of all six whitespace characters is removed; every other blank makes decode fail."
  },
  {
   "property": "C62",
   "status": "proved",
   "theorems": [
    "C62_decode_set",
    "C62_decode_remove",
    "C62_apply_set",
    "C62_apply_remove",
    "C62_minus_rejected"
   ],
   "note": ""
  },
  {
   "property": "C63",
   "status": "proved",
   "theorems": [
    "C63_encode_action",
    "C63_written",
    "C63_string_number"
   ],
   "note": ""
  },
  {
   "property": "C64",
   "status": "proved",
   "theorems": [
    "C64_push",
    "C64_kept",
    "C64_pop",
    "C64_pop_error",
    "C64_restore"
   ],
   "note": "For all library functions that return or raise Python exceptions other than SystemExit; fields hold ints."
  },
  {
   "property": "C65",
   "status": "proved",
   "theorems": [
    "C65_loop",
    "C65_not_executed",
    "C65_exit",
    "C65_depth",
    "C65_start",
    "C65_refused"
   ],
   "note": ""
  },
  {
   "property": "C66",
   "status": "proved",
   "theorems": [
    "C66_frame",
    "C66_batch_command",
    "C66_batch_run"
   ],
   "note": ""
  },
  {
   "property": "C67",
   "status": "partial",
   "theorems": [
    "C67_text_printed_partial",
    "C67_print_partial",
    "C67_get_refuted"
   ],
   "note": "False of the code: get and get_candidates always report an error; strings (print, encode, view) are printed."
  },
  {
   "property": "C68",
   "status": "partial",
   "theorems": [
    "C68_lines",
    "C68_comment",
    "C68_newline",
    "C68_plain",
    "C68_semicolon_partial",
    "C68_exit_refuted",
    "C68_trailing_refuted"
   ],
   "note": "Comments, continuation and blank lines proved. False of the code for ;: after exit the rest of the line is still executed, and an empty command between or after ; is an error; proved otherwise."
  },
  {
   "property": "C69",
   "status": "proved",
   "theorems": [
    "C69_line",
    "C69_play",
    "C69_undo_redo"
   ],
   "note": ""
  },
  {
   "property": "C70",
   "status": "proved",
   "theorems": [
    "C70_autofill_default",
    "C70_default_settings",
    "C70_autofill_safe",
    "C70_autofill_terminates",
    "C70_autofill_diverges"
   ],
   "note": "verbose autofill for at most 9 numbers (the game is 9x9)."
  },
  {
   "property": "C71",
   "status": "proved",
   "theorems": [
    "C71_rows"
   ],
   "note": ""
  },
  {
   "property": "C72",
   "status": "proved",
   "theorems": [
    "C72_short",
    "C72_long"
   ],
   "note": ""
  },
  {
   "property": "C73",
   "status": "proved",
   "theorems": [
    "C73_exceptions",
    "C73_type_error",
    "C59_cells"
   ],
   "note": ""
  },
  {
   "property": "C74",
   "status": "proved",
   "theorems": [
    "C74_exact_text",
    "C74_entries_unique"
   ],
   "note": ""
  },
  {
   "property": "C75",
   "status": "proved",
   "theorems": [
    "C75_survives",
    "C75_crash"
   ],
   "note": ""
  },
  {
   "property": "C76",
   "status": "proved",
   "theorems": [
    "C76_crashes",
    "C76_crash_effect",
    "C76_unknown"
   ],
   "note": ""
  },
  {
   "property": "C77",
   "status": "proved",
   "theorems": [
    "C77_check"
   ],
   "note": ""
  },
  {
   "property": "C78",
   "status": "proved",
   "theorems": [
    "C78_conflicts"
   ],
   "note": ""
  },
  {
   "property": "C79",
   "status": "proved",
   "theorems": [
    "C79_new_game",
    "C79_run"
   ],
   "note": ""
  },
  {
   "property": "C80",
   "status": "partial",
   "theorems": [
    "C80_hint_partial",
    "C80_stale_refuted"
   ],
   "note": "False of the code: only a change of numbers starts the hints again; after a change of candidates the old hints are continued (witness). Proved: exactly what is shown in each case."
  },
  {
   "property": "C81",
   "status": "proved",
   "theorems": [
    "C81_calculate",
    "C81_naked_single"
   ],
   "note": ""
  },
  {
   "property": "C82",
   "status": "proved",
   "theorems": [
    "C82_hidden_single",
    "C82_without_candidates"
   ],
   "note": ""
  },
  {
   "property": "C83",
   "status": "proved",
   "theorems": [
    "C83_naked_tuple"
   ],
   "note": ""
  },
  {
   "property": "C84",
   "status": "proved",
   "theorems": [
    "C84_hidden_tuple",
    "C84_at_least_twice"
   ],
   "note": ""
  },
  {
   "property": "C85",
   "status": "proved",
   "theorems": [
    "C85_pointing_tuple"
   ],
   "note": ""
  },
  {
   "property": "C86",
   "status": "proved",
   "theorems": [
    "C86_fish"
   ],
   "note": "BasicFish(0) does not occur; min() of an empty list."
  },
  {
   "property": "C87",
   "status": "proved",
   "theorems": [
    "C87_bruteforce"
   ],
   "note": ""
  },
  {
   "property": "C88",
   "status": "proved",
   "theorems": [
    "C88_any_sudoku"
   ],
   "note": "Exceptions: in the model, i.e. apart from memory, recursion limit and interrupts."
  },
  {
   "property": "C89",
   "status": "proved",
   "theorems": [
    "C89_repr",
    "C89_str",
    "C89_text",
    "C89_names",
    "C89_hints"
   ],
   "note": "The classes in SOLVERS; the names of classes made by a user are arbitrary."
  },
  {
   "property": "C90",
   "status": "partial",
   "theorems": [
    "C90_signature_partial",
    "C90_rotated",
    "C90_commands_refuted",
    "C90_table",
    "C90_values"
   ],
   "note": "False of the code for decode, encode, view and help (exactly these commands); proved: what is shown for every signature."
  },
  {
   "property": "C91",
   "status": "proved",
   "theorems": [
    "C91_all",
    "C91_names",
    "C91_one",
    "C91_bad"
   ],
   "note": "Documentation strings are arbitrary; inspect.getargspec as in Python 3 before 3.11."
  },
  {
   "property": "C92",
   "status": "proved",
   "theorems": [
    "C92_bind",
    "C92_parameters",
    "C92_same",
    "C92_bad"
   ],
   "note": "While no loop is being defined (then commands are only recorded)."
  },
  {
   "property": "C93",
   "status": "proved",
   "theorems": [
    "C93_solve"
   ],
   "note": "Box sizes >= 1."
  },
  {
   "property": "C94",
   "status": "proved",
   "theorems": [
    "C94_generate",
    "C94_generate_bad",
    "C94_template"
   ],
   "note": "Box sizes and tries >= 1 resp. 0."
  },
  {
   "property": "C95",
   "status": "proved",
   "theorems": [
    "C95_edit",
    "C95_show",
    "C95_get",
    "C95_fresh",
    "C95_simple_calls"
   ],
   "note": "Arguments of the expected types; decode with an empty marker of one ASCII character."
  },
  {
   "property": "C96",
   "status": "proved",
   "theorems": [
    "C96_file",
    "C96_command",
    "C96_stdin",
    "C96_status",
    "C96_crash"
   ],
   "note": "argparse itself is not modelled."
  },
  {
   "property": "C97",
   "status": "proved",
   "theorems": [
    "C97_command",
    "C97_blanks"
   ],
   "note": ""
  },
  {
   "property": "C98",
   "status": "proved",
   "theorems": [
    "C98_generate_results",
    "C98_generate_full",
    "C98_minimal_possible"
   ],
   "note": "Exact set of possible results for a given created solution, over all permutations the shuffle can produce and any set order of is_unique; which solutions create_solution can return is not part of the claim."
  },
  {
   "property": "C99",
   "status": "proved",
   "theorems": [
    "C99_solutions",
    "C99_dlx",
    "C99_is_unique",
    "C99_candidates",
    "C99_conflicts",
    "C99_is_solved",
    "C99_relabel",
    "C99_transpose",
    "C99_lines"
   ],
   "note": "For the general notion of equivalence in SpecEquiv.v; the last three theorems give the usual equivalences."
  },
  {
   "property": "C100",
   "status": "proved",
   "theorems": [
    "C100_true",
    "C100_raises",
    "C100_sudokus"
   ],
   "note": ""
  },
  {
   "property": "C101",
   "status": "proved",
   "theorems": [
    "C101_access",
    "C101_view",
    "C101_solved",
    "C101_decode"
   ],
   "note": ""
  },
  {
   "property": "C102",
   "status": "proved",
   "theorems": [
    "C102_view",
    "C102_str"
   ],
   "note": "The text includes the rule of wrong length for boxes of height 1 (see C54)."
  },
  {
   "property": "C103",
   "status": "proved",
   "theorems": [
    "C103_read",
    "C103_refused",
    "C103_unique",
    "C103_numbers",
    "C103_set",
    "C103_print",
    "C103_pop",
    "C103_loop"
   ],
   "note": "literal_eval is an arbitrary function; only C103_numbers and the later theorems assume that it reads decimal numbers."
  },
  {
   "property": "C104",
   "status": "proved",
   "theorems": [
    "C104_defaults",
    "C104_get",
    "C104_shown",
    "C104_unused",
    "C104_unused_line"
   ],
   "note": "Settings are bools or pairs of integers, as in __init__."
  },
  {
   "property": "C105",
   "status": "proved",
   "theorems": [
    "C105_groups",
    "C105_sections",
    "C105_accepted",
    "C105_type_error",
    "C105_value_error"
   ],
   "note": "Number separators that can be part of a number (blanks, + - _) are excluded."
  },
  {
   "property": "C106",
   "status": "proved",
   "theorems": [
    "C106_action",
    "C106_type_error",
    "C106_outcome",
    "C106_game"
   ],
   "note": "int() of a text is characterised by int_text (blanks, sign, digits with single underscores)."
  },
  {
   "property": "C107",
   "status": "proved",
   "theorems": [
    "C107_reads",
    "C107_unique",
    "C107_index_error",
    "C107_value_error"
   ],
   "note": "No restriction on separators. `item is empty` as in CPython (Latin-1 characters are unique objects)."
  },
  {
   "property": "C108",
   "status": "proved",
   "theorems": [
    "C108_bruteforce",
    "C108_bruteforce_short",
    "C108_dlx",
    "C108_dlx_short",
    "C108_empty",
    "C108_warning_refuted"
   ],
   "note": "Room counts active calls of _do_bruteforce / dlx.solve only; frames of callers and callees are a constant. The warning in the docstring of solve.py is refuted."
  },
  {
   "property": "C109",
   "status": "proved",
   "theorems": [
    "C109_apply",
    "C109_again",
    "C109_twice",
    "C109_preview",
    "C109_independent",
    "C109_used_refuted",
    "C109_raises",
    "C109_calculate",
    "C109_init"
   ],
   "note": "That a used step acts like a new one is refuted for naked tuples and proved for the other cases listed. A step whose build_actions raises is not modelled further."
  },
  {
   "property": "C110",
   "status": "proved",
   "theorems": [
    "C110_unique",
    "C110_solve",
    "C110_rate",
    "C110_score",
    "C110_find",
    "C110_hints",
    "C110_order_refuted"
   ],
   "note": "For sudokus without a solution nothing is claimed. The order is a function of the sudoku and the set."
  },
  {
   "property": "C111",
   "status": "proved",
   "theorems": [
    "C111_bruteforce",
    "C111_dlx",
    "C111_collect"
   ],
   "note": "Statements of the consumer are those of MHeap.v: create, copy, set a number, set or remove candidates. The order of a set is a function of the sudoku searched and the set."
  },
  {
   "property": "C112",
   "status": "proved",
   "theorems": [
    "C112_pair",
    "C112_accepted",
    "C112_errors",
    "C112_value_error",
    "C112_dict_refuted"
   ],
   "note": "Arguments of user-defined classes and generators are not modelled; memory is unlimited."
  },
  {
   "property": "C113",
   "status": "proved",
   "theorems": [
    "C113_ints",
    "C113_not_round",
    "C113_encode",
    "C113_decode",
    "C113_units",
    "C113_round_trip_refuted"
   ],
   "note": "The round trip is refuted. Floats are exact; infinities, NaN and floats from 10^15 on are not modelled; coordinates are ints."
  },
  {
   "property": "C114",
   "status": "proved",
   "theorems": [
    "C114_none",
    "C114_ends",
    "C114_stack",
    "C114_prompt",
    "C114_continued",
    "C114_prompt_batch",
    "C114_command",
    "C114_again",
    "C114_loop",
    "C114_next_line_refuted",
    "C114_discard_refuted",
    "C114_loop_prompt_refuted"
   ],
   "note": "Interrupts while printing, in an exception handler, within push, pop or between two commands of a line, and of a line given by -c are not modelled. literal_eval raises nothing but SyntaxError, ValueError and KeyboardInterrupt."
  },
  {
   "property": "C115",
   "status": "proved",
   "theorems": [
    "C115_create",
    "C115_generate",
    "C115_template",
    "C115_boxes",
    "C115_conflicts",
    "C115_solved",
    "C115_bruteforce",
    "C115_init",
    "C115_dlx",
    "C115_agree_refuted",
    "C115_shell_generate",
    "C115_shell_solve"
   ],
   "note": "That dlx and bruteforce agree is refuted for negative sizes. The logical solvers and the notation are not treated for such sizes."
  },
  {
   "property": "C116",
   "status": "proved",
   "theorems": [
    "C116_hidden_naked",
    "C116_naked_hidden",
    "C116_find_hidden",
    "C116_find_naked",
    "C116_solve",
    "C116_settled_refuted",
    "C116_no_hidden_refuted"
   ],
   "note": "The conditions of the duality are shown to be needed. The bounds are proved for sudokus that have a solution."
  },
  {
   "property": "C117",
   "status": "proved",
   "theorems": [
    "C117_rate_level",
    "C117_rate_order"
   ],
   "note": "That rate() returns at all is C43. A hint is a step of find() called on the present sudoku; it is applied before the next hint is looked for."
  },
  {
   "property": "C118",
   "status": "proved",
   "theorems": [
    "C118_confluence",
    "C118_end",
    "C118_ends",
    "C118_unique",
    "C118_complete",
    "C118_bruteforce_refuted"
   ],
   "note": "Refuted with Bruteforce among the classes."
  },
  {
   "property": "C119",
   "status": "proved",
   "theorems": [
    "C119_rate_monotone"
   ],
   "note": "Nothing is claimed for score()."
  },
  {
   "property": "C120",
   "status": "proved",
   "theorems": [
    "C120_rate",
    "C120_relabel",
    "C120_transpose",
    "C120_lines",
    "C120_score_refuted"
   ],
   "note": "For score() refuted (a 6x6 sudoku with several solutions: 199 and, with rows and columns exchanged, 201)."
  },
  {
   "property": "C121",
   "status": "proved",
   "theorems": [
    "C121_sizes",
    "C121_rate",
    "C121_score",
    "C121_ratings"
   ],
   "note": "The bounds for fish are reached for N = 4, 6 and 8 (C121_ex). That rate() and score() return is C43 and C44."
  },
  {
   "property": "C122",
   "status": "proved",
   "theorems": [
    "C122_unique",
    "C122_is_unique",
    "C122_several",
    "C122_hints_keep",
    "C122_converse_refuted",
    "C122_no_solution_refuted"
   ],
   "note": "That rate() returns is C43. The converse and the claim without a solution are refuted."
  },
  {
   "property": "C123",
   "status": "proved",
   "theorems": [
    "C123_singles",
    "C123_rate",
    "C123_is_unique",
    "C123_five_refuted"
   ],
   "note": "For all sudokus of these sizes; the proof computes with filled sudokus up to moves and renaming. Refuted for five rows."
  },
  {
   "property": "C124",
   "status": "proved",
   "theorems": [
    "C124_once",
    "C124_score",
    "C124_monotone_refuted"
   ],
   "note": "That score() returns is C44. Monotonicity is refuted by a 6x6 sudoku (score 28, with one more number 31)."
  },
  {
   "property": "C125",
   "status": "proved",
   "theorems": [
    "C125_list",
    "C125_ends",
    "C125_end",
    "C125_rate",
    "C125_first",
    "C125_first_rate",
    "C125_bare_refuted"
   ],
   "note": "Hints that fill numbers while candidates are missing may be wrong: refuted. That rate() returns is C43."
  },
  {
   "property": "C126",
   "status": "proved",
   "theorems": [
    "C126_solve",
    "C126_undo",
    "C126_unknown",
    "C126_twice_refuted"
   ],
   "note": "Constraints and rows are of the types of the model (four kinds of pairs of ints, triples of ints), which are infinite, so every finite problem is an instance up to names. A repeated constraint in a row is refuted."
  },
  {
   "property": "C127",
   "status": "proved",
   "theorems": [
    "C127_symmetry",
    "C127_numbers",
    "C127_poor",
    "C127_is_unique",
    "C127_template",
    "C127_generate"
   ],
   "note": "poor is defined in SpecClues.v by the places of the numbers only; the call with negative tries is shown to run out of every fuel."
  },
  {
   "property": "C128",
   "status": "proved",
   "theorems": [
    "C128_generate",
    "C128_naked",
    "C128_hidden",
    "C128_roomy",
    "C128_bound",
    "C128_symmetry_refuted"
   ],
   "note": "irreducible and roomy are defined in SpecMinimal.v; C128_symmetry_refuted shows that the restriction to generate() without symmetry is necessary."
  },
  {
   "property": "C129",
   "status": "proved",
   "theorems": [
    "C129_pattern",
    "C129_even",
    "C129_generate"
   ],
   "note": "symmetric, on_axis and class_size are defined in SpecAxis.v."
  },
  {
   "property": "C130",
   "status": "proved",
   "theorems": [
    "C130_even",
    "C130_factorial",
    "C130_empty",
    "C130_bruteforce"
   ],
   "note": "the number of solutions is the length of the list of yielded sudokus."
  },
  {
   "property": "C131",
   "status": "proved",
   "theorems": [
    "C131_generate",
    "C131_count",
    "C131_order",
    "C131_template"
   ],
   "note": "compares two runs with the same oracle; for negative tries the fuel of the second run is the one needed."
  },
  {
   "property": "C132",
   "status": "proved",
   "theorems": [
    "C132_split",
    "C132_bruteforce",
    "C132_other",
    "C132_fewer",
    "C132_unique"
   ],
   "note": "numbers of solutions are lengths of the lists of yielded sudokus."
  },
  {
   "property": "C133",
   "status": "proved",
   "theorems": [
    "C133_fields",
    "C133_diff",
    "C133_sizes",
    "C133_copy",
    "C133_conflicts",
    "C133_ints",
    "C133_candidates",
    "C133_dlx",
    "C133_unique",
    "C133_unhashable",
    "C133_bruteforce",
    "C133_bruteforce_unhashable"
   ],
   "note": "stands and fills_in are defined in SpecObjects.v; the objects are given by a record of functions (truth, ==, !=, key among ints), none of which raises except hash()."
  },
  {
   "property": "C134",
   "status": "proved",
   "theorems": [
    "C134_observer",
    "C134_quiet",
    "C134_applying",
    "C134_trying"
   ],
   "note": "bare, observer, applying and trying are defined in SpecReport.v; the callback has no access to the sudoku that solve() works on."
  },
  {
   "property": "C135",
   "status": "proved",
   "theorems": [
    "C135_encode",
    "C135_same",
    "C135_digits",
    "C135_separated",
    "C135_view",
    "C135_str"
   ],
   "note": "encode_text, shown_o and grid_text are defined in SpecObjText.v; str() and bool() of the objects do not raise."
  },
  {
   "property": "C136",
   "status": "proved",
   "theorems": [
    "C136_same",
    "C136_start",
    "C136_zero",
    "C136_negative",
    "C136_pop",
    "C136_pop_error"
   ],
   "note": "list_position is defined in SpecShellO.v (positions of list.pop)."
  },
  {
   "property": "C137",
   "status": "proved",
   "theorems": [
    "C137_access",
    "C137_candidates",
    "C137_units",
    "C137_surrounding",
    "C137_include",
    "C137_box_at",
    "C137_conflicts",
    "C137_each",
    "C137_all",
    "C137_index_error",
    "C137_solved_refuted"
   ],
   "note": "Negative indices (SpecWrap.v). C137_solved_refuted: find_conflicts asked with coordinates that count from the end reports conflicts of a field with itself in every complete sudoku."
  },
  {
   "property": "C138",
   "status": "proved",
   "theorems": [
    "C138_decode",
    "C138_action",
    "C138_fields",
    "C138_fields_refuted",
    "C138_blanks"
   ],
   "note": "digit_of is the table of the 66 runs of decimal digits of Unicode 14 (PyStr.v, SpecDecode.v). C138_fields_refuted: the invariance does not hold for the names of fields."
  },
  {
   "property": "C139",
   "status": "proved",
   "theorems": [
    "C139_program",
    "C139_search",
    "C139_complete"
   ],
   "note": "Programs with any number of interleaved searches on a heap of objects (MSearches.v). If the body of a generator raises, the heap of the model is that before next() (only its private copy could differ)."
  },
  {
   "property": "C140",
   "status": "proved",
   "theorems": [
    "C140_visits",
    "C140_backward",
    "C140_achieves",
    "C140_conflicts",
    "C140_seen"
   ],
   "note": "The loop is that of SpecLoop.v: between two next() the sudoku is what the body makes of it. other is an object the body does not change. C140_ex_forward shows that backward is needed in C140_backward."
  },
  {
   "property": "C141",
   "status": "proved",
   "theorems": [
    "C141_second",
    "C141_maximal",
    "C141_first",
    "C141_first_maximal_refuted"
   ],
   "note": "C141_first_maximal_refuted: the maximality of C141_maximal does not hold if the first fields are cleared, as the statement says."
  },
  {
   "property": "C142",
   "status": "proved",
   "theorems": [
    "C142_fill"
   ],
   "note": "Any choice of candidates, also one that depends on the whole sudoku. C142_ex_body shows bodies that meet fills_candidate."
  },
  {
   "property": "C143",
   "status": "proved",
   "theorems": [
    "C143_forced",
    "C143_rounds"
   ],
   "note": ""
  }
 ]
}