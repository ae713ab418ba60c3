{
 "claims": [
  {
   "property": "C01",
   "status": "proved",
   "theorems": [
    "C01_outcomes_of_index",
    "C01_index_of_outcomes",
    "C01_wrong_length_panics"
   ],
   "note": "any list of variables; int unbounded (see C67)"
  },
  {
   "property": "C02",
   "status": "proved",
   "theorems": [
    "C02_odometer",
    "C02_wraps_to_zero"
   ],
   "note": "any number of steps"
  },
  {
   "property": "C03",
   "status": "proved",
   "theorems": [
    "C03_row"
   ],
   "note": "ve.Factor.RowIndex and Row"
  },
  {
   "property": "C04",
   "status": "proved",
   "theorems": [
    "C04_set_get"
   ],
   "note": ""
  },
  {
   "property": "C05",
   "status": "proved",
   "theorems": [
    "C05_no_data",
    "C05_wrong_length_panics"
   ],
   "note": ""
  },
  {
   "property": "C06",
   "status": "proved",
   "theorems": [
    "C06_create_factor",
    "C06_fresh_ids"
   ],
   "note": "histories of all twelve calls on Variables with arbitrary arguments; calls that panic end a history"
  },
  {
   "property": "C07",
   "status": "proved",
   "theorems": [
    "C07_restrict",
    "C07_restrict_panics"
   ],
   "note": "any arithmetic"
  },
  {
   "property": "C08",
   "status": "proved",
   "theorems": [
    "C08_sum_out",
    "C08_sum_out_exact",
    "C08_sum_out_panics"
   ],
   "note": "any arithmetic, including IEEE binary64"
  },
  {
   "property": "C09",
   "status": "proved",
   "theorems": [
    "C09_product",
    "C09_product_order",
    "C09_product_exact"
   ],
   "note": "any number of factors"
  },
  {
   "property": "C10",
   "status": "proved",
   "theorems": [
    "C10_sum",
    "C10_sum_exact"
   ],
   "note": "any number of factors"
  },
  {
   "property": "C11",
   "status": "proved",
   "theorems": [
    "C11_marginal",
    "C11_marginal_exact"
   ],
   "note": ""
  },
  {
   "property": "C12",
   "status": "proved",
   "theorems": [
    "C12_normalize"
   ],
   "note": "exact arithmetic"
  },
  {
   "property": "C13",
   "status": "proved",
   "theorems": [
    "C13_normalize_for"
   ],
   "note": "exact arithmetic"
  },
  {
   "property": "C14",
   "status": "proved",
   "theorems": [
    "C14_rearrange",
    "C14_rearrange_back"
   ],
   "note": "any number type, no arithmetic involved"
  },
  {
   "property": "C15",
   "status": "partial",
   "theorems": [
    "C15_rearrange_accepts_duplicates_refuted",
    "C15_rearrange_rejects_partial",
    "C15_rearrange_exact"
   ],
   "note": "the full statement is false of the code: a list repeating a variable is accepted; proved: Rearrange panics exactly for wrong lengths and foreign variables, and which table it returns for every other list"
  },
  {
   "property": "C16",
   "status": "proved",
   "theorems": [
    "C16_policy",
    "C16_any_values",
    "C16_no_values"
   ],
   "note": "exact arithmetic, ties split evenly; also for infinite values and NaN"
  },
  {
   "property": "C17",
   "status": "proved",
   "theorems": [
    "C17_invert",
    "C17_invert_twice"
   ],
   "note": "exact arithmetic"
  },
  {
   "property": "C18",
   "status": "partial",
   "theorems": [
    "C18_duplicate_ids_accepted_refuted"
   ],
   "note": "the statement is false of the code: AddVariable never records ids, so a duplicate is accepted after every history"
  },
  {
   "property": "C19",
   "status": "proved",
   "theorems": [
    "C19_solve_query"
   ],
   "note": "exact arithmetic; every map iteration order; each hidden variable must occur in a factor, otherwise the code panics (C19_orphan_panics)"
  },
  {
   "property": "C20",
   "status": "proved",
   "theorems": [
    "C20_query_schedule",
    "C20_utility_schedule",
    "C20_one_utility_schedule"
   ],
   "note": "exact arithmetic; any two schedules"
  },
  {
   "property": "C21",
   "status": "partial",
   "theorems": [
    "C21_reproducible_refuted",
    "C84_orders",
    "C20_query_schedule"
   ],
   "note": "the statement is false of the code: with float64 the product of 0.1, 0.2 and 0.3 depends on the map iteration order; in exact arithmetic it holds (C20_query_schedule), and C84_orders bounds how far any two float64 runs can be apart"
  },
  {
   "property": "C22",
   "status": "proved",
   "theorems": [
    "C22_total_utility",
    "C22_one_utility"
   ],
   "note": "exact arithmetic; single-outcome utilities for the total (see C23)"
  },
  {
   "property": "C23",
   "status": "partial",
   "theorems": [
    "C23_many_outcomes_refuted",
    "C23_weighted_sum_partial",
    "C23_any_outcomes"
   ],
   "note": "false of the code when a utility variable has several outcomes; proved for single-outcome utilities with one factor each; for any outcomes, the total that is returned instead is given exactly"
  },
  {
   "property": "C24",
   "status": "proved",
   "theorems": [
    "C24_decision_order"
   ],
   "note": "every declaration order, every schedule; termination for any arcs"
  },
  {
   "property": "C25",
   "status": "proved",
   "theorems": [
    "C25_one_decision_optimal"
   ],
   "note": "exact arithmetic; against randomised policies too"
  },
  {
   "property": "C26",
   "status": "partial",
   "theorems": [
    "C26_foreign_parent_refuted",
    "C26_policy_scope_partial",
    "C26_declared_parents_partial"
   ],
   "note": "false of the code with two unconnected decisions; proved: only declared parents and other decisions are mentioned, and only declared parents when there is no forgetting or at most one decision"
  },
  {
   "property": "C27",
   "status": "proved",
   "theorems": [
    "C27_posterior"
   ],
   "note": "exact arithmetic; well-formed networks with nonnegative tables; C28 covers zero probability"
  },
  {
   "property": "C28",
   "status": "proved",
   "theorems": [
    "C28_impossible_evidence"
   ],
   "note": "the answer is a list of NaN, no error"
  },
  {
   "property": "C29",
   "status": "proved",
   "theorems": [
    "C29_probability_of_evidence"
   ],
   "note": ""
  },
  {
   "property": "C30",
   "status": "proved",
   "theorems": [
    "C30_row_scale"
   ],
   "note": ""
  },
  {
   "property": "C31",
   "status": "proved",
   "theorems": [
    "C31_bad_names",
    "C31_bad_utility"
   ],
   "note": ""
  },
  {
   "property": "C32",
   "status": "partial",
   "theorems": [
    "C32_query_evidence_panics_refuted",
    "C32_no_panic_partial"
   ],
   "note": "false of the code: asking for an observed or unmentioned variable panics; otherwise no panic"
  },
  {
   "property": "C33",
   "status": "proved",
   "theorems": [
    "C33_query_history",
    "C33_utility_history",
    "C33_policies_history"
   ],
   "note": "any arithmetic"
  },
  {
   "property": "C34",
   "status": "proved",
   "theorems": [
    "C34_intervention",
    "C34_truncated_product"
   ],
   "note": ""
  },
  {
   "property": "C35",
   "status": "proved",
   "theorems": [
    "C35_new",
    "C35_new_wf"
   ],
   "note": ""
  },
  {
   "property": "C36",
   "status": "partial",
   "theorems": [
    "C36_cycle_accepted_refuted",
    "C35_new",
    "C27_posterior"
   ],
   "note": "false of the code: New does not check for cycles. C35_new gives the exact condition under which New succeeds; cycles do not appear in it. C27_posterior does not assume that there are no cycles: it says what SolveQuery answers for networks with cycles too, namely the normalised product of the tables."
  },
  {
   "property": "C37",
   "status": "partial",
   "theorems": [
    "C37_row_refuted",
    "C37_write_refuted",
    "C37_row_partial",
    "C37_row_missing"
   ],
   "note": "false of the code for tables with several columns; first row and one-column tables hold"
  },
  {
   "property": "C38",
   "status": "proved",
   "theorems": [
    "C38_one_hot",
    "C38_errors"
   ],
   "note": ""
  },
  {
   "property": "C39",
   "status": "proved",
   "theorems": [
    "C39_rearrange"
   ],
   "note": ""
  },
  {
   "property": "C40",
   "status": "proved",
   "theorems": [
    "C40_weighted",
    "C40_missing_parent"
   ],
   "note": "utility nodes with one outcome"
  },
  {
   "property": "C41",
   "status": "proved",
   "theorems": [
    "C41_frequencies",
    "C41_rows_add_up",
    "C41_order",
    "C41_changes_only_tables"
   ],
   "note": "Exact arithmetic; every trainable network (each variable has a factor with a complete table, decisions have none), every list of valid samples."
  },
  {
   "property": "C42",
   "status": "partial",
   "theorems": [
    "C42_mean_utility_refuted",
    "C42_half_the_mean_partial"
   ],
   "note": "The full statement is false of the code: AddSample increments the counter twice for utility nodes, so UpdateNetwork stores half the mean. Proved: exactly half the mean in the first column, zero elsewhere."
  },
  {
   "property": "C43",
   "status": "partial",
   "theorems": [
    "C43_error_iff_no_samples_partial",
    "C43_unchanged_on_error_refuted",
    "C43_after_error"
   ],
   "note": "Error exactly when some row has no usable sample, no panics (any numbers). Unchanged tables after an error is false of the code: nodes before the failing one are already updated. C43_after_error gives every table after an error."
  },
  {
   "property": "C44",
   "status": "proved",
   "theorems": [
    "C44_unary",
    "C44_binary",
    "C44_conditions",
    "C44_wrong_parents",
    "C44_arguments"
   ],
   "note": "For all connectives, any number of parents and any arguments; rows are given by the documented formula."
  },
  {
   "property": "C45",
   "status": "proved",
   "theorems": [
    "C45_count",
    "C45_count_true_false"
   ],
   "note": "For every number of parents whose table can be allocated (2^48 bytes)."
  },
  {
   "property": "C46",
   "status": "proved",
   "theorems": [
    "C46_bits"
   ],
   "note": "For every number of parents whose table can be allocated."
  },
  {
   "property": "C47",
   "status": "partial",
   "theorems": [
    "C47_given_refuted",
    "C47_given_partial",
    "C47_given_middle_partial",
    "C47_index_out_of_range_refuted"
   ],
   "note": "Refuted: the index counts from the last parent (witness: 2 parents, index 0); an index beyond the parents is accepted and always true, a negative one panics. Proved: the parent at position given-1-index is tested."
  },
  {
   "property": "C48",
   "status": "partial",
   "theorems": [
    "C48_outcome",
    "C48_outcome_either",
    "C48_outcome_less",
    "C48_outcome_greater_partial",
    "C48_outcome_greater_refuted",
    "C48_parents"
   ],
   "note": "outcome-greater is refuted: it is also true for the index itself; the other four operators are proved for all indices in range."
  },
  {
   "property": "C49",
   "status": "partial",
   "theorems": [
    "C49_valid_partial",
    "C49_many_parents_refuted",
    "C49_negative_outcomes_refuted"
   ],
   "note": "Proved for every operator, all arguments accepted by SetArgs and up to 63 parents, when the given number of outcomes of the parent is not negative. Refuted for 64 parents and more (empty table, no error) and for negative numbers of outcomes that wrap around."
  },
  {
   "property": "C50",
   "status": "partial",
   "theorems": [
    "C50_sequential",
    "C50_concurrent_refuted"
   ],
   "note": "Proved for uninterrupted use after any history of calls; refuted for two parsers running concurrently, because Get returns shared mutable objects."
  },
  {
   "property": "C51",
   "status": "partial",
   "theorems": [
    "C51_round_trip_partial",
    "C51_info_and_colors_refuted"
   ],
   "note": "At the level of the decoded document. Proved for every network made by New whose variables have outcomes and factors with full rows: name, types, outcomes, positions, parents, tables and total utility survive, after any other documents were loaded. Info and colors are lost by ToYAML (refuted)."
  },
  {
   "property": "C52",
   "status": "partial",
   "theorems": [
    "C52_valid_documents",
    "C52_mistakes",
    "C52_all_cases_partial",
    "C52_never_panics_refuted",
    "C52_any_case",
    "C52_letters"
   ],
   "note": "For every decoded document, after any other documents were loaded. Proved: correct nodes give the factors, each kind of mistake gives an error, and nothing else can happen except an operator that panics for its arguments (refuted: outcome-is with an index out of range)."
  },
  {
   "property": "C53",
   "status": "partial",
   "theorems": [
    "C53_valid_documents",
    "C53_mistakes_partial",
    "C53_no_panic_partial",
    "C53_missing_definition_refuted",
    "C53_fields",
    "C53_trim",
    "C53_spaces",
    "C53_trims"
   ],
   "note": "For every decoded document and every number parser. Proved when each variable has a definition; a variable without definition panics (refuted)."
  },
  {
   "property": "C54",
   "status": "proved",
   "theorems": [
    "C54_least_box",
    "C54_least_span",
    "C54_order",
    "C54_commutes",
    "C54_centroid"
   ],
   "note": "All boxes with unbounded integer coordinates, all sequences of extensions."
  },
  {
   "property": "C55",
   "status": "proved",
   "theorems": [
    "C55_error",
    "C55_last_wins",
    "C55_entries"
   ],
   "note": "Every list of byte strings."
  },
  {
   "property": "C56",
   "status": "proved",
   "theorems": [
    "C56_column_order",
    "C56_samples",
    "C56_errors",
    "C56_cases",
    "C56_frequencies"
   ],
   "note": "At the level of the lines split by encoding/csv. Column order for all networks and numbers; samples and errors for every trainable network (see SpecTrain.v) and every number parser."
  },
  {
   "property": "C57",
   "status": "partial",
   "theorems": [
    "C57_missing_utility_refuted",
    "C57_marker_is_error",
    "C57_nan_marker_partial"
   ],
   "note": "False of the code: the marker is parsed as a number, so there is an error for every network and file (proved). Missing utilities are skipped if the marker itself parses as not-a-number."
  },
  {
   "property": "C58",
   "status": "partial",
   "theorems": [
    "C58_keyboard_partial",
    "C58_crashes",
    "C58_starts",
    "C58_mouse_refuted",
    "C58_digits_refuted"
   ],
   "note": "Every solvable network with drawable nodes, every event sequence. Proved for the keyboard with ASCII digits, and the exact set of crashing events; false with the mouse (refuted by a session) and for digits of other scripts."
  },
  {
   "property": "C59",
   "status": "proved",
   "theorems": [
    "C59_canvas"
   ],
   "note": "After every event sequence: the canvas has one shape, contains every node, shows the topmost node at each cell and the edges elsewhere, and the text with color tags shows exactly the canvas."
  },
  {
   "property": "C60",
   "status": "partial",
   "theorems": [
    "C60_evidence_valid",
    "C60_evidence_changes",
    "C60_twice_partial",
    "C60_twice_refuted"
   ],
   "note": "After every event sequence. Choosing twice restores the evidence unless the node had another outcome as evidence, which is always lost (refuted)."
  },
  {
   "property": "C61",
   "status": "proved",
   "theorems": [
    "C61_key",
    "C61_click"
   ],
   "note": "Every reachable state, both ways to open the dialog."
  },
  {
   "property": "C62",
   "status": "proved",
   "theorems": [
    "C62_numbers",
    "C62_inference"
   ],
   "note": "Exact arithmetic; the numbers shown in every reachable state and those printed by bbn inference."
  },
  {
   "property": "C63",
   "status": "partial",
   "theorems": [
    "C63_marker_used_refuted",
    "C63_marker_ignored",
    "C63_empty_marker_partial"
   ],
   "note": "False of the code: New drops the marker, so training always uses the empty string (proved for all markers and files)."
  },
  {
   "property": "C64",
   "status": "partial",
   "theorems": [
    "C64_many_outcomes_refuted",
    "C64_outcomes_partial"
   ],
   "note": "false of the code from 65536 outcomes on; holds below"
  },
  {
   "property": "C65",
   "status": "proved",
   "theorems": [
    "C65_policies_optimal",
    "C65_one_decision"
   ],
   "note": "Exact arithmetic, stepwise or in one pass. Every well-formed network with a table without empty rows for each chance variable, acyclic arcs, a utility node, decisions that influence something, and no forgetting; all randomised policies compete."
  },
  {
   "property": "C66",
   "status": "proved",
   "theorems": [
    "C66_conditional_utility"
   ],
   "note": ""
  },
  {
   "property": "C67",
   "status": "partial",
   "theorems": [
    "C67_size_overflow_refuted",
    "C67_no_overflow_partial"
   ],
   "note": "false of the code for 2^64 joint outcomes (row count wraps to 0); proved exact below 2^63"
  },
  {
   "property": "C68",
   "status": "proved",
   "theorems": [
    "C68_queries_follow_tables",
    "C68_tables_mass"
   ],
   "note": "Exact arithmetic, same networks as C65."
  },
  {
   "property": "C69",
   "status": "partial",
   "theorems": [
    "C69_wrong_length_refuted"
   ],
   "note": "False of the code: New accepts the table and every solve panics. Proved for every well-formed network with one table replaced by one of any wrong length."
  },
  {
   "property": "C70",
   "status": "proved",
   "theorems": [
    "C70_maximum_utility"
   ],
   "note": "Exact arithmetic, same networks as C65."
  },
  {
   "property": "C71",
   "status": "proved",
   "theorems": [
    "C71_same_numbers",
    "C71_policies"
   ],
   "note": "Exact arithmetic, every two reachable states and every event."
  },
  {
   "property": "C72",
   "status": "proved",
   "theorems": [
    "C72_moves",
    "C72_start"
   ],
   "note": "Every reachable state and every event."
  },
  {
   "property": "C73",
   "status": "proved",
   "theorems": [
    "C73_saved"
   ],
   "note": "Every reachable state; at the level of the document before text encoding."
  },
  {
   "property": "C74",
   "status": "partial",
   "theorems": [
    "C74_pictures",
    "C74_texts",
    "C74_long_refuted"
   ],
   "note": "Proved for every cell in every reachable state if utilities have at most seven digits before the point; longer utilities leave characters of earlier numbers on the screen (refuted by a session)."
  },
  {
   "property": "C75",
   "status": "proved",
   "theorems": [
    "C75_arcs"
   ],
   "note": "Every cell outside of nodes in every reachable state; where two arcs cross, the later one is shown."
  },
  {
   "property": "C76",
   "status": "partial",
   "theorems": [
    "C76_colors",
    "C76_free",
    "C76_border_refuted"
   ],
   "note": "Refuted for nodes at the left border of the screen (only the first line of a colored node at both borders has its color); proved for every reachable state without nodes at the left border, and the colors of all cells are characterised exactly."
  },
  {
   "property": "C77",
   "status": "partial",
   "theorems": [
    "C77_selection",
    "C77_start",
    "C77_click_partial",
    "C77_click_refuted"
   ],
   "note": "Refuted where nodes overlap: the last node is shown, but a click selects the first one. Proved: the exact selection after every event in every reachable state; a click selects the node shown if it is the only one at the point."
  },
  {
   "property": "C78",
   "status": "proved",
   "theorems": [
    "C78_pages",
    "C78_dialogs",
    "C78_start"
   ],
   "note": "Every event in every reachable state. What widgets of the tview library do with keys of dialogs (scrolling) is not modelled."
  },
  {
   "property": "C79",
   "status": "proved",
   "theorems": [
    "C79_posteriors",
    "C79_columns"
   ],
   "note": "Exact arithmetic, at the level of the runes printed; numbers are those of C62."
  },
  {
   "property": "C80",
   "status": "proved",
   "theorems": [
    "C80_written",
    "C80_errors",
    "C80_frequencies"
   ],
   "note": "At the level of the document before text encoding. Info and colors are lost as in C51; learned utilities are those of C42."
  },
  {
   "property": "C81",
   "status": "proved",
   "theorems": [
    "C81_formats",
    "C81_other_formats",
    "C81_one_extension"
   ],
   "note": "Every path of ASCII characters."
  },
  {
   "property": "C82",
   "status": "proved",
   "theorems": [
    "C82_starts",
    "C82_errors"
   ],
   "note": "Exact arithmetic. The no-data option has no effect (C63)."
  },
  {
   "property": "C83",
   "status": "proved",
   "theorems": [
    "C83_accurate",
    "C83_impossible_evidence",
    "C83_normalized"
   ],
   "note": "Bit-exact float64 arithmetic. The hypotheses exclude networks where products could underflow (below 2^-1000) or overflow; the result table may have up to 2^49 entries. Uses the axioms of the standard library's real numbers."
  },
  {
   "property": "C84",
   "status": "proved",
   "theorems": [
    "C84_orders"
   ],
   "note": "Bit-exact float64 arithmetic, same hypotheses as C83. Positive counterpart of C21."
  },
  {
   "property": "C85",
   "status": "proved",
   "theorems": [
    "C85_correctly_rounded",
    "C85_order"
   ],
   "note": "Bit-exact float64 arithmetic for chance nodes; C85_order is for every kind of numbers. Trained utilities do depend on the order in the last bits (example C85_utilities_differ). C85_correctly_rounded uses the axioms of the standard library's real numbers."
  },
  {
   "property": "C86",
   "status": "proved",
   "theorems": [
    "C86_queries",
    "C86_utility"
   ],
   "note": "Exact arithmetic. Each node may have at most one table. With float64 numbers the order can change the last bits, within the bounds of C83."
  },
  {
   "property": "C87",
   "status": "proved",
   "theorems": [
    "C87_information"
   ],
   "note": "Exact arithmetic. For decisions that are ordered and forget nothing, as in C70."
  },
  {
   "property": "C88",
   "status": "proved",
   "theorems": [
    "C88_units"
   ],
   "note": "Exact arithmetic. The shift may differ between utility nodes; weights of a total utility node are taken into account."
  },
  {
   "property": "C89",
   "status": "proved",
   "theorems": [
    "C89_leaf"
   ],
   "note": "Exact arithmetic, for networks as New builds them (no stored policies)."
  },
  {
   "property": "C90",
   "status": "proved",
   "theorems": [
    "C90_row",
    "C90_markov"
   ],
   "note": "Exact arithmetic. Decisions without policy have to be in the evidence."
  },
  {
   "property": "C91",
   "status": "proved",
   "theorems": [
    "C91_separation"
   ],
   "note": "Exact arithmetic. Separation is stated with the moral graph of the ancestors, which is equivalent to d-separation. Decisions without policy have to be in the evidence."
  },
  {
   "property": "C92",
   "status": "proved",
   "theorems": [
    "C92_joint"
   ],
   "note": "Exact arithmetic. The order of the axes is left open; entries are read by the outcomes of the named axes."
  },
  {
   "property": "C93",
   "status": "proved",
   "theorems": [
    "C93_bayes",
    "C93_total",
    "C93_certain"
   ],
   "note": "Exact arithmetic, without ignoring policies."
  },
  {
   "property": "C94",
   "status": "proved",
   "theorems": [
    "C94_advice"
   ],
   "note": "Exact arithmetic. For decisions that are ordered and forget nothing, as in C65."
  },
  {
   "property": "C95",
   "status": "proved",
   "theorems": [
    "C95_asked",
    "C95_observed",
    "C95_condition"
   ],
   "note": "Exact arithmetic. The outcome an operator gives is listed in SpecOperators.v, with the actual numbering of given and the actual meaning of outcome-greater (see C47, C48)."
  },
  {
   "property": "C96",
   "status": "proved",
   "theorems": [
    "C96_total_utility",
    "C96_one_utility",
    "C96_expected_utility",
    "C96_orders"
   ],
   "note": "Signed utilities: the error is relative to the sum of absolute values, since positive and negative utilities may cancel. The theorem for one utility node asks for at most one table of that node (the code multiplies several)."
  },
  {
   "property": "C97",
   "status": "proved",
   "theorems": [
    "C97_reloaded",
    "C97_files",
    "C97_trained",
    "C97_saved",
    "C97_printed"
   ],
   "note": "Answers are equal as values, not only up to rounding. `storable` excludes networks that documents cannot hold: nodes without outcomes, without factor, with broken rows, or with an empty table that is not nil. bbn inference: for networks that can be shown."
  },
  {
   "property": "C98",
   "status": "proved",
   "theorems": [
    "C98_nearly_best",
    "C98_one_decision",
    "C98_orders"
   ],
   "note": "For SolvePolicies(true), the mode used by bbn and bbni, and for any mode with at most one decision. Not covered: one pass over several decisions (stepwise = false). C98_tie shows that rounding can break ties of the exact problem."
  },
  {
   "property": "C99",
   "status": "proved",
   "theorems": [
    "C99_text",
    "C99_encoded",
    "C99_delimiter",
    "C99_columns",
    "C99_title"
   ],
   "note": "The conversion []rune(s) and utf8.RuneCountInString of Go are modelled by `decode`; the specification (encoding of RFC 3629, replacement of bytes that start no character) is independent of it. The width of characters on the terminal (wide or combining characters) is not modelled."
  },
  {
   "property": "C100",
   "status": "partial",
   "theorems": [
    "C100_possible_evidence_refuted",
    "C100_in_range_partial"
   ],
   "note": "False of the code: in a network of one cause and 165 observed effects with probabilities of 0.01 and 0.005 the product of the probabilities is below the smallest float64, and the answer is NaN although the evidence is possible. Proved as long as numbers stay in range (bounds on exponents, see C83)."
  },
  {
   "property": "C101",
   "status": "proved",
   "theorems": [
    "C101_new",
    "C101_answers"
   ],
   "note": "A second model of ve/, network.go and training.go in which slices are references to arrays in memory (HeapVarModel, HeapVEModel, HeapNetModel) refines the value model, for every program that uses a network."
  },
  {
   "property": "C102",
   "status": "proved",
   "theorems": [
    "C102_solving_writes_nothing",
    "C102_results_are_new",
    "C102_results_are_separate",
    "C102_training_writes_tables"
   ],
   "note": "Training is for networks in which no two factors share a table."
  },
  {
   "property": "C103",
   "status": "partial",
   "theorems": [
    "C103_self_contained_refuted",
    "C103_caller_tables_refuted",
    "C103_separate_partial"
   ],
   "note": "False of the code: New keeps the slices it is given. Two networks made from the same tables: training one changes the answers of the other. A caller that writes to a table it passed to New changes the answers. Proved for networks that use different tables."
  },
  {
   "property": "C104",
   "status": "proved",
   "theorems": [
    "C104_most_likely",
    "C104_seen_is_possible",
    "C104_answer",
    "C104_missing_refuted"
   ],
   "note": "Maximum likelihood. The restriction to complete samples is needed: C104_missing_refuted shows that with missing outcomes the trained tables need not be the most likely ones."
  },
  {
   "property": "C105",
   "status": "proved",
   "theorems": [
    "C105_use_later",
    "C105_before_solving"
   ],
   "note": "Any arithmetic. The node type stored in the returned factor may differ: decisions with a policy count as chance variables."
  },
  {
   "property": "C106",
   "status": "proved",
   "theorems": [
    "C106_queries",
    "C106_utility"
   ],
   "note": "Exact arithmetic; networks without stored policies, as New builds them."
  },
  {
   "property": "C107",
   "status": "proved",
   "theorems": [
    "C107_options"
   ],
   "note": "Exact arithmetic. For decisions that are ordered and forget nothing, as in C70."
  },
  {
   "property": "C108",
   "status": "proved",
   "theorems": [
    "C108_higher",
    "C108_change"
   ],
   "note": "Exact arithmetic. For decisions that are ordered and forget nothing, as in C70. The amounts may be negative."
  },
  {
   "property": "C109",
   "status": "proved",
   "theorems": [
    "C109_between",
    "C109_mixture",
    "C109_prior"
   ],
   "note": "Exact arithmetic."
  },
  {
   "property": "C110",
   "status": "proved",
   "theorems": [
    "C110_convex"
   ],
   "note": "Exact arithmetic. For decisions that are ordered and forget nothing, as in C70."
  },
  {
   "property": "C111",
   "status": "proved",
   "theorems": [
    "C111_same_answers"
   ],
   "note": "Exact arithmetic."
  },
  {
   "property": "C112",
   "status": "proved",
   "theorems": [
    "C112_reversed",
    "C112_answers",
    "C112_maximum"
   ],
   "note": "Exact arithmetic. The new table of the effect holds unnormalised products; the row normalisation of the code makes them conditional probabilities."
  },
  {
   "property": "C113",
   "status": "proved",
   "theorems": [
    "C113_summary"
   ],
   "note": "Exact arithmetic."
  },
  {
   "property": "C114",
   "status": "proved",
   "theorems": [
    "C114_joint",
    "C114_answers"
   ],
   "note": "Exact arithmetic; rows of the tables must not sum to zero."
  },
  {
   "property": "C115",
   "status": "proved",
   "theorems": [
    "C115_joint",
    "C115_answers"
   ],
   "note": "Exact arithmetic."
  },
  {
   "property": "C116",
   "status": "proved",
   "theorems": [
    "C116_report",
    "C116_others"
   ],
   "note": "Exact arithmetic."
  },
  {
   "property": "C117",
   "status": "proved",
   "theorems": [
    "C117_update",
    "C117_between",
    "C117_answers"
   ],
   "note": "For all number types (exact and float64)."
  },
  {
   "property": "C118",
   "status": "partial",
   "theorems": [
    "C118_solve_again_partial",
    "C118_stale_policies_refuted"
   ],
   "note": "The full statement is false of the code: SolvePolicies, then training, then SolveQuery follows the old policies. Proved instead: SolvePolicies after any history with training gives the result and policies of the network trained at once."
  },
  {
   "property": "C119",
   "status": "proved",
   "theorems": [
    "C119_tables",
    "C119_succeeds",
    "C119_answers"
   ],
   "note": "Exact arithmetic; networks of chance nodes."
  },
  {
   "property": "C120",
   "status": "proved",
   "theorems": [
    "C120_copies",
    "C120_any_order"
   ],
   "note": "Exact arithmetic, including infinite and missing utilities."
  },
  {
   "property": "C121",
   "status": "proved",
   "theorems": [
    "C121_elsewhere"
   ],
   "note": "Exact arithmetic."
  },
  {
   "property": "C122",
   "status": "proved",
   "theorems": [
    "C122_known_parents",
    "C122_adjustment"
   ],
   "note": "Exact arithmetic. The adjustment formula is stated for networks without open decisions, and for outcomes that are possible for all possible parents."
  },
  {
   "property": "C123",
   "status": "proved",
   "theorems": [
    "C123_queries",
    "C123_prior",
    "C123_utility"
   ],
   "note": "Exact arithmetic."
  },
  {
   "property": "C124",
   "status": "proved",
   "theorems": [
    "C124_zeros"
   ],
   "note": "Exact arithmetic: with floats, products may underflow to zero."
  },
  {
   "property": "C125",
   "status": "proved",
   "theorems": [
    "C125_ve_reads",
    "C125_ve_writes",
    "C125_reads",
    "C125_elements",
    "C125_answers"
   ],
   "note": "For programs whose factors have different tables. Which entries bbn.Factor.Row returns is C37: a write to the second row of a table changes an entry of the first row (C37_write_refuted). The capacity of the returned slices (append) is not modelled."
  },
  {
   "property": "C126",
   "status": "proved",
   "theorems": [
    "C126_unused",
    "C126_used"
   ],
   "note": "The removed outcomes are listed last. Networks without forgetting, as in C65 and C107."
  },
  {
   "property": "C127",
   "status": "proved",
   "theorems": [
    "C127_read",
    "C127_unambiguous",
    "C127_writable",
    "C127_delimiters",
    "C127_quotes",
    "C127_train",
    "C127_bbni",
    "C127_train_records",
    "C127_train_errors"
   ],
   "note": "The reader of encoding/csv is part of the standard library, not of /repo; CsvModel.v follows its implementation with the options that TrainNetwork sets. CR LF in a quoted field is read as LF (C127_fields)."
  },
  {
   "property": "C128",
   "status": "proved",
   "theorems": [
    "C128_dominated",
    "C128_value"
   ],
   "note": "The removed outcomes are listed last. Networks without forgetting, as in C65 and C107. C128_needed shows a further option that is not dominated and changes the maximum."
  },
  {
   "property": "C129",
   "status": "proved",
   "theorems": [
    "C129_strict"
   ],
   "note": "Networks without forgetting, as in C65. C129_needed: in a situation of probability zero the policy is uniform, so it recommends such options too."
  },
  {
   "property": "C130",
   "status": "proved",
   "theorems": [
    "C130_sum",
    "C130_average",
    "C130_certain",
    "C130_bounds"
   ],
   "note": "For utility nodes with one outcome each, as in C22 and C23. Policies of observed decisions apply (ignorePolicies is false)."
  },
  {
   "property": "C131",
   "status": "proved",
   "theorems": [
    "C131_formats",
    "C131_printed",
    "C131_trained"
   ],
   "note": "Documents are what the decoders deliver (decoding bytes is not modelled). Description and colors are excepted, XML has none."
  },
  {
   "property": "C132",
   "status": "proved",
   "theorems": [
    "C132_maximum",
    "C132_policies",
    "C132_value",
    "C132_new"
   ],
   "note": "C132_new states it for networks from New. The node is the last one; by C86 the order of nodes does not matter. C89 is the same for queries."
  },
  {
   "property": "C133",
   "status": "partial",
   "theorems": [
    "C133_refuted",
    "C133_value_partial",
    "C133_best_partial"
   ],
   "note": "SolvePolicies panics if nothing depends on a decision (refuted by a network that New accepts). Proved: whatever is decided there, the expected utility is that of the other policies, and the best expected utility in the larger network is that of the policies that SolvePolicies returns for the smaller one. Missing: that SolvePolicies panics for all such networks."
  }
 ]
}