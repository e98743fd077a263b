{
 "claims": [
  {
   "property": "C01",
   "status": "proved",
   "theorems": [
    "C01_degree_messages_exact"
   ],
   "note": ""
  },
  {
   "property": "C02",
   "status": "proved",
   "theorems": [
    "C02_subtour_messages_exact"
   ],
   "note": ""
  },
  {
   "property": "C03",
   "status": "proved",
   "theorems": [
    "C03_project_messages_exact"
   ],
   "note": ""
  },
  {
   "property": "C04",
   "status": "proved",
   "theorems": [
    "C04_coupling_to_project_exact"
   ],
   "note": ""
  },
  {
   "property": "C05",
   "status": "partial",
   "theorems": [
    "C05_coupling_to_team_refuted",
    "C05_coupling_to_team_partial"
   ],
   "note": "The full statement is false of the code: above the built-in 1000000 sentinel the message is capped (refuted with a witness). Proved when some message is at most 1000000."
  },
  {
   "property": "C06",
   "status": "proved",
   "theorems": [
    "C06_knapsack_messages_exact"
   ],
   "note": ""
  },
  {
   "property": "C07",
   "status": "partial",
   "theorems": [
    "C07_team_to_department_partial",
    "C07_team_to_department_refuted"
   ],
   "note": "Proved for teams in at most two departments; the full statement is refuted by a team in three departments, where erase(find(...)) erases end()."
  },
  {
   "property": "C08",
   "status": "proved",
   "theorems": [
    "C08_clause_messages_exact"
   ],
   "note": ""
  },
  {
   "property": "C09",
   "status": "proved",
   "theorems": [
    "C09_variable_messages_exclude_target"
   ],
   "note": "for formulas in which no clause repeats a variable"
  },
  {
   "property": "C10",
   "status": "proved",
   "theorems": [
    "C10_edge_to_degree_relaxed",
    "C10_edge_to_degree_augmented"
   ],
   "note": ""
  },
  {
   "property": "C11",
   "status": "proved",
   "theorems": [
    "C11_edge_to_subtour"
   ],
   "note": ""
  },
  {
   "property": "C12",
   "status": "proved",
   "theorems": [
    "C12_filtering_blend",
    "C12_no_filtering",
    "C12_range",
    "C12_constant",
    "C12_one_row"
   ],
   "note": ""
  },
  {
   "property": "C13",
   "status": "proved",
   "theorems": [
    "C13_tsp_safe"
   ],
   "note": "for cost matrices without a zero off the diagonal, which is what makes the graph handed over complete (see C46)"
  },
  {
   "property": "C14",
   "status": "proved",
   "theorems": [
    "C14_kc_mwm_safe"
   ],
   "note": "Whole WrapperKcMwm run: every read/write in range and every message, intrinsic and extrinsic value finite, for any number of iterations and any filtering setting."
  },
  {
   "property": "C15",
   "status": "proved",
   "theorems": [
    "C15_ksat_safe"
   ],
   "note": "Whole WrapperKsat run with clauses of at least two literals: in range and finite. Unit clauses give -inf (C15_unit_clause_infinite)."
  },
  {
   "property": "C16",
   "status": "proved",
   "theorems": [
    "C16_loops_are_cycles"
   ],
   "note": ""
  },
  {
   "property": "C17",
   "status": "proved",
   "theorems": [
    "C17_complete"
   ],
   "note": ""
  },
  {
   "property": "C18",
   "status": "proved",
   "theorems": [
    "C18_tour_is_hamiltonian"
   ],
   "note": ""
  },
  {
   "property": "C19",
   "status": "partial",
   "theorems": [
    "C19_cost_of_selection",
    "C19_tour_cost_refuted",
    "C19_tour_cost_partial"
   ],
   "note": "Cost of the selection proved in full. That it is the cost of the reported tour is refuted (selected edges off the tour are counted); proved: cost of the tour plus cost of the other selected edges."
  },
  {
   "property": "C20",
   "status": "proved",
   "theorems": [
    "C20_constraints",
    "C20_run"
   ],
   "note": ""
  },
  {
   "property": "C21",
   "status": "proved",
   "theorems": [
    "C21_no_tour_excluded"
   ],
   "note": ""
  },
  {
   "property": "C22",
   "status": "proved",
   "theorems": [
    "C22_loop_excluded"
   ],
   "note": ""
  },
  {
   "property": "C23",
   "status": "proved",
   "theorems": [
    "C23_limit"
   ],
   "note": "for limits of at least 1; C23_zero_limit shows that a limit of 0 is not respected"
  },
  {
   "property": "C24",
   "status": "proved",
   "theorems": [
    "C24_flags"
   ],
   "note": ""
  },
  {
   "property": "C25",
   "status": "partial",
   "theorems": [
    "C25_small_tour_overflows",
    "C25_buffers_refuted",
    "C25_buffers_partial"
   ],
   "note": "Refuted: no tour on 3 or 4 nodes fits the array for selected edges. Proved: exact condition under which everything fits, and sufficient condition on 5 or more nodes."
  },
  {
   "property": "C26",
   "status": "proved",
   "theorems": [
    "C26_kc_inputs",
    "C26_tsp_inputs",
    "C26_ksat_inputs",
    "C26_tsp_outputs"
   ],
   "note": ""
  },
  {
   "property": "C27",
   "status": "proved",
   "theorems": [
    "C27_tour",
    "C27_structure",
    "C27_removed",
    "C27_returns_refuted",
    "C27_returns_partial",
    "C27_answer",
    "C27_call_returns_partial"
   ],
   "note": "The statement (tour and cost whenever it returns) is proved without conditions on the selection. Post-processing does not always return: refuted by a selection where trimming removes every edge; returning is proved for selections in which no node has two successors or predecessors."
  },
  {
   "property": "C28",
   "status": "proved",
   "theorems": [
    "C28_candidates",
    "C28_exchanges",
    "C28_never_worse",
    "C28_k_opt"
   ],
   "note": "Exchanges of nodes, not of edges, are tried; on four or fewer nodes the passes always fail because k = 3 is refused."
  },
  {
   "property": "C29",
   "status": "proved",
   "theorems": [
    "C29_missing_nodes"
   ],
   "note": "Nodes are attached at the two ends only."
  },
  {
   "property": "C30",
   "status": "partial",
   "theorems": [
    "C30_tsp",
    "C30_ksat",
    "C30_kc_refuted",
    "C30_kc_partial",
    "C30_kc_positive_refuted"
   ],
   "note": "TSP and K-SAT proved for every value and threshold (not-NaN threshold for K-SAT). KC-MWM refuted at equality and for every positive threshold; exact selection rule proved for both."
  },
  {
   "property": "C31",
   "status": "partial",
   "theorems": [
    "C31_aligned_refuted",
    "C31_aligned_iff",
    "C31_aligned_partial"
   ],
   "note": "Refuted with a witness; proved exactly when every sensible (pair, type) fits at least once."
  },
  {
   "property": "C32",
   "status": "proved",
   "theorems": [
    "C32_capacity_repair",
    "C32_only_overfull_refuted",
    "C32_only_overfull_partial"
   ],
   "note": "For aligned data (C31) and values that are not NaN. The sharper claim that only teams of an over-full department are removed is refuted on ties and proved for pairwise different values."
  },
  {
   "property": "C33",
   "status": "partial",
   "theorems": [
    "C33_team_repair",
    "C33_one_project_refuted",
    "C33_lowest_refuted",
    "C33_one_project_partial"
   ],
   "note": "Termination, subset and capacity proved. 'One project per reused team' and 'the one of lowest value' refuted; proved when no project is matched to two teams, comparing the first two uses. Option 2 uses np.int, so this needs NumPy before 1.24. In whole calls with finite rewards no project is matched to two teams, so there the reported team/project pairs are one to one (C76_feasible)."
  },
  {
   "property": "C34",
   "status": "proved",
   "theorems": [
    "C34_summary_exact",
    "C34_flag_exact"
   ],
   "note": "For every formula whose clause view and variable view agree, and any decisions including NaN."
  },
  {
   "property": "C35",
   "status": "partial",
   "theorems": [
    "C35_generated_partial",
    "C35_count_refuted"
   ],
   "note": "All clauses of the statement except the exact number of clauses, which is refuted: duplicates are dropped without replacement."
  },
  {
   "property": "C36",
   "status": "partial",
   "theorems": [
    "C36_never_worse_refuted",
    "C36_never_worse_partial",
    "C36_stages_partial"
   ],
   "note": "Refuted with a witness. Proved: at most one violated clause before; first and third stage in general."
  },
  {
   "property": "C37",
   "status": "proved",
   "theorems": [
    "C37_report_matches_result"
   ],
   "note": "Every formula, decision vector, iteration order of the sets and number of elements; includes that no index is out of range."
  },
  {
   "property": "C38",
   "status": "proved",
   "theorems": [
    "C38_tsp",
    "C38_kc",
    "C38_ksat",
    "C38_any_registers",
    "C38_tsp_by_position_refuted",
    "C38_others_by_position"
   ],
   "note": "Under the System V x86-64 and the AAPCS64 conventions and any convention that passes integers/pointers and floating-point numbers in separate registers (arguments beyond the registers on the stack in order of class). A convention that passes arguments by position regardless of class delivers filtering and alpha of WrapperTsp wrongly (refuted with a witness)."
  },
  {
   "property": "C39",
   "status": "partial",
   "theorems": [
    "C39_degree_refuted",
    "C39_degree_partial",
    "C39_subtour_refuted",
    "C39_subtour_partial",
    "C39_edge_to_degree_relaxed",
    "C39_augmented_refuted",
    "C39_augmented_partial",
    "C39_edge_to_subtour_refuted",
    "C39_edge_to_subtour_partial",
    "C39_tsp_outputs",
    "C39_filtering_refuted",
    "C39_filtering_partial",
    "C39_department",
    "C39_team_to_department_refuted",
    "C39_team_to_department_partial",
    "C39_project_refuted",
    "C39_project_one_team_refuted",
    "C39_project_partial",
    "C39_project_balanced",
    "C39_oric_refuted",
    "C39_oric_partial",
    "C39_oric_to_team_refuted",
    "C39_oric_to_team_partial",
    "C39_kc_sums",
    "C39_ksat_clause",
    "C39_variable_refuted",
    "C39_variable_partial",
    "C39_ksat_output"
   ],
   "note": "Equality proved for every update. The clause, department, relaxed edge and sum updates agree for all well-formed inputs. The full statement is false for the others, each with a refuting witness and a _partial theorem: Python raises where a minimum is over nothing (single edge at a node, cut of one edge, one project, one team) and for filtering with alpha = 0; the augmented edge and variable updates differ on entries outside the graph's connections; a balanced project constraint uses exactly-one instead of at-most-one; entries above 1000000 and a team in three departments are treated differently."
  },
  {
   "property": "C40",
   "status": "partial",
   "theorems": [
    "C40_loop_list_refuted",
    "C40_single_loop_partial",
    "C40_nodes_partial"
   ],
   "note": "The list of reported loops depends on the hash-map order (refuted with a witness). Proved: whether a single loop is reported, and which (up to rotation), and the set of nodes covered by reported loops do not depend on it."
  },
  {
   "property": "C41",
   "status": "proved",
   "theorems": [
    "C41_similarity"
   ],
   "note": "In exact fractions."
  },
  {
   "property": "C42",
   "status": "proved",
   "theorems": [
    "C42_intrinsic_layout",
    "C42_extrinsic_team"
   ],
   "note": ""
  },
  {
   "property": "C43",
   "status": "proved",
   "theorems": [
    "C43_team_to_coupling",
    "C43_project_to_coupling"
   ],
   "note": ""
  },
  {
   "property": "C44",
   "status": "partial",
   "theorems": [
    "C44_returns_refuted",
    "C44_returns_partial"
   ],
   "note": "Refuted with a witness; proved: only after a round that selected no edge."
  },
  {
   "property": "C45",
   "status": "partial",
   "theorems": [
    "C45_count_refuted",
    "C45_count_partial"
   ],
   "note": "Refuted when stopped by the round limit; proved otherwise."
  },
  {
   "property": "C46",
   "status": "partial",
   "theorems": [
    "C46_zero_cost_overrun",
    "C46_any_finite_refuted",
    "C46_inputs_partial"
   ],
   "note": "Refuted for every matrix with a zero off the diagonal; proved for all others."
  },
  {
   "property": "C47",
   "status": "proved",
   "theorems": [
    "C47_ksat_call"
   ],
   "note": "Exact arithmetic; at least two literals per clause."
  },
  {
   "property": "C48",
   "status": "proved",
   "theorems": [
    "C48_initial_messages"
   ],
   "note": ""
  },
  {
   "property": "C49",
   "status": "proved",
   "theorems": [
    "C49_ksat_run"
   ],
   "note": "Exact arithmetic; at least two literals per clause, finite inputs."
  },
  {
   "property": "C50",
   "status": "proved",
   "theorems": [
    "C50_kc_run"
   ],
   "note": "Exact arithmetic; every team in at most two departments, every department has a team, weights within capacity."
  },
  {
   "property": "C51",
   "status": "proved",
   "theorems": [
    "C51_first_stage",
    "C51_round",
    "C51_result",
    "C51_no_iterations"
   ],
   "note": "Exact arithmetic; complete graph, at least three nodes. C51_no_iterations gives the values of every stage when there are no iterations."
  },
  {
   "property": "C52",
   "status": "proved",
   "theorems": [
    "C52_pruning"
   ],
   "note": ""
  },
  {
   "property": "C53",
   "status": "proved",
   "theorems": [
    "C53_kc_call"
   ],
   "note": "Exact arithmetic, aligned data (C31), threshold at most 0."
  },
  {
   "property": "C54",
   "status": "proved",
   "theorems": [
    "C54_counts",
    "C54_negative_refuted",
    "C54_big_endian_refuted"
   ],
   "note": "Negative values and big-endian machines are refuted with witnesses; neither occurs for counts on the supported platforms."
  },
  {
   "property": "C55",
   "status": "partial",
   "theorems": [
    "C55_kc_bounded_partial",
    "C55_ksat_runs_partial",
    "C55_ksat_runs_refuted",
    "C55_kc_runs_partial",
    "C55_kc_runs_refuted",
    "C55_kc_refuted_equal_sizes",
    "C55_kc_refuted_constant",
    "C55_kc_refuted_alpha"
   ],
   "note": "Proved for every number of iterations under the conditions written in the theorems; the full statement is refuted. K-SAT: missing filtering with alpha = 0 (Python raises). KC-MWM: missing as many projects as teams (Python then uses an exactly-one constraint), zero iterations (Python has no result), filtering with alpha = 0, and messages of the coupling constraint above 1000000 (cut off in C++ only); a witness for each. C55_kc_bounded_partial replaces the condition on messages by one on the rewards: differences below 1000000, factor in (0, 1]."
  },
  {
   "property": "C56",
   "status": "partial",
   "theorems": [
    "C56_tsp_runs_partial",
    "C56_tsp_same_result_partial",
    "C56_tsp_runs_refuted",
    "C56_refuted_raises",
    "C56_refuted_differ"
   ],
   "note": "Proved for every run in which Python raises no exception and holds no empty subtour constraint, for a threshold that is a number and a hash map iterated in order of insertion: same state after every round, and the same final result when the library's limits are out of reach and no selection costs 0. The full statement is refuted: no iterations, filtering with alpha = 0 and selections without loops raise in Python only; a loop through all nodes found beside others gives Python an empty constraint the library does not have; a NaN threshold selects all edges in C++ and none in Python."
  },
  {
   "property": "C57",
   "status": "partial",
   "theorems": [
    "C57_order_free_partial",
    "C57_one_successor_partial",
    "C57_python_partial",
    "C57_order_free_refuted"
   ],
   "note": "Proved for all runs in which two different cycles of a selection never have a node in common (in particular if every node has at most one selected successor); combined with C56, the library then agrees with the pure Python program for every order. The full statement is refuted: on a 5-node matrix with default threshold, insertion order and reverse order end with different selections."
  },
  {
   "property": "C58",
   "status": "proved",
   "theorems": [
    "C58_acyclic",
    "C58_acyclic_optimal",
    "C58_tree_exact",
    "C58_tree_optimal",
    "C58_any_formula_refuted"
   ],
   "note": "C58_tree_exact is about the library call, C58_tree_optimal about the complete Python call. C58_any_formula_refuted shows that the restriction to formulas without cycles cannot be dropped; C58_example shows that the number of iterations cannot be lowered. C58_acyclic: the formulas meant are exactly those without a cycle of clauses and variables; C58_acyclic_optimal states the result in these words."
  },
  {
   "property": "C59",
   "status": "proved",
   "theorems": [
    "C59_cheapest_cover",
    "C59_cheapest_tour",
    "C59_eventually",
    "C59_alpha_one_refuted"
   ],
   "note": "C59_cheapest_cover with an explicit bound on the iterations, C59_eventually without; C59_cheapest_tour for complete calls. C59_alpha_one_refuted shows that filter factor 1 has to be excluded, C60_symmetric that uniqueness is needed."
  },
  {
   "property": "C60",
   "status": "proved",
   "theorems": [
    "C60_transpose",
    "C60_symmetric",
    "C60_relabel_scale"
   ],
   "note": "Later rounds are not symmetric, because a subtour constraint only concerns edges leaving the loop."
  },
  {
   "property": "C61",
   "status": "proved",
   "theorems": [
    "C61_acyclic_eventually",
    "C61_tree_limit",
    "C61_tree_eventually",
    "C61_factor_one_refuted"
   ],
   "note": "C61_factor_one_refuted shows that filter factor 1 has to be excluded. C61_acyclic_eventually: the same for formulas given as having no cycle."
  },
  {
   "property": "C62",
   "status": "proved",
   "theorems": [
    "C62_symmetry",
    "C62_decisions",
    "C62_decisions_refuted"
   ],
   "note": "C62_decisions_refuted shows that totals equal to 0 have to be excluded: such a variable is decided as true on both sides."
  },
  {
   "property": "C63",
   "status": "proved",
   "theorems": [
    "C63_read",
    "C63_unequal",
    "C63_roundtrip",
    "C63_formula",
    "C63_free_refuted",
    "C63_commented_refuted"
   ],
   "note": "C63_commented_refuted: with a comment line between two clauses, which the format allows, the clause numbers of the variable view are wrong. C63_free_refuted: two clauses on one line are read as one clause."
  },
  {
   "property": "C64",
   "status": "proved",
   "theorems": [
    "C64_evaluation",
    "C64_commented_refuted"
   ],
   "note": "C64_commented_refuted: with a comment line between two clauses a satisfied formula is reported as unsatisfied."
  },
  {
   "property": "C65",
   "status": "proved",
   "theorems": [
    "C65_tsp",
    "C65_ksat",
    "C65_kc",
    "C65_flag_off_refuted",
    "C65_file_sizes_refuted",
    "C65_folders_refuted"
   ],
   "note": "What the options cannot do: C65_flag_off_refuted (the value False switches a flag on, since type=bool accepts every non-empty word), C65_file_sizes_refuted (size options stop a run that reads its sizes from a file), C65_folders_refuted (filtering rates that agree to one digit share a results folder)."
  },
  {
   "property": "C66",
   "status": "partial",
   "theorems": [
    "C66_kc_bounded_partial",
    "C66_tsp",
    "C66_tsp_answer",
    "C66_ksat",
    "C66_kc_refuted",
    "C66_kc_partial"
   ],
   "note": "TSP (C66_tsp, C66_tsp_answer) and K-SAT (C66_ksat) in full. For KC-MWM the statement is false (C66_kc_refuted: messages to teams are cut at the constant 1000000 in every unit); C66_kc_partial proves it as long as no such message reaches the constant. C66_kc_bounded_partial: it holds for all scales that keep differences of rewards below the constant."
  },
  {
   "property": "C67",
   "status": "proved",
   "theorems": [
    "C67_tsp_matrix",
    "C67_tsp_file",
    "C67_tsp_call"
   ],
   "note": "C67_tsp_matrix, C67_tsp_file (no hypotheses), C67_tsp_call. C67_zero shows what a zero draw does (the code draws from 1 to 1000)."
  },
  {
   "property": "C68",
   "status": "proved",
   "theorems": [
    "C68_metrics",
    "C68_planted",
    "C68_file",
    "C68_overwrite",
    "C68_call"
   ],
   "note": "C68_metrics, C68_planted, C68_file, C68_overwrite, C68_call. The normal distribution is not modelled: a metric is its mean plus an arbitrary deviation. C68_reread shows that overwriting with type 1 fails if no assignment is stored."
  },
  {
   "property": "C69",
   "status": "proved",
   "theorems": [
    "C69_renumbering"
   ],
   "note": "C69_renumbering. Concerns the library call; the matching made from it by Python breaks ties by position."
  },
  {
   "property": "C70",
   "status": "proved",
   "theorems": [
    "C70_best_selection",
    "C70_eventually",
    "C70_call",
    "C70_one_type",
    "C70_shared_team_refuted",
    "C70_mixed_weights_refuted"
   ],
   "note": "C70_best_selection (bounds), C70_eventually, C70_call (Python package), C70_one_type (instances with all teams of type 1 or all of type 3 qualify). C70_shared_team_refuted and C70_mixed_weights_refuted: without either condition the claim is false. Rewards below -1000000 are excluded: the minimum over projects starts at 1000000 (update_or_inequality_constraint.hpp:125), so a team could look selected without a project."
  },
  {
   "property": "C71",
   "status": "proved",
   "theorems": [
    "C71_shared_literal",
    "C71_combination",
    "C71_one_clause",
    "C71_neighbour",
    "C71_neighbour_only",
    "C71_pp_refuted"
   ],
   "note": "C71_shared_literal, C71_combination, C71_one_clause, C71_neighbour, C71_neighbour_only (the last for clauses without repeated variables). With pp = 1 the claim about the whole post-processing is false: C71_pp_refuted. With two or more violated clauses the second stage may make things worse (C36)."
  },
  {
   "property": "C72",
   "status": "proved",
   "theorems": [
    "C72_relaxed",
    "C72_augmented",
    "C72_large_costs_refuted"
   ],
   "note": "C72_relaxed, C72_augmented. Costs of 2^53 are too large: C72_large_costs_refuted gives three nodes on which round-to-nearest double precision selects other edges than exact arithmetic."
  },
  {
   "property": "C73",
   "status": "proved",
   "theorems": [
    "C73_ksat",
    "C73_ksat_few_iterations",
    "C73_large_metrics_refuted",
    "C73_ksat_literals"
   ],
   "note": "C73_ksat, C73_ksat_few_iterations, C73_ksat_literals (by C94). Metrics of 2^54 are too large: C73_large_metrics_refuted gives three clauses on which double precision decides a variable the other way."
  },
  {
   "property": "C74",
   "status": "proved",
   "theorems": [
    "C74_kc_mwm",
    "C74_kc_mwm_few_iterations",
    "C74_large_rewards_refuted",
    "C74_kc_mwm_any_iterations"
   ],
   "note": "C74_kc_mwm, C74_kc_mwm_few_iterations, C74_kc_mwm_any_iterations (no hypothesis on the run; every message stays in the range of C93). Rewards of 2^54 are too large: C74_large_rewards_refuted gives two teams and one project on which double precision drops a pair the exact run selects."
  },
  {
   "property": "C75",
   "status": "proved",
   "theorems": [
    "C75_pieces",
    "C75_pieces_refuted",
    "C75_degrees",
    "C75_subtours",
    "C75_two_sided_refuted"
   ],
   "note": "C75_degrees, C75_subtours; C75_pieces for the pieces that are printed. The conditions are needed: C75_two_sided_refuted removes the strongest selected edge of all, C75_pieces_refuted prints nothing for two cycles over the same nodes."
  },
  {
   "property": "C76",
   "status": "proved",
   "theorems": [
    "C76_feasible",
    "C76_totals_after",
    "C76_totals_before",
    "C76_totals_unrepaired",
    "C76_best",
    "C76_unrepaired_refuted"
   ],
   "note": "C76_feasible, C76_totals_after, C76_totals_before, C76_best for calls with post-processing; C76_totals_unrepaired says what is printed without it, C76_unrepaired_refuted shows that this is not the total of the reported pairs."
  },
  {
   "property": "C77",
   "status": "proved",
   "theorems": [
    "C77_settled",
    "C77_tree",
    "C77_flip"
   ],
   "note": "C77_settled is the general statement; C77_tree and C77_flip are the corollaries for formulas without cycles and for single changes. The messages are those of the schedule of C49, which determines them (clause_messages_unique in T_Ksat_Settled.v)."
  },
  {
   "property": "C78",
   "status": "proved",
   "theorems": [
    "C78_first_stage",
    "C78_round"
   ],
   "note": "C78_first_stage and C78_round. The messages are those of the schedule of C51, which determines them (tour_messages_unique in T_Tsp_Settled.v). The conditions can be computed from the messages; without filtering they are rarely met, because the messages keep growing."
  },
  {
   "property": "C79",
   "status": "proved",
   "theorems": [
    "C79_selection",
    "C79_call"
   ],
   "note": "C79_selection (the values returned) and C79_call (the reported teams). The messages are those of the schedule of C50, which determines them (outputs_equal in T_Kc_Settled.v). C70 says when the best selection is found; here any settled run certifies what it found, also where C70_shared_team_refuted and C70_mixed_weights_refuted rule out a general guarantee."
  },
  {
   "property": "C80",
   "status": "proved",
   "theorems": [
    "C80_view",
    "C80_local",
    "C80_cover",
    "C80_tree"
   ],
   "note": "C80_view, C80_local, C80_cover, C80_tree. The initial messages are the costs at the literals of the formula, as in calls of the Python class (C48); other entries are arbitrary."
  },
  {
   "property": "C81",
   "status": "proved",
   "theorems": [
    "C81_unfolding",
    "C81_call"
   ],
   "note": "C81_unfolding (the values returned) and C81_call (the decisions of a call without post-processing). C58 is the case where the unfolding is the formula itself; C80 compares unfoldings."
  },
  {
   "property": "C82",
   "status": "proved",
   "theorems": [
    "C82_unfolding"
   ],
   "note": "C82_unfolding: values and selection of the first stage without filtering. The augmentation stages are outside it."
  },
  {
   "property": "C83",
   "status": "partial",
   "theorems": [
    "C83_sound",
    "C83_complete_partial",
    "C83_complete_refuted"
   ],
   "note": "C83_sound: ends, and returns only cycles of the length asked for. C83_complete_partial: finds one whenever there is one, where at most one edge enters every city. C83_complete_refuted: edges 0-1, 1-2, 2-1 with length 2 give nothing, since the walk from 0 marks 1 and 2 as visited."
  },
  {
   "property": "C84",
   "status": "partial",
   "theorems": [
    "C84_same_results_partial",
    "C84_generated",
    "C84_distinct_refuted",
    "C84_truth_refuted"
   ],
   "note": "C84_generated: drawn instances. C84_same_results_partial: same outputs, decisions and report on every stored instance; missing is filtering with alpha = 0, where Python raises (C55_ksat_runs_refuted). C84_distinct_refuted: two clauses on the same variables can be drawn. C84_truth_refuted: after loading, the truth vector belongs to a discarded instance and need not satisfy the formula."
  },
  {
   "property": "C85",
   "status": "partial",
   "theorems": [
    "C85_same_answer_bounded_partial",
    "C85_same_answer_partial",
    "C85_totals_after",
    "C85_totals_unrepaired",
    "C85_same_totals_partial",
    "C85_same_totals_refuted"
   ],
   "note": "C85_same_answer_partial: same answer; missing are the cases of C55 (as many projects as teams, no iteration, filtering with alpha = 0, messages above 1000000). C85_totals_after and C85_totals_unrepaired: what is printed. C85_same_totals_partial: equal totals if no remaining team was matched twice; C85_same_totals_refuted: -150 instead of -100 otherwise. C85_same_answer_bounded_partial: same answer whenever the rewards are between -333333 and 333333 and the filter factor in (0, 1], without any condition on messages."
  },
  {
   "property": "C86",
   "status": "partial",
   "theorems": [
    "C86_verdict",
    "C86_exact",
    "C86_multiples",
    "C86_refuted"
   ],
   "note": "C86_verdict: exact condition for any rounding. C86_exact, C86_multiples: it succeeds in exact arithmetic and on multiples of a power of two. C86_refuted: with doubles between 10 and 300 it can fail."
  },
  {
   "property": "C87",
   "status": "partial",
   "theorems": [
    "C87_verdict",
    "C87_nan",
    "C87_agree_refuted",
    "C87_passes_verdict",
    "C87_tolerance_refuted",
    "C87_places_refuted",
    "C87_passes_nan",
    "C87_passes_nan_refuted"
   ],
   "note": "C87_verdict: exact condition for finite arrays (largest entry not -1e-30). C87_nan, C87_agree_refuted: NaN passes. C87_passes_verdict: exact condition for the knapsack passes (arrays of numbers and +inf). C87_tolerance_refuted, C87_places_refuted: tolerances are ignored, places of infinite entries are not compared. A NaN in the Python table fails the forward/backward judge (C87_passes_nan); one in the C++ table only is overlooked (C87_passes_nan_refuted)."
  },
  {
   "property": "C88",
   "status": "proved",
   "theorems": [
    "C88_ksat",
    "C88_ksat_decision",
    "C88_kc",
    "C88_kc_safe",
    "C88_tsp_front_end",
    "C88_tsp_safe"
   ],
   "note": "C88_ksat, C88_ksat_decision: exact arithmetic. C88_kc: filtering off; with filtering only finiteness (C88_kc_safe), the printed numbers of the 400 filtered iterations are not determined. C88_tsp_front_end, C88_tsp_safe; that the program's 200 iterations end with a tour is not proved (C88_tsp_example shows it for 16 iterations, and that without filtering 4 iterations end the process)."
  },
  {
   "property": "C89",
   "status": "proved",
   "theorems": [
    "C89_tsp_degree",
    "C89_tsp_subtour",
    "C89_tsp_relaxed",
    "C89_tsp_extrinsic_relaxed",
    "C89_tsp_edge_to_subtour",
    "C89_tsp_augmented",
    "C89_tsp_extrinsic_augmented",
    "C89_ksat_clause",
    "C89_ksat_variable",
    "C89_ksat_extrinsic",
    "C89_kc_project",
    "C89_kc_oric_to_team",
    "C89_kc_oric_to_project",
    "C89_kc_team_to_oric",
    "C89_kc_project_to_oric",
    "C89_kc_extrinsic_team",
    "C89_kc_intrinsic",
    "C89_kc_project_refuted",
    "C89_kc_single_refuted",
    "C89_tsp_two_nodes_refuted",
    "C89_tsp_no_cuts_refuted",
    "C89_kc_oric_bound_refuted",
    "C89_flag"
   ],
   "note": "exact arithmetic, filtering not called by these tests; C89_..._refuted give the sizes and draws at which a test fails or raises."
  },
  {
   "property": "C90",
   "status": "proved",
   "theorems": [
    "C90_team_to_knapsack",
    "C90_forward",
    "C90_backward",
    "C90_extrinsic_department",
    "C90_process",
    "C90_teams",
    "C90_generated",
    "C90_room_refuted",
    "C90_alpha_refuted",
    "C90_no_team_refuted"
   ],
   "note": "exact arithmetic; C90_room_refuted, C90_alpha_refuted and C90_no_team_refuted show that the conditions are needed."
  },
  {
   "property": "C91",
   "status": "partial",
   "theorems": [
    "C91_ksat_partial",
    "C91_tsp_relaxed_partial",
    "C91_tsp_augmented_partial",
    "C91_kc_partial",
    "C91_kc_sample_partial",
    "C91_ksat_refuted",
    "C91_tsp_refuted",
    "C91_kc_refuted"
   ],
   "note": "The full statement is false: C91_ksat_refuted (filtering with alpha 0), C91_tsp_refuted (alpha 0, no iteration), C91_kc_refuted (as many projects as teams). Proved otherwise; missing in C91_tsp_augmented_partial are also runs in which Python raises, a round that adds a constraint without edges, 50 rounds, and orders of the hash map other than that of insertion; in the KC-MWM theorems more than 11 departments, filter factors outside (0, 1] and rewards that differ by more than 1000000."
  },
  {
   "property": "C92",
   "status": "proved",
   "theorems": [
    "C92_min_sum"
   ],
   "note": "exact arithmetic; moderate (SpecRange.v) is the stated condition on rewards, rewards in [-B, B] with 3 B <= 1000000 satisfy it."
  },
  {
   "property": "C93",
   "status": "proved",
   "theorems": [
    "C93_outputs"
   ],
   "note": "exact arithmetic; C93_factor_refuted is the witness for a factor outside [0, 1]."
  },
  {
   "property": "C94",
   "status": "proved",
   "theorems": [
    "C94_range",
    "C94_attained",
    "C94_tight"
   ],
   "note": "exact arithmetic; C94_range is the bound, C94_attained and C94_tight that it is attained, C94_factor_refuted the witness for the factor."
  },
  {
   "property": "C95",
   "status": "proved",
   "theorems": [
    "C95_linear",
    "C95_range",
    "C95_attained"
   ],
   "note": "exact arithmetic; upper and lower (T_Tsp_Range.v) are the ends for one message, a value is the sum of two. C95_factor_refuted is the witness for the factor."
  },
  {
   "property": "C96",
   "status": "proved",
   "theorems": [
    "C96_values",
    "C96_matched",
    "C96_reported",
    "C96_factor_refuted"
   ],
   "note": "C96_values: the invariant; C96_matched: every matched pair of a complete call costs less than the threshold; C96_reported: the reported selection. C96_tight: the value of a pair can be equal to its cost. C96_factor_refuted: with a factor above 1 it is false."
  },
  {
   "property": "C97",
   "status": "proved",
   "theorems": [
    "C97_sign",
    "C97_decision",
    "C97_factor_refuted"
   ],
   "note": "C97_sign: the output of the solver; C97_decision: decisions of a complete call and the clauses they make true. C97_example also shows that the metric has to agree with the sign; C97_factor_refuted: with a factor above 1 it is false."
  },
  {
   "property": "C98",
   "status": "proved",
   "theorems": [
    "C98_kc",
    "C98_ksat",
    "C98_ksat_decision",
    "C98_tsp",
    "C98_tsp_attained"
   ],
   "note": "C98_ksat, C98_ksat_decision: K-SAT outputs and decisions; C98_tsp: values and selection of the first TSP stage; C98_tsp_attained: the factor 2n is attained for every n; C98_kc: KC-MWM values and matches."
  },
  {
   "property": "C99",
   "status": "proved",
   "theorems": [
    "C99_tsp",
    "C99_ksat",
    "C99_kc",
    "C99_unknown",
    "C99_symmetric",
    "C99_flag_refuted",
    "C99_metrics_refuted",
    "C99_list_refuted"
   ],
   "note": "C99_tsp, C99_ksat, C99_kc: same test and same settings for well-formed settings and non-empty FILT_FLAG; C99_unknown: other names start nothing; C99_symmetric: symmetric graphs. C99_flag_refuted, C99_list_refuted, C99_metrics_refuted: witnesses for empty FILT_FLAG, ill-formed lists and the type of the metrics."
  },
  {
   "property": "C100",
   "status": "partial",
   "theorems": [
    "C100_tsp",
    "C100_ksat",
    "C100_kc",
    "C100_agree",
    "C100_defaults_refuted",
    "C100_save_refuted",
    "C100_pp_refuted"
   ],
   "note": "C100_tsp, C100_ksat, C100_kc: single programs; C100_agree: agreement. The K-SAT program cannot save: its class has no save_outputs (part of C100_ksat, witness C100_save_refuted), and its constructor drops PPFlag (C100_pp_refuted). C100_defaults_refuted: the exceptions of C100_agree are needed."
  },
  {
   "property": "C101",
   "status": "partial",
   "theorems": [
    "C101_rewards",
    "C101_range",
    "C101_available",
    "C101_one_order_refuted",
    "C101_one_order_partial"
   ],
   "note": "C101_rewards, C101_range: rewards in full; C101_available: available pairs in full. 'One order only' is refuted: the distance table is not symmetric for departments 7 and 10 or 11 (3 one way, 2 the other), so both orders stay available (C101_one_order_refuted); proved for all other pairs (C101_one_order_partial)."
  },
  {
   "property": "C102",
   "status": "proved",
   "theorems": [
    "C102_exit",
    "C102_finite"
   ],
   "note": "C102_exit: the condition, both directions; C102_finite: finite costs. C102_example: with infinite costs the exit is reached in the second round, after a round with messages that are not numbers but another selection."
  },
  {
   "property": "C103",
   "status": "proved",
   "theorems": [
    "C103_exit"
   ],
   "note": "C103_exit: both directions. C103_example: infinite costs, the library ends in round 1, the Python program in round 2."
  },
  {
   "property": "C104",
   "status": "partial",
   "theorems": [
    "C104_final",
    "C104_repeats",
    "C104_stops_refuted"
   ],
   "note": "'Comes to an end' is refuted: four cities, three iterations per round and threshold 0 give the same state in every round from the second on (C104_stops_refuted, C104_example); the C++ library stops on the same input (C104_library_stops). The other two sentences are proved in full (C104_final, C104_repeats)."
  },
  {
   "property": "C105",
   "status": "proved",
   "theorems": [
    "C105_raises",
    "C105_first"
   ],
   "note": "C105_raises: both directions, empty constraints included; C105_first: only the first stage matters. C105_example: the first round raises; C105_empty_example: a round with an empty constraint does not."
  },
  {
   "property": "C106",
   "status": "proved",
   "theorems": [
    "C106_ksat",
    "C106_kc",
    "C106_kc_raises"
   ],
   "note": "K-SAT: C106_ksat. KC-MWM: C106_kc_raises; 'if' for whatever arrays: C106_kc."
  }
 ]
}