{
 "claims": [
  {
   "property": "C01",
   "status": "proved",
   "theorems": [
    "C01_set_roundtrip",
    "C01_code_roundtrip"
   ],
   "note": "both directions, both storage modes"
  },
  {
   "property": "C02",
   "status": "proved",
   "theorems": [
    "C02_same_code",
    "C02_same_set",
    "C02_code_out_of_range",
    "C02_set_out_of_range",
    "C02_empty_set_differs_refuted",
    "C02_negative_code_differs_refuted"
   ],
   "note": "for non-empty sets and codes >= 0 as stated; the two _refuted theorems show that the empty set and negative codes are treated differently"
  },
  {
   "property": "C03",
   "status": "proved",
   "theorems": [
    "C03_vector_code"
   ],
   "note": ""
  },
  {
   "property": "C04",
   "status": "proved",
   "theorems": [
    "C04_table_size",
    "C04_table_has_every_subset_once",
    "C04_table_has_only_subsets",
    "C04_basic_states_first",
    "C04_code_order"
   ],
   "note": ""
  },
  {
   "property": "C05",
   "status": "proved",
   "theorems": [
    "C05_composite_state",
    "C05_never_fails_with_table",
    "C05_complete_table_unchanged",
    "C05_no_repeats"
   ],
   "note": ""
  },
  {
   "property": "C06",
   "status": "proved",
   "theorems": [
    "C06_get_state"
   ],
   "note": ""
  },
  {
   "property": "C07",
   "status": "proved",
   "theorems": [
    "C07_update_coverage"
   ],
   "note": ""
  },
  {
   "property": "C08",
   "status": "proved",
   "theorems": [
    "C08_non_dominated"
   ],
   "note": ""
  },
  {
   "property": "C09",
   "status": "proved",
   "theorems": [
    "C09_sound_rule"
   ],
   "note": ""
  },
  {
   "property": "C10",
   "status": "proved",
   "theorems": [
    "C10_split"
   ],
   "note": ""
  },
  {
   "property": "C11",
   "status": "proved",
   "theorems": [
    "C11_choice",
    "C11_compat_total"
   ],
   "note": ""
  },
  {
   "property": "C12",
   "status": "proved",
   "theorems": [
    "C12_decomp_total"
   ],
   "note": "for well-formed variables, probabilities and sound rules, fresh or resumed branches, every max_nb"
  },
  {
   "property": "C13",
   "status": "proved",
   "theorems": [
    "C13_partition"
   ],
   "note": ""
  },
  {
   "property": "C14",
   "status": "proved",
   "theorems": [
    "C14_probabilities"
   ],
   "note": ""
  },
  {
   "property": "C15",
   "status": "proved",
   "theorems": [
    "C15_labels"
   ],
   "note": ""
  },
  {
   "property": "C16",
   "status": "proved",
   "theorems": [
    "C16_bounds",
    "C16_run_total",
    "C16_resume"
   ],
   "note": "every setting; C16_run_total: no error when surv_first or without max_nb; C16_resume: results can be handed to another run"
  },
  {
   "property": "C17",
   "status": "proved",
   "theorems": [
    "C17_exact_cover",
    "C17_bounds_monotone"
   ],
   "note": ""
  },
  {
   "property": "C18",
   "status": "partial",
   "theorems": [
    "C18_complete_exact_partial",
    "C18_complete_exact_refuted",
    "C18_room_partial",
    "C18_gap",
    "C18_room_refuted"
   ],
   "note": "proved when the decomposition is not truncated: max_nb infinite or at least twice the number of vectors, or at least twice the number of returned branches (C18_room_partial). For every max_nb the gap after 'complete' is the probability of the branches with failing lower and surviving upper end (C18_gap). _refuted: series system of three components with max_nb=4 ends 'complete' with three branches and bounds [3/4, 1], truth 7/8"
  },
  {
   "property": "C19",
   "status": "proved",
   "theorems": [
    "C19_budget"
   ],
   "note": "C19_budget_ex also shows that max_nb=1 is exceeded"
  },
  {
   "property": "C20",
   "status": "proved",
   "theorems": [
    "C20_calls_distinct",
    "C20_call_unclassified"
   ],
   "note": "distinct, within the space, at most |space| and max_sf calls at run level; unclassified at iteration level"
  },
  {
   "property": "C21",
   "status": "proved",
   "theorems": [
    "C21_aligned",
    "C21_last_values"
   ],
   "note": "for max_sf >= 1; with max_sf <= 0 the loop is not entered"
  },
  {
   "property": "C22",
   "status": "partial",
   "theorems": [
    "C22_next_vector",
    "C22_next_vector_fail_first_partial",
    "C22_next_vector_fail_first_refuted",
    "C22_most_probable",
    "C22_fail_first"
   ],
   "note": "surv_first=True proved, with the exact vector (C22_most_probable: upper ends of the most probable branch whose upper end is unknown, else lower ends); surv_first=False characterised (C22_fail_first: raises UnboundLocalError exactly when the first branch with an unknown end has a known upper end, and never returns a lower end), so the claim is proved without branches with unknown lower and known upper end and _refuted with them (also reached by run)"
  },
  {
   "property": "C23",
   "status": "partial",
   "theorems": [
    "C23_survival_rules",
    "C23_failure_rules_strict",
    "C23_failure_rules_refuted",
    "C23_failure_rules_gap"
   ],
   "note": "'s' proved; 'f' refuted: it computes the probability of entries strictly below the rule (C23_failure_rules_strict); C23_failure_rules_gap: what is missing is the probability of the vectors that equal the rule in some component, so the value is never too large and always too small for a non-empty rule when all states are possible"
  },
  {
   "property": "C24",
   "status": "proved",
   "theorems": [
    "C24_event_matrix"
   ],
   "note": ""
  },
  {
   "property": "C25",
   "status": "partial",
   "theorems": [
    "C25_system_event_partial",
    "C25_no_table_refuted"
   ],
   "note": "for every run result, resumed or not, and components with a stored table of composite states; a component with more than six states and no B_flag has none and get_csys raises (C25_no_table_refuted). Also shown: the 'unknown' state gets the width of the bounds"
  },
  {
   "property": "C26",
   "status": "proved",
   "theorems": [
    "C26_condition",
    "C26_condition_by_name",
    "C26_condition_by_value"
   ],
   "note": "composite evidence and rows included; variables by name or object, states by code or value"
  },
  {
   "property": "C27",
   "status": "proved",
   "theorems": [
    "C27_product",
    "C27_product_succeeds",
    "C27_common_child"
   ],
   "note": "value, scope and children; C27_product_succeeds gives when it succeeds; rows needed on both sides"
  },
  {
   "property": "C28",
   "status": "partial",
   "theorems": [
    "C28_order_partial",
    "C28_order_succeeds",
    "C28_order_refuted",
    "C28_succeeds_iff"
   ],
   "note": "values, scope and children are equal for every order that succeeds, and every order succeeds when all factors are non-zero at a common joint state; _refuted: without such a state one order can raise UnboundLocalError while another succeeds; C28_succeeds_iff: an order succeeds exactly when at each step the operand with fewer columns has a row, otherwise UnboundLocalError"
  },
  {
   "property": "C29",
   "status": "proved",
   "theorems": [
    "C29_sum",
    "C29_sum_by_name",
    "C29_sum_nothing_left"
   ],
   "note": "any flag; marginalisation for removed columns of basic states; removing every variable raises ValueError (C29_sum_nothing_left)"
  },
  {
   "property": "C30",
   "status": "proved",
   "theorems": [
    "C30_get_prob",
    "C30_complement",
    "C30_monotone",
    "C30_event_probability",
    "C30_by_name",
    "C30_by_value",
    "C30_no_variables"
   ],
   "note": "event, complement, monotonicity, sum over the joint states of the event; names and values as arguments"
  },
  {
   "property": "C31",
   "status": "partial",
   "theorems": [
    "C31_bounds",
    "C31_conditional_bounds_partial",
    "C31_conditional_bounds_refuted"
   ],
   "note": "unconditional bounds proved for every completion; conditional bounds proved when the event contains the condition, _refuted otherwise (lower bound 9/2). C98 shows which of the ends are attained"
  },
  {
   "property": "C32",
   "status": "partial",
   "theorems": [
    "C32_merge_partial",
    "C32_merge_refuted",
    "C32_merge_outcomes"
   ],
   "note": "proved when every row of the second CPM occurs in the first; _refuted otherwise (ValueError); C32_merge_outcomes lists all outcomes, also for different variables and CPMs without rows"
  },
  {
   "property": "C33",
   "status": "partial",
   "theorems": [
    "C33_variable_elim_partial",
    "C33_any_order_partial",
    "C33_variable_elim_succeeds",
    "C33_succeeds_iff",
    "C33_variable_elim_refuted"
   ],
   "note": "value, scope, children and independence of the order proved; for CPMs positive together at some joint state it succeeds exactly when every eliminated variable is connected with one that stays (C33_succeeds_iff); _refuted: eliminating a variable that stands alone raises ValueError"
  },
  {
   "property": "C34",
   "status": "proved",
   "theorems": [
    "C34_get_subset",
    "C34_partition",
    "C34_out_of_range"
   ],
   "note": ""
  },
  {
   "property": "C35",
   "status": "partial",
   "theorems": [
    "C35_stored_tables_partial",
    "C35_on_the_fly_refuted"
   ],
   "note": "every stored table is usable; _refuted for variables without a table (AttributeError)"
  },
  {
   "property": "C36",
   "status": "partial",
   "theorems": [
    "C36_ancestors_partial",
    "C36_terminates",
    "C36_sorted",
    "C36_duplicates_refuted"
   ],
   "note": "result set, termination, sorting and KeyError proved for every network; 'without duplicates' holds for queries without duplicates and is _refuted otherwise"
  },
  {
   "property": "C37",
   "status": "proved",
   "theorems": [
    "C37_topological",
    "C37_complete",
    "C37_numbers",
    "C37_cyclic"
   ],
   "note": "completeness for networks in which no variable is a child of two CPMs; the converse (all listed only if acyclic) is proved too"
  },
  {
   "property": "C38",
   "status": "partial",
   "theorems": [
    "C38_distribution",
    "C38_samples_partial",
    "C38_stored_partial",
    "C38_state0_refuted",
    "C38_order_refuted",
    "C38_columns_refuted"
   ],
   "note": "exact distribution of the outcomes modelled; joint probability, positivity and drawing probability proved when the CPMs are given parents first and no parent is sampled in state 0; refuted otherwise (state 0 counts as not sampled; the computed order is not followed; columns of q for is_scalar=False)"
  },
  {
   "property": "C39",
   "status": "partial",
   "theorems": [
    "C39_partition",
    "C39_values",
    "C39_renumbered",
    "C39_states_partial",
    "C39_nested",
    "C39_same_values",
    "C39_states_refuted",
    "C39_repeated_refuted"
   ],
   "note": "rows partition the parent states, values are the attainable maxima in ascending order, states identify them up to one renumbering: proved for parents with stored tables and distinct comparable values; the state numbers are right when every attainable value belongs to the parent treated first (for instance when the parents count 0..k with different k, C39_nested), refuted otherwise; repeated values refuted; exceptions for empty, mixed and table-less parents shown"
  },
  {
   "property": "C40",
   "status": "partial",
   "theorems": [
    "C40_partition",
    "C40_values",
    "C40_renumbered",
    "C40_states_partial",
    "C40_same_values",
    "C40_states_refuted"
   ],
   "note": "rows partition the parent states, values are the attainable minima in ascending order, states identify them up to one renumbering: proved for parents with stored tables and distinct comparable values; the state numbers are right when every attainable value belongs to the parent treated first, refuted otherwise; same scope as C39"
  },
  {
   "property": "C41",
   "status": "proved",
   "theorems": [
    "C41_rows",
    "C41_product",
    "C41_wf",
    "C41_condition_refuted",
    "C41_two_conditions_refuted",
    "C41_no_rows_refuted"
   ],
   "note": "CPMs without samples; joint states that meet the condition. C41_condition_refuted: rows for other states of a condition that is a parent of the system are multiplied too; C41_two_conditions_refuted: two conditional variables always raise; C41_no_rows_refuted: a system CPM without rows raises UnboundLocalError"
  },
  {
   "property": "C42",
   "status": "partial",
   "theorems": [
    "C42_first_path",
    "C42_errors",
    "C42_improve",
    "C42_monotone",
    "C42_shortest_partial",
    "C42_inf_refuted",
    "C42_time_refuted"
   ],
   "note": "eval_sys_state: proved in full (first surviving path, else the first entry; exceptions; improvement). With get_path_time_idx: proved for finite times, up to the tolerance of np.isclose; C42_inf_refuted: an infinite time in the list removes the entry for the disconnected state; C42_time_refuted: close times share a state"
  },
  {
   "property": "C43",
   "status": "partial",
   "theorems": [
    "C43_partition",
    "C43_three_states_refuted"
   ],
   "note": "two-state arcs, path lists with the best path first after an entry without path; C43_three_states_refuted: with three states the best state is lost"
  },
  {
   "property": "C44",
   "status": "proved",
   "theorems": [
    "C44_exact",
    "C44_complete_start_refuted",
    "C44_get_branches_partial"
   ],
   "note": "two-state arcs, branches that are not complete at the start, a directory without files of the key; terminates within one round per arc. C44_complete_start_refuted: a complete start branch is dropped and nothing is saved; C44_get_branches_partial: one OD (further ODs read old files, C45)"
  },
  {
   "property": "C45",
   "status": "partial",
   "theorems": [
    "C45_read_partial",
    "C45_fresh_partial",
    "C45_exact",
    "C45_stale_refuted",
    "C45_key_refuted",
    "C45_two_ods_refuted"
   ],
   "note": "what is read is proved exactly: the branches of the run plus those in earlier files of the key that were not overwritten; equal to the run exactly when the latter have no complete branch (C45_exact). Refuted otherwise: longer earlier run, key that continues this key, second OD of get_branches"
  },
  {
   "property": "C46",
   "status": "partial",
   "theorems": [
    "C46_path_model_partial",
    "C46_other_states_partial",
    "C46_six_paths_refuted",
    "C46_second_od_refuted"
   ],
   "note": "Proved for one OD with at most five paths, two damage states per edge, a fresh directory: every state probability is the total probability of the arc states with that system state, and with flag=False that of all other arc states (C46_other_states_partial). Refuted with six paths (AttributeError, the OD variable stores no table) and for the second OD of a configuration (files of the first OD are read too; probabilities sum to more than one)."
  },
  {
   "property": "C47",
   "status": "proved",
   "theorems": [
    "C47_partition",
    "C47_coherent",
    "C47_bnb_fns",
    "C47_three_states_refuted",
    "C47_next_comp_first"
   ],
   "note": "Proved for every system function and all admissible branching functions, with an explicit bound on the number of passes, and for coherent functions that every vector has the state of its branch. The functions of bnb_fns.py are admissible for two states per arc (C47_bnb_fns); with three states bnb_next_state makes the search run forever (C47_three_states_refuted). bnb_next_comp always returns the first candidate (C47_next_comp_first)."
  },
  {
   "property": "C48",
   "status": "partial",
   "theorems": [
    "C48_first",
    "C48_sorted_partial",
    "C48_unsorted_refuted"
   ],
   "note": "True when the paths are supplied in increasing order of time (C48_sorted_partial); false otherwise: argsort is applied to the already sorted times, so the first available path in the given order is returned with the time of another path (C48_unsorted_refuted). C48_first states what is returned for every order."
  },
  {
   "property": "C49",
   "status": "partial",
   "theorems": [
    "C49_code",
    "C49_rows_partial",
    "C49_three_states_refuted"
   ],
   "note": "Proved for components with two states and both flags; C49_code shows that a code is right exactly when the bounds agree or are the two lowest states; refuted for three states."
  },
  {
   "property": "C50",
   "status": "proved",
   "theorems": [
    "C50_connected",
    "C50_monotone",
    "C50_rule",
    "C50_integer_keys_refuted"
   ],
   "note": "For nodes and edges as components, directed or not. nx.shortest_path is a parameter with a contract (SpecTrans.nx_path_ok), met by the reference version NxPaths.bf_path. With the integer keys that networkx assigns by itself in a multigraph, a failed edge raises (C50_integer_keys_refuted)."
  },
  {
   "property": "C51",
   "status": "proved",
   "theorems": [
    "C51_distribution",
    "C51_three_states_refuted"
   ],
   "note": "Branches that are boxes with exact probabilities and partition the space (C13-C16 give this for every run), with positive probability of the unknown region. Components with three states cannot be sampled (C51_three_states_refuted)."
  },
  {
   "property": "C52",
   "status": "proved",
   "theorems": [
    "C52_stop_reason",
    "C52_width_reached"
   ],
   "note": "The 'pf_bnd' test uses the bounds recorded before the last iteration; C52_width_reached gives the returned bounds when branches are unlimited. 'complete' is C18."
  },
  {
   "property": "C53",
   "status": "proved",
   "theorems": [
    "C53_storage"
   ],
   "note": ""
  },
  {
   "property": "C54",
   "status": "proved",
   "theorems": [
    "C54_means",
    "C54_total",
    "C54_names"
   ],
   "note": ""
  },
  {
   "property": "C55",
   "status": "proved",
   "theorems": [
    "C55_shortest_time",
    "C55_rule",
    "C55_multigraph_refuted",
    "C55_zero_threshold_refuted",
    "C55_no_route_refuted"
   ],
   "note": "nx.shortest_path and nx.shortest_path_length with weights are parameters with a contract (SpecTrans.nx_wpath_ok), met by NxPaths.bf_wpath. At the border of the quantifier: in multigraphs component states are ignored (C55_multigraph_refuted), a threshold of 0 counts as none (C55_zero_threshold_refuted), without route an exception is raised (C55_no_route_refuted)."
  },
  {
   "property": "C56",
   "status": "proved",
   "theorems": [
    "C56_nearest",
    "C56_rule",
    "C56_no_threshold_refuted"
   ],
   "note": "nx.multi_source_dijkstra is a parameter with a contract (SpecTrans.nx_multi_ok), met by NxPaths.bf_multi. Finite thresholds. Without a threshold the function always raises KeyError (C56_no_threshold_refuted)."
  },
  {
   "property": "C57",
   "status": "proved",
   "theorems": [
    "C57_connectivity",
    "C57_travel_time",
    "C57_nearest"
   ],
   "note": "From C50, C55, C56 with C16 and C18; fresh runs with surv_first=True and at least one system call; exactness without limit on branches (with a limit see C18). The oracles are parameters with contracts."
  },
  {
   "property": "C58",
   "status": "proved",
   "theorems": [
    "C58_event_matrix"
   ],
   "note": "One OD pair; rows with state 2 are undecided. Composition of C55, C16 and C24 with equal probabilities for the states of an edge."
  },
  {
   "property": "C59",
   "status": "proved",
   "theorems": [
    "C59_target",
    "C59_after_run",
    "C59_truncated_refuted"
   ],
   "note": "Also for any set of branches with these properties (C59_target). With a limit on the number of branches the identity fails (C59_truncated_refuted)."
  },
  {
   "property": "C60",
   "status": "proved",
   "theorems": [
    "C60_estimate",
    "C60_no_exception",
    "C60_terminates",
    "C60_no_failure_endless",
    "C60_endless_refuted",
    "C60_finished_refuted",
    "C60_threshold_refuted"
   ],
   "note": "The coefficient of variation is represented by its square; the confidence interval is not modelled. Outside the quantifier: no failing branch and no failure drawn, the loop never ends (C60_no_failure_endless, C60_endless_refuted); nothing unknown, ValueError (C60_finished_refuted); threshold of 1 or more, UnboundLocalError (C60_threshold_refuted)."
  },
  {
   "property": "C61",
   "status": "proved",
   "theorems": [
    "C61_samples",
    "C61_weights"
   ],
   "note": "The CPMs are distinct objects; ps is not modelled. Errors of single samples are those of mcs_unknown_simple."
  },
  {
   "property": "C62",
   "status": "proved",
   "theorems": [
    "C62_distribution",
    "C62_estimate",
    "C62_exception",
    "C62_unbound_refuted",
    "C62_threshold_refuted",
    "C62_lists_refuted"
   ],
   "note": "Outside the quantifier: 20000 samples without failure raise UnboundLocalError (C62_unbound_refuted), as does a threshold of 1 or more (C62_threshold_refuted); distributions given as lists raise AttributeError (C62_lists_refuted)."
  },
  {
   "property": "C63",
   "status": "proved",
   "theorems": [
    "C63_get_variables",
    "C63_missing",
    "C63_repeated_refuted",
    "C63_condition",
    "C63_condition_by_name",
    "C63_condition_by_value"
   ],
   "note": "Names without repetition; with repeated names the order is lost (C63_repeated_refuted)."
  },
  {
   "property": "C64",
   "status": "proved",
   "theorems": [
    "C64_conditional_elim",
    "C64_nothing_left",
    "C64_result",
    "C64_none",
    "C64_new_rows_refuted",
    "C64_nothing_left_refuted",
    "C64_repeated_rows_refuted",
    "C64_no_condition_refuted"
   ],
   "note": "C64_conditional_elim: a CPM is returned and it is the marginal. C64_result: whatever CPM is returned is the marginal, without the conditions for success. C64_nothing_left: None if no variable is left. Where the conditions fail: ValueError when a later conditioning row makes rows possible that the first excludes (C64_new_rows_refuted) and without conditioning CPMs (C64_no_condition_refuted); None instead of a number (C64_nothing_left_refuted). Overlapping conditioning rows are counted repeatedly (C64_repeated_rows_refuted)."
  },
  {
   "property": "C65",
   "status": "proved",
   "theorems": [
    "C65_system_cpm",
    "C65_two_hazards_refuted",
    "C65_sparse_table_refuted"
   ],
   "note": "One hazard that every component depends on directly. Outside this class the call fails where ordinary elimination succeeds: components with two hazards (C65_two_hazards_refuted) and tables without the impossible states (C65_sparse_table_refuted)."
  },
  {
   "property": "C66",
   "status": "proved",
   "theorems": [
    "C66_result",
    "C66_joint",
    "C66_needs_component",
    "C66_all_joint_refuted"
   ],
   "note": "C66_needs_component shows that an order without a component never gives a result, C66_all_joint_refuted the IndexError in one such network"
  },
  {
   "property": "C67",
   "status": "proved",
   "theorems": [
    "C67_condition",
    "C67_twice_refuted"
   ],
   "note": "Conditioning does not compose: a second condition overwrites the target weights of the first (C67_twice_refuted)."
  },
  {
   "property": "C68",
   "status": "proved",
   "theorems": [
    "C68_product",
    "C68_elim",
    "C68_missing",
    "C68_dropped",
    "C68_merge",
    "C68_merge_mixed_refuted",
    "C68_merged_refuted"
   ],
   "note": "CPMs made by merge hold sample numbers twice and cannot be multiplied as the operand with more variables (C68_merged_refuted). Merging a CPM with samples and one without is a ValueError (C68_merge_mixed_refuted)."
  },
  {
   "property": "C69",
   "status": "proved",
   "theorems": [
    "C69_mle",
    "C69_mle_variance",
    "C69_bayes",
    "C69_rounds_refuted",
    "C69_variance_refuted",
    "C69_no_weights_refuted"
   ],
   "note": "The variance for one weight above 1 can be negative (C69_variance_refuted), the Bayesian method ignores the share of each round (C69_rounds_refuted), several rounds without target weights are an IndexError (C69_no_weights_refuted). The bounds of the confidence interval are not modelled."
  },
  {
   "property": "C70",
   "status": "proved",
   "theorems": [
    "C70_estimate",
    "C70_unbiased",
    "C70_support_refuted",
    "C70_children_refuted",
    "C70_event_refuted",
    "C70_proportion_refuted"
   ],
   "note": "Each hypothesis is needed: C70_support_refuted (impossible states), C70_children_refuted (one of two children observed), C70_event_refuted (event on an observed variable). With known rows the factor of the samples is wrong after conditioning (C70_proportion_refuted)."
  },
  {
   "property": "C71",
   "status": "proved",
   "theorems": [
    "C71_never",
    "C71_name_error",
    "C71_nothing_wanted"
   ],
   "note": "The function is modelled up to the first use of a sample; what would follow is an argument of the model."
  },
  {
   "property": "C72",
   "status": "proved",
   "theorems": [
    "C72_max_flow",
    "C72_rule",
    "C72_bounds",
    "C72_parallel_refuted",
    "C72_antiparallel_refuted",
    "C72_decreasing_refuted"
   ],
   "note": "Components between the same two nodes replace each other (C72_parallel_refuted, C72_antiparallel_refuted); capacities that decrease with the state make the rule wrong (C72_decreasing_refuted). FlowRef.v has a flow routine that meets the contract."
  },
  {
   "property": "C73",
   "status": "proved",
   "theorems": [
    "C73_pipes",
    "C73_rule",
    "C73_bounds",
    "C73_route",
    "C73_disconnected_refuted"
   ],
   "note": "With edges in both directions, as in test_pipes_large.py, the stages need not be in order and a plan may circulate: the system survives although origin and destination are not joined (C73_disconnected_refuted). PipeRef.v has a solver that meets the contract of milp."
  },
  {
   "property": "C74",
   "status": "proved",
   "theorems": [
    "C74_graph",
    "C74_edges",
    "C74_last",
    "C74_type",
    "C74_parallel_refuted"
   ],
   "note": "C74_parallel_refuted: in a simple graph an entry parallel to a later one has no edge."
  },
  {
   "property": "C75",
   "status": "proved",
   "theorems": [
    "C75_paths",
    "C75_multi_refuted",
    "C75_multi_weight",
    "C75_twice_refuted"
   ],
   "note": "The contract of nx.all_simple_paths is SpecConfig.nx_simple_ok, met by ConfigPaths.bf_simple. Outside the quantifier: in multigraphs the labels cannot be looked up, KeyError (C75_multi_refuted); an OD given twice gets every path twice (C75_twice_refuted)."
  },
  {
   "property": "C76",
   "status": "partial",
   "theorems": [
    "C76_setup_partial",
    "C76_no_route_refuted",
    "C76_multi_refuted",
    "C76_parallel_refuted"
   ],
   "note": "Proved for one OD, simple graphs without parallel entries, weights not negative, at most five routes whose times are equal or differ by more than the tolerance of np.isclose, two damage states, a fresh directory. Refuted: multigraphs (C76_multi_refuted) and ODs without route (C76_no_route_refuted) raise KeyError, parallel entries give a wrong probability (C76_parallel_refuted); six routes C46_six_paths_refuted, several ODs C46_second_od_refuted."
  },
  {
   "property": "C77",
   "status": "proved",
   "theorems": [
    "C77_exact",
    "C77_same",
    "C77_nobreak",
    "C77_disconnected_refuted",
    "C77_stale_refuted",
    "C77_three_states_refuted"
   ],
   "note": "Outside the quantifier: a start branch with equal states and no surviving path raises UnboundLocalError (C77_disconnected_refuted) or, after another branch, returns parts of that one again with a wrong state (C77_stale_refuted); with three states the best is lost (C77_three_states_refuted)."
  },
  {
   "property": "C78",
   "status": "proved",
   "theorems": [
    "C78_network",
    "C78_days",
    "C78_links",
    "C78_houses",
    "C78_ten_structures_refuted",
    "C78_missing_refuted",
    "C78_name_clash_refuted"
   ],
   "note": "Outside the quantifier: from the sixth structure on there is no table of composite states, so the CPM of the closure time is missing (C78_missing_refuted) and the ten-structure example of the demo ends in AttributeError (C78_ten_structures_refuted); houses h10 and h1 share a node name (C78_name_clash_refuted)."
  },
  {
   "property": "C79",
   "status": "proved",
   "theorems": [
    "C79_max_flow",
    "C79_rule",
    "C79_main",
    "C79_parallel_refuted",
    "C79_opposite_refuted",
    "C79_decreasing_refuted"
   ],
   "note": "The contract of nx.maximum_flow is SpecMaxFlow.nx_flow2_ok, met by MaxFlowRef.nx_lp2. Outside the quantifier: of two edges between the same nodes in the same direction, or without directions in any, only the last counts (C79_parallel_refuted, C79_opposite_refuted); with capacities that decrease with the state the rule is wrong (C79_decreasing_refuted). Edges given as dicts fail with KeyError when the target is met (not modelled)."
  },
  {
   "property": "C80",
   "status": "proved",
   "theorems": [
    "C80_knots",
    "C80_table_sums",
    "C80_distance",
    "C80_degenerate",
    "C80_roads",
    "C80_covariance",
    "C80_total",
    "C80_table_refuted"
   ],
   "note": "np.sqrt, np.log, norm.cdf and the three results of gmpe_cam03 are parameters (SpecMap.root_within for the root, met by PropPfMap.ref_root). The points that gmpe_cam03 hands to the interpolation of the epistemic deviation are not those of its table (C80_table_refuted): the meshgrid runs over magnitudes first, the table over distances."
  },
  {
   "property": "C81",
   "status": "proved",
   "theorems": [
    "C81_enclosed",
    "C81_exact",
    "C81_cut_off",
    "C81_saved",
    "C81_limit_refuted"
   ],
   "note": "Outside the quantifier: when the search of a node ends at max_sf or max_nb, mcs_unknown indexes objects of class Branch and raises TypeError, so no table is written (C81_limit_refuted). A node that has no route even in the intact network gets probability nought (C81_cut_off). MAX_SYS_FUN null is modelled as one more than the number of state vectors."
  },
  {
   "property": "C82",
   "status": "proved",
   "theorems": [
    "C82_written",
    "C82_missing",
    "C82_read",
    "C82_graph",
    "C82_lost_refuted",
    "C82_frag",
    "C82_create",
    "C82_road"
   ],
   "note": "No graph type is written, so the file is read as an undirected simple graph, and of two arcs between the same nodes, like the two directions of a road, only the last is kept (C82_lost_refuted). A speed of nought, which gives inf or nan in numpy, is outside the quantifier."
  },
  {
   "property": "C83",
   "status": "proved",
   "theorems": [
    "C83_bounds",
    "C83_history",
    "C83_exact",
    "C83_key",
    "C83_default_refuted"
   ],
   "note": "create_model of the demo writes the pair 'od1' only while main defaults to 'od2': on the file that the demo writes, main without arguments is a KeyError (C83_default_refuted); the model.json in the repository has both pairs. The classes drawn at random are a parameter."
  },
  {
   "property": "C84",
   "status": "proved",
   "theorems": [
    "C84_decidable",
    "C84_ratio",
    "C84_missing",
    "C84_unknown_refuted",
    "C84_order_refuted"
   ],
   "note": "Outside the quantifier: with unknown branches, whose code 2 stands for both states of the two-valued system variable, the ratio can be wrong (C84_unknown_refuted); with a kept component whose name sorts before 'sys' the columns change places and the ratio is the probability of connection given the component (second part of C84_ratio, C84_order_refuted). Ends that are missing or equal are a ValueError (C84_missing)."
  },
  {
   "property": "C85",
   "status": "proved",
   "theorems": [
    "C85_bounds"
   ],
   "note": "Without arcs the product of CPMs raises IndexError (C85_ex). The plot of the monitor is not modelled."
  },
  {
   "property": "C86",
   "status": "proved",
   "theorems": [
    "C86_rows"
   ],
   "note": "The picture of the graph is not modelled."
  },
  {
   "property": "C87",
   "status": "proved",
   "theorems": [
    "C87_estimate",
    "C87_exact",
    "C87_outside",
    "C87_level",
    "C87_no_weight",
    "C87_sure_refuted",
    "C87_given_refuted",
    "C87_mean_refuted"
   ],
   "note": "The draws of np.random.beta are parameters. Outside the quantifier: an event that leaves out the condition is not intersected with it, and a ratio is reported that is not the conditional probability (C87_given_refuted). When event and condition are the same and something is unknown, the interval lies below 1, the true value (C87_sure_refuted); the mean may lie outside the interval (C87_mean_refuted)."
  },
  {
   "property": "C88",
   "status": "proved",
   "theorems": [
    "C88_split",
    "C88_missing",
    "C88_job",
    "C88_resume",
    "C88_union",
    "C88_exact",
    "C88_same_key_refuted"
   ],
   "note": "Taken up under its own key in the same directory the run writes over its own files and finished branches are lost (C88_same_key_refuted)."
  },
  {
   "property": "C89",
   "status": "proved",
   "theorems": [
    "C89_enclosed",
    "C89_same",
    "C89_attribute",
    "C89_missing",
    "C89_as_is_refuted"
   ],
   "note": "Branches for samples (post.py 189-203) are not modelled: the map stores none (C81). That an update is returned is refuted for the package as it is (C89_as_is_refuted)."
  },
  {
   "property": "C90",
   "status": "proved",
   "theorems": [
    "C90_arguments",
    "C90_enclosed",
    "C90_table",
    "C90_missing",
    "C90_attribute",
    "C90_dependence_refuted"
   ],
   "note": "Branches for samples (post.py 82-125) are not modelled. The normal distribution function is a parameter. That the covariances are right for all rows is refuted (C90_dependence_refuted)."
  },
  {
   "property": "C91",
   "status": "proved",
   "theorems": [
    "C91_samples",
    "C91_estimate",
    "C91_missing",
    "C91_dropped"
   ],
   "note": "Exceptions are compared one at a time: if both rows and samples raise, the model returns that of the rows."
  },
  {
   "property": "C92",
   "status": "proved",
   "theorems": [
    "C92_conn",
    "C92_value",
    "C92_bounds",
    "C92_missing",
    "C92_parallel_refuted"
   ],
   "note": "Rule, value and search for networks without parallel arcs; C92_parallel_refuted shows that with parallel arcs the rule can name a failed arc and the value counts them as one."
  },
  {
   "property": "C93",
   "status": "proved",
   "theorems": [
    "C93_flow",
    "C93_demo"
   ],
   "note": ""
  },
  {
   "property": "C94",
   "status": "proved",
   "theorems": [
    "C94_accepts",
    "C94_well_formed",
    "C94_negative",
    "C94_above",
    "C94_assign",
    "C94_flat",
    "C94_samples",
    "C94_accepts_refuted",
    "C94_samples_refuted"
   ],
   "note": "C94_accepts_refuted and C94_samples_refuted: acceptance does not imply well-formedness (code -1 is read as any state, code 2^n-1 is accepted, a variable may occur twice, a flat list with two variables). no_child is a natural number in the model; a negative one is accepted by the code as well."
  },
  {
   "property": "C95",
   "status": "proved",
   "theorems": [
    "C95_sort",
    "C95_product",
    "C95_cut",
    "C95_more",
    "C95_samples_refuted"
   ],
   "note": "C95_samples_refuted: with samples, rows of C are dropped, or weights and sampled states no longer belong together (Cs and ps are not permuted)."
  },
  {
   "property": "C96",
   "status": "proved",
   "theorems": [
    "C96_total",
    "C96_calls",
    "C96_number",
    "C96_irredundant",
    "C96_extreme",
    "C96_least_calls",
    "C96_idle_refuted"
   ],
   "note": "C96_total, C96_calls, C96_number, C96_irredundant, C96_extreme, C96_least_calls; C96_idle_refuted shows that the condition on idle entries is needed"
  },
  {
   "property": "C97",
   "status": "proved",
   "theorems": [
    "C97_same_rules"
   ],
   "note": "C97_same_rules"
  },
  {
   "property": "C98",
   "status": "proved",
   "theorems": [
    "C98_range",
    "C98_conditional_range"
   ],
   "note": "C98_range: exact range, both directions; C98_conditional_range: lower bound exact, sharp upper bound and when the returned one equals it"
  },
  {
   "property": "C99",
   "status": "proved",
   "theorems": [
    "C99_decomposition",
    "C99_undecided",
    "C99_run_best",
    "C99_last_rule_refuted"
   ],
   "note": "max_nb infinite or at least twice the number of vectors; C99_last_rule_refuted: after a stop by max_sf the upper bound is above the failure probability of every system that agrees with the returned rules"
  },
  {
   "property": "C100",
   "status": "proved",
   "theorems": [
    "C100_programs",
    "C100_kept",
    "C100_merge_self",
    "C100_merge_refuted",
    "C100_product_operands"
   ],
   "note": "C100_programs, C100_kept; the changes by merge and product are exactly described (C100_merge_self, C100_product_operands), so 'merge leaves self unchanged' is refuted (C100_merge_refuted)"
  },
  {
   "property": "C101",
   "status": "proved",
   "theorems": [
    "C101_split",
    "C101_no_tolerance",
    "C101_larger_limit",
    "C101_again",
    "C101_tolerance_again",
    "C101_seam_close"
   ],
   "note": "C101_split is an equation between results, errors included; it needs no well-formedness.  As values: the second run also updates in place the dictionary of rules it is given, which is the one returned by the first run."
  },
  {
   "property": "C102",
   "status": "proved",
   "theorems": [
    "C102_near",
    "C102_returns",
    "C102_run",
    "C102_bounds",
    "C102_closed",
    "C102_exact",
    "C102_tolerance_needed"
   ],
   "note": "The standard model of rounding: no underflow and no overflow (chop, a rounding to a given number of bits with unlimited exponent, is shown to satisfy it).  Sums are taken from the left, as Python does up to 3.11.  A run that is not survivals first may raise UnboundLocalError as in exact arithmetic (C22)."
  },
  {
   "property": "C103",
   "status": "proved",
   "theorems": [
    "C103_draw",
    "C103_put_mask",
    "C103_Cs",
    "C103_Cs_vec",
    "C103_q",
    "C103_idx",
    "C103_edge_weight",
    "C103_edge_between",
    "C103_join_code",
    "C103_comp_prob",
    "C103_max_state",
    "C103_third_state"
   ],
   "note": "A CPM whose p has another length than C reaches the draw only with an empty p.  For join_code and comp_prob the exact outcome is stated for codes that are not negative."
  },
  {
   "property": "C104",
   "status": "proved",
   "theorems": [
    "C104_caller",
    "C104_same",
    "C104_active",
    "C104_without_active_refuted",
    "C104_without_minimum_refuted",
    "C104_child_shares",
    "C104_copies_share"
   ],
   "note": "Rules and minimum states are not shared in the model: a system function that keeps and later changes a dictionary it has returned is not covered.  A branch must not be passed twice in one list."
  },
  {
   "property": "C105",
   "status": "proved",
   "theorems": [
    "C105_product",
    "C105_sum",
    "C105_get_prob",
    "C105_variable_elim",
    "C105_marginal",
    "C105_query",
    "C105_absolute",
    "C105_exact",
    "C105_rounded_product",
    "C105_rounded_sum",
    "C105_negative_refuted"
   ],
   "note": "the relative error of get_prod's exp(log a + log b) is a parameter (k units); CPMs without samples; no overflow or underflow"
  },
  {
   "property": "C106",
   "status": "proved",
   "theorems": [
    "C106_get_col",
    "C106_update_B",
    "C106_all_equal",
    "C106_flip",
    "C106_get_var_idx",
    "C106_round_trip",
    "C106_from_dict",
    "C106_vector",
    "C106_Bst",
    "C106_csv",
    "C106_dict_to_json"
   ],
   "note": "values of get_Bst_from_Bvec by C03; dict_to_json up to the decimals pandas writes; StopIteration of an empty dictionary is modelled apart from the other exceptions"
  },
  {
   "property": "C107",
   "status": "proved",
   "theorems": [
    "C107_get_csys",
    "C107_mk_cpm",
    "C107_flat",
    "C107_get_variable",
    "C107_merge",
    "C107_cond_column",
    "C107_products",
    "C107_rounds",
    "C107_draw_sample",
    "C107_alloc",
    "C107_rules",
    "C107_mk_branch",
    "C107_next_comp",
    "C107_join",
    "C107_probs_set"
   ],
   "note": ""
  },
  {
   "property": "C108",
   "status": "proved",
   "theorems": [
    "C108_product",
    "C108_missing",
    "C108_prob",
    "C108_same",
    "C108_sub",
    "C108_no_name"
   ],
   "note": "rows of a component without a column are not modelled"
  },
  {
   "property": "C109",
   "status": "proved",
   "theorems": [
    "C109_ends",
    "C109_chain",
    "C109_order_refuted",
    "C109_places"
   ],
   "note": "the order of the set of poles is a parameter; places are rational, not floating point"
  },
  {
   "property": "C110",
   "status": "proved",
   "theorems": [
    "C110_values",
    "C110_distance",
    "C110_magnitude",
    "C110_magnitude_refuted",
    "C110_accepted",
    "C110_aleatory",
    "C110_epistemic",
    "C110_interpolated",
    "C110_failure"
   ],
   "note": "over the real numbers of the standard library, whose axioms it uses; growth with the magnitude up to 8.5 refuted by C110_magnitude_refuted; the interpolation and the normal distribution function are parameters"
  },
  {
   "property": "C111",
   "status": "proved",
   "theorems": [
    "C111_product",
    "C111_column",
    "C111_sample",
    "C111_no_sample"
   ],
   "note": "over the real numbers of the standard library, whose axioms it uses; rounding is not modelled"
  },
  {
   "property": "C112",
   "status": "proved",
   "theorems": [
    "C112_mle",
    "C112_mle_narrower",
    "C112_mle_nested_refuted",
    "C112_bayes",
    "C112_tails"
   ],
   "note": "over the real numbers of the standard library, whose axioms it uses; that intervals of method MLE are nested is refuted by C112_mle_nested_refuted; the quantiles of the beta distribution are a parameter"
  },
  {
   "property": "C113",
   "status": "proved",
   "theorems": [
    "C113_variable",
    "C113_cpm",
    "C113_operation",
    "C113_samples",
    "C113_brc",
    "C113_trans",
    "C113_bridge"
   ],
   "note": "tests of unmodelled functions (plots, files, sampling with numpy's generator), the tests with B_flag='fly' (C114) and the two tests of inference with observations in test_brc.py (too slow for the independent checker) are left out; the maximum flow of two tests is given, since it is not unique; the lognormal probabilities of the bridge network are rounded to nine decimals"
  },
  {
   "property": "C114",
   "status": "proved",
   "theorems": [
    "C114_function",
    "C114_method",
    "C114_error",
    "C114_no_table",
    "C114_fly_refuted"
   ],
   "note": "that variables without a table give the results of stored tables, as the tests expect, is refuted by C114_fly_refuted"
  },
  {
   "property": "C115",
   "status": "proved",
   "theorems": [
    "C115_rows",
    "C115_no_samples",
    "C115_tests",
    "C115_no_rows"
   ],
   "note": "the exact rows are compared where the rows alone have a result: with samples, a product without rows is an empty matrix instead of an exception"
  },
  {
   "property": "C116",
   "status": "proved",
   "theorems": [
    "C116_samples",
    "C116_estimate",
    "C116_unbiased",
    "C116_weight"
   ],
   "note": ""
  },
  {
   "property": "C117",
   "status": "proved",
   "theorems": [
    "C117_rows",
    "C117_count"
   ],
   "note": ""
  },
  {
   "property": "C118",
   "status": "partial",
   "theorems": [
    "C118_mean",
    "C118_order",
    "C118_main_order",
    "C118_loops",
    "C118_main_partial",
    "C118_main_refuted",
    "C118_operation_refuted"
   ],
   "note": "main as written fails for every non-empty list of houses (C118_main_refuted); with the function of the module operation it fails on a good network (C118_operation_refuted). Proved: the empty list, what the two loops return for any functions that calculate CPMs and means (C118_loops), the elimination order, and the mean by variable_elim and get_means."
  },
  {
   "property": "C119",
   "status": "proved",
   "theorems": [
    "C119_classes",
    "C119_sizes",
    "C119_main_never",
    "C119_main_refuted",
    "C119_names"
   ],
   "note": "the claims about the classes and the failure; the results that main would save are those of two searches (see C83 for batch.py, whose second search also has surv_first=True)"
  },
  {
   "property": "C120",
   "status": "proved",
   "theorems": [
    "C120_sample",
    "C120_estimate",
    "C120_exception",
    "C120_search",
    "C120_saved_refuted"
   ],
   "note": "the distribution of one sample and what is computed from the samples"
  },
  {
   "property": "C121",
   "status": "proved",
   "theorems": [
    "C121_varis",
    "C121_sample",
    "C121_estimate",
    "C121_exception",
    "C121_search"
   ],
   "note": "the distribution of one sample and what is computed from the samples"
  },
  {
   "property": "C122",
   "status": "proved",
   "theorems": [
    "C122_equal",
    "C122_relation",
    "C122_hash",
    "C122_no_hash",
    "C122_get",
    "C122_in",
    "C122_order",
    "C122_bool_refuted",
    "C122_values_refuted"
   ],
   "note": "branches without state or probability (None) and nan are not modelled; two claims are refuted"
  },
  {
   "property": "C123",
   "status": "proved",
   "theorems": [
    "C123_bounds",
    "C123_origin",
    "C123_line"
   ],
   "note": "the function drops its result; the theorems are about the value that process_node hands back"
  },
  {
   "property": "C124",
   "status": "proved",
   "theorems": [
    "C124_choice"
   ],
   "note": ""
  }
 ]
}