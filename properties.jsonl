{"id": "C01", "title": "Composite-state coding round-trips", "statement": "For a Variable with n values, get_set(get_state(S)) is S for every non-empty set S of basic states, and get_state(get_set(i)) is i for every code 0 <= i < 2^n-1, whether the code table is stored (B) or computed on the fly.", "quantifier": "every number of values n, every non-empty subset of {0..n-1}, every code below 2^n-1, both storage modes", "why_tests_cant": "the table has 2^n-1 entries for unbounded n; tests check a handful of codes of three small variables", "anchors": ["BNS_JT/variable.py:Variable.gen_B", "BNS_JT/variable.py:Variable.get_state", "BNS_JT/variable.py:Variable.get_set"]}
{"id": "C02", "title": "Stored and on-the-fly coding agree", "statement": "A Variable built with B_flag='fly' (or with more than 6 values) assigns every non-empty subset the same code, and every code 0 <= i < 2^n-1 the same subset, as one that stores the table; codes i >= 2^n-1 raise IndexError in both modes and sets that are not subsets of {0..n-1} raise ValueError in both modes.", "quantifier": "every n, every set of integers, every non-negative code", "why_tests_cant": "agreement must hold at every code of every size; a test compares finitely many", "anchors": ["BNS_JT/variable.py:Variable.__init__", "BNS_JT/variable.py:Variable.get_state", "BNS_JT/variable.py:Variable.get_set"]}
{"id": "C03", "title": "Binary-vector coding agrees with set coding", "statement": "find_state_from_vector(vec) returns -1 exactly when vec has no ones, and otherwise returns get_state of the set of positions that hold a one.", "quantifier": "every 0/1 vector of every length", "why_tests_cant": "2^n vectors for every n", "anchors": ["BNS_JT/variable.py:Variable.find_state_from_vector", "BNS_JT/variable.py:Variable.get_Bst_from_Bvec"]}
{"id": "C04", "title": "Code table shape", "statement": "The code table of a Variable with n values has exactly 2^n-1 pairwise different entries, contains every non-empty subset of {0..n-1} exactly once, its first n codes are the basic states {0},...,{n-1} in order, and larger codes stand for larger sets, sets of equal size being in lexicographic order.", "quantifier": "every n", "why_tests_cant": "statement about all n and all subsets", "anchors": ["BNS_JT/variable.py:Variable.gen_B"]}
{"id": "C05", "title": "Registering a composite state", "statement": "get_composite_state(vari, states) returns a code whose entry is exactly the given set of states, never changes the meaning of any existing code, adds at most one entry, adds none when the table is already complete, and never adds an entry with a repeated state.", "quantifier": "every table, every list of states", "why_tests_cant": "histories of arbitrary registrations", "anchors": ["BNS_JT/variable.py:get_composite_state"]}
{"id": "C06", "title": "Rule classification of a component vector", "statement": "get_state(comp, rules) is 'u' exactly when no survival and no failure rule matches comp; when the rules are sound for a system, a returned 's' ('f') means the system really survives (fails) on comp.", "quantifier": "every component vector and every rule set", "why_tests_cant": "unbounded rule sets and vectors", "anchors": ["BNS_JT/brc.py:get_state"]}
{"id": "C07", "title": "Updating the rule set loses no classification", "statement": "After update_rule_set(rules, (r, st)) the set of vectors matched by the st-rules is exactly the old set together with the vectors matched by r, and the rules of the other kind are unchanged.", "quantifier": "every rule list, every new rule, every vector", "why_tests_cant": "removal of dominated rules must be harmless for every vector and every history of insertions", "anchors": ["BNS_JT/brc.py:update_rule_set"]}
{"id": "C08", "title": "The rule set stays non-dominated", "statement": "Starting from a rule set in which no rule dominates another, update_rule_set keeps it so for any sequence of new rules.", "quantifier": "every sequence of rule insertions", "why_tests_cant": "history property", "anchors": ["BNS_JT/brc.py:update_rule_set"]}
{"id": "C09", "title": "A system run yields a sound rule that covers the evaluated vector", "statement": "For a coherent (monotone) system function, the rule returned by run_sys_fn matches the vector that was evaluated and every vector it matches has the same system state.", "quantifier": "every coherent system function, every component vector within the state ranges", "why_tests_cant": "quantifies over functions and over exponentially many vectors", "anchors": ["BNS_JT/brc.py:run_sys_fn"]}
{"id": "C10", "title": "Splitting a branch partitions it", "statement": "get_new_branch with up_flag True and False on the component/state chosen by get_decomp_comp_using_probs yields two branches such that every vector of the parent box lies in exactly one child box, no other vector is added, and the children's probabilities add to the probability of the parent box.", "quantifier": "every branch, every split point, every probability assignment", "why_tests_cant": "all boxes and vectors", "anchors": ["BNS_JT/branch.py:Branch.get_new_branch", "BNS_JT/branch.py:approx_prob_by_comps"]}
{"id": "C11", "title": "Decomposition choice is always a proper split", "statement": "Whenever a branch has a compatible rule, get_decomp_comp_using_probs returns a component of the branch and a state strictly above the lower and at most the upper bound; it never falls through to None.", "quantifier": "every branch, every rule set, every probability assignment", "why_tests_cant": "fall-through to None would crash decomp_depth_first on some rule set", "anchors": ["BNS_JT/branch.py:Branch.get_decomp_comp_using_probs", "BNS_JT/branch.py:Branch.get_compat_rules"]}
{"id": "C12", "title": "Decomposition terminates without error", "statement": "decomp_depth_first terminates and raises no exception for every well-formed variables/rules/probabilities input and every max_nb.", "quantifier": "every well-formed input", "why_tests_cant": "termination and absence of exceptions over all inputs", "anchors": ["BNS_JT/brc.py:decomp_depth_first"]}
{"id": "C13", "title": "Branches partition the state space", "statement": "decomp_depth_first returns branches such that every component state vector lies in exactly one branch, whatever max_nb.", "quantifier": "every well-formed input, every vector", "why_tests_cant": "exponentially many vectors, unbounded inputs", "anchors": ["BNS_JT/brc.py:decomp_depth_first", "BNS_JT/brc.py:init_branch"]}
{"id": "C14", "title": "Branch probabilities are exact and total one", "statement": "Each returned branch's p is the exact probability of its box under independent components, and the p's of all branches sum to 1.", "quantifier": "every normalised probability assignment", "why_tests_cant": "real-valued inputs, unbounded numbers of branches", "anchors": ["BNS_JT/brc.py:decomp_depth_first", "BNS_JT/branch.py:Branch.approx_prob"]}
{"id": "C15", "title": "Branch labels are sound", "statement": "With sound rules, a branch whose up_state is 'f' contains only failing vectors, and a branch whose down_state is 's' contains only surviving vectors.", "quantifier": "every coherent system, every sound rule set, every vector", "why_tests_cant": "must hold for all vectors of all branches", "anchors": ["BNS_JT/brc.py:decomp_depth_first", "BNS_JT/branch.py:Branch.eval_state"]}
{"id": "C16", "title": "Failure-probability bounds are valid in every iteration", "statement": "At every entry of the monitor returned by brc.run, pf_low <= P(system fails) <= pf_up, and pr_bu = pf_up - pf_low >= 0.", "quantifier": "every coherent system function, every probability assignment, every setting of max_sf, max_nb, pf_bnd_wr, max_rules, surv_first, active_decomp", "why_tests_cant": "an invariant of an unbounded adaptive loop over an arbitrary system function", "anchors": ["BNS_JT/brc.py:run", "BNS_JT/brc.py:update_monitor"]}
{"id": "C17", "title": "A full decomposition uses all rules; bounds never get worse", "statement": "When decomp_depth_first is not cut off by max_nb, the failure branches cover exactly the vectors matched by some failure rule and the survival branches exactly those matched by some survival rule; hence adding rules never lowers pf_low or raises pf_up.", "quantifier": "every sound rule set", "why_tests_cant": "all rule sets, all vectors", "anchors": ["BNS_JT/brc.py:decomp_depth_first", "BNS_JT/brc.py:update_monitor"]}
{"id": "C18", "title": "out_flag 'complete' means the failure probability is exact", "statement": "If brc.run ends with out_flag 'complete', then pf_low = pf_up = P(system fails).", "quantifier": "every run", "why_tests_cant": "holds or fails depending on the history and on max_nb", "anchors": ["BNS_JT/brc.py:run", "BNS_JT/brc.py:get_comp_st"]}
{"id": "C19", "title": "The branch budget is respected", "statement": "decomp_depth_first started afresh with max_nb >= 2 never returns more than max_nb branches.", "quantifier": "every input, every max_nb >= 2", "why_tests_cant": "off-by-one behaviour at every possible truncation point", "anchors": ["BNS_JT/brc.py:decomp_depth_first"]}
{"id": "C20", "title": "Every system-function call is new information", "statement": "With surv_first and active_decomp (the defaults), brc.run never evaluates the system function twice on the same vector nor on a vector already classified by the rules, so it makes at most as many calls as there are component vectors and never more than max_sf.", "quantifier": "every run", "why_tests_cant": "history property of an adaptive loop", "anchors": ["BNS_JT/brc.py:run", "BNS_JT/brc.py:get_comp_st"]}
{"id": "C21", "title": "Monitor series are aligned", "statement": "All per-iteration series in the monitor returned by brc.run have the same length, and the last no_sf equals the number of system-function calls.", "quantifier": "every run", "why_tests_cant": "every length and every exit path", "anchors": ["BNS_JT/brc.py:run", "BNS_JT/brc.py:update_monitor", "BNS_JT/brc.py:init_monitor"]}
{"id": "C22", "title": "Next vector to evaluate is unknown", "statement": "get_comp_st returns None exactly when every branch has known up_state and down_state; otherwise it returns an end point of a branch whose state is unknown. The same holds with surv_first=False.", "quantifier": "every list of branches, both settings of surv_first", "why_tests_cant": "all branch lists", "anchors": ["BNS_JT/brc.py:get_comp_st"]}
{"id": "C23", "title": "Rule probabilities", "statement": "eval_rules_prob(rules, 's', probs) (resp. 'f') returns for each rule the probability of the set of vectors matched by that survival (resp. failure) rule.", "quantifier": "every rule list and probability assignment", "why_tests_cant": "real-valued inputs, all rules", "anchors": ["BNS_JT/brc.py:eval_rules_prob"]}
{"id": "C24", "title": "The system event matrix encodes the branches", "statement": "Each row of get_csys describes exactly the box of its branch: a vector is compatible with the row iff it lies in the branch, and the first column is the branch's system state (unknown when its end states differ).", "quantifier": "every branch list, every vector", "why_tests_cant": "all boxes/vectors", "anchors": ["BNS_JT/brc.py:get_csys", "BNS_JT/branch.py:Branch.get_c"]}
{"id": "C25", "title": "Inference on the system event reproduces the bounds", "statement": "Multiplying the system CPM built from get_csys with independent component CPMs, eliminating the components and reading the failure state gives exactly pf_low, and the survival state gives exactly 1 - pf_up.", "quantifier": "every decomposition result and probability assignment", "why_tests_cant": "composition of the branch search with the inference engine over unbounded inputs", "anchors": ["BNS_JT/brc.py:get_csys", "BNS_JT/operation.py:variable_elim", "BNS_JT/cpm.py:Cpm.get_prob"]}
{"id": "C26", "title": "Conditioning a CPM", "statement": "Cpm.condition(vars, states) yields a CPM over the same variables whose value at every joint basic state is the original value if the joint state agrees with the evidence and 0 otherwise; composite evidence and composite rows included.", "quantifier": "every CPM, every evidence, every joint state", "why_tests_cant": "all CPMs and joint states", "anchors": ["BNS_JT/cpm.py:Cpm.condition", "BNS_JT/cpm.py:iscompatible"]}
{"id": "C27", "title": "Product of CPMs is the pointwise product", "statement": "M1.product(M2) has as scope the union of both scopes, as children the children of both, and its value at every joint basic state is the product of the values of M1 and M2, including composite states; it raises AssertionError when the operands share a child.", "quantifier": "every pair of well-formed CPMs, every joint state", "why_tests_cant": "all CPMs and joint states", "anchors": ["BNS_JT/cpm.py:Cpm.product", "BNS_JT/cpm.py:product"]}
{"id": "C28", "title": "Product does not depend on order or grouping", "statement": "The product of a list of CPMs has the same value at every joint state, the same scope and the same children for every order of the list.", "quantifier": "every list and permutation", "why_tests_cant": "all permutations of unbounded lists", "anchors": ["BNS_JT/cpm.py:product"]}
{"id": "C29", "title": "Sum is marginalisation", "statement": "Cpm.sum over child variables keeps the total probability, has one row per distinct remaining state, and its value at every joint state of the remaining variables is the sum of the original values over all basic states of the removed variables (for CPMs that list removed variables by basic states).", "quantifier": "every CPM, every set of removed children", "why_tests_cant": "all CPMs and joint states", "anchors": ["BNS_JT/cpm.py:Cpm.sum"]}
{"id": "C30", "title": "get_prob is the probability of the event", "statement": "get_prob(vars, states) is the total probability of the rows compatible with the event; with flag=False it is that of the complement, so the two add to the total; it is monotone in the event.", "quantifier": "every CPM and event", "why_tests_cant": "all CPMs/events", "anchors": ["BNS_JT/cpm.py:Cpm.get_prob"]}
{"id": "C31", "title": "Probability bounds under incomplete information", "statement": "get_prob_bnd returns an interval that contains the exact (conditional) probability for every way of completing the CPM with additional rows up to total probability one, capped at 1.", "quantifier": "every CPM, every completion", "why_tests_cant": "quantifies over all completions", "anchors": ["BNS_JT/cpm.py:Cpm.get_prob_bnd"]}
{"id": "C32", "title": "Merging CPMs adds them pointwise", "statement": "merge(M) over the same scope returns a CPM whose value at every joint state is the sum of both.", "quantifier": "every pair of CPMs with equal scope", "why_tests_cant": "all pairs, including those with different row sets", "anchors": ["BNS_JT/cpm.py:Cpm.merge"]}
{"id": "C33", "title": "Variable elimination computes the marginal of the joint", "statement": "variable_elim(cpms, order) returns a CPM whose value at every joint state of the remaining variables is the sum over the eliminated variables of the product of all CPMs; the result is the same for every admissible order.", "quantifier": "every list of CPMs, every elimination order", "why_tests_cant": "all networks and orders", "anchors": ["BNS_JT/operation.py:variable_elim"]}
{"id": "C34", "title": "Row selection", "statement": "get_subset(rows, flag) keeps exactly the listed rows, or exactly the others, with their probabilities; the two selections together contain every row once.", "quantifier": "every CPM and row list", "why_tests_cant": "all CPMs", "anchors": ["BNS_JT/cpm.py:Cpm.get_subset"]}
{"id": "C35", "title": "Variables with on-the-fly coding work in inference", "statement": "iscompatible, condition and get_prob work for every Variable, whether its code table is stored or computed on the fly (more than 6 values).", "quantifier": "every variable", "why_tests_cant": "depends on the number of values, tests use small ones", "anchors": ["BNS_JT/cpm.py:iscompatible", "BNS_JT/cpm.py:Cpm.iscompatible", "BNS_JT/variable.py:Variable.__init__"]}
{"id": "C36", "title": "Relevant variables are the ancestors", "statement": "get_inf_vars returns, without duplicates, exactly the queried variables and all their ancestors in the network, and terminates on every network.", "quantifier": "every network", "why_tests_cant": "all graphs", "anchors": ["BNS_JT/operation.py:get_inf_vars"]}
{"id": "C37", "title": "Sampling order is topological", "statement": "get_sample_order lists each CPM at most once and always after the CPMs that define its parents; on an acyclic network it lists all of them.", "quantifier": "every list of CPMs", "why_tests_cant": "all networks", "anchors": ["BNS_JT/operation.py:get_sample_order", "BNS_JT/operation.py:get_prod_idx"]}
{"id": "C38", "title": "Samples are possible joint states with their joint probability", "statement": "Every sample drawn by single_sample/mcs_product has positive joint probability, and the reported sample probability is the product of the conditional probabilities of the sampled states.", "quantifier": "every network, every outcome of the random choices", "why_tests_cant": "all random outcomes", "anchors": ["BNS_JT/operation.py:single_sample", "BNS_JT/operation.py:mcs_product"]}
{"id": "C39", "title": "Maximum system node", "statement": "sys_max_val returns a CPM in which every combination of parent states matches exactly one row, and that row's system state stands for the maximum of the parents' values.", "quantifier": "every list of parent variables with any values", "why_tests_cant": "all value lists", "anchors": ["BNS_JT/operation.py:sys_max_val"]}
{"id": "C40", "title": "Minimum system node", "statement": "sys_min_val returns a CPM in which every combination of parent states matches exactly one row, and that row's system state stands for the minimum of the parents' values.", "quantifier": "every list of parent variables with any values", "why_tests_cant": "all value lists", "anchors": ["BNS_JT/operation.py:sys_min_val"]}
{"id": "C41", "title": "System-component product", "statement": "prod_Msys_and_Mcomps returns for each system row the row's probability times the probability that every multiplied component is in one of the row's (composite) states, with the columns permuted accordingly. Summed over the multiplied components this is the product of the CPMs.", "quantifier": "every well-formed system CPM with at least one row and no samples, and non-empty list of component CPMs that list each basic state once, all unconditional or all conditioned on one variable in the same state", "why_tests_cant": "all CPMs", "anchors": ["BNS_JT/operation.py:prod_Msys_and_Mcomps"]}
{"id": "C42", "title": "System state is that of the best surviving path", "statement": "eval_sys_state returns the state of the first listed path all of whose arcs survive, and the disconnected state when there is none; improving arcs never moves it to a later path.", "quantifier": "every path list and arc state", "why_tests_cant": "all path lists and arc states", "anchors": ["BNS_JT/trans.py:eval_sys_state", "BNS_JT/trans.py:eval_sys_state_given_arc", "BNS_JT/trans.py:get_path_time_idx"]}
{"id": "C43", "title": "Branching on a path partitions the box", "statement": "get_set_of_branches splits a branch along the undecided arcs of a path into boxes that are pairwise disjoint and together equal the branch.", "quantifier": "every branch and path", "why_tests_cant": "all boxes/vectors", "anchors": ["BNS_JT/branch.py:get_set_of_branches", "BNS_JT/branch.py:get_arcs_given_bstar"]}
{"id": "C44", "title": "Path-based branch and bound is exact", "statement": "branch_and_bound terminates, and the saved branches partition all arc states, each carrying the system state that eval_sys_state gives to every arc state in it.", "quantifier": "every list of paths, every set of arcs", "why_tests_cant": "all networks, all arc states", "anchors": ["BNS_JT/branch.py:branch_and_bound", "BNS_JT/branch.py:bnb_core", "BNS_JT/branch.py:get_arcs_given_bstar"]}
{"id": "C45", "title": "Saved branches read back are those of this run", "statement": "After branch_and_bound with a key and output directory, get_sb_saved_from_job returns exactly the complete branches of that run, whatever earlier runs left in the directory.", "quantifier": "every history of runs in one directory", "why_tests_cant": "history of file-system states", "anchors": ["BNS_JT/branch.py:get_sb_saved_from_job", "BNS_JT/branch.py:branch_and_bound", "BNS_JT/model.py:get_branches"]}
{"id": "C46", "title": "System probability from the path model", "statement": "model.compute_prob on the model built by model_given_od_scen returns, for every state of the OD variable, the total probability of the arc states whose eval_sys_state is that state.", "quantifier": "every network, scenario and state", "why_tests_cant": "composition of path search, coding and inference", "anchors": ["BNS_JT/model.py:model_given_od_scen", "BNS_JT/model.py:compute_prob", "BNS_JT/branch.py:get_cmat_from_branches"]}
{"id": "C47", "title": "Legacy branch and bound partitions the space", "statement": "run_bnb returns only complete branches that partition the component space, each with equal system state at both ends.", "quantifier": "every system function and admissible branching functions", "why_tests_cant": "all oracles", "anchors": ["BNS_JT/branch.py:run_bnb"]}
{"id": "C48", "title": "bnb_sys reports the shortest available path", "statement": "bnb_sys returns the shortest path all of whose arcs are in the best state, together with that path's own time, whatever the order in which paths are supplied.", "quantifier": "every path list and component state", "why_tests_cant": "all orders of the path list", "anchors": ["BNS_JT/bnb_fns.py:bnb_sys"]}
{"id": "C49", "title": "Legacy event matrix encodes the branches", "statement": "Each row of get_cmat denotes exactly the box of its complete branch, for any number of component states.", "quantifier": "every branch list", "why_tests_cant": "all numbers of states", "anchors": ["BNS_JT/branch.py:get_cmat"]}
{"id": "C50", "title": "Connectivity system function is coherent and its survival rule sound", "statement": "sf_min_path in connectivity mode reports 's' exactly when origin and destination are connected by surviving components; improving components never turns 's' into 'f'; and every vector at least as good on the returned components also survives.", "quantifier": "every simple graph, and every multigraph whose edges are keyed by their labels; every component state", "why_tests_cant": "all graphs and vectors", "anchors": ["BNS_JT/trans.py:sf_min_path", "BNS_JT/trans.py:get_connectivity_given_comps", "BNS_JT/trans.py:update_G_given_comps_st"]}
{"id": "C51", "title": "Monte Carlo on unknown branches samples the exact conditional distribution", "statement": "For two-state components, the sampling scheme of mcs_unknown_simple draws each vector of the unknown region with probability proportional to its true probability and never draws a vector outside it.", "quantifier": "every decomposition and probability assignment", "why_tests_cant": "distributional statement over all vectors", "anchors": ["BNS_JT/branch.py:mcs_unknown_simple", "BNS_JT/branch.py:mcs_unknown_using_cpms"]}
{"id": "C52", "title": "The reported stop reason is true", "statement": "When brc.run returns, out_flag tells the truth: 'max_nb' means at least max_nb branches, 'max_rules' at least max_rules rules, 'max_sf' exactly max_sf system calls, and 'pf_bnd' that the width of the failure-probability bounds is below pf_bnd_wr times the lower bound.", "quantifier": "every run with max_sf >= 1", "why_tests_cant": "every exit path with every combination of limits", "anchors": ["BNS_JT/brc.py:run"]}
{"id": "C53", "title": "Which variables store their table", "statement": "A Variable stores its table of composite states exactly if it has a value, B_flag is not 'fly', and it has at most six values or B_flag is 'store'.", "quantifier": "every number of values and every flag", "why_tests_cant": "unbounded number of values", "anchors": ["BNS_JT/variable.py:Variable.__init__", "BNS_JT/variable.py:Variable.update_B"]}
{"id": "C54", "title": "Means are expectations", "statement": "get_means(names) returns, in the order of the names, the sum over all joint states of state number times value of the CPM; with probabilities adding up to one this is the expectation. Duplicate or unknown names raise.", "quantifier": "every CPM that lists basic states, every choice of names", "why_tests_cant": "real-valued tables of any size and any order of names", "anchors": ["BNS_JT/cpm.py:Cpm.get_means"]}
{"id": "C55", "title": "Travel-time system function is exact and its survival rule sound", "statement": "sf_min_path with a threshold reports the least travel time over all routes from origin to destination in the given component states, 's' exactly when it is at most the threshold, and every vector at least as good on the returned components also survives.", "quantifier": "every simple graph with a route from origin to destination, non-negative times that do not increase with the state, every component state and every non-zero threshold", "why_tests_cant": "all graphs, vectors and thresholds", "anchors": ["BNS_JT/trans.py:sf_min_path", "BNS_JT/trans.py:get_time_and_path_given_comps", "BNS_JT/trans.py:update_G_given_comps_st", "BNS_JT/trans.py:get_edge_from_nodes"]}
{"id": "C56", "title": "Nearest of several destinations", "statement": "sf_min_path with an origin and several destinations reports the least travel time to any of them (infinity if none can be reached), 's' exactly when it is at most the threshold, and every vector at least as good on the returned components also survives.", "quantifier": "every simple undirected graph, every non-empty list of its nodes as destinations, every component state and non-zero threshold", "why_tests_cant": "all graphs and vectors", "anchors": ["BNS_JT/trans.py:sf_min_path", "BNS_JT/trans.py:get_time_and_path_multi_dest"]}
{"id": "C57", "title": "Failure probability of networks", "statement": "brc.run with a network system function of sys_fun_wrap returns bounds that enclose the probability that origin and destination are disconnected (without threshold) or further apart than the threshold (with threshold, for one or the nearest of several destinations); a complete run returns that probability.", "quantifier": "every graph as in the properties of the system functions, all variables and probabilities", "why_tests_cant": "composition of graph search and branch search", "anchors": ["BNS_JT/trans.py:sys_fun_wrap", "BNS_JT/trans.py:sf_min_path", "BNS_JT/brc.py:run"]}
{"id": "C58", "title": "Event matrix of an OD pair", "statement": "get_branches_by_od returns an event matrix in which every vector of edge states matches exactly one row; a row with state 1 holds only vectors whose travel time is at most twice the intact time, a row with state 0 only vectors whose travel time exceeds it.", "quantifier": "every simple graph, scenario with one to six values per edge, OD pair with a positive finite intact time, and branch limit; one OD pair", "why_tests_cant": "composition of graph search, branch search and coding", "anchors": ["BNS_JT/model.py:get_branches_by_od"]}
{"id": "C59", "title": "The estimate from unknown branches aims at the failure probability", "statement": "After an unfinished brc.run without limit on branches, the probability of the failing branches plus the probability of the unknown branches times the mean failure rate of the samples drawn from them is exactly the failure probability of the system.", "quantifier": "every coherent system with two-state components, all probabilities, every resumable start, every limit on system calls", "why_tests_cant": "identity between expectations, over all systems and all search states", "anchors": ["BNS_JT/branch.py:mcs_unknown_simple", "BNS_JT/branch.py:mcs_unknown_using_cpms", "BNS_JT/brc.py:run"]}
{"id": "C60", "title": "The estimation loop on unknown branches", "statement": "mcs_unknown_simple returns after the first number n >= 10 of samples whose coefficient of variation is at most the threshold; its estimate is pf_low + p_unknown * (k + 0.01)/(n + 0.02) for k failures, and lies between the failure probability bounds. With a positive pf_low and a threshold in (0,1) it returns after at most max(10, p_unknown^2 / (4 cov_t^2 pf_low^2)) samples, whatever is drawn.", "quantifier": "every decomposition, every sequence of samples, every threshold in [0,1)", "why_tests_cant": "all sequences of random outcomes; termination", "anchors": ["BNS_JT/branch.py:mcs_unknown_simple"]}
{"id": "C61", "title": "Samples stored in the CPMs", "statement": "mcs_unknown_using_cpms returns the estimate of mcs_unknown_simple and writes each sample into the CPMs: component states with their probabilities, system state with weight 1, sample numbers 0, 1, ..., all other CPMs unchanged; the weights of a sample multiply to the probability of its component vector.", "quantifier": "every sequence of samples, CPMs with one column per component", "why_tests_cant": "all sequences of random outcomes and all network sizes", "anchors": ["BNS_JT/branch.py:mcs_unknown_using_cpms", "BNS_JT/cpm.py:Cpm.Cs", "BNS_JT/cpm.py:Cpm.q", "BNS_JT/cpm.py:Cpm.sample_idx"]}
{"id": "C62", "title": "Crude Monte Carlo", "statement": "run_MCS_indep_comps draws each component vector with its probability, so that the mean failure rate is the failure probability; it returns k/n for k >= 6 failures among n samples, immediately after a failure, with (1-pf)/(n pf) at most the square of the threshold; the only exception on the way needs 20000 samples without a failure.", "quantifier": "all components and distributions given as dictionaries, every sequence of samples, every threshold below 1", "why_tests_cant": "distributional statement and all sequences of random outcomes", "anchors": ["BNS_JT/brc.py:run_MCS_indep_comps"]}
{"id": "C63", "title": "Variables and conditioning over several CPMs", "statement": "operation.get_variables returns for every name the variable of the first CPM that has it, in the order of the names, and fails when a name occurs nowhere; operation.condition conditions each CPM on the part of the evidence in its scope, whether variables are given as objects or names and states as numbers or values.", "quantifier": "all lists of well formed CPMs, all lists of names without repetition, all admissible evidence", "why_tests_cant": "all list lengths, scopes and orders", "anchors": ["BNS_JT/operation.py:get_variables", "BNS_JT/operation.py:condition"]}
{"id": "C64", "title": "Elimination by conditioning equals marginalisation", "statement": "variable_elim_cond eliminates variables separately under each row of the conditioning CPMs and merges the results: what it returns is the product of all CPMs and conditioning CPMs, summed over the eliminated and the conditioning variables. It returns a CPM if the CPMs have the same rows for each state of the conditioning variables, each of these states is possible, every eliminated variable is connected with one that stays and some variable is left.", "quantifier": "all lists of CPMs and conditioning CPMs with exclusive rows in basic states, all elimination orders; success for the lists described in the statement", "why_tests_cant": "all networks, exact equality for every joint state", "anchors": ["BNS_JT/operation.py:variable_elim_cond"]}
{"id": "C65", "title": "The system CPM conditioned on a hazard", "statement": "cal_Msys_by_cond_VE conditions the network on each state of the hazard, multiplies the system CPM with the component CPMs, sums out the components and merges the results: it returns a CPM over the system variables whose value is the product of all CPMs of the network summed over hazard and components.", "quantifier": "every network of a hazard, components with a full conditional table given the hazard, and a system CPM with any rows (composite states included); every elimination order that has the components and not the system", "why_tests_cant": "composition of ancestor selection, conditioning, system product, sum and merge over all network sizes", "anchors": ["BNS_JT/operation.py:cal_Msys_by_cond_VE", "BNS_JT/operation.py:get_inf_vars", "BNS_JT/operation.py:prod_Msys_and_Mcomps"]}
{"id": "C66", "title": "Joint CPM of the system and kept components", "statement": "cal_Msys_by_cond_VE with components that are not in the elimination order returns the joint CPM of the system and those components: the product of all CPMs of the network summed over the hazard and the components in the order.", "quantifier": "every network as in C65 whose system CPM allows some joint state, every elimination order that has at least one component and not the system", "why_tests_cant": "composition over all network sizes and all subsets of kept components", "anchors": ["BNS_JT/operation.py:cal_Msys_by_cond_VE"]}
{"id": "C67", "title": "Conditioning keeps the samples and reweights them", "statement": "Cpm.condition leaves the sampled rows, their sampling weights and numbers as they are and sets the target weight of each sample to the probability of the sample with the evidence put in: times its sampling weight when a child is observed, alone when only parents are, and to the sampling weight when nothing in scope is.", "quantifier": "every well formed CPM, all samples in basic states, all evidence in basic states", "why_tests_cant": "all tables, sample lists and evidence", "anchors": ["BNS_JT/cpm.py:Cpm.condition"]}
{"id": "C68", "title": "Products and elimination pair the samples", "statement": "Cpm.product of CPMs that store their parts of the same samples stores the joined samples, with sampling and target weights multiplied sample by sample; variable_elim returns the CPM of the elimination without samples together with the product of the weights of all CPMs. A sample number missing in the larger operand is an error, and a factor without samples drops all samples.", "quantifier": "all lists of CPMs holding the same samples, all elimination orders", "why_tests_cant": "all networks, sample counts and orders of elimination", "anchors": ["BNS_JT/cpm.py:Cpm.product", "BNS_JT/cpm.py:Cpm.sum", "BNS_JT/operation.py:variable_elim"]}
{"id": "C69", "title": "Estimates from a hybrid CPM", "statement": "get_prob_and_cov with method MLE returns the probability of the event among the rows plus the share of weights of the samples in the event times the probability of no row, and a coefficient of variation from the binomial variance (one weight) or the empirical variance (different weights); with method Bayesian, unit weights and one round it returns mean and coefficient of variation of the beta posterior with prior 1/100.", "quantifier": "every well formed CPM, every list of samples in basic states with nonzero sampling weights, every event", "why_tests_cant": "all sample lists and weights, exact rational identities", "anchors": ["BNS_JT/cpm.py:Cpm.get_prob_and_cov"]}
{"id": "C70", "title": "Likelihood weighting of a sampled network", "statement": "Conditioning a sampled network, eliminating variables and estimating counts each sample with the product of the likelihood weights of all CPMs; on average over the joint states of the network these weights give the probability of evidence and event, when every observed variable has its own normalised table and no state is impossible that the evidence makes possible.", "quantifier": "all networks, evidence, elimination orders and events on unobserved variables", "why_tests_cant": "identity between expectations for every network", "anchors": ["BNS_JT/operation.py:condition", "BNS_JT/operation.py:variable_elim", "BNS_JT/cpm.py:Cpm.get_prob_and_cov"]}
{"id": "C71", "title": "Rejection sampling of the system never returns", "statement": "Once the system has a component and a sample is wanted, every run of rejection_sampling_sys ends in an exception: a NameError for the undefined get_var_ind when all components are sampled, an AssertionError at the first sample otherwise.", "quantifier": "every network, system CPM, request and sequence of samples", "why_tests_cant": "absence of any normal outcome over all networks and random choices", "anchors": ["BNS_JT/operation.py:rejection_sampling_sys"]}
{"id": "C72", "title": "Maximum flow as a system function", "statement": "max_flow returns the greatest flow between origin and destination, cut off at the target, and survival exactly when the target is reached; its rule keeps for every component the least state that carries its part of one such flow, and every vector at or above the rule meets the target. brc.run with it encloses the probability that the target cannot be met; a complete run returns that probability.", "quantifier": "every network with at most one component between two nodes, non-negative capacities that do not decrease with the state, all targets and component states; nx.maximum_flow by its specification", "why_tests_cant": "all networks and capacities, all component vectors, composition with the branch search", "anchors": ["BNS_JT/operation.py:max_flow", "BNS_JT/brc.py:run"]}
{"id": "C73", "title": "Pipe networks are rated by their best plan", "statement": "sys_fun_pipes returns the greatest value of an integral plan of flows through the stages (capacities of the component states, none at failed nodes; intermediate nodes and depots between stages balanced; what leaves the origins arrives at the end of every stage) and survival exactly when it reaches the threshold. Its rule names the component and end nodes of the edges that the plan uses, and every vector at or above the rule has the same plan. brc.run with it encloses the probability that no plan reaches the threshold. If the stages are in order, a plan of positive value follows a route from an origin through depots of all stages.", "quantifier": "every network with distinct columns for its edges and no loops, non-negative capacities that do not decrease with the state, all thresholds and component states; scipy.optimize.milp by its specification, exact arithmetic", "why_tests_cant": "all networks, stages and capacities, all component vectors, optimality over all plans, composition with the branch search", "anchors": ["BNS_JT/pipes_sys.py:sys_fun_pipes", "BNS_JT/pipes_sys.py:run_pipes_fun", "BNS_JT/pipes_sys.py:do_node", "BNS_JT/pipes_sys.py:do_sub", "BNS_JT/pipes_sys.py:do_incoming", "BNS_JT/pipes_sys.py:do_capacity", "BNS_JT/brc.py:run"]}
{"id": "C74", "title": "The graph of a network file", "statement": "read_model_from_json builds a graph of the named type whose nodes are the components and the ends of the entries, with labelled and weighted edges: in a multigraph one for each entry, in a simple graph between two nodes the last of the entries between them (so one for each entry when no two entries join the same nodes). Any other type name, also one in lower case, is refused.", "quantifier": "every network file with numbers as weights, every graph type", "why_tests_cant": "all files, sizes and orders of entries", "anchors": ["BNS_JT/config.py:read_model_from_json"]}
{"id": "C75", "title": "All paths and their times", "statement": "get_all_paths_and_times lists for each OD one entry for every path without repeated nodes, with the labels of its edges and its total weight; ODs without a path are missing.", "quantifier": "every simple graph with labelled edges and numbers as weights, every list of different ODs between different nodes; nx.all_simple_paths by its specification", "why_tests_cant": "all graphs and ODs, completeness of the list of paths", "anchors": ["BNS_JT/trans.py:get_all_paths_and_times"]}
{"id": "C76", "title": "From the network file to the travel time distribution", "statement": "setup_model reads the file, lists the paths, branches on them and builds CPMs for every OD and scenario; compute_prob with them returns for each value of the OD variable the probability that the least travel time between origin and destination over intact edges has this value, infinity standing for no route; every travel time is among the values.", "quantifier": "every network file, OD and scenario of independent edges; nx.all_simple_paths by its specification", "why_tests_cant": "composition of file reading, path search, branch and bound, event matrix and elimination over all networks", "anchors": ["BNS_JT/model.py:setup_model", "BNS_JT/model.py:get_branches", "BNS_JT/model.py:model_given_od_scen", "BNS_JT/model.py:compute_prob", "BNS_JT/config.py:read_model_from_json", "BNS_JT/trans.py:get_all_paths_and_times"]}
{"id": "C77", "title": "The branch and bound that returns its branches", "statement": "branch_and_bound_org ends and returns boxes of arc states that together cover exactly what the start branches cover, each state as often, and whose states equal the system state of all their arc states; they are, up to order, the branches that branch_and_bound writes. get_arcs_given_bstar_nobreak agrees with get_arcs_given_bstar whenever a path survives at the upper state and raises TypeError otherwise.", "quantifier": "every path list with the best path first, every list of disjoint start branches with different states at the ends, two states per arc", "why_tests_cant": "all networks and start branches; termination of the while loop; equality of two different search orders", "anchors": ["BNS_JT/branch.py:branch_and_bound_org", "BNS_JT/branch.py:get_arcs_given_bstar_nobreak", "BNS_JT/branch.py:branch_and_bound"]}
{"id": "C78", "title": "Days without power", "statement": "quant_cpms makes a CPM for every node of the power network, and eliminating all variables but that of a house, in any order, leaves the distribution of the number of days until the house has power again: structures fail independently given the hazard scenario, one failed structure is repaired per day in the order of priority, a link set works when its last structure does and a house with its first link set. State k means k days. get_lins gives the beginnings, up to the pole, of the paths that contain it.", "quantifier": "every hazard with up to six scenarios, every repair order of up to five structures, every set of houses and link sets, all failure probabilities; no two nodes of the same name", "why_tests_cant": "probabilities over all failure patterns and networks; any elimination order", "anchors": ["BNS_JT/demos/power_house/batch.py:quant_cpms", "BNS_JT/demos/power_house/batch.py:get_lins", "BNS_JT/operation.py:sys_max_val", "BNS_JT/operation.py:sys_min_val", "BNS_JT/operation.py:variable_elim"]}
{"id": "C79", "title": "Flow networks of the demo, with and without directions", "statement": "max_flow_fun returns the greatest flow from origin to destination, along the directions of the edges unless is_bi_dir, cut off at the target, and survival exactly when the target is reached; on survival its rule keeps for every edge the least state that carries its part of one such flow, and every vector at or above the rule meets the target. The bounds of the search that main runs on an input file enclose the probability that the network of the file cannot carry the target; a complete search returns it.", "quantifier": "every input file with different edges (with directions, also opposite ones), non-negative capacities that do not decrease with the state, all probabilities, targets and component states; nx.maximum_flow by its specification", "why_tests_cant": "all networks, capacities and probabilities, both kinds of graph, all component vectors, composition with the branch search", "anchors": ["BNS_JT/demos/max_flow/batch.py:get_max_flow", "BNS_JT/demos/max_flow/batch.py:max_flow_fun", "BNS_JT/demos/max_flow/batch.py:init_prob", "BNS_JT/demos/max_flow/batch.py:main", "BNS_JT/brc.py:run"]}
{"id": "C80", "title": "Distances, failure probabilities and covariances of roads", "statement": "shortest_distance returns the least distance from a point to a point of the segment between two others, up to the error of the square root, and ZeroDivisionError when those two coincide. cal_edge_dist and cal_edge_dist_output give for every road, in order, the probability norm.cdf(0) at mean ln(third median) - lnSa and deviation sqrt(aleatory^2 + epistemic^2 + dispersion^2); the covariance matrix has these variances on the diagonal and aleatory^2 elsewhere, is symmetric and positive semidefinite. They are returned when every road joins two different places and no fragility is missing.", "quantifier": "all points, networks, fragilities and ground motion functions; square roots with any relative error below one", "why_tests_cant": "all points of the segment, all networks, all linear combinations of the roads", "anchors": ["BNS_JT/demos/pf_map/batch.py:shortest_distance", "BNS_JT/demos/pf_map/batch.py:cal_edge_dist", "BNS_JT/demos/pf_map/batch.py:cal_edge_dist_output", "BNS_JT/demos/pf_map/batch.py:gmpe_cam03"]}
{"id": "C81", "title": "Failure map of a road network", "statement": "The table that main of the pf_map demo writes has exactly one line for each node but the origins and the epicentre, in whatever order the processes end, and the bounds of the line enclose the probability that the travel time to the nearest origin is more than thres times that with all roads intact; without a route in the intact network that is nought. With limits out of reach the table is written and the bounds of every node agree or are as close as asked for. compute_prob on the saved CPMs returns the lower bound, one minus the upper bound, and their difference.", "quantifier": "every undirected network file with different roads, all origins, thresholds, failure probabilities, limits and orders of the processes; nx.multi_source_dijkstra by its specification", "why_tests_cant": "all networks and vectors of road states, composition of file reading, distances, search for every node, CPMs and table", "anchors": ["BNS_JT/demos/pf_map/batch.py:main", "BNS_JT/demos/pf_map/batch.py:process_node", "BNS_JT/demos/pf_map/batch.py:mcs_unknown", "BNS_JT/trans.py:get_arcs_length", "BNS_JT/trans.py:sf_min_path", "BNS_JT/brc.py:run", "BNS_JT/brc.py:get_csys"]}
{"id": "C82", "title": "Written network files and the event matrices of the road demo", "statement": "The file written for arcs, coordinates and speeds has one entry for each arc with its length divided by its speed; data that are missing raise KeyError. Read back, it gives the nodes with coordinates, the pairs, and one edge for each arc with its time as weight. The fragility scenario holds for each arc the probabilities of failure and survival. With the scenario of three travel times, every vector of arc states is coded by exactly one row of the event matrix of each pair; rows of state 1 hold vectors whose trip takes at most twice the undamaged time, rows of state 0 those that take longer.", "quantifier": "all arcs without two between the same nodes, all coordinates, positive speeds and pairs of connected nodes; np.sqrt positive on positive numbers; nx.shortest_path by its specification", "why_tests_cant": "all networks and all vectors of arc states; composition of writing, reading and branching", "anchors": ["BNS_JT/trans.py:get_node_conn_df", "BNS_JT/trans.py:create_model_json_for_graph_network", "BNS_JT/trans.py:create_model_json_for_tranportation_network", "BNS_JT/trans.py:create_scenario_json_for_trans_network", "BNS_JT/trans.py:create_scenario_json_for_tranportation_network", "BNS_JT/demos/road/batch.py:create_model", "BNS_JT/demos/road/batch.py:main", "BNS_JT/model.py:get_branches_by_od", "BNS_JT/config.py:read_model_from_json"]}
{"id": "C83", "title": "Delay analysis of the EMA demo", "statement": "On a file written from complete data, main of the EMA demo succeeds; all bounds of the joined monitor, in particular the last, enclose the probability that the trip takes more than twice its undamaged time, and compute_prob on the saved CPMs gives the lower bound, one minus the upper bound, and their difference for the states of 'sys'. The counts of evaluations start again with 0 for the second search and the flags are joined to one word. For up to seven arcs and more allowed evaluations than vectors both searches are complete, the second evaluates nothing, and both bounds are the probability. A pair that is not in the file is a KeyError.", "quantifier": "all complete data, classes of arcs, pairs of connected nodes and limits of evaluations; nx.shortest_path by its specification", "why_tests_cant": "all networks, classes and limits; probabilities over all vectors; composition of two searches", "anchors": ["BNS_JT/demos/EMA/batch.py:create_model", "BNS_JT/demos/EMA/batch.py:main", "BNS_JT/brc.py:run", "BNS_JT/brc.py:get_csys", "BNS_JT/trans.py:sf_min_path", "BNS_JT/trans.py:get_time_and_path_given_comps"]}
{"id": "C84", "title": "Probability of a component given connection, in the demo rbd", "statement": "main of the rbd demo comes to an end. If no branch is left unknown and the name of the kept component sorts after 'sys', the ratio it prints is the probability that this component works given that source and sink are joined over working nodes, each inner node working with probability 9/10 independently; there is no ratio exactly if they are never joined. For enough allowed branches no branch is left unknown.", "quantifier": "every network file of any graph type, any two different nodes as ends, any inner node as the kept component, every limit of branches; nx.shortest_path by its specification", "why_tests_cant": "all networks, limits and vectors of node states; composition of file reading, search, event matrix and elimination", "anchors": ["BNS_JT/demos/rbd/batch.py:main", "BNS_JT/brc.py:run", "BNS_JT/brc.py:get_csys", "BNS_JT/operation.py:variable_elim", "BNS_JT/trans.py:sf_min_path"]}
{"id": "C85", "title": "Failure and survival probability of the demo routine", "statement": "main of the routine demo prints the last lower bound of the monitor and one minus the last upper bound; the first is at most the probability that the ends are not joined over working arcs, the second at most the probability that they are; with limits out of reach they are these probabilities.", "quantifier": "every network file with an arc, every pair of the file, all probabilities of the arcs and limits; nx.shortest_path by its specification", "why_tests_cant": "all networks, probabilities and limits; composition of file reading, search, event matrix, product of CPMs and query", "anchors": ["BNS_JT/demos/routine/batch.py:main", "BNS_JT/brc.py:run", "BNS_JT/brc.py:get_csys", "BNS_JT/operation.py:prod_Msys_and_Mcomps", "BNS_JT/cpm.py:Cpm.get_prob", "BNS_JT/trans.py:sf_min_path"]}
{"id": "C86", "title": "Event matrix of the demo n3e3", "statement": "In the matrix that main of the n3e3 demo prints every state of the arcs is matched by exactly one row, code 2 standing for both states; a row that starts with 1 matches only states in which the ends are joined, one that starts with 0 only states in which they are not, and with limits out of reach and no certain arcs no row starts with 2.", "quantifier": "every network file of any graph type, parallel arcs included, any ends, all probabilities of the arcs and limits; nx.shortest_path by its specification", "why_tests_cant": "all networks, limits and vectors of arc states; composition of file reading, search and event matrix", "anchors": ["BNS_JT/demos/n3e3/batch.py:main", "BNS_JT/brc.py:run", "BNS_JT/brc.py:get_csys", "BNS_JT/trans.py:sf_min_path"]}
{"id": "C87", "title": "Estimates of conditional probabilities from samples", "statement": "get_prob_and_cov_cond, for an event that includes the condition, reports mean, squared coefficient of variation and percentiles of the ratios (k1 + u x1) / (k1 + u x1 + k2 + u x2), where k1 and k2 are the known probabilities of the event and of the rest of the condition, u is the unknown probability, and x1, x2 are drawn with shape parameters 1/100 plus the effective number of samples that count for either, and that do not. Mean and bounds are between 0 and 1, the bounds are in order, and at least (n - 1) p - 1 of the n ratios are between them. With nothing unknown the ratio of the known probabilities is returned, without spread. An event more probable than the condition, or a confidence level outside (0, 1), is a ValueError.", "quantifier": "every CPM with samples, weighted or not, in any number of rounds; all events and conditions in basic or composite states; all confidence levels and draws between 0 and 1", "why_tests_cant": "all CPMs, weights and draws; percentiles of lists of any length", "anchors": ["BNS_JT/cpm.py:Cpm.get_prob_and_cov_cond", "BNS_JT/utils.py:get_rat_dist", "BNS_JT/cpm.py:Cpm.get_prob", "BNS_JT/cpm.py:iscompatible"]}
{"id": "C88", "title": "Taking up a branch and bound from its files", "statement": "get_bstars_from_sb_dump and get_sb_saved_from_sb_dump split a file of the path-based branch and bound into the branches to go on with and the finished ones, each in the order of the file; a missing file raises FileNotFoundError. A run taken up with the branches of file i writes, counted from 0, exactly what the first run writes after file i, and changes nothing else in the directory. The finished branches of the files up to i and those of the run taken up under another name are those of the whole run: every state of the arcs is covered as often as by the first branches, with the right system state.", "quantifier": "all lists of paths, first branches, keys and numbers of rounds before the stop", "why_tests_cant": "all networks and all points of interruption; composition of two runs over files", "anchors": ["BNS_JT/branch.py:get_bstars_from_sb_dump", "BNS_JT/branch.py:get_sb_saved_from_sb_dump", "BNS_JT/branch.py:branch_and_bound", "BNS_JT/branch.py:get_sb_saved_from_job", "BNS_JT/branch.py:bnb_core"]}
{"id": "C89", "title": "Update of the failure map with a new scenario", "statement": "update_pfs puts the failure probabilities of a scenario into the stored CPMs of every node other than the origins and the epicentre. Were cpm.prod_Msys_and_Mcomps and cpm.get_prob found, then for the files of any finished map the probability of being late under the new probabilities lies between pf and pf + pf_bnd, both are in [0, 1], and with the scenario of the map itself they are the lower bound and the width of the map. As the package is, the functions are not in that module and every update of a node whose files are there ends in AttributeError; without the file in FileNotFoundError.", "quantifier": "all files of networks, pairs of scenarios, limits of the map and orders of completion", "why_tests_cant": "all networks; agreement of two ways of multiplying; the demo has no tests", "anchors": ["BNS_JT/demos/pf_map/post.py:update_pf1", "BNS_JT/demos/pf_map/post.py:update_pfs", "BNS_JT/demos/pf_map/batch.py:process_node", "BNS_JT/demos/pf_map/batch.py:main", "BNS_JT/demos/pf_map/batch.py:cal_edge_dist_output", "BNS_JT/operation.py:prod_Msys_and_Mcomps"]}
{"id": "C90", "title": "Evaluation of the failure map with dependent roads", "statement": "cal_prob_dep hands mean and covariances of the roads that a stored row decides on to the normal distribution function. Means are right; covariances are right exactly if the row has all these roads in the same state: for a failed and a surviving road the sign is wrong. Were the functions found, and did the distribution function give for the rows the weights of their states for some weights of the road states, then the probability of being late that belongs to the weights lies between pf and pf + pf_bnd. As the package is, no table is returned: AttributeError.", "quantifier": "all files of networks, scenarios, nodes, rows, and random variables with the given means and covariances", "why_tests_cant": "all rows of all maps; the claim is on the arguments of a numerical function", "anchors": ["BNS_JT/demos/pf_map/post.py:cal_prob_dep", "BNS_JT/demos/pf_map/post.py:eval_pfs_dep", "BNS_JT/demos/pf_map/batch.py:cal_edge_dist_output"]}
{"id": "C91", "title": "System-component product with samples", "statement": "With samples in all CPMs, prod_Msys_and_Mcomps returns the rows of the system-component product, and the joint samples with one column for each variable of the result in its order; the sampling and target weights are the products of the weights in the system CPM and in the CPMs of the multiplied components. The estimate from the result is the known probability plus the unknown probability times the mean weight of the samples in the event. A parent of the system that is neither a component nor a condition is accepted without samples, and raises AssertionError with them; if one CPM has no samples, the result has none.", "quantifier": "every well-formed system CPM with at least one row, every list of component CPMs as for the product without samples, all joint samples with different numbers in basic states, and all weights", "why_tests_cant": "all CPMs, samples and weights; no test of the package calls it with samples", "anchors": ["BNS_JT/operation.py:prod_Msys_and_Mcomps", "BNS_JT/cpm.py:product", "BNS_JT/cpm.py:Cpm.product", "BNS_JT/cpm.py:Cpm.get_prob_and_cov"]}
{"id": "C92", "title": "Connection by maximum flow", "statement": "conn of the routine demo reports survival exactly when working arcs lead from one node of the pair to the other. Its rule asks for state 1 of the arcs of one chain between the nodes that is not longer than any chain of working arcs. If no two arcs have the same ends, the arcs of the rule work in the given state, the value is the least number of arcs whose failure separates the nodes, and the search with this system function encloses the failure probability and returns it when complete. With parallel arcs the rule can name an arc that does not work. A working arc without ends raises KeyError.", "quantifier": "every network of arcs without loops, every pair of different nodes, every vector of states, every maximum flow and shortest path routine that does what networkx documents; rule, value and search for networks without parallel arcs", "why_tests_cant": "all networks and all failure sets; no test of the package calls this function", "anchors": ["BNS_JT/demos/routine/batch.py:conn"]}
{"id": "C93", "title": "Flow and cuts", "statement": "The value returned by max_flow (operation.py) and by max_flow_fun (max_flow demo, with and without directions) is at most the capacity of every cut between the nodes of the pair, and it is the target or the capacity of some cut; the state is survival exactly when no cut has a capacity below the target.", "quantifier": "every network and state vector as for the maximum flow properties, every target that is not negative, every set of nodes on the side of the origin", "why_tests_cant": "all cuts of all networks", "anchors": ["BNS_JT/operation.py:max_flow", "BNS_JT/demos/max_flow/batch.py:max_flow_fun"]}
{"id": "C94", "title": "What the constructor of CPMs lets pass", "statement": "Cpm(variables, no_child, C, p) is accepted exactly if there are no more children than variables, every row of C has one entry per variable and none above 2^n - 1 (n values), and p is empty or has one entry per row; the object stores the arguments unchanged. Over distinct variables with stored tables the accepted CPM is well-formed exactly if no entry is negative and none equals 2^n - 1. Negative entries down to -(2^n - 1) count from the end of the table: get_prob gives what it gives for the lifted codes. An entry 2^n - 1 makes get_prob of its variable an IndexError. Assigning C later checks the rows but not the probabilities. A one-dimensional C becomes a column whatever the number of variables. Samples are accepted exactly if no entry is above n (which is no basic state) and the lengths of q, ps and sample_idx fit.", "quantifier": "for all variables, numbers of children, matrices, probability vectors, samples, events", "why_tests_cant": "The accepted inputs are an infinite set; tests show single rejections, and the off-by-one bound and negative codes pass silently.", "anchors": ["BNS_JT/cpm.py:Cpm.__init__", "BNS_JT/cpm.py:Cpm.C", "BNS_JT/cpm.py:Cpm.p", "BNS_JT/cpm.py:Cpm.Cs", "BNS_JT/cpm.py:Cpm.q", "BNS_JT/cpm.py:Cpm.get_prob"]}
{"id": "C95", "title": "Sorting the rows of a CPM", "statement": "Cpm.sort without samples puts the rows of C with their probabilities in ascending order, compared from the last column backwards; equal rows keep their order, no row or probability is lost, and the value of the CPM at every joint state is unchanged. This is the order in which product returns its rows. With samples in ascending order of their numbers only as many rows of C and p are left as there are samples; with more samples than rows it is an IndexError.", "quantifier": "for all CPMs accepted by the constructor", "why_tests_cant": "The order and stability are statements about all matrices; the test sorts one matrix without samples.", "anchors": ["BNS_JT/cpm.py:Cpm.sort", "BNS_JT/cpm.py:argsort", "BNS_JT/cpm.py:Cpm.product"]}
{"id": "C96", "title": "An unlimited search is exact and finds exactly the extreme vectors", "statement": "With max_nb and max_rules infinite, a non-positive pf_bnd_wr and max_sf above the number of component vectors, brc.run returns without an exception, reports 'complete', both bounds equal the failure probability, the rules decide every vector and at most as many calls are made as there are vectors. The rules are made by one update for every call, in order, so that there are never more rules than given rules and calls; no rule makes another redundant. If the minimal vectors returned by the system function have no idle entries (state 0 in a survival rule, last state in a failure rule), the survival rules of a complete search are, one by one, the minimal surviving vectors and the failure rules the maximal failing vectors, so a search from scratch needs at least one call for each of them.", "quantifier": "every well-formed set of variables and probabilities, coherent system, system function, admissible start and configuration", "why_tests_cant": "the tests compare the rules of a few fixed systems; the claim is about all coherent systems and every way of searching them", "anchors": ["BNS_JT/brc.py:run", "BNS_JT/brc.py:update_rule_set", "BNS_JT/brc.py:run_sys_fn", "BNS_JT/brc.py:get_comp_st"]}
{"id": "C97", "title": "The rules of a complete search do not depend on how it was done", "statement": "Two complete searches for the same system with untruncated decompositions end with the same numbers of rules, and every rule of one has the same entries as a rule of the other - whatever the probabilities, minimal vectors returned by the system function (without idle entries), order of the search, limits and starting rules or branches.", "quantifier": "every pair of complete runs on the same variables and system", "why_tests_cant": "a test would have to run two searches with every pair of settings", "anchors": ["BNS_JT/brc.py:run", "BNS_JT/brc.py:update_rule_set"]}
{"id": "C98", "title": "Bounds under incomplete information are the exact range", "statement": "Without condition, the interval returned by get_prob_bnd is exactly the set of probabilities that completions of the CPM (further rows up to total probability one) give to the event. With a condition contained in the event, the completions give exactly the values from the returned lower bound to (p1+u)/(p2+u) (p1, p2 the known probabilities of event and condition, u the missing one); the returned upper bound is never below this and equals it exactly if nothing is missing or p1 = p2.", "quantifier": "every incomplete CPM, every event for which rows inside and outside are possible, every value of the interval", "why_tests_cant": "That every point of the interval is reached, and that no completion exceeds the sharper upper bound, are statements about all completions; tests compute one interval.", "anchors": ["BNS_JT/cpm.py:Cpm.get_prob_bnd", "BNS_JT/cpm.py:Cpm.get_prob"]}
{"id": "C99", "title": "The bounds of the search are the best its rules allow", "statement": "The bounds of a full decomposition are the least and greatest failure probability among all coherent systems that agree with the rules, both attained; a vector lies outside the decided branches exactly if two such systems differ there. The same holds for the last bounds of brc.run unless it stopped because of max_sf; then the last rule is not used and the bounds can be too wide.", "quantifier": "every set of sound rules, every start, every coherent system that agrees with the rules", "why_tests_cant": "Optimality compares with all coherent systems consistent with the rules, which tests cannot enumerate.", "anchors": ["BNS_JT/brc.py:decomp_depth_first", "BNS_JT/brc.py:run", "BNS_JT/brc.py:update_monitor"]}
{"id": "C100", "title": "Side effects of CPM operations on their operands", "statement": "A program of products, conditionings, sums, row selections and merges on CPM objects that share arrays ends with the same exception or the same CPMs as with values, as long as no object is used after merge was called on it; in particular, without merge every object keeps its value. merge turns the object it is called on into its result, which keeps sharing its array (so merging twice counts twice, and an exception leaves part of the second CPM in the first); product only supplies missing probabilities of its operands by ones.", "quantifier": "for all programs, all CPMs with probabilities and all sequences of operations", "why_tests_cant": "tests compare results of single calls; whether an operand is changed shows only in later calls that use it", "anchors": ["BNS_JT/cpm.py:Cpm.merge", "BNS_JT/cpm.py:Cpm.product", "BNS_JT/cpm.py:Cpm.condition", "BNS_JT/cpm.py:Cpm.sum", "BNS_JT/cpm.py:Cpm.get_subset"]}
{"id": "C101", "title": "A search made in several runs", "statement": "brc.run with a limit of a + b calls of the system function gives the same branches, rules, table of results and monitor as a run of a calls (ending with 'max_sf') followed by a run of b calls that is given the rules of the first, and its branches if active_decomp is False; one raises an exception exactly if the other does.  The only condition is that the bounds at the end of the first run do not already satisfy the tolerance pf_bnd_wr (they never do when pf_bnd_wr is not positive); if they do, the longer run stops there.  A larger limit changes nothing if the run stops for another reason or fails.  A search that ended with 'complete', 'max_nb' or 'max_rules' and is started again from its rules ends at once with the same branches, rules and reason; one that ended with 'pf_bnd' makes at least one more call.", "quantifier": "all variables, probabilities, rules, branches, system functions (no assumption on them) and settings; the statement on the tolerance for well-formed systems", "why_tests_cant": "Equality of a long run with all its two-part splits is a relation between three executions, for every system and every place of the cut; the repository has no test that takes up a search from its rules.", "anchors": ["BNS_JT/brc.py:run", "BNS_JT/brc.py:update_monitor", "BNS_JT/brc.py:init_monitor", "BNS_JT/brc.py:decomp_depth_first"]}
{"id": "C102", "title": "The bounds of a search in rounded arithmetic", "statement": "If every probability that is read and the result of every multiplication, addition and subtraction is rounded with relative error at most u, brc.run still returns (survivals first), and it makes one of the searches that split boxes, call the system function and reorder branches freely, so the branches partition the space and the labels and rules are sound although other splits may be chosen than with exact numbers.  Each stored probability equals the exact one up to as many relative errors as there are states plus two per component; each lower bound on the probability of failure in the monitor is at most the exact probability plus 2 N u and each upper bound is at least the exact probability minus (2 N + 1) u, N being that number plus the number of branches (if N u <= 1/2).  If all branches are labelled, both bounds are that close to it.  Without rounding the model is the one of the other theorems.  The bounds need not hold without the tolerance: a rounding that is always too large puts the upper bound below the probability of failure.", "quantifier": "all well-formed variables and probabilities, coherent system functions, initial sound rules, settings, and roundings with a relative error of at most u, 0 <= u <= 1", "why_tests_cant": "The tests compare a few bounds with pytest.approx; the error over all systems, roundings and orders of operation cannot be sampled, and the search itself takes other paths when probabilities are rounded.", "anchors": ["BNS_JT/brc.py:run", "BNS_JT/brc.py:update_monitor", "BNS_JT/brc.py:decomp_depth_first", "BNS_JT/brc.py:get_comp_st", "BNS_JT/branch.py:approx_prob_by_comps", "BNS_JT/branch.py:Branch.get_decomp_comp_using_probs", "BNS_JT/branch.py:Branch.get_new_branch"]}
{"id": "C103", "title": "What small functions accept and how they reject the rest", "statement": "single_sample draws a row exactly if the conditioned CPM has one weight per row, at least one, a total other than 0 and no negative share; otherwise ValueError.  A masked assignment writes the values to the masked places in order, or one value to all of them; a mask of another length is an IndexError, any other number of values a ValueError.  The setters of Cs, q and sample_idx store exactly the values that fit and raise AssertionError otherwise.  The weight of an edge is the value of its variable at the component's state, with KeyError for a missing label, variable or state and IndexError for a state outside of the values.  Between two nodes of a multigraph the label is that of the first of the lightest edges; unweighted parallel edges are a TypeError, no edge is an AttributeError or, in a simple graph, a TypeError.  The code of a branch's interval is the position of the union of its two states in the table, the probability of a component's code the sum over its basic states of the first row with that state; each failing lookup has its own exception.  The highest state is defined for dictionaries that are not empty; a rule can only be added for 's' or 'f'.", "quantifier": "all CPMs, masks, samples, graphs, edges, variables, tables, codes and distributions", "why_tests_cant": "The tests use well-formed input; which exception arises for each kind of misuse, and that nothing else is accepted, concerns all inputs.", "anchors": ["BNS_JT/operation.py:single_sample", "BNS_JT/cpm.py:Cpm.Cs", "BNS_JT/cpm.py:Cpm.q", "BNS_JT/cpm.py:Cpm.sample_idx", "BNS_JT/trans.py:update_G_given_comps_st", "BNS_JT/trans.py:get_edge_from_nodes", "BNS_JT/branch.py:get_cmat_from_branches", "BNS_JT/operation.py:prod_Msys_and_Mcomps", "BNS_JT/brc.py:eval_rules_prob", "BNS_JT/brc.py:update_rule_set"]}
{"id": "C104", "title": "What a search does to objects that it shares", "statement": "run keeps the component vectors of its branches in dictionaries that parent and child branches share, hands one of them to the system function itself, changes labels of given branches and the given rule set in place, and copies its branches after every pass.  Whatever the system function writes to its argument, and however the search ends: every dictionary of the caller keeps its contents, every rule set other than the one passed keeps its rules, branches of the caller keep their boxes and probabilities, and get labels only if they were passed to a search without active_decomp, and then only labels that the rules passed justify.  The rule set returned is the one passed; the branches returned are new objects with new dictionaries.  If the system function only reads its argument, the whole outcome is the same as without any sharing.  If it writes to its argument, the rules, the monitor, the values and minimum states in the table of results and the labels and probabilities of the branches are still the same, provided that active_decomp is set and minimum states are returned whenever something was written.  Neither condition can be left out: otherwise the search can report a failure probability of 1 instead of 1/10, or a rule that makes every state survive.  A new branch shares exactly one dictionary with the branch it is cut from; the copies share none with the originals and one with each other exactly where the originals do.", "quantifier": "all contents of the caller's memory, variables, probabilities, system functions, options, rule sets and lists of distinct branches", "why_tests_cant": "Whether a result is spoiled depends on which dictionaries happen to be shared in a long search; tests use system functions that only read and do not look at the objects passed.", "anchors": ["BNS_JT/brc.py:run", "BNS_JT/brc.py:decomp_depth_first", "BNS_JT/brc.py:get_comp_st", "BNS_JT/brc.py:run_sys_fn", "BNS_JT/branch.py:Branch.eval_state", "BNS_JT/branch.py:Branch.get_new_branch"]}
{"id": "C105", "title": "Inference in rounded arithmetic", "statement": "If computed products and sums of numbers that are not negative have a bounded number of relative errors of u (products k, sums one per summand, which holds for rounded additions in any order and grouping), then product, sum, get_prob and variable_elim end exactly as with exact numbers (same exception or same variables, children and rows), and each probability is the exact one up to a counted number of relative errors: n+m+k for a product, n plus the number of rows for a sum and for get_prob, and for variable elimination of c tables c*n + (c-1)*k plus the rows of the products it sums.  Therefore the computed table is, at every joint state, the marginal of the product of the tables up to these errors, and a probability computed after elimination is off by at most twice the number of errors times u.  With negative entries no number of errors is enough.", "quantifier": "all CPMs without samples and with probabilities that are not negative (given with up to n errors), variables, orders of elimination, events, computed products and sums within the bounds, 0 <= u <= 1", "why_tests_cant": "Tests compare a few probabilities with approx; how errors add up over products and sums of any network and elimination order cannot be sampled.", "anchors": ["BNS_JT/cpm.py:Cpm.product", "BNS_JT/cpm.py:get_prod", "BNS_JT/cpm.py:Cpm.sum", "BNS_JT/cpm.py:Cpm.get_prob", "BNS_JT/cpm.py:product", "BNS_JT/operation.py:variable_elim"]}
{"id": "C106", "title": "Outcomes of small helper functions", "statement": "all_equal is true exactly when all entries are equal; flip of ismember marks exactly the variables that are not members; get_var_idx gives for every name the position of the only variable of that name and fails an assertion if there is none or more than one.  A branch is read back from its dictionary; a missing entry is a KeyError, vectors of different lengths an AssertionError.  find_state_from_vector gives -1 for every vector that adds up to 0 and otherwise succeeds exactly if as many entries are 1 as the sum says, else a ValueError; get_Bst_from_Bvec is this vector by vector.  convert_csv_to_json gives every label the cells of its last row over the template, with nothing from other rows, and leaves the template with the last row.  dict_to_json writes p and 1 - p for as many scenarios as the first entry has, and fails exactly if another entry has fewer or an empty one.  Cpm.get_col gives for every row the codes of the named variables in the order of the names, and succeeds exactly for names of variables without duplicates.  Variable.update_B takes a table that is not empty and else makes the variable as if new.", "quantifier": "all lists, variables, names, dictionaries, integer vectors and arrays, tables with equal columns", "why_tests_cant": "Tests call these functions with one or two inputs each (several are never called); which inputs are refused, and with what, is not tested.", "anchors": ["BNS_JT/utils.py:all_equal", "BNS_JT/cpm.py:flip", "BNS_JT/operation.py:get_var_idx", "BNS_JT/branch.py:Branch.to_dict", "BNS_JT/branch.py:Branch.from_dict", "BNS_JT/variable.py:Variable.find_state_from_vector", "BNS_JT/variable.py:Variable.get_Bst_from_Bvec", "BNS_JT/config.py:convert_csv_to_json", "BNS_JT/config.py:dict_to_json", "BNS_JT/cpm.py:Cpm.get_col", "BNS_JT/variable.py:Variable.update_B"]}
{"id": "C107", "title": "What is accepted, and the exception otherwise", "statement": "For further functions the accepted inputs are exactly those described, and all others give one stated exception: Cpm.__init__ (number of children, row lengths, largest codes, length of p: AssertionError), also with a one-dimensional C; get_variables (IndexError), merge with other variables (AssertionError), string states in condition (TypeError), product of nothing (AssertionError); the rounds of get_prob_and_cov (AssertionError unless the number of samples is a multiple); get_csys (IndexError without branches, ValueError for rows of different lengths); storing samples (IndexError without a column); Branch.__init__; bnb_next_comp (the first candidate on a path or among the arcs, else IndexError); eval_rules_prob for the third state; the class probabilities and joined monitors of the EMA demo.  The outcomes of one Monte Carlo draw, exceptions among them, have total probability 1, and without an unknown branch a draw is a ValueError.", "quantifier": "all inputs of these functions in the model", "why_tests_cant": "Tests check single rejected inputs at most; that nothing else is rejected, or accepted, needs all inputs.", "anchors": ["BNS_JT/cpm.py:Cpm.__init__", "BNS_JT/cpm.py:Cpm.get_variables", "BNS_JT/cpm.py:Cpm.merge", "BNS_JT/cpm.py:Cpm.condition", "BNS_JT/cpm.py:product", "BNS_JT/cpm.py:Cpm.get_prob_and_cov", "BNS_JT/brc.py:get_csys", "BNS_JT/brc.py:eval_rules_prob", "BNS_JT/branch.py:Branch.__init__", "BNS_JT/branch.py:mcs_unknown_simple", "BNS_JT/branch.py:mcs_unknown_using_cpms", "BNS_JT/bnb_fns.py:bnb_next_comp", "BNS_JT/demos/EMA/batch.py:main"]}
{"id": "C108", "title": "Inference functions of demos/routine", "statement": "With a component for every parent, the older product prod_Msys_Mcomps of demos/routine gives the same object as prod_Msys_and_Mcomps: all variables become children, in the same order; a parent without a component is a KeyError.  Its get_prob is the total of the rows with exactly the given code in the column of the variable, which for basic states in a column without composite codes is the marginal probability and what Cpm.get_prob gives; its get_Msub keeps exactly these rows, with their probabilities, in order.  A name that is not a variable is a ValueError in both.", "quantifier": "all system matrices with marginal components, all well-formed matrices with a probability for every row, all names and codes", "why_tests_cant": "The functions are inside a function that cannot run, so no test can call them; agreement with the library functions quantifies over all systems.", "anchors": ["BNS_JT/demos/routine/batch.py:prod_Msys_Mcomps", "BNS_JT/demos/routine/batch.py:get_prob", "BNS_JT/demos/routine/batch.py:get_Msub", "BNS_JT/operation.py:prod_Msys_and_Mcomps", "BNS_JT/cpm.py:Cpm.get_prob"]}
{"id": "C109", "title": "Ends and places of the poles of demos/power_house", "statement": "If every pole has a house and so has the pole before it on its path, get_pole_conn gives every pole, whatever the order of the set of poles, the substation or the house of the pole before it and the first house that has the pole; the path is the first one with the pole of the last substation that has one.  Along a path whose poles are on no other path the ends form a chain from the substation.  Without these houses the ends are left over from another pole: the result, and whether there is an UnboundLocalError, depends on the order of the set.  add_pole_loc puts every pole half way between the given places of its ends and leaves the others; it fails, with a KeyError, exactly for an end without a place.", "quantifier": "all paths, houses, orders of the set and places", "why_tests_cant": "The order of a set of strings changes from run to run of Python; a test sees one order.", "anchors": ["BNS_JT/demos/power_house/batch.py:get_pole_conn", "BNS_JT/demos/power_house/batch.py:add_pole_loc"]}
{"id": "C110", "title": "Attenuation with distance and magnitude in the failure map", "statement": "gmpe_cam03 accepts exactly magnitudes from 6 to 8.5 (else an AssertionError) and gives every road, in order, a logarithm of the acceleration that strictly falls with its distance over all three ranges of distance, without a jump between them.  Up to magnitude 8.18 it strictly grows with the magnitude at every distance; near 8.5 it does not.  The aleatory deviation is 1.0307 below magnitude 7.16 and 0.543 from there on; the epistemic one is the same for all roads within 1 km and for all beyond 70 km.  So of two roads of one type beyond 70 km the one further away fails with smaller probability.", "quantifier": "all magnitudes, distances that are real numbers from 0 on, interpolations, and distribution functions that fall with the mean", "why_tests_cant": "Strict monotonicity over all real distances and magnitudes is a statement about a function with logarithms, roots and exponentials on an infinite range.", "anchors": ["BNS_JT/demos/pf_map/batch.py:gmpe_cam03", "BNS_JT/demos/pf_map/batch.py:cal_edge_dist", "BNS_JT/demos/pf_map/batch.py:cal_edge_dist_output"]}
{"id": "C111", "title": "Products by logarithms", "statement": "get_prod, which adds logarithms of absolute values and restores the sign, gives in every entry exactly the product of the entries of its operands, zeros and negative numbers included, and refuses (AssertionError) exactly operands of different lengths; for a column of probabilities and one probability this is the multiplication that the model of Cpm.product uses.  The probability that single_sample reports from a sum of logarithms is the product of the probabilities of its rows, and row by row each of them; without CPMs there is none.", "quantifier": "all real matrices and vectors, all rational probabilities from 0 on, in exact arithmetic", "why_tests_cant": "That the detour over logarithms loses nothing, also at 0, is a statement about all real numbers.", "anchors": ["BNS_JT/cpm.py:get_prod", "BNS_JT/cpm.py:Cpm.product", "BNS_JT/operation.py:single_sample"]}
{"id": "C112", "title": "Confidence intervals of estimates", "statement": "The interval of the method MLE is symmetric about the estimate and reaches less than 0.41 standard deviations to each side whatever the confidence, because the density of the normal distribution is used for its quantile; it becomes narrower with more confidence, so an interval of more confidence need not contain one of less (refuted).  The interval of the method Bayesian, also used on unknown branches, lies within what the known part leaves open, contains the intervals of less confidence, and asks for probabilities equally far from 0 and 1 that leave 1 - conf_p outside.", "quantifier": "all estimates, variances, confidences, and quantile functions that grow from 0 to 1", "why_tests_cant": "Tests compare single intervals with stored numbers; nesting over all confidences and the bound on the width are statements about all real numbers.", "anchors": ["BNS_JT/cpm.py:Cpm.get_prob_and_cov", "BNS_JT/branch.py:mcs_unknown_simple", "BNS_JT/branch.py:mcs_unknown_using_cpms", "BNS_JT/demos/pf_map/batch.py:mcs_unknown"]}
{"id": "C113", "title": "The model passes the repository's tests", "statement": "On the inputs of the tests in BNS_JT/tests, the model gives the results which these tests expect: rows in the same order, probabilities within the tolerances of the tests, and the same exceptions.  Covered are test_variable.py, test_cpm.py, test_operation.py, test_brc.py, test_branch.py, test_trans.py and test_bnb_fns.py as far as they concern modelled functions, among them the search, the event matrix and the inference for the bridge network.", "quantifier": "the inputs of the tests", "why_tests_cant": "The tests run the Python code, not the model; the theorem shows that the model agrees with what they expect of the code, which is evidence (not a proof) that the model describes it.", "anchors": ["BNS_JT/variable.py:Variable.__init__", "BNS_JT/cpm.py:Cpm.product", "BNS_JT/cpm.py:Cpm.sum", "BNS_JT/cpm.py:iscompatible", "BNS_JT/cpm.py:condition", "BNS_JT/operation.py:variable_elim", "BNS_JT/operation.py:prod_Msys_and_Mcomps", "BNS_JT/operation.py:max_flow", "BNS_JT/brc.py:run", "BNS_JT/brc.py:get_csys", "BNS_JT/trans.py:sf_min_path", "BNS_JT/trans.py:get_path_time_idx", "BNS_JT/trans.py:eval_sys_state"]}
{"id": "C114", "title": "Compatibility of variables without a table", "statement": "A variable made with B_flag='fly' has no table.  When such a variable is checked and in scope, the function and the method iscompatible never mark a row as compatible: a result, if there is one, is False everywhere, and with one checked variable and at least one row the call always raises AttributeError, because the attribute B_fly does not exist.  The tests that expect the results of stored tables fail (refuted).", "quantifier": "all matrices, variables, checked variables and states", "why_tests_cant": "The tests with B_flag='fly' show six inputs; that no input at all gives a compatible row is a statement about all of them.", "anchors": ["BNS_JT/cpm.py:iscompatible", "BNS_JT/cpm.py:Cpm.iscompatible", "BNS_JT/variable.py:Variable.__init__"]}
{"id": "C115", "title": "cal_Msys_by_cond_VE with samples", "statement": "On CPMs with samples, cal_Msys_by_cond_VE returns the exact rows which it returns on the rows alone, whenever these have a result.  On CPMs without samples it succeeds exactly when it does on the rows, and the result has no samples.  If the CPM of the conditioning variables has no rows, nothing is returned.  On the hybrid network of the tests it returns the rows, samples, weights and estimates that the tests expect.", "quantifier": "all dictionaries of CPMs with samples, conditioning variables, elimination orders and systems", "why_tests_cant": "The tests run one network with five samples and one without.  Whether samples can change the exact rows of another network does not follow.", "anchors": ["BNS_JT/operation.py:cal_Msys_by_cond_VE", "BNS_JT/operation.py:prod_Msys_and_Mcomps", "BNS_JT/cpm.py:Cpm.product", "BNS_JT/cpm.py:Cpm.condition", "BNS_JT/cpm.py:Cpm.sum", "BNS_JT/cpm.py:Cpm.merge"]}
{"id": "C116", "title": "samples of the system CPM of a hazard network", "statement": "For a hazard, components that depend on it and a system that depends on the components, all with the same samples, cal_Msys_by_cond_VE succeeds when all components are eliminated.  The rows have the exact probabilities of the system.  The samples are there once for every state of the hazard: the sampling weights are the products of all sampling weights, the target weights have the probabilities of the components and the hazard in that state.  get_prob_and_cov with nsample_repeat the number of samples returns the probability among the rows plus the rest times the mean, over the samples in the event, of the weights added up over the states of the hazard.  If the sampling weights are the probabilities of the samples, this weight makes the mean of every function of the components under sampling from the network the exact mean.", "quantifier": "all hazard networks with samples in basic states and all elimination orders that have the components; the unbiased mean for tables in which every state of the components has positive probability", "why_tests_cant": "The test compares the ten weights and one estimate on five samples of one network.  What the weights are in general, and that they give no bias, no test run can show.", "anchors": ["BNS_JT/operation.py:cal_Msys_by_cond_VE", "BNS_JT/operation.py:prod_Msys_and_Mcomps", "BNS_JT/cpm.py:Cpm.get_prob_and_cov", "BNS_JT/cpm.py:Cpm.condition", "BNS_JT/cpm.py:Cpm.merge"]}
{"id": "C117", "title": "event matrix of the demo SF", "statement": "main of the SF demo ends with the variables of the edges unchanged and a matrix with a code from 0 to 2 for the system and each edge.  Every state of the edges is matched by exactly one row; rows that start with 1 match only states in which the ends are joined, rows that start with 0 only states in which they are not.  With limits out of reach no row starts with 2, and the numbers of states that the rows with 1 and with 0 stand for (2 to the number of free edges) are the numbers of states with and without a connection, otherwise they are lower bounds.", "quantifier": "every network file of any graph type, any ends and limits; nx.shortest_path by its specification", "why_tests_cant": "all networks, limits and vectors of edge states; the demo has no test", "anchors": ["BNS_JT/demos/SF/batch.py:main", "BNS_JT/brc.py:run", "BNS_JT/brc.py:get_csys", "BNS_JT/trans.py:sf_min_path"]}
{"id": "C118", "title": "main of the power house demo", "statement": "main of power_house returns, for each house asked for, the distribution and the mean of the days without power.  It holds only for an empty list of houses: with a house main raises AttributeError, because cal_Msys_by_cond_VE and get_means are looked up in the module cpm.  With the function of the module operation it would still fail with AssertionError, because closure times depend on each other.  What main is after can be computed: its elimination order has every node once if all structures are repaired, and variable_elim with that order, without the house, leaves a CPM whose mean by get_means is the average number of days until the house has power again.", "quantifier": "all inputs that quant_cpms accepts; the mean for every admissible network (at most six scenarios and five structures, no two nodes of the same name), every house and every elimination order; the failure with operation's function for one network", "why_tests_cant": "The call of power_house is commented out in demos/test_batch.py; the mean is over all failure patterns and scenarios.", "anchors": ["BNS_JT/demos/power_house/batch.py:main", "BNS_JT/demos/power_house/batch.py:quant_cpms", "BNS_JT/operation.py:cal_Msys_by_cond_VE", "BNS_JT/operation.py:prod_Msys_and_Mcomps", "BNS_JT/operation.py:variable_elim", "BNS_JT/cpm.py:Cpm.get_means"]}
{"id": "C119", "title": "Edge classes and main of demos/EMA/brc.py", "statement": "For every order that random.shuffle gives to the numbers of the n edges, each edge e1, ..., en gets exactly one of the three probability settings, by the third of the shuffled list in which its number stands; the first two settings are used n//3 times each and the third for the others.  That main then saves the results of two searches is refuted: it never returns normally, and on every file with complete data, edges named e1, e2, ... and the pair od2 it raises NameError after the preparation, because the module brc is not imported, while main of batch.py succeeds on the same file with the same classes.  If the first edge has another name, it raises KeyError.", "quantifier": "all numbers of edges and all permutations of them; all files for the failure, all files written from complete data for the NameError", "why_tests_cant": "No test runs this script; the order is random, and tests see one seed.", "anchors": ["BNS_JT/demos/EMA/brc.py:main", "BNS_JT/demos/EMA/batch.py:main", "BNS_JT/trans.py:get_time_and_path_given_comps", "BNS_JT/variable.py:Variable.__init__", "BNS_JT/cpm.py:Cpm.__init__"]}
{"id": "C120", "title": "Monte Carlo simulation of the max-flow demo", "statement": "The samples of run_MCS are state vectors of the edges, each with its probability, and the chance that the sampled network cannot carry the target is the probability that C79 is about, which the bounds of main enclose.  What is returned is the share of the first n samples in which the target cannot be carried, at least six of them, with the coefficient of variation at most the threshold; the only exception is UnboundLocalError after at least 20000 samples that all carry the target.  That the result is then saved is refuted: the function writes to a name output_path that is not defined, so every run that obtains an estimate ends with NameError after printing it.", "quantifier": "all networks of the demo with pairs of different nodes and nonnegative targets, all samples, all thresholds of the coefficient of variation below 1, and every correct maximum-flow routine", "why_tests_cant": "The demo has no test, and a test of a simulation sees a single seed.", "anchors": ["BNS_JT/demos/max_flow/batch.py:run_MCS", "BNS_JT/demos/max_flow/batch.py:init_prob", "BNS_JT/demos/max_flow/batch.py:max_flow_fun", "BNS_JT/brc.py:run_MCS_indep_comps", "BNS_JT/demos/max_flow/batch.py:main"]}
{"id": "C121", "title": "Monte Carlo simulation of the failure map demo", "statement": "After a run of main on the same file, run_MCS for a node that is not an origin samples state vectors of the roads, and the chance of every event is its probability under the failure probabilities of the roads; the variables of the nodes that main also saved change nothing.  What is returned is the share of the first m samples in which the node is late (no route to an origin within the threshold times the time in the intact state), at least six of them, with the coefficient of variation at most the threshold; the only exception is UnboundLocalError after at least 20000 samples in which the node is in time.  The line of the node in the table of main encloses the probability that is estimated.", "quantifier": "all files of the demo, all orders in which the processes of main finish, all nodes that are not origins, all samples, all thresholds of the coefficient of variation below 1, and every correct shortest-path routine", "why_tests_cant": "The demo has no test, and a test of a simulation sees a single seed.", "anchors": ["BNS_JT/demos/pf_map/batch.py:run_MCS", "BNS_JT/demos/pf_map/batch.py:main", "BNS_JT/demos/pf_map/batch.py:cal_edge_dist_output", "BNS_JT/trans.py:get_time_and_path_multi_dest", "BNS_JT/trans.py:sf_min_path", "BNS_JT/brc.py:run_MCS_indep_comps"]}
{"id": "C122", "title": "Comparisons of variables and branches", "statement": "Comparing two of variables, strings, branches and other values with == counts as true exactly when both are a variable or a string and have the same name, or both are branches with the same bounds (in any order of the components), states and probability, or both are the same value; this is an equivalence and != its negation.  Equal objects have equal hashes, and branches have none, so that a dictionary or list of variables can be searched by variable or by name.  Variables are ordered by name, lexicographically: a strict order that is total up to equality; comparing a variable with anything else raises AttributeError.  Refuted: that == returns a truth value (it returns None exactly when one side is a branch and the other is not), and that equal variables have the same states.", "quantifier": "all variables, strings, branches and numbers, all hash functions of strings and numbers", "why_tests_cant": "The tests compare a few branches for equality; symmetry, transitivity, the agreement with hashes and the order are statements about all pairs and triples.", "anchors": ["BNS_JT/variable.py:Variable.__eq__", "BNS_JT/variable.py:Variable.__hash__", "BNS_JT/variable.py:Variable.__lt__", "BNS_JT/branch.py:Branch.__eq__"]}
{"id": "C123", "title": "Failure map demo for a single node", "statement": "run_single for a node that is not an origin either ends with bounds that enclose the probability that the node is late, with the upper bound as its probability and no samples, or raises TypeError, and the latter only if the limits are in reach.  For an origin it does nothing.  Whenever main writes its table, run_single with the same settings ends with the bounds of the line of the node, whatever order the processes of main finish in.", "quantifier": "all files of the demo, all nodes, all limits and widths, all orders in which the processes finish, and every correct shortest-path routine", "why_tests_cant": "The demo has no test; that the parallel run and the run for one node agree is a statement about all files and all orders.", "anchors": ["BNS_JT/demos/pf_map/batch.py:run_single", "BNS_JT/demos/pf_map/batch.py:debug", "BNS_JT/demos/pf_map/batch.py:process_node", "BNS_JT/demos/pf_map/batch.py:main"]}
{"id": "C124", "title": "Which component splits a branch", "statement": "For rules that get_compat_rules returns for a branch, at least one of them left, get_decomp_comp_using_probs returns a component xd and a state s of a rule r such that r is at least as likely within the branch as every other compatible rule, no component of r occurs in more compatible rules than xd, and s is the state of xd in r for a survival rule and one more than that for a failure rule.", "quantifier": "all components, probabilities, rule sets and branches that are well formed", "why_tests_cant": "The tests check the pair for a few branches; that it is the best by both criteria needs all rule sets.", "anchors": ["BNS_JT/branch.py:Branch.get_decomp_comp_using_probs", "BNS_JT/branch.py:Branch.approx_joint_prob_compat_rule"]}
