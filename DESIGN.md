# Formal model of BNS-JT: design

The source is the Python package `/repo/BNS_JT` at the pinned commit.  It is
read as text only.  The model is a shallow embedding in Gallina (Coq 8.16.1,
standard library only) under `rocq/theories`.

## Trusted base

* Coq's kernel (8.16.1), including `vm_compute`.
* The axioms that `Print Assumptions` lists for each final theorem.  Every
  `Prop*.v` file prints them.  All are "Closed under the global context",
  except the theorems of C110, C111 and C112 (`PropGmpe.v`, `PropLogProd.v`,
  `PropInterval.v`), which use the real numbers of
  the standard library and with them its axioms
  `ClassicalDedekindReals.sig_not_dec`, `ClassicalDedekindReals.sig_forall_dec`,
  `FunctionalExtensionality.functional_extensionality_dep` and
  `Classical_Prop.classic`.
* The reading of the Python code: each definition of the model cites the file
  and the lines it mirrors and says what it simplifies.

## How Python is modelled

| Python | model |
|---|---|
| exceptions | `res A := Ok a \| Err e`, one constructor of `exn` per exception class that the modelled code can raise; functions that cannot raise are plain |
| `str` names, dict keys | `string` |
| `dict` | association list in insertion order; assignment to an existing key keeps its position |
| `int` | `Z` (unbounded, as in Python) |
| `float` | exact rationals `Qc`; **rounding is not modelled**, except in `Round.v` for the search of brc.py (C102) and in `RoundInf.v` for product, sum, get_prob and variable elimination (C105); exact real numbers in `Gmpe.v`, `LogProd.v` and `Interval.v` (C110 to C112) |
| objects | values; objects shared by reference only in `Heap.v` (arrays of CPMs, C100) and `BrcHeap.v` (branches, vectors and rule sets of `brc.run`, C104) |
| list indexing | `py_index` with negative wrap-around and `IndexError` |
| `set` of ints | `list Z` up to set equality |
| `sorted` | stable insertion sort |
| user call-backs (`sys_fun`, ...) | universally quantified functions, with the hypotheses stated in each theorem |
| random choices | explicit lists of outcomes / exact distributions |
| files | an explicit finite map from names to contents |
| `while`/recursion | structural recursion or fuel, with a theorem that the fuel suffices |

Not modelled (floating-point rounding: only for the search of brc.py): numpy dtypes (other than the
shape errors cited), logging, printing, plotting, timing columns of the
monitor, the networkx/scipy implementations (replaced by their mathematical
specification where a system function needs them), process pools, pickling.

## Files

* `Py.v` exceptions, dicts, indexing, sorting; `Num.v` rationals.
* `Vari.v` model of `variable.py`; `VariFacts.v` proofs.
* `Brc.v` model of `brc.py` and of `branch.Branch`; `BrcFacts`, `BrcProb`,
  `BrcDecomp`, `BrcRules`, `BrcRun`, `BrcMisc`, `BrcMain`, `BrcStop`,
  `BrcProper` proofs.
* `Cpm.v` model of `cpm.py` and of `variable_elim`; `CpmFacts`, `CpmCond`,
  `CpmProd`, `CpmList`, `CpmSum`, `CpmMarg`, `CpmElim`, `CpmProb`, `CpmMean`
  proofs.
* `Model.v` the path from components and branches to system probabilities
  (`model.py`); `ModelFacts.v` proofs.
* `Net.v` network traversals of `operation.py`; `NetFacts.v` proofs.
* `Sample.v` the sampling functions of `operation.py` as exact distributions over
  outcomes; `SampleFacts.v` proofs.
* `SysVal.v` `sys_max_val` and `sys_min_val`; `SpecSys.v` vocabulary, `SysValFacts.v` proofs.
* `MsysProd.v` `prod_Msys_and_Mcomps` without samples; `SpecProd.v` vocabulary,
  `MsysProdFacts.v` proofs.
* `Bnb.v` the path-based branch and bound of `branch.py` and `trans.py` with an explicit
  directory for its files; `SpecBnb.v` vocabulary, `BnbFacts.v`, `BnbDir.v` proofs.
* `PathModel.v` `model.py`: `get_branches`, `model_given_od_scen`; `PathFacts.v`,
  `SysEvent.v`, `PathModelFacts.v` proofs.
* `Legacy.v` `Branch_old`, `run_bnb`, `get_cmat` and `bnb_fns.py`; `SpecLegacy.v` vocabulary,
  `LegacyFacts.v` proofs.
* `Trans.v` the network system functions of `trans.py` and `get_branches_by_od`; `SpecTrans.v`
  vocabulary and the contracts of the networkx functions, `TransFacts.v`, `NetSys.v` proofs,
  `NxPaths.v` reference versions of the networkx functions that meet the contracts.
* `Mcs.v` the Monte Carlo estimators `mcs_unknown_simple`, `mcs_unknown_using_cpms` and
  `run_MCS_indep_comps`: a draw is its exact distribution, a run is a function of the outcomes
  drawn; `SpecMcs.v` vocabulary, `McsFacts.v` proofs.
* `VeCond.v` `get_variables`, `condition`, `variable_elim_cond` and `cal_Msys_by_cond_VE` of
  `operation.py`, without samples; `SpecVe.v` vocabulary, `VeFacts.v` proofs,
  `VeTotal.v` when `variable_elim_cond` succeeds, `CalFacts.v`, `CalJoin.v`, `CalTotal.v` the
  system CPM.
* `Hybrid.v` CPMs with samples: `condition`, `product`, `sum`, `merge`, `variable_elim` and
  `get_prob_and_cov` with sampled rows and weights of one column; `SpecHyb.v` vocabulary,
  `HybFacts.v`, `HybEst.v` proofs.
* `Reject.v` `rejection_sampling_sys` up to the first use of a sample.
* `Flow.v` `max_flow`; `SpecFlow.v` vocabulary and the contract of `nx.maximum_flow`, `FlowFacts.v` proofs,
  `Lp.v`, `FlowRef.v` a flow routine that meets the contract (Fourier-Motzkin elimination).
* `Pipe.v` the functions of `pipes_sys.py`; `SpecPipe.v` plans, routes and the contract of `milp`, `PipeFacts.v`,
  `PipeRoute.v` proofs, `PipeRef.v` a solver that meets the contract (bounds by elimination, then enumeration).
* `Config.v` network files (`config.py`), the list of all paths (`trans.py`) and `setup_model`; `SpecConfig.v` routes,
  travel times and the contract of `nx.all_simple_paths`, `ConfigFacts.v`, `ConfigPaths.v`, `ConfigSetup.v` proofs.
* `BnbOrg.v` the branch and bound that returns its branches (`branch.py`), with the local variables that outlive an
  iteration; `BnbOrgFacts.v` proofs.
* `Power.v` the network of `demos/power_house/batch.py`; `SpecPower.v` failures, repairs and days without power,
  `BnetFacts.v` elimination in networks of random and functional nodes, `PowerNodes.v`, `PowerFacts.v`, `PowerHouse.v`,
  `PowerMain.v`, `PowerDist.v` proofs.
* `MaxFlow.v` the system function and input of `demos/max_flow/batch.py`; `SpecMaxFlow.v` flows with and without
  directions, the input file and its probabilities; `MaxFlowFacts.v` proofs, `MaxFlowRef.v` a reference for
  `nx.maximum_flow`.
* `PfMap.v` the failure map of `demos/pf_map/batch.py` and `get_arcs_length` of `trans.py`; `SpecMap.v` distances,
  travel times and late nodes; `PfMapGeom.v` the distance, `PfMapFacts.v` the probabilities and covariances,
  `PfMapMain.v` the system function of a node, `PfMapRun.v` its search, `PfMapTable.v` the table.
* `WriteNet.v` the writing of network files (`trans.py`) and the demos `road`, `EMA` and `SF` that use them; `SpecWrite.v`
  times of arcs, delays and slow trips; `WriteFacts.v` the table and the system of delays, `WriteRun.v` the two searches.
* `DemoNet.v` the demos `rbd`, `routine` and `n3e3`; `SpecDemo.v` joined ends, probabilities of components, rows of a
  matrix; `SysJoint.v` elimination that keeps one component, `TwoNet.v` the search over a network of two-state
  components, `RbdRun.v` and `RouRun.v` the demos from end to end.
* `SysNot.v` `compute_prob` with either value of the flag; `SpecNext.v` unknown ends and the most probable branch,
  `BrcNext.v` the choice of the next vector (`get_comp_st`).
* `CondEst.v` estimates of conditional probabilities (`get_prob_and_cov_cond`, `get_rat_dist`, `np.percentile`);
  `SpecCond.v` effective sample sizes, percentiles, summaries; `CondFacts.v`, `CondRun.v` lemmas; `PropCond.v` C87.
* `BnbDump.v` the reading of one file of the path-based branch and bound; `SpecDump.v` merged lists; `PropDump.v` C88.
* `PostMap.v` demos/pf_map/post.py; `SysProd.v`, `PostRun.v`, `PostUpd.v`, `PostSame.v`, `PostDep.v`, `PostEnc.v` lemmas; `SpecPost.v` random variables with finitely many values; `PropPost.v` C89, C90.
* `HybProd.v` the product of system and components with samples; `SpecHybProd.v` joint weights, `HybProdFacts.v` products of CPMs that have samples only; `PropHybProd.v` C91.
* `RouConn.v` `conn` of the routine demo; `SpecConn.v` chains of arcs, `SpecCut.v` cuts, `MinCut.v` greatest flow and least cut, `RouConnFacts.v` proofs; `PropConn.v` C92, C93.
* `Ctor.v` setters after creation, one-dimensional `C`, `Cpm.sort`; `SpecCtor.v`, `CtorFacts.v`; `PropCtor.v` C94, C95.
* `SpecExact.v`, `ExactFacts.v`, `PropExact.v` C96, C97: the outcome of a search that runs to the end (no new model code): extreme vectors, corners of rules.
* `BndFacts.v`, `PropBnd.v`: completions of incomplete CPMs (C98); `PropTight.v`: optimality of the bounds of the search (C99)
* `PropSharp.v`: C23, C28, C32: when products of lists and `merge` succeed, and how far failure rules are underestimated.
* `Heap.v` CPM objects whose arrays of probabilities are shared; `SpecHeap.v` programs on values; `HeapFacts.v` the two agree; `PropHeap.v` C100.
* `SpecSplit.v`, `SplitFacts.v`, `PropSplit.v`: a search of brc.py made in several runs (C101).
* `Round.v`, `SpecRound.v`, `RoundFacts.v`, `PropRound.v`: brc.py with rounded arithmetic (C102).
* `PropErr.v`: exact outcomes, including exceptions, of small functions (C103).
* `BrcHeap.v` `brc.run` with branches, component vectors and rule sets in a heap; `SpecBrcHeap.v` vocabulary; `BrcHeapFacts.v`, `BrcHeapRun.v` comparison with `Brc.v`; `PropBrcHeap.v` C104.
* `RoundInf.v`, `SpecRoundInf.v`, `RoundInfFacts.v`, `PropRoundInf.v`: inference with computed products and sums (C105).
* `Small.v`, `PropSmall.v`: small functions of utils, cpm, operation, branch, variable and config (C106).
* `PropReject.v`: accepted inputs and exceptions of further functions (C107).
* `RouInf.v`, `PropRouInf.v`: the inference functions of demos/routine (C108).
* `Pole.v`, `PropPole.v`: the map of poles of demos/power_house (C109).
* `Gmpe.v`, `PropGmpe.v`: the attenuation of demos/pf_map, over the real numbers (C110).
* `LogProd.v`, `PropLogProd.v`: products by logarithms, over the real numbers (C111).
* `Interval.v`, `PropInterval.v`: confidence intervals, over the real numbers (C112).
* `SpecTest.v`, `TestCpm.v`, `TestOp.v`, `TestBrc.v`, `TestNet.v`: inputs and expected values of the repository's tests; `PropTest.v`: the model passes them (C113).
* `PropFly.v`: compatibility of variables without a table (C114).
* `HybCal.v`, `HybCalFacts.v`, `PropHybCal.v`: model of `cal_Msys_by_cond_VE` with samples, and its exact rows (C115).
* `SpecHybCal.v`, `HybCalSamp.v`, `PropHybSamp.v`: the samples and weights of that result for a hazard network, and the estimate from them (C116).
* `PropData.v`: the table of pf_map (C80), columns of a CPM and tables of variables (C106).
* `SfNet.v` the demo SF; `SfRun.v`, `PropSf.v` proofs (C117).
* `PowerCut.v` main of the demo power_house; `PropPowerCut.v` proofs (C118).
* `EmaBrc.v` edge classes and main of demos/EMA/brc.py; `PropEmaBrc.v` proofs (C119).
* `FlowMcs.v` run_MCS of demos/max_flow/batch.py; `PropFlowMcs.v` proofs (C120).
* `PfMcs.v` run_MCS of demos/pf_map/batch.py; `PropPfMcs.v` proofs (C121).
* `Compare.v` comparison, hash and order of variables and branches; `PropCompare.v` proofs (C122).
* `PfSingle.v` run_single and debug of demos/pf_map/batch.py; `PropPfSingle.v` proofs (C123).
* `PropChoice.v` which component splits a branch (C124); it uses the model in `Brc.v`.
* The other modules are added as the model grows (see the plan).
* `Spec*.v` the independent specifications used in the statements.
* `Prop*.v` the final theorems, one or more per property, each with a
  concrete `Example` that meets its hypotheses and `Print Assumptions`.

## Plan per property

* C01-C05 (`variable.py`): `gen_B`, `get_state`, `get_set`,
  `find_state_from_vector`, `get_composite_state` are modelled completely;
  proofs by induction on the combinations enumeration.
* C06-C09, C11, C22 (`brc.py`/`branch.py` rule functions): complete models,
  specification by sets of component vectors.
* C10, C13-C15, C17, C19: `decomp_depth_first` as a loop over passes;
  invariants: the branches partition the space, probabilities are box
  probabilities, labels agree with the rules.
* C12: termination by the total width of the unsettled branches.
* C16, C18, C20, C21: `run` as a loop with an arbitrary system function;
  the specification is the sum of the probabilities of all failing vectors.
  C18 is expected to be false under truncation by `max_nb`; then a refutation
  witness is proved together with the true restricted statement.
* C23: expected false for failure rules (`range(v)` leaves out `v`).
* C24, C25: `get_csys` plus the CPM engine.
* C26-C35, C54 (`cpm.py`): a CPM denotes the function from joint basic states to
  the sum of the probabilities of the matching rows; each operation is proved
  to compute the corresponding operation on functions.  C33 is expected to
  hold; C32 is false in general (crash when rows differ) and C35
  false (`B_fly` does not exist).
* C36, C37: network traversals, graph specification by an inductive relation.
* C38: expected false (state 0 is treated as "not sampled"; the computed
  sampling order is ignored).
* C39, C40: expected false in general (state numbers are taken before
  sorting), true when the parents share one value list.
* C41: complete model of `prod_Msys_and_Mcomps`.
* C42-C46: path-based branch and bound with an explicit directory.  C45 is
  expected to be false (stale files of earlier runs are read back).
* C47-C49: legacy search `run_bnb`, `get_cmat`, `bnb_sys`; C48 and C49 are
  expected to be false in general.
* C50: graphs as edge lists; connectivity as reachability; the shortest-path
  routine of networkx is replaced by its specification.
* C55-C58: the same for travel times and several destinations, composed with
  the search of `brc.run` and the event matrix.
* C51, C59-C62: exact finite distributions for one sample; the loops as functions of the
  list of outcomes, proved for every list.
* C63, C64: conditioning on each row of the conditioning CPMs gives one share of the
  marginal.  The elimination succeeds when the shares have the same rows (simulation of one
  share by another); it fails on some lists whose shares have different rows.
* C65: the whole chain from ancestor selection to the merged system CPM, for networks of one
  hazard, its components and a system.  C66: the same when some components are kept; the
  rows for the states of the hazard simulate each other, so the merge succeeds.
* C67-C70: the samples of a network are a list of joint states, every CPM holds its part of
  each; operations are proved to act on the weights sample by sample, and the weights of a
  conditioned network to be those of likelihood weighting.
* C71: every outcome of the rejection sampler is an exception.
* C72: a flow is one signed number for each edge; the graph with the extra sink is related to the
  network of the components, and the rule to the flow that it carries.
* C73: the rows of the program hold at a point exactly when its flows are a plan; optimality, rule and
  bounds follow; routes by a cut argument stage by stage.

* C74-C76: the graph after reading is described entry by entry (induction from the end of the list); a route of the
  file is a trip of its graph, a route without repeated nodes is a listed path, and C42, C44, C46 do the rest.
* C77: of every round only the branches made from the last start branch are kept; the branches at the end are the
  leaves of one tree for both search orders, and the covered states decrease in every round.
* C78: every node is a root with a table or a function of earlier nodes; eliminating a functional variable substitutes
  its value, so what remains is a sum over scenarios and failures.
* C79: as C72, with a lower bound of 0 or minus the capacity on the flow of an edge; the input file gives well-formed
  variables and probabilities.
* C80: the distance by the quadratic along the segment; roots, logarithms, the normal distribution and the results of
  the ground motion model are parameters. The matrix is a multiple of the all-ones matrix plus a non-negative diagonal.
* C81: the system function of a node meets `sys_ok` for "not late" (C56), so the bounds follow from C16, exactness from
  C18/C52 (the limits cannot stop the search: branches and calls are no more than state vectors), and the CPMs from C25.
* C82: the table by induction over the arcs, reading by C74, the event matrices by C58 with travel times as walks of the
  read graph.
* C83: both searches meet `sys_ok` for "not slow", the second starts from the rules of the first (C16), exactness by
  C18/C52; after a complete first search every vector is classified, so the second evaluates nothing (C20).
* C84: elimination of all components but one leaves the joint table of that component and the system (as in C66); the
  order of its columns is the order of the names. Success also with unknown branches, because every vector keeps a state.
* C85: the product (C41) summed over the components is the elimination of C25. C86: rows and branches correspond (C22).
* C87: per round the true cases are effective size times share of the weights, so that all shape parameters are positive
  when the event includes the condition; percentiles by counting in the sorted list.
* C88: the contents written in a round depend only on the open branches of the round before, so a run from file i is the rest of the run.
* C89, C90: the stored rows are the branches of the map, which part the states of the roads whatever the weights; sums of weights over branches labelled late, not late and unknown.
* C91: products of CPMs without rows keep the samples (as C68), the columns are found by name.
* C92, C93: a greatest flow leaves no residual edge across the set of nodes that more flow can reach (feasible flows are mixed, no augmenting path is needed); reachability over arcs by merging classes.
* C94, C95: what the setters test, entry by entry; sorting tagged rows, so that `argsort` and stable sorting agree.
* C96/C97: show that the rules are a fold of update_rule_set over the calls (no other change), hence free of redundancy and idle entries; with C18 every extreme vector is the corner of a rule and, by irredundancy, nothing else is.
* C98, C99: bounds are exact ranges (completions of a CPM; coherent systems that agree with the rules)
* C100: side effects: objects and arrays as stores, programs as lists of operations, simulation by values.
* C101 (search in several runs): relate one long run to two short ones state by state; the monitors are joined by a definition of SpecSplit.v.
* C102 (rounding): the search of Brc.v with a rounding after each operation; show that it is a search with free choices (partition and labels do not depend on the choices), then count relative errors.
* C103 (outcomes): for functions whose exceptions other theorems leave open, prove an equation for every kind of input.
* C104 (sharing): simulate the model without sharing step by step; a copy after each pass makes all objects of the search new.
* C105 (rounding in inference): product, sum, get_prob and variable_elim with a computed multiplication and summation as parameters; rows do not depend on the numbers, so relate tables row by row and count relative errors.
* C106, C107 (small functions, rejections): state for every input whether it is accepted and which exception is raised otherwise, so that a changed exception or bound is noticed.
* C108 (older inference functions): compare with the models of the library functions and their theorems.
* C109 (poles): describe the ends by the paths and houses only; induction over the set in any order; witnesses for the order when a house is missing.
* C110 (attenuation): mean value theorem on each range of distance, joined at 70 and 130 km; the growth with the magnitude by comparing the near term with its exponential growth.
* C111 (logarithms): numbers extended by the logarithm of 0; connect with the rational products of Cpm.v and Sample.v.
* C112 (intervals): the normal density is at most one over the square root of six; compare intervals of two confidences.
* C113 (tests): evaluation of the model on the inputs of the tests.
* C114 (no table): invariant of the loop over the checked variables: once no row is left, none comes back.
* C115 (system marginal with samples): every step with samples gives the rows of the step without; without samples both succeed together.
* C116 (samples of the system marginal): the samples follow the rows of the hazard block by block; the sum of the weights over the states of the hazard is an importance weight, so that marginals commute with it.
* C117 (demo SF): like C86 with probabilities 1/2 as lists; states are counted by exchanging the sums over rows and over states.
* C118 (mean days without power): the CPM left by an elimination lists basic states of the house, so get_means is the sum of k times the probability of k days, which is the average of the days.
* C119 (edge classes): the shuffled list is the concatenation of three slices; main shares its preparation with batch.py, whose success (C83) gives success up to the missing name.
* C120 (simulation of flows): the system function of C79 is right on all state vectors, so C62 applies; its failure probability is that of C79.
* C121 (simulation of the map): results of the time routine survive the addition of variables, so the system function answers as in C81 and C62 applies.
* C122 (comparisons): case analysis against a relation on names, maps and values; the order against the definition by a common prefix.
* C123 (single node): the preparation equals that of main, so the facts about process_node behind C81 apply.
* C124 (choice of the split): the counter counts, both sorts put the largest first, and every component of a compatible rule is usable.

Whether a property holds, holds partly (`_partial`) or is refuted
(`_refuted`) is recorded in `MANIFEST.json`.
