(** C113: the model passes the repository's tests (SpecTest.v, TestCpm.v, TestOp.v, TestBrc.v and
    TestNet.v hold their inputs and expected values). *)
From Coq Require Import ZArith List String Bool Arith QArith Qcanon Lia.
From Verif Require Import Py Num Vari Cpm SpecTest TestCpm TestOp TestBrc TestNet.
Import ListNotations.
Open Scope string_scope.
Open Scope Z_scope.
Open Scope list_scope.

Ltac run := repeat match goal with |- _ /\ _ => split end; vm_compute; repeat split; reflexivity.

(** test_variable.py *)
Theorem C113_variable : tests_variable /\ test_bst.
Proof. unfold tests_variable, test_bst. run. Qed.
Print Assumptions C113_variable.

(** test_cpm.py: construction, subsets, compatibility, products, sums, conditions, merging *)
Theorem C113_cpm :
  tests_init /\ tests_subset /\ tests_method /\ test_method4 /\ tests_fn /\ tests_helpers /\ tests_means /\
  tests_product /\ tests_sum /\ test_condition /\ tests_products /\ tests_merge.
Proof.
  unfold tests_init, tests_subset, tests_method, test_method4, tests_fn, tests_helpers, tests_means, tests_product, tests_sum, test_condition,
    tests_products, tests_merge. run.
Qed.
Print Assumptions C113_cpm.

(** test_operation.py, and the samples of test_cpm.py *)
Theorem C113_operation :
  tests_scope /\ tests_order /\ tests_cond /\ tests_get_variables /\ tests_prod_sys /\ tests_cal_msys /\ tests_sys_val /\
  test_elim_cond /\ tests_max_flow.
Proof.
  unfold tests_scope, tests_order, tests_cond, tests_get_variables, tests_prod_sys, tests_cal_msys, tests_sys_val, test_elim_cond, tests_max_flow.
  run.
Qed.
Print Assumptions C113_operation.
Theorem C113_samples : tests_hybrid_product /\ tests_hybrid_sum /\ tests_hybrid_cond /\ tests_hybrid_elim.
Proof. unfold tests_hybrid_product, tests_hybrid_sum, tests_hybrid_cond, tests_hybrid_elim. run. Qed.
Print Assumptions C113_samples.

(** test_brc.py and test_branch.py *)
Theorem C113_brc :
  tests_init_branch /\ tests_get_state /\ tests_update_rule_set /\ tests_composite /\ tests_get_comp_st /\ tests_approx_prob /\
  tests_joint_prob /\ tests_compat_rules /\ tests_get_c /\ tests_new_branch2 /\ tests_new_branch1 /\ tests_decomp /\ tests_bridge_paths /\
  tests_run_sys_fn /\ test_get_csys /\ test_csys3.
Proof.
  unfold tests_init_branch, tests_get_state, tests_update_rule_set, tests_composite, tests_get_comp_st, tests_approx_prob, tests_joint_prob,
    tests_compat_rules, tests_get_c, tests_new_branch2, tests_new_branch1, tests_decomp, tests_bridge_paths, tests_run_sys_fn, test_get_csys,
    test_csys3, s12, composite_test. run.
Qed.
Print Assumptions C113_brc.

Definition passb {A} (r : res A) (t : A -> bool) : bool := match r with Ok a => t a | Err _ => false end.
Lemma passb_ok {A} (r : res A) t : passb r t = true -> passes r t.
Proof. unfold passb, passes. destruct r; [auto|discriminate]. Qed.
(** test_trans.py and test_bnb_fns.py *)
Theorem C113_trans :
  test_connectivity4 /\ tests_multi_dest /\ tests_connectivity /\ tests_sf_min_path /\ test_edge_from_nodes /\ tests_path_idx /\
  tests_eval_sys_state /\ tests_bnb_sys.
Proof.
  unfold test_connectivity4, tests_multi_dest, tests_connectivity, tests_sf_min_path, test_edge_from_nodes, tests_path_idx, tests_eval_sys_state,
    tests_bnb_sys. run.
Qed.
Print Assumptions C113_trans.
Theorem C113_bridge :
  test_prob_delay1 /\ test_prob_delay2 /\ test_prob_delay3 /\ test_prob_damage /\ test_variable_elim /\ test_prod_sys_comps.
Proof. unfold test_prob_delay1, test_prob_delay2, test_prob_delay3, test_prob_damage, test_variable_elim, test_prod_sys_comps. run. Qed.
Print Assumptions C113_bridge.

(** the comparisons are not trivial: they fail for other values, and for exceptions *)
Example C113_example :
  passb (sum Msum (Names ["A5"]) false) (cpm_test ["A5"; "A1"; "A4"] 1 sum_C tol6 sum_p) = true /\
  passb (sum Msum (Names ["A5"]) false) (cpm_test ["A5"; "A1"; "A4"] 1 sum_C tol6 (rev sum_p)) = false /\
  passb (sum Msum (Names ["A5"]) false) (cpm_test ["A5"; "A1"; "A4"] 1 (rev sum_C) tol6 sum_p) = false /\
  passb (sum Msum (Names ["A5"]) false) (cpm_test ["A5"; "A1"; "A4"] 2 sum_C tol6 sum_p) = false /\
  passb (Err KeyError : res Z) (fun _ => true) = false /\
  near tol4 [d4 9405] [d4 9406] = true /\ near tol4 [d4 9405] [d4 9407] = false /\ near tol4 [d4 9405] [] = false.
Proof. repeat match goal with |- _ /\ _ => split end; vm_compute; reflexivity. Qed.
