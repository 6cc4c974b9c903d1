(** Inputs and expected values of /repo/BNS_JT/tests/test_operation.py and of the tests with
    samples in test_cpm.py. *)
From Coq Require Import ZArith List String Bool Arith QArith Qcanon.
From Verif Require Import Py Num Vari Cpm Small Net VeCond MsysProd SysVal Hybrid Brc Flow FlowRef SpecTest TestCpm.
Import ListNotations.
Open Scope string_scope.
Open Scope Z_scope.
Open Scope list_scope.

Definition vnames (vs : list variable) (ns : list string) : bool := strs_eqb (names vs) ns.
Definition bools_eqb (a b : list bool) : bool := (List.length a =? List.length b)%nat && forallb (fun p => Bool.eqb (fst p) (snd p)) (combine a b).

(** test_operation.py 131-171; column [isinscope] *)
Definition a7 (k : string) : variable := tv k ["s"; "f"].
Definition a_cpm (k : string) : cpm := mkCpm [a7 k] 1 [[1]; [0]] [1; 1]%Qc.
Definition c7 := less1 [[1; 3; 1; 3; 3; 3; 3]; [2; 1; 2; 1; 3; 3; 3]; [3; 1; 2; 2; 3; 3; 3]; [3; 2; 2; 3; 3; 3; 3]].
Definition A7M : cpm := mkCpm (map a7 ["A7"; "A1"; "A2"; "A3"; "A4"; "A5"; "A6"]) 1 c7 [1; 1; 1; 1]%Qc.
Definition scope_cpms := map a_cpm ["A1"; "A2"; "A3"; "A4"; "A5"; "A6"] ++ [A7M; A7M; A7M; A7M].
Definition scope_of (ns : list string) : list bool := map (fun M => existsb (fun n => in_scope (a7 n) M) ns) scope_cpms.
Definition tests_scope : Prop :=
  bools_eqb (scope_of ["A1"]) [true; false; false; false; false; false; true; true; true; true] = true /\
  bools_eqb (scope_of ["A1"; "A2"]) [true; true; false; false; false; false; true; true; true; true] = true.

(** test_operation.py 40-75 [setup_mcs_product], 174-211, 835-851 *)
Definition w1 := tv "v1" ms. Definition w2 := tv "v2" sf. Definition w3 := tv "v3" sf.
Definition W1 := mkCpm [w1] 1 [[0]; [1]] [d1 9; d1 1].
Definition W2 := mkCpm [w2; w1] 1 C22 [d2 99; d2 1; d1 9; d1 1].
Definition W3 := mkCpm [w3; w1] 1 C22 [d2 95; d2 5; d2 85; d2 15].
Definition hz (k : string) : variable := tv k ["fail"; "surv"].
Definition haz := tv "haz" ["mild"; "severe"].
Definition Ch := [[0; 0]; [1; 0]; [0; 1]; [1; 1]].
Definition Hhaz := mkCpm [haz] 1 [[0]; [1]] [d1 7; d1 3].
Definition Hx0 := mkCpm [hz "x0"; haz] 1 Ch [d1 1; d1 9; d1 2; d1 8].
Definition Hx1 := mkCpm [hz "x1"; haz] 1 Ch [d1 3; d1 7; d1 4; d1 6].
Definition Hsys := mkCpm [hz "sys"; hz "x0"; hz "x1"] 1 [[0; 0; 0]; [1; 1; 1]] [1; 1]%Qc.
Definition tests_order : Prop :=
  (let '(o, vs, a) := get_sample_order [W1; W2; W3] in o = [0; 1; 2]%nat /\ vnames vs ["v1"; "v2"; "v3"] = true /\ a = [0; 1; 2]%nat) /\
  get_prod_idx [W1; W2; W3] [] = Some 0%nat /\
  get_prod_idx [W1; W2; W3] [w3] = Some 0%nat /\
  get_prod_idx [Hx0; Hx1] [] = None.

(** test_operation.py 399-452 *)
Definition cond_test (M : cpm) : bool := cpm_test ["v3"; "v1"] 1 [[0; 0]; [1; 0]] 0%Qc [d2 95; d2 5] M.
Definition one_cond (l : list cpm) : bool := match l with [M] => cond_test M | _ => false end.
Definition tests_cond : Prop :=
  passes (op_condition [W3] (Vars [w1; w2]) [SI 0; SI 0]) one_cond /\
  passes (op_condition [W3] (Vars [w1]) [SI 0]) one_cond /\
  passes (condition W3 (Vars [w1]) [SI 0]) cond_test.

(** test_operation.py 465-521 *)
Definition m12 := mkCpm [sfv "v1"; sfv "v2"] 1 [[0; 0]; [1; 1]] [1; 1]%Qc.
Definition m23 := mkCpm [sfv "v2"; sfv "v3"] 1 [[0; 0]; [1; 1]] [1; 1]%Qc.
Definition m3 := mkCpm [sfv "v3"] 1 [[0]; [1]] [d5 99476; d5 524].
Definition tests_get_variables : Prop :=
  passes (op_get_variables [m12; m23; m3] ["v1"]) (fun vs => vnames vs ["v1"]) /\
  passes (op_get_variables [m12; m23; m3] ["v1"; "v3"; "v2"]) (fun vs => vnames vs ["v1"; "v3"; "v2"]) /\
  raises (op_get_variables [m12; m23; m3] ["v4"; "v1"; "v2"]) AssertionError /\
  passes (op_get_variables [Hhaz; Hx0; Hx1; Hsys] ["x0"; "x1"]) (fun vs => vnames vs ["x0"; "x1"]).

(** test_cpm.py 274-295 [setup_hybrid] *)
Definition idx5 := [0; 1; 2; 3; 4].
Definition Shaz := mkH Hhaz [[0]; [0]; [0]; [1]; [0]] [d1 7; d1 7; d1 7; d1 3; d1 7] [] idx5.
Definition Sx0 := mkH Hx0 [[0; 0]; [1; 0]; [1; 0]; [0; 1]; [1; 0]] [d1 1; d1 9; d1 9; d1 2; d1 9] [] idx5.
Definition Sx1 := mkH Hx1 [[1; 0]; [0; 0]; [0; 0]; [1; 1]; [0; 0]] [d1 7; d1 3; d1 3; d1 6; d1 3] [] idx5.
Definition Ssys := mkH Hsys [[0; 0; 1]; [1; 1; 0]; [1; 1; 0]; [0; 0; 1]; [1; 1; 0]] [1; 1; 1; 1; 1]%Qc [] idx5.
Definition h_test (ns : list string) (C : list (list Z)) (p : list Qc) (Cs : list (list Z)) (e : Qc) (q ps : list Qc) (M : hcpm) : bool :=
  vnames (c_vars (h_c M)) ns && rows_eqb (c_C (h_c M)) C && near e (c_p (h_c M)) p && rows_eqb (h_Cs M) Cs && near e (h_q M) q && near e (h_ps M) ps &&
  zs_eqb (h_idx M) idx5.
(** test_cpm.py 1470-1527 *)
Definition cond_haz (M : hcpm) : res hcpm := h_condition M (Vars [haz]) [SI 0].
Definition Mp0 : res hcpm := a <- cond_haz Shaz ;; b <- cond_haz Sx0 ;; h_product a b.
Definition Mp1 : res hcpm := a <- Mp0 ;; b <- cond_haz Sx1 ;; h_product a b.
Definition q0 := [d2 7; d2 63; d2 63; d2 6; d2 63].
Definition ps0 := [d3 49; d3 441; d3 441; d3 21; d3 441].
Definition q1 := [d3 49; d3 189; d3 189; d3 36; d3 189].
Definition ps1 := [d4 343; d4 1323; d4 1323; d3 15; d3 132].
Definition tests_hybrid_product : Prop :=
  passes (h_product Shaz Sx0)
    (h_test ["haz"; "x0"] [[0; 0]; [1; 0]; [0; 1]; [1; 1]] [d2 7; d2 6; d2 63; d2 24] [[0; 0]; [0; 1]; [0; 1]; [1; 0]; [0; 1]] 0%Qc q0 q0) /\
  passes Mp0 (h_test ["haz"; "x0"] [[0; 0]; [0; 1]] [d2 7; d2 63] [[0; 0]; [0; 1]; [0; 1]; [1; 0]; [0; 1]] 0%Qc q0 ps0) /\
  passes Mp1 (h_test ["haz"; "x0"; "x1"] [[0; 0; 0]; [0; 1; 0]; [0; 0; 1]; [0; 1; 1]] [d3 21; d3 189; d3 49; d3 441]
                [[0; 0; 1]; [0; 1; 0]; [0; 1; 0]; [1; 0; 1]; [0; 1; 0]] tol3 q1 ps1).
(** test_cpm.py 1529-1577 *)
Definition tests_hybrid_sum : Prop :=
  passes (M <- Mp0 ;; h_sum M (Vars [hz "x0"]) true) (h_test ["haz"] [[0]] [d1 7] [[0]; [0]; [0]; [1]; [0]] 0%Qc q0 ps0) /\
  passes (M <- Mp1 ;; h_sum M (Vars [haz]) true)
    (h_test ["x0"; "x1"] [[0; 0]; [1; 0]; [0; 1]; [1; 1]] [d3 21; d3 189; d3 49; d3 441] [[0; 1]; [1; 0]; [1; 0]; [0; 1]; [1; 0]] tol3 q1 ps1).
(** test_operation.py 642-664 *)
Definition cps_test (C : list (list Z)) (ps : list Qc) (M : hcpm) : bool := rows_eqb (c_C (h_c M)) C && near 0%Qc (h_ps M) ps.
Definition tests_hybrid_cond : Prop :=
  passes (h_op_condition [Shaz; Sx0; Sx1; Ssys] [haz] [SI 0])
    (fun l => match l with
              | [a; b; c; d] =>
                  cps_test [[0]] (map (fun q => (q * d1 7)%Qc) (h_q Shaz)) a && cps_test [[0; 0]; [1; 0]] [d1 1; d1 9; d1 9; d1 1; d1 9] b &&
                  cps_test [[0; 0]; [1; 0]] [d1 7; d1 3; d1 3; d1 7; d1 3] c && cps_test [[0; 0; 0]; [1; 1; 1]] [1; 1; 1; 1; 1]%Qc d
              | _ => false
              end).
(** test_operation.py 667-684 and test_cpm.py 1343-1353; the c.o.v. is compared by its square *)
Definition between (lo hi x : Qc) : bool := qc_leb lo x && qc_leb x hi.
Definition est_test (pr cv : Qc) (r : Qc * Qc) : bool :=
  approx (d3 1) (fst r) pr && (let lo := (cv * d3 999)%Qc in let hi := (cv * d3 1001)%Qc in between (lo * lo)%Qc (hi * hi)%Qc (snd r)).
Definition helim : res hcpm := h_variable_elim [Shaz; Sx0; Sx1; Ssys] [haz; hz "x0"; hz "x1"].
Definition tests_hybrid_elim : Prop :=
  passes helim (h_test ["sys"] [[0]; [1]] [d3 45; d3 585] [[0]; [1]; [1]; [0]; [1]] tol3 q1 q1) /\
  passes (M <- helim ;; get_prob_and_cov M [hz "sys"] [SI 0] MLE true 0) (est_test (d3 193) (d2 42)).

(** test_operation.py 78-106 [setup_Msys_Mcomps], 687-760 *)
Definition K (k : string) (a b : Qc) : cpm := mkCpm [hz k] 1 [[0]; [1]] [a; b].
Definition Kc (k : string) (s : Z) (a b : Qc) : cpm := mkCpm [hz k; haz] 1 [[0; s]; [1; s]] [a; b].
Definition K0 := K "x0" (d1 1) (d1 9). Definition K1 := K "x1" (d1 2) (d1 8). Definition K2 := K "x2" (d1 3) (d1 7).
Definition Ksys := mkCpm [hz "sys"; hz "x0"; hz "x1"; hz "x2"] 1 [[0; 0; 2; 2]; [1; 1; 1; 2]; [1; 1; 0; 1]; [0; 1; 0; 0]] [1; 1; 1; 1]%Qc.
Definition Kc0 := Kc "x0" 0 (d2 5) (d2 95). Definition Kc1 := Kc "x1" 0 (d1 1) (d1 9). Definition Kc2 := Kc "x2" 0 (d1 2) (d1 8).
Definition haz2 := tv "haz2" ["mild"; "severe"].
Definition tests_prod_sys : Prop :=
  passes (prod_sys Ksys [K0; K1; K2])
    (cpm_test ["sys"; "x0"; "x1"; "x2"] 4 [[0; 0; 2; 2]; [1; 1; 1; 2]; [1; 1; 0; 1]; [0; 1; 0; 0]] tol3 [d1 1; d2 72; d3 126; d3 54]) /\
  passes (prod_sys Ksys [Kc0; Kc1; Kc2])
    (cpm_test ["sys"; "x0"; "x1"; "x2"; "haz"] 4 [[0; 0; 2; 2; 0]; [1; 1; 1; 2; 0]; [1; 1; 0; 1; 0]; [0; 1; 0; 0; 0]] tol3
       [d2 5; d3 855; d3 76; d3 19]) /\
  passes (prod_sys Ksys [K0; K2])
    (cpm_test ["sys"; "x0"; "x2"; "x1"] 3 [[0; 0; 2; 2]; [1; 1; 2; 1]; [1; 1; 1; 0]; [0; 1; 0; 0]] tol3 [d1 1; d1 9; d2 63; d2 27]) /\
  passes (prod_sys Ksys [Kc1; Kc2])
    (cpm_test ["sys"; "x1"; "x2"; "x0"; "haz"] 3 [[0; 2; 2; 0; 0]; [1; 1; 2; 1; 0]; [1; 0; 1; 1; 0]; [0; 0; 0; 1; 0]] tol3
       [1%Qc; d1 9; d2 8; d2 2]) /\
  raises (prod_sys Ksys [Kc0; Kc "x1" 1 (d1 1) (d1 9)]) AssertionError /\
  raises (prod_sys Ksys [Kc0; mkCpm [hz "x2"; haz2] 1 [[0; 0]; [1; 0]] [d1 2; d1 8]]) AssertionError /\
  passes (prod_sys Ksys [K0; K2; K "x3" (d1 3) (d1 7)])
    (cpm_test ["sys"; "x0"; "x2"; "x1"] 3 [[0; 0; 2; 2]; [1; 1; 2; 1]; [1; 1; 1; 0]; [0; 1; 0; 0]] tol3 [d1 1; d1 9; d2 63; d2 27]).

(** test_operation.py 806-832 and test_cpm.py 1328-1340 *)
Definition hcpms : dict cpm := [("haz", Hhaz); ("x0", Hx0); ("x1", Hx1); ("sys", Hsys)].
Definition hvaris : dict variable := [("haz", haz); ("x0", hz "x0"); ("x1", hz "x1"); ("sys", hz "sys")].
Definition bnd_test (lo hi : Qc) (r : option Qc * Qc) : bool :=
  match fst r with Some l => approx (d3 1) l lo && approx (d3 1) (snd r) hi | None => false end.
Definition tests_cal_msys : Prop :=
  passes (cal_msys hcpms hvaris ["haz"] ["haz"; "x0"; "x1"] "sys") (cpm_test ["sys"] 1 [[0]; [1]] tol3 [d3 45; d3 585]) /\
  passes (M <- cal_msys hcpms hvaris ["haz"] ["haz"; "x0"; "x1"] "sys" ;; get_prob_bnd M (Names ["sys"]) [SI 0] true (Names []) [] true)
    (bnd_test (d3 45) (d3 415)) /\
  passes (cal_msys hcpms hvaris ["haz"] ["haz"; "x1"] "sys") (fun M => rows_eqb (c_C M) [[0; 0]; [1; 1]] && near tol3 (c_p M) [d3 45; d3 585]) /\
  passes (M <- cal_msys hcpms hvaris ["haz"] ["haz"; "x1"] "sys" ;;
          get_prob_bnd M (Names ["x0"; "sys"]) [SI 0; SI 0] true (Names ["sys"]) [SI 0] true)
    (bnd_test (d3 45 / d3 415)%Qc 1%Qc) /\
  get_inf_vars hcpms ["sys"] (Some ["haz"; "x0"; "x1"]) = Ok ["haz"; "x0"; "x1"; "sys"].

(** test_operation.py 881-950 *)
Definition nv (k : string) (n : Z) : variable := mk_variable k (map (fun z => VNum (qz z)) (zrange 0 n)) None.
Fixpoint vals_are (l : list value) (z : list Z) : bool :=
  match l, z with
  | [], [] => true
  | VNum q :: l', a :: z' => qc_eqb q (qz a) && vals_are l' z'
  | _, _ => false
  end.
Definition val_test (C : list (list Z)) (z : list Z) (r : cpm * variable) : bool := rows_eqb (c_C (fst r)) C && vals_are (v_values (snd r)) z.
Definition tests_sys_val : Prop :=
  passes (sys_max_val "s" [nv "x0" 3; nv "x1" 4])
    (val_test [[0; 0; 0]; [1; 1; 4]; [2; 2; 10]; [1; 0; 1]; [2; 3; 2]; [3; 6; 3]] [0; 1; 2; 3]) /\
  passes (sys_max_val "s" [nv "x0" 3; nv "x1" 4; nv "x2" 2])
    (val_test [[0; 0; 0; 0]; [1; 1; 4; 2]; [2; 2; 10; 2]; [1; 0; 1; 2]; [2; 3; 2; 2]; [3; 6; 3; 2]; [1; 0; 0; 1]] [0; 1; 2; 3]) /\
  passes (sys_min_val "s" [nv "x0" 3; nv "x1" 4])
    (val_test [[0; 0; 14]; [1; 1; 13]; [2; 2; 9]; [0; 5; 0]; [1; 2; 1]] [0; 1; 2]) /\
  passes (sys_min_val "s" [nv "x0" 3; nv "x1" 4; nv "x2" 2])
    (val_test [[0; 6; 14; 0]; [1; 5; 13; 1]; [0; 0; 14; 1]; [0; 5; 0; 1]] [0; 1]).

(** test_operation.py 966-1006 *)
Definition hl (k : string) : variable := tv k ["low"; "high"].
Definition Cx := [[0; 0; 0]; [1; 0; 0]; [0; 1; 0]; [1; 1; 0]; [0; 0; 1]; [1; 0; 1]; [0; 1; 1]; [1; 1; 1]].
Definition E0 := mkCpm [hl "h0"] 1 [[0]; [1]] [d1 9; d1 1].
Definition E1 := mkCpm [hl "h1"] 1 [[0]; [1]] [d1 8; d1 2].
Definition Ex0 := mkCpm [hz "x0"; hl "h0"; hl "h1"] 1 Cx (map d1 [1; 9; 2; 8; 3; 7; 4; 6]).
Definition Ex1 := mkCpm [hz "x1"; hl "h0"; hl "h1"] 1 Cx (map d1 [5; 5; 6; 4; 7; 3; 8; 2]).
Definition Esys := mkCpm [hz "sys"; hz "x0"; hz "x1"] 1 [[1; 1; 2]; [1; 0; 1]; [0; 0; 0]] [1; 1; 1]%Qc.
Definition test_elim_cond : Prop :=
  passes (variable_elim_cond [Esys; Ex0; Ex1] [hz "x0"; hz "x1"] [E0; E1])
    (fun o => match o with Some M => rows_eqb (c_C M) [[0]; [1]] && near tol3 (c_p M) [d4 898; d4 9102] | None => false end).

(** test_operation.py 1009-1062, with the reference solver of FlowRef.v *)
Definition e5 : dict (string * string) := [("e1", ("n1", "n2")); ("e2", ("n1", "n3")); ("e3", ("n2", "n3")); ("e4", ("n2", "n4")); ("e5", ("n3", "n4"))].
Definition v5 : dict variable := map (fun kv => (fst kv, nv (fst kv) 3)) e5.
Definition x5 (a b c d e : Z) : dict Z := [("e1", a); ("e2", b); ("e3", c); ("e4", d); ("e5", e)].
Definition flow_test (v : Z) (s : st) (m : option (dict Z)) (r : Qc * st * option (dict Z)) : bool :=
  let '(v', s', m') := r in
  qc_eqb v' (qz v) && st_eqb s' s &&
  match m', m with Some a, Some b => dict_eqb a b | None, None => true | _, _ => false end.
(** The flow of networkx in the first two tests: 1 along the path.  Other maximum flows exist, with other
    rules (for example with a flow from n2 to n3 and back). *)
Definition along (p : list string) (_ : cgraph) (_ _ : string) : res (Qc * (string -> string -> Qc)) :=
  Ok (1%Qc, fun a b => if existsb (fun e => String.eqb (fst e) a && String.eqb (snd e) b) (combine p (skipn 1 p)) then 1%Qc else 0%Qc).
(** lines 1011-1043 *)
Definition tests_max_flow : Prop :=
  passes (max_flow (along ["n1"; "n2"; "n4"; "new_t"]) (x5 2 2 2 2 2) 1%Qc "n1" "n4" e5 v5) (flow_test 1 S_ (Some [("e1", 1); ("e4", 1)])) /\
  passes (max_flow (along ["n1"; "n3"; "n4"; "new_t"]) (x5 0 2 2 2 2) 1%Qc "n1" "n4" e5 v5) (flow_test 1 S_ (Some [("e2", 1); ("e5", 1)])) /\
  passes (max_flow nx_lp (x5 0 0 2 2 2) 1%Qc "n1" "n4" e5 v5) (flow_test 0 F_ None).
