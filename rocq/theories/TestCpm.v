(** Inputs and expected values of /repo/BNS_JT/tests/test_variable.py and test_cpm.py, for the
    parts without samples. *)
From Coq Require Import ZArith List String Bool Arith QArith Qcanon.
From Verif Require Import Py Num Vari Cpm Small Ctor Net VeCond Hybrid SpecTest.
Import ListNotations.
Open Scope string_scope.
Open Scope Z_scope.
Open Scope list_scope.

(** the tests' variables: values that are strings, or numbers 0..n-1 *)
Definition tv (name : string) (values : list string) : variable := mk_variable name (map VStr values) None.
Definition tn (name : string) (n : nat) : variable := mk_variable name (map (fun z => VNum (qz z)) (zrange 0 (Z.of_nat n))) None.
Definition tf (name : string) (values : list string) : variable := mk_variable name (map VStr values) (Some FFly).

(** test of a CPM: names of the variables, [no_child], [C], [p] *)
Definition cpm_test (ns : list string) (nch : nat) (C : list (list Z)) (e : Qc) (p : list Qc) (M : cpm) : bool :=
  strs_eqb (names (c_vars M)) ns && (c_nch M =? nch)%nat && rows_eqb (c_C M) C && near e (c_p M) p.
Definition col (l : list Z) : list (list Z) := map (fun z => [z]) l.

(** test_variable.py 16-40, 111-160 *)
Definition x20 : variable := tn "x3" 20.
Definition tests_variable : Prop :=
  v_B (tv "A" ["survival"; "fail"]) = Some [[0]; [1]; [0; 1]] /\
  v_B (update_B (mkVar "A" [VStr "survival"; VStr "fail"] (v_B (mk_variable "A" [] None)) None) None) = Some [[0]; [1]; [0; 1]] /\
  v_eqb (tv "A" ["survival"; "fail"]) (tv "A" ["survival"; "fail"]) = true /\
  ismember [tv "A" ["s"]; tv "A" ["s"]; tv "A" ["s"]] [tv "A" ["s"]; tv "C" ["s"]] = [Some 0%nat; Some 0%nat; Some 0%nat] /\
  v_get_state (tn "x1" 2) [0; 1] = Ok 2 /\ v_get_state (tn "x2" 4) [0; 1; 2] = Ok 10 /\ v_get_state x20 [3; 4; 5] = Ok 670 /\
  v_get_set (tn "x1" 2) 2 = Ok [0; 1] /\ v_get_set (tn "x2" 4) 10 = Ok [0; 1; 2] /\ v_get_set x20 670 = Ok [3; 4; 5] /\
  find_state_from_vector [1; 0] = Ok 0 /\ find_state_from_vector [0; 1] = Ok 1 /\ find_state_from_vector [1; 1] = Ok 2 /\
  find_state_from_vector [1; 1; 0] = Ok 3 /\ find_state_from_vector [1; 1; 1] = Ok 6 /\ find_state_from_vector [0; 0; 0] = Ok (-1).
(** test_variable.py 145-199 *)
Definition bvec1 := [[1; 0; 0]; [1; 0; 0]; [1; 0; 0]; [0; 0; 0]; [0; 0; 0]; [0; 0; 0]].
Definition bvec2 := [[0; 1; 1]; [0; 0; 0]; [0; 0; 0]; [0; 1; 0]; [0; 1; 0]; [0; 0; 1]].
Definition test_bst : Prop :=
  get_Bst_from_Bvec [bvec1; bvec1; bvec2; bvec2; bvec2] =
  Ok [[0; 0; 0; -1; -1; -1]; [0; 0; 0; -1; -1; -1]; [5; -1; -1; 1; 1; 2]; [5; -1; -1; 1; 1; 2]; [5; -1; -1; 1; 1; 2]].

(** test_cpm.py 17-31 [dict_cpm] and 323-412 *)
Definition A1 := tv "A1" ["s"; "f"].
Definition A2 := tv "A2" ["s"; "f"].
Definition A3 := tv "A3" ["s"; "f"].
Definition dict_C := less1 [[2; 2; 3]; [2; 1; 2]; [1; 1; 1]].
Definition dict_p : list Qc := [1; 1; 1]%Qc.
Definition tests_init : Prop :=
  passes (mk_cpm [A3; A2; A1] 1 dict_C dict_p) (cpm_test ["A3"; "A2"; "A1"] 1 dict_C 0%Qc dict_p) /\
  passes (mk_flat [A3] 1 [1; 2] [d1 9; d1 1]) (cpm_test ["A3"] 1 [[1]; [2]] 0%Qc [d1 9; d1 1]) /\
  passes (mk_flat [A3] 1 [1; 2] []) (cpm_test ["A3"] 1 [[1]; [2]] 0%Qc []) /\
  passes (mk_cpm [] 0 [] []) (cpm_test [] 0 [] 0%Qc []) /\
  raises (mk_cpm [A3; A2; A1] 4 dict_C dict_p) AssertionError /\
  passes (M <- mk_cpm [A3; A2; A1] 1 dict_C dict_p ;; get_variable M "A1") (fun v => String.eqb (v_name v) "A1").

(** test_cpm.py 45-65 [setup_iscompatible] (also 265-300 [setup_mcs_product]) *)
Definition ms := ["Mild"; "Severe"].
Definition sf := ["Survive"; "Fail"].
Section iscomp.
Variable mk : string -> list string -> variable.
Definition i1 := mk "1" ms. Definition i2 := mk "2" sf. Definition i3 := mk "3" sf.
Definition i4 := mk "4" sf. Definition i5 := mk "5" sf.
Definition C22 := less1 [[1; 1]; [2; 1]; [1; 2]; [2; 2]].
Definition C54 := less1 [[2; 3; 3; 2]; [1; 1; 3; 1]; [1; 2; 1; 1]; [2; 2; 2; 1]].
Definition N1 := mkCpm [i1] 1 (col [0; 1]) [d1 9; d1 1].
Definition N2 := mkCpm [i2; i1] 1 C22 [d2 99; d2 1; d1 9; d1 1].
Definition N3 := mkCpm [i3; i1] 1 C22 [d2 95; d2 5; d2 85; d2 15].
Definition N4 := mkCpm [i4; i1] 1 C22 [d2 99; d2 1; d1 9; d1 1].
Definition N5 := mkCpm [i5; i2; i3; i4] 1 C54 [1; 1; 1; 1]%Qc.
(** test_cpm.py 495-566, 595-616: [M[k].iscompatible(M[5].get_subset([0]), flag=True)] *)
Definition method_test (M : cpm) : res (list bool) :=
  S <- get_subset N5 [0%nat] true ;; mt_iscompatible (c_C M) (c_vars M) (c_vars S) (hd [] (c_C S)) true.
(** test_cpm.py 896-922, 924-948 *)
Definition fn_test1 : res (list bool) := fn_iscompatible C22 [i2; i1] [i1] [SI 0].
Definition fn_test1s : res (list bool) := fn_iscompatible C22 [i2; i1] [i1] [SS "Mild"].
End iscomp.
Arguments method_test mk M : assert.

Definition big_C := less1 [[1;1;1;1;1]; [2;1;1;1;1]; [1;2;1;1;1]; [2;2;2;1;1]; [1;1;1;2;1]; [2;1;1;2;1]; [1;2;1;2;1]; [2;2;2;2;1];
  [1;1;2;1;2]; [2;1;2;1;2]; [1;2;2;1;2]; [2;2;2;1;2]; [1;1;2;2;2]; [2;1;2;2;2]; [1;2;2;2;2]; [2;2;2;2;2]].
Definition big_p := [d4 9405; d4 95; d4 495; d4 5; d4 7650; d4 850; d4 1350; d4 150; d4 9405; d4 95; d4 495; d4 5; d4 7650; d4 850; d4 1350; d4 150].

Definition T := true.
Definition F := false.
Definition tests_subset : Prop :=
  passes (get_subset (N5 tv) [0%nat] true) (cpm_test ["5"; "2"; "3"; "4"] 1 (less1 [[2; 3; 3; 2]]) 0%Qc [1%Qc]) /\
  passes (get_subset (N5 tv) [1; 2; 3]%nat false) (cpm_test ["5"; "2"; "3"; "4"] 1 (less1 [[2; 3; 3; 2]]) 0%Qc [1%Qc]) /\
  passes (get_subset (mkCpm [i2 tv; i3 tv; i5 tv; i1 tv; i4 tv] 5 (less1 [[2; 2; 2; 2; 2]]) [d4 150]) [0%nat] false)
         (cpm_test ["2"; "3"; "5"; "1"; "4"] 5 [] 0%Qc []).
Definition tests_method : Prop :=
  method_test tv (N3 tv) = Ok [T; T; T; T] /\ method_test tv (N4 tv) = Ok [F; T; F; T] /\ method_test tv (N1 tv) = Ok [T; T].
(** test_cpm.py 568-593, on variables of the bridge network: three values for od1, two for the others *)
Definition od1 := tv "od1" ["a"; "b"; "c"].
Definition eb (k : string) := tv k ["Surv"; "Fail"].
Definition br_vars := [od1; eb "e2"; eb "e3"; eb "e4"; eb "e5"; eb "e6"].
Definition test_method4 : Prop :=
  mt_iscompatible [[2; 1; 1; 2; 2; 2]; [0; 0; 2; 2; 2; 2]; [0; 0; 2; 2; 2; 2]; [2; 1; 2; 2; 2; 2]] br_vars br_vars [2; 1; 1; 2; 2; 2] false = Ok [T; F; F; F].
Definition tests_fn : Prop :=
  fn_test1 tv = Ok [T; T; F; F] /\ fn_test1s tv = Ok [T; T; F; F] /\
  fn_iscompatible C54 [i5 tv; i2 tv; i3 tv; i4 tv] [i3 tv; i4 tv] [SI 0; SI 0] = Ok [F; T; T; F] /\
  fn_iscompatible (col [0; 1]) [i1 tv] [i3 tv; i4 tv] [SI 0; SI 0] = Ok [T; T] /\
  fn_iscompatible (col [0; 1]) [i1 tv] [i3 tv; i4 tv] [SI 1; SI 1] = Ok [T; T] /\
  fn_iscompatible big_C [i2 tv; i3 tv; i5 tv; i1 tv; i4 tv] [i2 tv; i1 tv] [SI 0; SI 0] =
    Ok [T; F; T; F; F; F; F; F; T; F; T; F; F; F; F; F] /\
  ismember [i2 tv; i1 tv] [i2 tv; i3 tv; i5 tv; i1 tv; i4 tv] = [Some 0%nat; Some 3%nat] /\
  fn_iscompatible [[0; 1]; [0; 1]; [2; 1]; [1; 1]] [tn "e1" 3; tn "sys" 2] [tn "sys" 2; tn "e1" 3] [SI 0; SI 3] = Ok [F; F; F; F].
(** test_cpm.py 607-628, 650-680, 736-762, 853-894, 1283-1291, 1615-1640 *)
Definition tests_helpers : Prop :=
  get_col_ind (mkCpm [tv "X2" sf; tv "X1" ms] 1 C22 [d2 99; d2 1; d1 9; d1 1]) ["X2"] = Ok [0%nat] /\
  get_col_ind (mkCpm [tv "X2" sf; tv "X1" ms] 1 C22 [d2 99; d2 1; d1 9; d1 1]) ["X1"] = Ok [1%nat] /\
  ismember [A1] [A2; A1] = [Some 1%nat] /\
  ismember [tv "A5" sf; tv "A2" sf; tv "A3" sf; tv "A4" sf] [tv "A2" sf; tv "A3" sf] = [None; Some 0%nat; Some 1%nat; None] /\
  ismember [tv "A5" sf; tv "A3" sf; tv "A4" sf; tv "A2" sf] [tv "A2" sf; tv "A4" sf; tv "A4" sf; tv "A4" sf; tv "A6" sf; tv "A8" sf] =
    [None; None; Some 1%nat; Some 0%nat] /\
  ismember [tv "A2" sf; tv "A4" sf; tv "A4" sf; tv "A4" sf; tv "A6" sf; tv "A8" sf] [tv "A5" sf; tv "A3" sf; tv "A4" sf; tv "A2" sf] =
    [Some 3%nat; Some 2%nat; Some 2%nat; Some 2%nat; None; None] /\
  argsort lex_ltb (map (fun r => rev r) (less1 [[1; 1; 1]; [1; 2; 1]; [2; 1; 1]; [2; 2; 1]; [1; 1; 2]; [1; 2; 2]; [2; 1; 2]; [2; 2; 2]])) =
    [0; 2; 1; 3; 4; 6; 5; 7]%nat /\
  setdiff [tv "3" sf; tv "6" sf; tv "2" sf; tv "1" sf; tv "5" sf; tv "1" sf; tv "1" sf] [tv "2" sf; tv "4" sf; tv "6" sf] =
    ([tv "3" sf; tv "1" sf; tv "5" sf], [0; 3; 4]%nat) /\
  get_value [1; 2; 3; 4] [T; F; T; T] = Ok [1; 3; 4] /\
  raises (get_value [1; 2; 3] [T; F; T; T]) AssertionError /\
  get_col (mkCpm [tv "sys" ["f"; "s"]; tn "x1" 3; tn "x2" 3; tn "x3" 3] 1
             [[0;4;7;7]; [0;3;0;4]; [1;3;0;2]; [1;3;1;6]; [0;3;1;0]; [1;3;2;7]] [1; 1; 1; 1; 1; 1]%Qc) ["sys"; "x1"] =
    Ok [[0; 4]; [0; 3]; [1; 3]; [1; 3]; [0; 3]; [1; 3]].
(** test_cpm.py 477-493 *)
Definition tests_means : Prop :=
  passes (get_means (N5 (fun n => tv ("v" ++ n))) ["v4"; "v3"]) (near 0%Qc [qz 1; qz 5]).

(** test_cpm.py 630-648, 1109-1162 *)
Definition C222 := less1 [[1; 1; 1]; [2; 1; 1]; [1; 2; 1]; [2; 2; 1]; [1; 1; 2]; [2; 1; 2]; [1; 2; 2]; [2; 2; 2]].
Definition p222 := [d4 9405; d4 95; d4 495; d4 5; d4 7650; d4 850; d4 1350; d4 150].
Definition X (n : string) : variable := tv ("X" ++ n) (if String.eqb n "1" then ms else sf).
Definition P2 := mkCpm [X "2"; X "1"] 1 C22 [d2 99; d2 1; d1 9; d1 1].
Definition P3 := mkCpm [X "3"; X "1"] 1 C22 [d2 95; d2 5; d2 85; d2 15].
Definition P5 := mkCpm [X "5"; X "2"; X "3"; X "4"] 1 C54 [1; 1; 1; 1]%Qc.
Definition tests_product : Prop :=
  passes (h_sort (mkH (mkCpm [A2; A3; A1] 2 (less1 [[1; 1; 1]; [1; 2; 1]; [2; 1; 1]; [2; 2; 1]; [1; 1; 2]; [1; 2; 2]; [2; 1; 2]; [2; 2; 2]])
            [d4 9405; d4 495; d4 95; d4 5; d4 7650; d4 1350; d4 850; d4 150]) [] [] [] []))
         (fun M => cpm_test ["A2"; "A3"; "A1"] 2 C222 tol6 p222 (h_c M)) /\
  passes (product P2 P3) (cpm_test ["X2"; "X3"; "X1"] 2 C222 tol6 p222) /\
  passes (product (mkCpm [X "2"; X "3"; X "1"] 2 C222 p222) P5) (cpm_test ["X2"; "X3"; "X5"; "X1"; "X4"] 3 big_C tol6 big_p) /\
  raises (merge P2 P3) AssertionError.
(** test_cpm.py 1164-1250 *)
Definition B (n : string) : variable := tv ("A" ++ n) (if String.eqb n "1" then ms else sf).
Definition Msum := mkCpm [B "2"; B "3"; B "5"; B "1"; B "4"] 3 big_C big_p.
Definition sum_C := less1 [[1; 1; 1]; [2; 1; 1]; [1; 2; 1]; [2; 2; 1]; [2; 1; 2]; [2; 2; 2]].
Definition sum_p := [d4 9995; d4 5; d3 985; d3 15; 1%Qc; 1%Qc].
Definition tests_sum : Prop :=
  passes (sum Msum (Vars [B "1"]) true) (cpm_test ["A2"; "A3"; "A5"; "A1"; "A4"] 3 big_C 0%Qc big_p) /\
  passes (sum Msum (Vars [B "2"; B "3"]) true) (cpm_test ["A5"; "A1"; "A4"] 1 sum_C tol6 sum_p) /\
  passes (sum Msum (Vars [B "5"]) false) (cpm_test ["A5"; "A1"; "A4"] 1 sum_C tol6 sum_p) /\
  passes (sum Msum (Names ["A5"]) false) (cpm_test ["A5"; "A1"; "A4"] 1 sum_C tol6 sum_p).
(** test_cpm.py 1294-1305 *)
Definition test_condition : Prop :=
  passes (condition (N3 tv) (Vars [i1 tv; i2 tv]) [SI 0; SI 0]) (cpm_test ["3"; "1"] 1 [[0; 0]; [1; 0]] 0%Qc [d2 95; d2 5]).
(** test_cpm.py 1386-1468: [C] from 1, so that code 2 of a variable with two values is both states *)
Definition R1 := mkCpm [tv "v1" ["Sunny"; "Cloudy"; "Rainy"]] 1 (col [1; 2]) [d1 9; d1 1].
Definition R2 := mkCpm [tv "v2" ["Good"; "Bad"]; tv "v1" ["Sunny"; "Cloudy"; "Rainy"]] 1 [[1; 1]; [2; 1]; [1; 2]; [2; 2]] [d2 99; d2 1; d1 9; d1 1].
Definition R3 := mkCpm [tv "v3" ["Below 0"; "Above 0"]; tv "v1" ["Sunny"; "Cloudy"; "Rainy"]] 1 [[1; 1]; [2; 1]; [1; 2]; [2; 2]] [d2 95; d2 5; d2 85; d2 15].
Definition sfv (n : string) : variable := tv n ["S"; "F"].
Definition tests_products : Prop :=
  passes (product_list [R1; R2; R3])
    (cpm_test ["v1"; "v2"; "v3"] 3 [[1;1;1]; [2;1;1]; [1;2;1]; [2;2;1]; [1;1;2]; [2;1;2]; [1;2;2]; [2;2;2]] tol4
       [d4 8464; d4 765; d4 86; d4 85; d4 446; d4 135; d5 45; d4 15]) /\
  passes (product_list [mkCpm [sfv "v1"] 1 (col [1; 2]) [d4 8390; d4 1610]; mkCpm [sfv "v2"] 1 (col [1; 2]) [d4 9417; d4 583]])
    (cpm_test ["v1"; "v2"] 2 [[1; 1]; [2; 1]; [1; 2]; [2; 2]] tol4 [d4 7901; d4 1517; d4 489; d4 94]) /\
  passes (product_list [mkCpm [sfv "v1"] 1 (col [0; 1]) [d5 83896; d5 16103]; mkCpm [sfv "v2"] 1 (col [0; 1]) [d5 94173; d5 5827];
                        mkCpm [sfv "v3"] 1 (col [0; 1]) [d5 99476; d5 524]])
    (cpm_test ["v1"; "v2"; "v3"] 3 C222 tol4 [d4 7859; d4 1509; d4 486; d4 93; d4 41; d4 8; d4 3; 0%Qc]).
(** test_cpm.py 1587-1613 *)
Definition tests_merge : Prop :=
  passes (merge (mkCpm [i2 tv; i1 tv] 1 C22 [d2 99; d2 1; d1 9; d1 1]) (mkCpm [i2 tv; i1 tv] 1 C22 [d2 89; d2 11; d1 7; d1 3]))
         (cpm_test ["2"; "1"] 1 C22 0%Qc [d2 188; d2 12; d1 16; d1 4]) /\
  raises (merge (mkCpm [i2 tv; i1 tv] 1 C22 [d2 99; d2 1; d1 9; d1 1]) (mkCpm [i1 tv; i2 tv] 1 C22 [d2 89; d1 7; d2 11; d1 3])) AssertionError.

(** test_cpm.py 595-616, 910-922, 937-962 and 1083-1096: variables made with [B_flag='fly'] have
    no table, and the attribute [B_fly] that is then asked for does not exist *)
Definition v3f := mk_variable "1" (map VStr ["Mild"; "mid"; "Severe"]) (Some FFly).
