(** Inputs and expected values of the tests of networks: /repo/BNS_JT/tests/test_trans.py,
    test_bnb_fns.py and the parts of test_operation.py that use the same fixtures. *)
From Coq Require Import ZArith List String Bool Arith QArith Qcanon.
From Verif Require Import Py Num Vari Cpm Small Net VeCond Brc Model Trans NxPaths Bnb Legacy Config DemoNet SpecTest TestCpm TestBrc.
Import ListNotations.
Open Scope string_scope.
Open Scope Z_scope.
Open Scope list_scope.

(** test_operations.py 46-91 [setup_sys_rbd] *)
Definition rbd_arcs : list (string * (string * string)) :=
  [("e1", ("source", "x1")); ("e2", ("source", "x2")); ("e3", ("source", "x3")); ("e4", ("source", "x4"));
   ("e5", ("x4", "x5")); ("e6", ("x5", "x6")); ("e7", ("x6", "x7")); ("e8", ("x7", "x8")); ("e9", ("x8", "sink"));
   ("e10", ("x1", "x7")); ("e11", ("x2", "x7")); ("e12", ("x3", "x7"))].
Definition rbd : graph :=
  mkGraph true false ["source"; "x1"; "x2"; "x3"; "x4"; "x5"; "x6"; "x7"; "x8"; "sink"]
    (map (fun t => mkEdge (fst (snd t)) (snd (snd t)) (KInt 0) (Some (fst t)) (Some (VNum 1%Qc))) rbd_arcs).
(** all nodes (or edges) in state 1, except the given ones in state 0 *)
Definition xs (failed : list string) : dict Z :=
  map (fun k => (k, if mem_str k failed then 0 else 1)) ["x1"; "x2"; "x3"; "x4"; "x5"; "x6"; "x7"; "x8"].
Definition es (failed : list string) : dict Z := map (fun t => (fst t, if mem_str (fst t) failed then 0 else 1)) rbd_arcs.
Definition conn (x : dict Z) (o d : string) := get_connectivity_given_comps bf_path x rbd o d.
(** test_trans.py 833-897 *)
Definition tests_connectivity : Prop :=
  conn (xs []) "source" "sink" = Ok (["e1"; "e10"; "e8"; "e9"], ["source"; "x1"; "x7"; "x8"; "sink"]) /\
  conn (xs ["x7"]) "source" "sink" = Ok ([], []) /\
  conn (xs ["x1"; "x2"; "x3"]) "source" "sink" =
    Ok (["e4"; "e5"; "e6"; "e7"; "e8"; "e9"], ["source"; "x4"; "x5"; "x6"; "x7"; "x8"; "sink"]) /\
  conn (xs ["x4"; "x2"; "x1"; "x3"]) "source" "sink" = Ok ([], []) /\
  conn (xs ["x1"; "x2"; "x3"]) "x4" "x6" = Ok (["e5"; "e6"], ["x4"; "x5"; "x6"]) /\
  conn (es []) "source" "sink" = Ok (["e1"; "e10"; "e8"; "e9"], ["source"; "x1"; "x7"; "x8"; "sink"]) /\
  conn (es ["e8"]) "source" "sink" = Ok ([], []) /\
  conn (es [] ++ [("x7", 0)]) "source" "sink" = Ok ([], []).
(** test_trans.py 932-957 *)
Definition sf (x : dict Z) := sf_min_path bf_path bf_wpath bf_wlen x rbd "source" "sink" [] None.
Definition tests_sf_min_path : Prop :=
  passes (sf (es [])) (fun r => st_eqb (snd (fst r)) S_ && deq (snd r) [("e1", 1); ("e10", 1); ("e8", 1); ("e9", 1)]) /\
  passes (sf (xs [])) (fun r => st_eqb (snd (fst r)) S_ && deq (snd r) [("x1", 1); ("x7", 1); ("x8", 1)]) /\
  passes (sf (xs ["x7"])) (fun r => st_eqb (snd (fst r)) F_ && deq (snd r) []).
(** test_trans.py 1012-1030 *)
Definition test_edge_from_nodes : Prop :=
  get_edge_from_nodes
    (mkGraph false true ["n1"; "n2"; "n3"]
       [mkEdge "n1" "n2" (KInt 0) (Some "e1") (Some (VNum 1%Qc)); mkEdge "n2" "n3" (KInt 0) (Some "e2") (Some (VNum 1%Qc));
        mkEdge "n2" "n3" (KInt 1) (Some "e3") (Some (VNum 1%Qc))]) ["n1"; "n2"; "n3"] = Ok ["e1"; "e2"].

(** test_trans.py 728-757: the order of the paths in the argument changes, not the one of the result *)
Definition od1v : variable := mk_variable "od1" [VInf; VNum (d4 2401); VNum (d4 901)] None.
Definition entry_eqb (a b : path_entry) : bool :=
  let '(p, t, i) := a in let '(p', t', i') := b in
  strs_eqb p p' && match t, t' with VInf, VInf => true | VNum x, VNum y => qc_eqb x y | _, _ => false end && (i =? i').
Fixpoint entries_eqb (a b : list path_entry) : bool :=
  match a, b with [], [] => true | x :: a', y :: b' => entry_eqb x y && entries_eqb a' b' | _, _ => false end.
Definition od1_idx : list path_entry := [([], VInf, 0); (["e2"], VNum (d4 901), 2); (["e3"; "e1"], VNum (d4 2401), 1)].
Definition tests_path_idx : Prop :=
  passes (get_path_time_idx [(["e2"], VNum (d4 901)); (["e3"; "e1"], VNum (d4 2401))] od1v) (entries_eqb od1_idx) /\
  passes (get_path_time_idx [(["e3"; "e1"], VNum (d4 2401)); (["e2"], VNum (d4 901))] od1v) (entries_eqb od1_idx).
(** test_trans.py 760-831; [path_time_idx] of the test, sorted by the number of edges *)
Definition tests_eval_sys_state : Prop :=
  eval_sys_state od1_idx (st6 [1; 1; 1; 1; 1; 1]) 1 = Ok 2 /\
  eval_sys_state od1_idx (st6 [1; 0; 1; 1; 1; 1]) 1 = Ok 1 /\
  eval_sys_state od1_idx (st6 [1; 0; 0; 1; 1; 1]) 1 = Ok 0.

(** test_bnb_fns.py; the arcs are integers there *)
Definition bnb_arcs := ["1"; "2"; "3"; "4"; "5"; "6"].
Definition bnb_paths := [["2"]; ["3"; "1"]].
Definition bsys (x : list Z) := bnb_sys bnb_paths [d4 901; d4 2401] bnb_arcs 2 x.
Definition bsys_test (s : Z) (v : value) (p : list string) (r : Z * value * list string) : bool :=
  let '(s', v', p') := r in
  (s' =? s) && match v, v' with VInf, VInf => true | VNum x, VNum y => qc_eqb x y | _, _ => false end && strs_eqb p' p.
Definition tests_bnb_sys : Prop :=
  passes (bsys [1; 1; 1; 1; 1; 1]) (bsys_test 2 VInf []) /\
  passes (bsys [1; 2; 1; 1; 1; 1]) (bsys_test 0 (VNum (d4 901)) ["2"]) /\
  passes (bsys [2; 2; 2; 2; 2; 2]) (bsys_test 0 (VNum (d4 901)) ["2"]) /\
  passes (bsys [1; 2; 2; 2; 2; 2]) (bsys_test 0 (VNum (d4 901)) ["2"]) /\
  passes (bsys [1; 1; 2; 2; 2; 2]) (bsys_test 2 VInf []) /\
  passes (bsys [2; 1; 2; 1; 1; 1]) (bsys_test 1 (VNum (d4 2401)) ["3"; "1"]) /\
  bnb_next_comp bnb_paths bnb_arcs bnb_arcs = Ok "1" /\
  bnb_next_comp bnb_paths bnb_arcs ["2"; "3"; "4"; "5"; "6"] = Ok "2" /\
  bnb_next_comp bnb_paths bnb_arcs ["3"; "4"; "5"; "6"] = Ok "3".

(** test_trans.py 35-226 [setup_bridge].  The probabilities of failure, [lognorm.cdf] of the ground
    motions, are rounded to nine decimals. *)
Definition d9 (n : Z) : Qc := Q2Qc (n # 1000000000).
Definition fail6 : list Qc := [d9 161035680; d9 58272012; d9 5238785; d9 192713; d9 479481868; d9 438245331].
Definition arcv (k : string) : variable := tv k ["Fail"; "Surv"].
Definition arc_cpms : list cpm := map (fun kq => mkCpm [arcv (fst kq)] 1 [[0]; [1]] [snd kq; (1 - snd kq)%Qc]) (combine e6s fail6).
Definition odv (k : string) (a b : Qc) : variable := mk_variable k [VInf; VNum a; VNum b] None.
Definition ods : list variable :=
  [odv "od1" (d4 2401) (d4 901); odv "od2" (d4 2401) (d4 901); odv "od3" (d4 1761) (d4 943); odv "od4" (d4 1997) (d4 707)].
Definition od_C : list (list (list Z)) :=
  [[[0;2;0;0;2;2;2]; [0;0;0;1;2;2;2]; [1;1;0;1;2;2;2]; [2;2;1;2;2;2;2]];
   [[0;2;0;0;2;2;2]; [0;0;1;0;2;2;2]; [1;1;1;0;2;2;2]; [2;2;2;1;2;2;2]];
   [[0;2;2;2;2;0;0]; [0;2;2;2;0;0;1]; [1;2;2;2;1;0;1]; [2;2;2;2;2;1;2]];
   [[0;2;2;2;2;0;0]; [0;2;2;2;0;1;0]; [1;2;2;2;1;1;0]; [2;2;2;2;2;2;1]]].
Definition od_cpms : list cpm := map (fun vC => mkCpm (fst vC :: map arcv e6s) 1 (snd vC) [1%Qc; 1%Qc; 1%Qc; 1%Qc]) (combine ods od_C).
(** test_trans.py 80-83, to four decimals *)
Definition disconn : list Qc := [d4 96; d4 11; d4 2102; d4 2102].
Definition delay : list Qc := [d4 583; d4 52; d4 4795; d4 4382].
Definition damage : list Qc := [d4 1610; 1%Qc; 1%Qc; d4 2; 0%Qc; d4 4382].

(** test_trans.py 384-445: one CPM is left *)
Definition p_less (M : cpm) (v : variable) (s : Z) : res Qc :=
  col <- get_col_ind M [v_name v] ;;
  Ok (qsum (map snd (filter (fun rp => forallb (fun i => nth i (fst rp) 0 <? s) col) (combine (c_C M) (c_p M))))).
Definition delay1 : res (list Qc * list Qc) :=
  l <- variable_elim_list (arc_cpms ++ od_cpms) (map arcv e6s) ;;
  a <- mapM (fun v => c <- op_condition l (Vars [v]) [SI 0] ;; match c with [M] => Ok (qsum (c_p M)) | _ => Err ValueError end) ods ;;
  b <- mapM (fun v => match l with M :: _ => p_less M v 2 | [] => Err IndexError end) ods ;;
  Ok (a, b).
Definition test_prob_delay1 : Prop := passes delay1 (fun r => near tol4 (fst r) disconn && near tol4 (snd r) delay).
(** test_trans.py 448-483 *)
Definition delay2 : res (list Qc * list Qc) :=
  M <- variable_elim (arc_cpms ++ od_cpms) (map arcv e6s) ;;
  a <- mapM (fun v => get_prob M (Vars [v]) [SI 0] true) ods ;;
  b <- mapM (fun v => get_prob M (Vars [v]) [SI 1] true) ods ;;
  Ok (a, map (fun p => (fst p + snd p)%Qc) (combine a b)).
Definition test_prob_delay2 : Prop := passes delay2 (fun r => near tol4 (fst r) disconn && near tol4 (snd r) delay).
(** test_trans.py 229-353 [setup_bridge_alt], 486-517 *)
Definition od1a : variable := mk_variable "od1" [VNum (d4 901); VNum (d4 2401); VInf] None.
Definition od1a_cpm : cpm :=
  mkCpm (od1a :: map arcv e6s) 1
    (less1 [[1;3;2;3;3;3;3]; [2;2;1;2;3;3;3]; [3;2;1;1;3;3;3]; [3;1;1;3;3;3;3]]) [1%Qc; 1%Qc; 1%Qc; 1%Qc].
Definition delay3 : res (Qc * Qc) :=
  M <- variable_elim (arc_cpms ++ [od1a_cpm]) (map arcv e6s) ;;
  a <- get_prob M (Vars [od1a]) [SI 2] true ;;
  b <- get_prob M (Vars [od1a]) [SI 0] false ;;
  Ok (a, b).
Definition test_prob_delay3 : Prop := passes delay3 (fun r => within tol4 (fst r) (d4 96) && within tol4 (snd r) (d4 583)).
(** test_trans.py 520-624.  The variables with {1, 2} appended to [B] are those of the observations only
    (line 527 copies). *)
Definition obsv (i : string) : variable := tv (append "od_obs" i) ["No disruption"; "Disruption"].
Definition more_B (v : variable) : variable := mkVar (v_name v) (v_values v) (match v_B v with Some B => Some (B ++ [[1; 2]]) | None => None end) (v_flag v).
Definition obs_cpms : list cpm :=
  map (fun iv => mkCpm [obsv (fst iv); more_B (snd iv)] 1 [[0; 2]; [1; 0]; [1; 1]] [1%Qc; 1%Qc; 1%Qc])
      (combine ["1"; "2"; "3"; "4"] ods).
Definition damaged (M : cpm) (k : string) : res Qc :=
  iM <- sum M (Vars [arcv k]) false ;;
  iF <- condition iM (Vars [arcv k]) [SI 0] ;;
  match c_p iF with [q] => Ok (q / qsum (c_p iM))%Qc | [] => Ok 0%Qc | _ => Err ValueError end.
Definition damage_run : res (cpm * cpm * list Qc) :=
  l <- op_condition (arc_cpms ++ od_cpms ++ obs_cpms) (Names ["od_obs1"; "od_obs2"; "od_obs3"]) [SI 1; SI 1; SI 0] ;;
  M <- product_list l ;;
  M' <- sum M (Names ["od1"; "od2"; "od3"; "od4"; "od_obs1"; "od_obs2"; "od_obs3"; "od_obs4"]) true ;;
  a <- mapM (damaged M') e6s ;;
  Ok (M, M', a).
Definition test_prob_damage : Prop :=
  passes damage_run (fun r => let '(M, M', a) := r in
    (List.length (c_C M) =? 8)%nat && (List.length (c_vars M) =? 14)%nat &&
    (List.length (c_C M') =? 8)%nat && (List.length (c_vars M') =? 6)%nat && near tol4 a damage).
(** test_operation.py 525-540 *)
Definition od1_elim : res cpm :=
  variable_elim (firstn 1 od_cpms ++ arc_cpms) (map arcv e6s).
Definition test_variable_elim : Prop :=
  passes od1_elim (cpm_test ["od1"] 1 (col [0; 1; 2]) tol3 [d3 9; d3 48; d3 942]).
(** test_operation.py 543-601, on the network of demos/routine/config.json *)
Definition routine_net : netfile :=
  mkNetfile ["n1"; "n2"; "n3"; "n4"]
    [("e1", mkEntry "n1" "n2" 1%Qc); ("e2", mkEntry "n1" "n3" 1%Qc); ("e3", mkEntry "n2" "n3" 1%Qc); ("e4", mkEntry "n2" "n4" 1%Qc); ("e5", mkEntry "n3" "n4" 1%Qc)]
    [("od1", ("n1", "n4"))] None.
Definition routine_pr : dict (Qc * Qc) :=
  map (fun kn => (fst kn, (d2 (snd kn), (1 - d2 (snd kn))%Qc))) [("e1", 1); ("e2", 2); ("e3", 3); ("e4", 4); ("e5", 5)].
Definition routine_run : res (cpm * list Qc) :=
  out <- routine_main bf_path bf_wpath bf_wlen routine_net "od1" routine_pr 1000 1000 ;;
  a <- get_prob (ro_M out) (Names ["sys"]) [SI 0] true ;;
  b <- get_prob (ro_M out) (Names ["sys"]) [SI 1] true ;;
  c <- get_prob (ro_M out) (Names ["sys"; "e1"]) [SI 0; SI 1] true ;;
  Ok (ro_M out, [a; b; c]).
Definition d6 (n : Z) : Qc := Q2Qc (n # 1000000).
Definition test_prod_sys_comps : Prop :=
  passes routine_run (fun r =>
    cpm_test ["sys"; "e1"; "e2"; "e3"; "e4"; "e5"] 6
      [[1;1;2;2;1;2]; [1;1;1;2;0;1]; [1;0;1;2;2;1]; [0;1;2;2;0;0]; [0;1;0;0;0;1]; [1;1;0;1;0;1]; [0;0;1;1;0;0]; [1;0;1;1;1;0];
       [0;0;0;2;2;2]; [0;0;1;0;2;0]] tol5
      [d9 950400000; d9 36867600; d9 9310000; d9 1980000; d9 22572; d9 729828; d9 19012; d9 456288; d9 200000; d9 14700] (fst r) &&
    match snd r with
    | [a; b; c] => approx (Q2Qc (1 # 1000)) a (d6 2236) && approx (Q2Qc (1 # 1000)) b (d6 997763) && approx (Q2Qc (1 # 1000)) c (d6 2002)
    | _ => false
    end).
