(** Inputs and expected values of /repo/BNS_JT/tests/test_brc.py, test_branch.py and the tests of
    system functions in test_trans.py. *)
From Coq Require Import ZArith List String Bool Arith QArith Qcanon.
From Verif Require Import Py Num Vari Cpm Small Brc Model VeCond Trans NxPaths SpecTest.
Import ListNotations.
Open Scope string_scope.
Open Scope Z_scope.
Open Scope list_scope.

Definition e6s := ["e1"; "e2"; "e3"; "e4"; "e5"; "e6"].
(** [{'e1': x1, ..., 'e6': x6}], and the constant dictionaries of the tests *)
Definition st6 (l : list Z) : dict Z := combine e6s l.
Definition all6 (z : Z) : dict Z := map (fun k => (k, z)) e6s.
(** [==] of two dictionaries *)
Definition deq (a b : dict Z) : bool := dict_eqb a b.
Fixpoint deqs (a b : list (dict Z)) : bool :=
  match a, b with
  | [], [] => true
  | x :: a', y :: b' => deq x y && deqs a' b'
  | _, _ => false
  end.
Definition rules_eqb (r r' : ruleset) : bool := deqs (r_s r) (r_s r') && deqs (r_f r) (r_f r').
Definition br_test (down up : dict Z) (ds us : st) (b : branch) : bool :=
  deq (b_down b) down && deq (b_up b) up && st_eqb (b_down_state b) ds && st_eqb (b_up_state b) us.
(** [compare_list_of_sets] *)
Definition rows_in (a b : list (list Z)) : bool := forallb (fun r => existsb (zs_eqb r) b) a.
Definition same_rows (a b : list (list Z)) : bool := rows_in a b && rows_in b a.

(** test_brc.py 194-234 *)
Definition varis3 : dict variable := map (fun k => (k, mk_variable k [VStr "1"; VStr "2"; VStr "3"] None)) e6s.
Definition one_br (ds us : st) (l : list branch) : bool := match l with [b] => br_test (all6 0) (all6 2) ds us b | _ => false end.
Definition r25 : dict Z := [("e2", 2); ("e5", 2)].
Definition r264 : dict Z := [("e2", 2); ("e6", 2); ("e4", 2)].
Definition tests_init_branch : Prop :=
  passes (init_branch varis3 (mkRules [] [])) (one_br U_ U_) /\
  passes (init_branch varis3 (mkRules [r25] [])) (one_br U_ S_) /\
  passes (init_branch varis3 (mkRules [r25] [all6 0])) (one_br F_ S_) /\
  passes (init_branch varis3 (mkRules [r25; r264] [all6 0])) (one_br F_ S_).

(** test_brc.py 239-287 *)
Definition tests_get_state : Prop :=
  get_state (all6 2) (mkRules [] []) = Ok U_ /\ get_state (all6 0) (mkRules [] []) = Ok U_ /\
  get_state (all6 2) (mkRules [r25] []) = Ok S_ /\ get_state (all6 0) (mkRules [r25] []) = Ok U_ /\
  get_state (all6 2) (mkRules [r25] [[("e1", 1); ("e2", 0)]]) = Ok S_ /\
  get_state (all6 0) (mkRules [r25] [[("e1", 1); ("e2", 0)]]) = Ok F_ /\
  get_state (st6 [0; 0; 2; 1; 0; 2]) (mkRules [[("e2", 1); ("e5", 2)]] [[("e1", 1); ("e2", 0)]]) = Ok F_.

(** test_brc.py 290-337 *)
Definition q25 (a b : Z) : dict Z := [("e2", a); ("e5", b)].
Definition tests_update_rule_set : Prop :=
  passes (update_rule_set (mkRules [] []) r25 S_) (rules_eqb (mkRules [r25] [])) /\
  passes (update_rule_set (mkRules [r25] []) (all6 0) F_) (rules_eqb (mkRules [r25] [all6 0])) /\
  passes (update_rule_set (mkRules [q25 2 2] [q25 1 1]) (q25 1 2) S_) (rules_eqb (mkRules [q25 1 2] [q25 1 1])) /\
  passes (r <- update_rule_set (mkRules [q25 2 2] [q25 1 1]) (q25 1 2) S_ ;; update_rule_set r (q25 1 0) F_)
    (rules_eqb (mkRules [q25 1 2] [q25 1 1])) /\
  passes (update_rule_set (mkRules [q25 2 2; q25 3 2] [q25 1 1; q25 0 1]) (q25 1 2) S_) (rules_eqb (mkRules [q25 1 2] [q25 1 1; q25 0 1])) /\
  passes (r <- update_rule_set (mkRules [q25 2 2; q25 3 2] [q25 1 1; q25 0 1]) (q25 1 2) S_ ;; update_rule_set r (q25 1 0) F_)
    (rules_eqb (mkRules [q25 1 2] [q25 1 1; q25 0 1])).

(** test_brc.py 392-424 *)
Definition ce1 := mk_variable "e1" [VNum (d1 15); VNum (d1 3); VNum (d2 15)] None.
Definition all_sets3 := [[0]; [1]; [2]; [0; 1]; [0; 2]; [1; 2]; [0; 1; 2]].
Definition composite_test (states : list Z) (c : Z) : Prop :=
  passes (get_composite_state ce1 states)
    (fun r => (snd r =? c) && match v_B (fst r) with Some B => same_rows B all_sets3 | None => false end).
Definition tests_composite : Prop := composite_test [1; 2] 5 /\ composite_test [0; 2] 4.

(** test_brc.py 491-543 *)
Definition p123 : prob_dict :=
  [("e1", PDict [(0, d1 1); (1, d1 9)]); ("e2", PDict [(0, d1 2); (1, d1 8)]); ("e3", PDict [(0, d1 3); (1, d1 7)])].
Definition v123 : dict variable := map (fun k => (k, mk_variable k [VStr "Fail"; VStr "Survive"] None)) ["e1"; "e2"; "e3"].
Definition x3 (a b c : Z) : dict Z := [("e1", a); ("e2", b); ("e3", c)].
Definition is_st (x : dict Z) (o : option (dict Z)) : bool := match o with Some y => deq y x | None => false end.
Definition tests_get_comp_st : Prop :=
  passes (get_comp_st [mkBr (x3 0 0 0) (x3 1 1 1) U_ U_ 1%Qc] true [] []) (is_st (x3 1 1 1)) /\
  passes (get_comp_st [mkBr (x3 0 0 0) (x3 1 1 1) U_ U_ 1%Qc] false v123 p123) (is_st (x3 1 1 1)) /\
  passes (get_comp_st [mkBr (x3 1 0 0) (x3 1 0 1) U_ U_ (d2 18); mkBr (x3 1 1 0) (x3 1 1 1) S_ S_ (d2 72); mkBr (x3 0 0 0) (x3 0 1 1) U_ U_ (d1 1)]
    true [] []) (is_st (x3 1 0 1)).

(** test_branch.py 698-734 *)
Definition pp1 : pdist := PDict [(0, d2 5); (1, d2 15); (2, d2 80)].
Definition pp2 : pdist := PDict [(0, d2 1); (1, d2 9); (2, d2 90)].
Definition p12 : prob_dict := combine e6s [pp1; pp1; pp1; pp2; pp2; pp2].
Definition is_q (q r : Qc) : bool := qc_eqb r q.
Definition tests_approx_prob : Prop :=
  passes (approx_prob_by_comps (all6 0) (all6 2) p12) (is_q 1%Qc) /\
  passes (approx_prob_by_comps (st6 [2; 0; 2; 2; 2; 2]) (all6 2) p12) (is_q (d1 8 * d1 8 * d1 9 * d1 9 * d1 9)%Qc) /\
  passes (approx_prob_by_comps (st6 [0; 1; 0; 0; 0; 0]) (all6 2) p12) (is_q (d2 95)) /\
  passes (approx_prob_by_comps (all6 0) (st6 [2; 0; 2; 2; 2; 2]) p12) (is_q (d2 5)).
(** test_branch.py 737-757 *)
Definition tests_joint_prob : Prop :=
  passes (approx_joint_prob (mkBr (all6 0) (all6 2) S_ S_ 1%Qc) r25 S_ p12) (is_q (d1 8 * d1 9)%Qc) /\
  passes (approx_joint_prob (mkBr (all6 0) (all6 2) S_ S_ 1%Qc) (all6 0) F_ p12)
    (is_q (d2 5 * d2 5 * d2 5 * d2 1 * d2 1 * d2 1)%Qc).
(** test_branch.py 760-803 *)
Definition brs6 (down up : list Z) : branch := mkBr (st6 down) (st6 up) S_ S_ 1%Qc.
Definition b02 := brs6 [0; 0; 0; 0; 0; 0] [2; 2; 2; 2; 2; 2].
Definition tests_compat_rules : Prop :=
  passes (get_compat_rules b02 (mkRules [] [])) (rules_eqb (mkRules [] [])) /\
  passes (get_compat_rules b02 (mkRules [r25] [])) (rules_eqb (mkRules [r25] [])) /\
  passes (get_compat_rules b02 (mkRules [q25 1 2] [all6 0])) (rules_eqb (mkRules [q25 1 2] [all6 0])) /\
  passes (get_compat_rules (brs6 [0; 0; 0; 0; 0; 0] [2; 0; 2; 2; 2; 2]) (mkRules [q25 1 2] [all6 0]))
    (rules_eqb (mkRules [] [[("e1", 0); ("e3", 0); ("e4", 0); ("e5", 0); ("e6", 0)]])) /\
  passes (get_compat_rules (brs6 [2; 0; 2; 2; 2; 2] [2; 2; 2; 2; 2; 2])
            (mkRules [q25 1 2; [("e1", 2); ("e3", 2); ("e5", 2)]; [("e2", 2); ("e4", 2); ("e6", 2)]] [all6 0]))
    (rules_eqb (mkRules [[("e2", 1)]; [("e2", 2)]] [])).

(** test_branch.py 806-849; brc.py's dictionary {'f': 0, 's': 1, 'u': 2} *)
Definition cs_of (s : st) : res Z := Ok (match s with F_ => 0 | S_ => 1 | U_ => 2 end).
Definition tests_get_c : Prop :=
  passes (get_c (mkBr (st6 [1; 0; 0; 0; 0; 0]) (st6 [2; 0; 1; 2; 2; 2]) F_ F_ 0%Qc) varis3 cs_of) (fun r => zs_eqb (snd r) [0; 5; 0; 3; 6; 6; 6]) /\
  passes (r <- get_c (mkBr (st6 [1; 0; 0; 0; 0; 0]) (st6 [2; 0; 1; 2; 2; 2]) F_ F_ 0%Qc) varis3 cs_of ;;
          get_c (mkBr (st6 [0; 0; 2; 0; 0; 0]) (st6 [2; 0; 2; 2; 1; 2]) F_ F_ 0%Qc) (fst r) cs_of)
    (fun r => zs_eqb (snd r) [0; 6; 0; 2; 6; 3; 6]).

(** test_branch.py 852-879 *)
Definition br123 := mkBr (x3 1 0 0) (x3 1 1 1) U_ S_ (d1 9).
Definition r12 := mkRules [[("e1", 1); ("e2", 1)]] [].
Definition tests_new_branch2 : Prop :=
  passes (get_new_branch br123 r12 p123 "e2" 1 true) (fun b => br_test (x3 1 0 0) (x3 1 0 1) U_ U_ b && is_q (d1 9 * d1 2)%Qc (b_p b)) /\
  passes (get_new_branch br123 r12 p123 "e2" 1 false) (fun b => br_test (x3 1 1 0) (x3 1 1 1) S_ S_ b && is_q (d1 9 * d1 8)%Qc (b_p b)).
(** test_branch.py 882-914 *)
Definition e21s := ["e1"; "e2"; "e3"; "e4"; "e5"; "e6"; "e7"; "e8"; "e9"; "e10"; "e11"; "e12"; "e13"; "e14"; "e15"; "e16"; "e17"; "e18"; "e19"; "e20"; "e21"].
Definition all21 (z : Z) : dict Z := map (fun k => (k, z)) e21s.
Definition at3 (a b : Z) : dict Z := map (fun k => (k, if String.eqb k "e3" then a else b)) e21s.
Definition p21 : prob_dict :=
  combine e21s (map (fun t => let '(a, b, c) := t in PDict [(0, d4 a); (1, d4 b); (2, d4 c)])
    [(1163, 616, 8221); (1624, 1224, 7152); (2014, 900, 7086); (689, 1155, 8156); (1863, 1366, 6771); (2244, 214, 7542); (2220, 1334, 6446);
     (1265, 762, 7973); (2993, 343, 6664); (3016, 813, 6171); (2385, 785, 6830); (3460, 269, 6271); (3512, 441, 6047); (326, 182, 9492);
     (231, 1268, 8501); (373, 830, 8797); (222, 192, 9586); (52, 411, 9537); (3935, 625, 5440); (651, 457, 8892); (1260, 495, 8245)]).
Definition br21 := mkBr (all21 0) (all21 2) U_ S_ 1%Qc.
Definition r21 := mkRules [[("e3", 1); ("e9", 1); ("e14", 1); ("e17", 1)]] [].
Definition tests_new_branch1 : Prop :=
  passes (get_new_branch br21 r21 p21 "e3" 1 true) (fun b => br_test (all21 0) (at3 0 2) U_ U_ b && is_q (d4 2014) (b_p b)) /\
  passes (b <- get_new_branch br21 r21 p21 "e3" 1 true ;; get_compat_rules b r21) (rules_eqb (mkRules [] [])) /\
  passes (get_new_branch br21 r21 p21 "e3" 1 false) (fun b => br_test (at3 1 0) (all21 2) U_ S_ b && is_q (d4 7986) (b_p b)) /\
  passes (b <- get_new_branch br21 r21 p21 "e3" 1 false ;; get_compat_rules b r21) (rules_eqb (mkRules [[("e9", 1); ("e14", 1); ("e17", 1)]] [])).

(** test_branch.py 917-1040 *)
Definition r135 : dict Z := [("e1", 2); ("e3", 2); ("e5", 2)].
Definition s12 (b : branch) (rs rf : list (dict Z)) (x : string) (z : Z) (p : prob_dict) : Prop :=
  get_decomp_comp b (mkRules rs rf) p = Ok (Some (x, z)).
Definition b3 (a b c : Z) := mkBr (x3 a b c) (x3 1 1 1) S_ S_ 1%Qc.
Definition tests_decomp : Prop :=
  s12 b02 [r25] [all6 0] "e2" 2 p12 /\
  s12 b02 [r25; r135] [all6 0] "e5" 2 p12 /\
  s12 b02 [r25; r135; [("e2", 2); ("e4", 2); ("e6", 2)]] [all6 0] "e2" 2 p12 /\
  s12 b02 [r135] [all6 0] "e1" 2 p12 /\
  s12 (b3 0 0 0) [[("e1", 1); ("e2", 1)]] [] "e1" 1 p123 /\
  s12 (b3 1 0 0) [[("e2", 1)]] [] "e2" 1 p123 /\
  s12 (b3 0 0 0) [[("e1", 1); ("e2", 1)]; [("e1", 1); ("e3", 1)]] [] "e1" 1 p123 /\
  s12 (b3 0 0 0) [[("e1", 1); ("e2", 1)]; [("e1", 1); ("e3", 1)]] [[("e1", 0)]] "e1" 1 p123 /\
  s12 (b3 1 0 0) [[("e2", 1)]; [("e3", 1)]] [[("e1", 0)]] "e2" 1 p123.

(** test_brc.py 26-57 [main_sys] with [data_bridge]: the travel times are lengths over speeds; the
    lengths sqrt 13, sqrt 10, sqrt 8 and sqrt 2 are replaced by their decimals, as floats do *)
Definition q7 (n : Z) : Qc := Q2Qc (n # 10000000).
Definition times6 : list Qc := [q7 1500000; q7 901388; q7 901388; q7 1054093; q7 942809; q7 707107].
Definition arcs6 : list (string * string) := [("n1", "n2"); ("n1", "n5"); ("n2", "n5"); ("n3", "n4"); ("n3", "n5"); ("n4", "n5")].
Definition G6 : graph :=
  mkGraph false false ["n1"; "n2"; "n5"; "n3"; "n4"]
    (map (fun t => let '(k, (a, b), q) := t in mkEdge a b (KStr k) (Some k) (Some (VNum q))) (combine (combine e6s arcs6) times6)).
Definition varis6 : dict variable :=
  map (fun kq => (fst kq, mk_variable (fst kq) [VNum (snd kq * qz 10)%Qc; VNum (snd kq * qz 2)%Qc; VNum (snd kq)] None)) (combine e6s times6).
(** test_brc.py 113-190: states, time, state of the system, components, nodes *)
Definition bridge_cases : list (list Z * Qc * st * dict Z * list string) :=
  [([2; 2; 2; 2; 2; 2], d4 1844, S_, r25, ["n1"; "n5"; "n3"]);
   ([0; 1; 0; 0; 0; 2], d5 112308, F_, [], ["n1"; "n5"; "n3"]);
   ([2; 0; 2; 2; 2; 2], d4 3344, S_, r135, ["n1"; "n2"; "n5"; "n3"]);
   ([0; 2; 1; 2; 1; 1], d4 2787, S_, q25 2 1, ["n1"; "n5"; "n3"]);
   ([2; 2; 0; 1; 1; 2], d4 2787, S_, q25 2 1, ["n1"; "n5"; "n3"]);
   ([2; 1; 2; 2; 2; 2], d4 2746, S_, q25 1 2, ["n1"; "n5"; "n3"]);
   ([2; 2; 2; 2; 1; 2], d5 26626, S_, r264, ["n1"; "n5"; "n4"; "n3"]);
   ([2; 0; 1; 2; 2; 2], d4 4246, F_, [], ["n1"; "n2"; "n5"; "n3"])].
Definition near_v (q : Qc) (v : value) : bool := match v with VNum a => approx (Q2Qc (1 # 1000)) a q | _ => false end.
Definition time_of (x : dict Z) := get_time_and_path_given_comps bf_wpath bf_wlen x G6 "n1" "n3" varis6.
Definition min_path (t : Qc) (x : dict Z) := sf_min_path bf_path bf_wpath bf_wlen x G6 "n1" "n3" varis6 (Some (VNum t)).
Definition path_ok (c : list Z * Qc * st * dict Z * list string) : bool :=
  let '(x, t, s, m, ns) := c in
  match time_of (st6 x) with Ok (t', p, _) => near_v t t' && strs_eqb p ns | Err _ => false end &&
  match min_path (d4 3688) (st6 x) with
  | Ok (Some t', s', m') => near_v t t' && st_eqb s' s && deq m' m
  | _ => false
  end.
Definition tests_bridge_paths : Prop := forallb path_ok bridge_cases = true.

(** test_brc.py 341-389 *)
Definition sys6 (t : Qc) : sysfun := as_sysfun (min_path t).
Definition sysres_test (e q : Qc) (comp m : dict Z) (rule : dict Z) (s : st) (r : dict Z * st * sysres) : bool :=
  let '(rule', s', (q', comp', m')) := r in
  within e q' q && deq comp' comp && is_st m m' && deq rule' rule && st_eqb s' s.
Definition tests_run_sys_fn : Prop :=
  passes (run_sys_fn (all6 2) (sys6 (d4 3688)) varis6) (sysres_test tol5 (d5 18442) (all6 2) r25 r25 S_) /\
  passes (run_sys_fn (all6 0) (sys6 (d4 3688)) varis6) (sysres_test tol4 (d4 18442) (all6 0) [] (all6 0) F_) /\
  passes (run_sys_fn (st6 [2; 2; 2; 2; 1; 2]) (sys6 (d4 3688)) varis6) (sysres_test tol3 (d3 266) (st6 [2; 2; 2; 2; 1; 2]) r264 r264 S_).

(** test_brc.py 60-91 [setup_brs] (without the file brs_bridge.pk, which holds an earlier result) and 801-828 *)
Definition thres6 : Qc := (qz 2 * (q7 901388 + q7 942809))%Qc.
Definition third : Qc := Q2Qc (1 # 3).
Definition run6 (probs : prob_dict) (sf : Z) : res rstate :=
  run varis6 probs (sys6 thres6) (mkCfg sf (Some 100) 0%Qc None true true) None None.
Definition csys6 (r : rstate) : res (list (list Z) * dict variable) :=
  match s_brs r with Some b => get_csys b varis6 cs_of | None => Err TypeError end.
Definition csys_expected : list (list Z) :=
  [[0; 3; 0; 6; 6; 6; 6]; [0; 2; 0; 3; 6; 6; 6]; [0; 2; 0; 2; 6; 3; 6]; [0; 6; 5; 6; 3; 0; 6]; [0; 6; 1; 6; 2; 0; 3];
   [0; 6; 2; 6; 2; 0; 0]; [1; 2; 0; 2; 6; 2; 6]; [1; 6; 2; 6; 2; 0; 1]; [1; 6; 5; 6; 2; 0; 2]; [1; 6; 5; 6; 6; 5; 6]].
Definition all_B (vs : dict variable) : bool :=
  forallb (fun kv => match v_B (snd kv) with Some B => same_rows B all_sets3 | None => false end) vs.
Definition test_get_csys : Prop :=
  passes (r <- run6 (map (fun k => (k, PList [third; third; third])) e6s) 1000 ;; csys6 r)
    (fun c => same_rows (fst c) csys_expected && all_B (snd c)).

(** test_brc.py 665-709 [setup_inference], 831-885, without the observations of the tests of inference *)
Definition comp_cpm (kv : string * variable) : cpm := mkCpm [snd kv] 1 [[0]; [1]; [2]] [d1 1; d1 2; d1 7].
Definition vsys := mk_variable "sys" [VStr "f"; VStr "s"; VStr "u"] None.
Definition test_csys3 : Prop :=
  passes (r <- run6 p12 100 ;; c <- csys6 r ;;
          sysM <- mk_cpm (vsys :: map snd (snd c)) 1 (fst c) (map (fun _ => 1%Qc) (fst c)) ;;
          variable_elim (map comp_cpm (snd c) ++ [sysM]) (map snd (snd c)))
    (fun M => rows_eqb (c_C M) [[0]; [1]] && near tol6 (c_p M) [d4 1018; d4 8982]).

(** test_brc.py 546-577 and test_trans.py 899-930 *)
Definition G3 : graph :=
  mkGraph true true ["n1"; "n2"; "n3"]
    (map (fun t => let '(a, b, k) := t in mkEdge a b (KStr k) (Some k) (Some (VNum 1%Qc))) [("n1", "n2", "e1"); ("n2", "n3", "e2"); ("n2", "n3", "e3")]).
Definition test_connectivity4 : Prop :=
  get_connectivity_given_comps bf_path (x3 1 0 1) G3 "n1" "n3" = Ok (["e1"; "e3"], ["n1"; "n2"; "n3"]).

(** test_trans.py 356-381 [setup_multi_dest], 960-1022 *)
Definition multi_times : list Qc := [d2 15; d4 901; d4 901; d4 1054; d4 943; d4 707].
Definition Gm : graph :=
  mkGraph false false ["n1"; "n2"; "n5"; "n3"; "n4"]
    (map (fun t => let '(k, (a, b), q) := t in mkEdge a b (KInt 0) (Some k) (Some (VNum q))) (combine (combine e6s arcs6) multi_times)).
Definition varism : dict variable := map (fun kq => (fst kq, mk_variable (fst kq) [VInf; VNum (snd kq)] None)) (combine e6s multi_times).
Definition near4 (q : Qc) (v : value) : bool := match v with VNum a => approx (Q2Qc (1 # 10000)) a q | _ => false end.
Definition is_inf (v : value) : bool := match v with VInf => true | _ => false end.
Definition tests_multi_dest : Prop :=
  passes (get_time_and_path_multi_dest bf_multi (st6 [1; 0; 1; 1; 1; 0]) Gm "n1" ["n3"; "n4"] varism)
    (fun r => let '(t, p, es) := r in near4 (d4 3344) t && strs_eqb p ["n1"; "n2"; "n5"; "n3"] && strs_eqb es ["e1"; "e3"; "e5"]) /\
  passes (get_time_and_path_multi_dest bf_multi (st6 [1; 0; 0; 1; 1; 0]) Gm "n1" ["n3"; "n4"] varism) (fun r => is_inf (fst (fst r))) /\
  passes (sf_min_path_multi bf_multi (st6 [1; 0; 1; 1; 1; 0]) Gm "n1" ["n3"; "n4"] varism (Some (VNum (d1 5))))
    (fun r => let '(t, s, m) := r in match t with Some t' => near4 (d4 3344) t' | None => false end && st_eqb s S_ &&
              deq m [("e1", 1); ("e3", 1); ("e5", 1)]) /\
  passes (sf_min_path_multi bf_multi (st6 [1; 0; 0; 1; 1; 0]) Gm "n1" ["n3"; "n4"] varism (Some (VNum (d1 5))))
    (fun r => let '(t, s, m) := r in match t with Some t' => is_inf t' | None => false end && st_eqb s F_ && deq m []).
