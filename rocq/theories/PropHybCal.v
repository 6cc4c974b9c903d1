(** C115: [cal_Msys_by_cond_VE] (/repo/BNS_JT/operation.py 699-751) on CPMs with samples. *)
From Coq Require Import ZArith List String Bool Arith QArith Qcanon.
From Verif Require Import Py Num Vari Cpm Net VeCond Hybrid HybProd HybCal HybCalFacts SpecTest TestCpm TestOp.
Import ListNotations.
Open Scope string_scope.
Open Scope Z_scope.
Open Scope list_scope.

(** The samples change no exact row: whenever the rows alone have a result, the rows of
    the result with samples are these. *)
Theorem C115_rows :
  forall cpms varis cond ord sys M c, h_cal_msys cpms varis cond ord sys = Ok M ->
    cal_msys (map (fun kM => (fst kM, h_c (snd kM))) cpms) varis cond ord sys = Ok c -> h_c M = c.
Proof. intros *. apply h_cal_rows. Qed.
Print Assumptions C115_rows.

(** On CPMs without samples the method succeeds exactly when it does on the rows, with the
    same rows and no samples. *)
Theorem C115_no_samples :
  forall cpms varis cond ord sys M,
    h_cal_msys (map (fun kM => (fst kM, mkH (snd kM) [] [] [] [])) cpms) varis cond ord sys = Ok M <->
    exists c, cal_msys cpms varis cond ord sys = Ok c /\ M = mkH c [] [] [] [].
Proof.
  intros *. assert (B := bare_cal cpms varis cond ord sys). unfold bares, bare_of, both, isb in B.
  destruct (h_cal_msys _ varis cond ord sys) as [N|e], (cal_msys cpms varis cond ord sys) as [c|e']; try contradiction.
  - split; [intros [= <-]; exists c; auto|intros (c' & [= <-] & ->); rewrite B; reflexivity].
  - split; [discriminate|intros (c' & [=] & _)].
Qed.
Print Assumptions C115_no_samples.

(** test_operation.py 766-804, [setup_hybrid] *)
Definition scpms : dict hcpm := [("haz", Shaz); ("x0", Sx0); ("x1", Sx1); ("sys", Ssys)].
Definition q2 := q1 ++ q1.
Definition ps2 := [d4 343; d4 1323; d4 1323; d4 147; d4 1323; d4 252; d4 672; d4 672; d4 108; d4 672].
Definition h_test2 (ns : list string) (C : list (list Z)) (p : list Qc) (Cs : list (list Z)) (e : Qc) (q ps : list Qc) (M : hcpm) : bool :=
  vnames (c_vars (h_c M)) ns && rows_eqb (c_C (h_c M)) C && near e (c_p (h_c M)) p && rows_eqb (h_Cs M) Cs && near e (h_q M) q && near e (h_ps M) ps &&
  zs_eqb (h_idx M) (idx5 ++ idx5).
Definition hcal (ord : list string) : res hcpm := h_cal_msys scpms hvaris ["haz"] ord "sys".
Theorem C115_tests :
  passes (hcal ["haz"; "x0"; "x1"])
    (h_test2 ["sys"] [[0]; [1]] [d3 45; d3 585] [[0]; [1]; [1]; [0]; [1]; [0]; [1]; [1]; [0]; [1]] 0%Qc q2 ps2) /\
  passes (M <- hcal ["haz"; "x0"; "x1"] ;; get_prob_and_cov M [hz "sys"] [SI 0] MLE true 5) (est_test (d4 1873) (d4 3143)) /\
  passes (hcal ["haz"; "x1"])
    (h_test2 ["sys"; "x0"] [[0; 0]; [1; 1]] [d3 45; d3 585]
       [[0; 0]; [1; 1]; [1; 1]; [0; 0]; [1; 1]; [0; 0]; [1; 1]; [1; 1]; [0; 0]; [1; 1]] 0%Qc q2 ps2) /\
  passes (M <- hcal ["haz"; "x1"] ;; get_prob_and_cov M [hz "sys"; hz "x0"] [SI 0; SI 0] MLE true 5) (est_test (d4 1873) (d4 3143)).
Proof. repeat match goal with |- _ /\ _ => split end; vm_compute; reflexivity. Qed.
Print Assumptions C115_tests.

(** The rows and the samples of the test network both give results, and so does the network
    without its samples. *)
Example C115_example :
  (exists M c, hcal ["haz"; "x0"; "x1"] = Ok M /\ cal_msys (map (fun kM => (fst kM, h_c (snd kM))) scpms) hvaris ["haz"] ["haz"; "x0"; "x1"] "sys" = Ok c /\
     h_Cs M <> [] /\ c_C c = [[0]; [1]]) /\
  (exists M, h_cal_msys (map (fun kM => (fst kM, mkH (h_c (snd kM)) [] [] [] [])) scpms) hvaris ["haz"] ["haz"; "x0"; "x1"] "sys" = Ok M /\
     c_C (h_c M) = [[0]; [1]] /\ h_Cs M = []).
Proof.
  split.
  - destruct (hcal ["haz"; "x0"; "x1"]) as [M|] eqn:E; [|vm_compute in E; discriminate].
    destruct (cal_msys (map (fun kM => (fst kM, h_c (snd kM))) scpms) hvaris ["haz"] ["haz"; "x0"; "x1"] "sys") as [c|] eqn:F; [|vm_compute in F; discriminate].
    exists M, c. split; [reflexivity|]. split; [reflexivity|]. vm_compute in E, F. injection E as <-. injection F as <-. split; [discriminate|reflexivity].
  - eexists. split; [vm_compute; reflexivity|]. split; reflexivity.
Qed.

(** If the CPM of the conditioning variables has no rows, no method of the rows is ever reached: nothing
    is returned. *)
Theorem C115_no_rows :
  forall cpms varis cond ord sys cc Mc, mapM (dget cpms) cond = Ok cc -> h_product_list cc = Ok Mc -> c_C (h_c Mc) = [] ->
    (forall M, h_cal_msys cpms varis cond ord sys <> Ok M) /\
    (forall e, h_cal_msys cpms varis cond ord sys = Err e -> e <> UnboundLocalError ->
       (exists e', get_inf_vars (map (fun kM => (fst kM, h_c (snd kM))) cpms) [sys] (Some ord) = Err e') \/
       (exists k, dget cpms k = Err e) \/ exists k, dget varis k = Err e).
Proof.
  intros * E1 E2 E3. unfold h_cal_msys, rows_of.
  assert (MX : forall (A B : Type) (h : A -> res B) l e, mapM h l = Err e -> exists a, h a = Err e).
  { intros A B h l e. induction l as [|a l IH]; [discriminate|]. cbn [mapM]. destruct (h a) eqn:Ea; cbn [bind]; [|intros [= <-]; eauto].
    destruct (mapM h l) eqn:El; cbn [bind]; [discriminate|]. intros [= <-]. auto. }
  destruct (get_inf_vars _ _ _) as [inf|e0] eqn:EI; cbn [bind]; [|split; [discriminate|intros e _ _; left; eauto]].
  destruct (dget cpms sys) as [S0|e0] eqn:ES; cbn [bind]; [|split; [discriminate|intros e [= <-] _; right; left; eauto]].
  cbv zeta. destruct (mapM (dget varis) _) as [ve|e0] eqn:EV; cbn [bind]; [|split; [discriminate|intros e [= <-] _; right; right; eapply MX; eauto]].
  match goal with |- context [mapM ?h ?l] => destruct (mapM h l) as [ms|e0] eqn:EM end; cbn [bind].
  - rewrite E1. cbn [bind]. rewrite E2. cbn [bind]. rewrite E3. split; [discriminate|]. intros e [= <-] X. congruence.
  - split; [discriminate|]. intros e [= <-] _. right. left. destruct (MX _ _ _ _ _ EM) as [k Hk]. exists k. destruct (dget cpms k) as [?|e1]; cbn [bind] in Hk; [discriminate|congruence].
Qed.
Print Assumptions C115_no_rows.

(** The network of the test with a hazard that has no rows. *)
Definition Snone : hcpm := mkH (mkCpm (c_vars (h_c Shaz)) 1 [] []) [] [] [] [].
Definition ncpms : dict hcpm := [("haz", Snone); ("x0", Sx0); ("x1", Sx1); ("sys", Ssys)].
Example C115_no_rows_ex :
  mapM (dget ncpms) ["haz"] = Ok [Snone] /\ h_product_list [Snone] = Ok Snone /\ c_C (h_c Snone) = [] /\
  h_cal_msys ncpms hvaris ["haz"] ["haz"; "x0"; "x1"] "sys" = Err UnboundLocalError.
Proof. do 2 (split; [vm_compute; reflexivity|]). split; vm_compute; reflexivity. Qed.
