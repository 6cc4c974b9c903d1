(** Model of [cal_Msys_by_cond_VE], /repo/BNS_JT/operation.py 699-751, for CPMs with samples. *)
From Coq Require Import ZArith List String Bool Arith QArith Qcanon.
From Verif Require Import Py Num Vari Cpm Net VeCond MsysProd Hybrid HybProd.
Import ListNotations.
Open Scope string_scope.
Open Scope Z_scope.
Open Scope list_scope.

(** operation.py 733-735 *)
Definition h_join_sys (sys : string) (d : dict hcpm) (x : string) : res (dict hcpm) :=
  S <- dget d sys ;;
  X <- dget d x ;;
  P <- h_product S X ;;
  Ok (ddel (dset d sys P) x).

(** operation.py 729-744, one row of the conditioning CPM; [VE] are the conditioned CPMs
    of line 731 *)
Definition h_cal_ve (VE : dict hcpm) (ve_vars : list variable) (sys : string) (jnt elm cond : list string) (m1 : hcpm) : res hcpm :=
  VE' <- foldM (h_join_sys sys) jnt VE ;;
  comps <- foldM h_elim_step ve_vars (map snd (filter (fun kM => negb (String.eqb (fst kM) sys)) VE')) ;;
  S <- dget VE' sys ;;
  m <- h_prod_sys S comps ;;
  m' <- h_sum m (Names elm) true ;;
  m'' <- h_product m' m1 ;;
  h_sum m'' (Names cond) true.
Definition h_cal_step (inf : dict hcpm) (ve_vars : list variable) (sys : string) (jnt elm cond : list string)
    (Mc : hcpm) (row : list Z) : res hcpm :=
  m1 <- h_condition Mc (Vars (c_vars (h_c Mc))) (map SI row) ;;
  match c_C (h_c m1) with
  | [] => Err IndexError
  | r1 :: _ =>
      VE <- mapM (fun kM => M <- h_condition (snd kM) (Vars (c_vars (h_c m1))) (map SI r1) ;; Ok (fst kM, M)) inf ;;
      h_cal_ve VE ve_vars sys jnt elm cond m1
  end.

(** operation.py 699-751; without rows [Msys] is unbound.  [get_inf_vars] looks at the variables only. *)
Definition rows_of (d : dict hcpm) : dict cpm := map (fun kM => (fst kM, h_c (snd kM))) d.
Definition h_cal_msys (cpms : dict hcpm) (varis : dict variable) (cond ve_order : list string) (sys : string) : res hcpm :=
  inf <- get_inf_vars (rows_of cpms) [sys] (Some ve_order) ;;
  S <- dget cpms sys ;;
  let c := names (parents (h_c S)) in
  let ve := filter (fun x => mem_str x ve_order && negb (mem_str x cond) && negb (mem_str x c)) inf in
  let jnt := filter (fun x => negb (mem_str x ve_order)) c in
  let elm := filter (fun x => negb (mem_str x jnt)) c in
  ve_vars <- mapM (dget varis) (filter (fun v => negb (String.eqb v sys)) ve) ;;
  ms <- mapM (fun v => M <- dget cpms v ;; Ok (v, M)) (ve ++ c ++ jnt) ;;
  let cpms_inf := dset (fold_left (fun d kM => dset d (fst kM) (snd kM)) ms []) sys S in
  cc <- mapM (dget cpms) cond ;;
  Mc <- h_product_list cc ;;
  match c_C (h_c Mc) with
  | [] => Err UnboundLocalError
  | row :: rows =>
      M0 <- h_cal_step cpms_inf ve_vars sys jnt elm cond Mc row ;;
      foldM (fun acc r => m <- h_cal_step cpms_inf ve_vars sys jnt elm cond Mc r ;; h_merge acc m) rows M0
  end.
