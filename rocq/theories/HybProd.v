(** Model of [prod_Msys_and_Mcomps] for CPMs with samples, /repo/BNS_JT/operation.py
    562-654.  The rows are [prod_sys] of [MsysProd.v]; here are the samples, lines 628-654.
    If both the rows and the samples give an exception, that of the rows is returned
    (in Python line 633 comes before the constructor in line 654). *)
From Coq Require Import ZArith List String Bool Arith QArith Qcanon.
From Verif Require Import Py Num Vari Cpm MsysProd Hybrid.
Import ListNotations.
Open Scope string_scope.
Open Scope Z_scope.
Open Scope list_scope.

(** operation.py 637-638: a copy without rows *)
Definition no_rows (M : hcpm) : hcpm :=
  mkH (mkCpm (c_vars (h_c M)) (c_nch (h_c M)) [] []) (h_Cs M) (h_q M) (h_ps M) (h_idx M).

(** operation.py 632-635: the component CPM of the parent [v], none for a variable of the
    conditions.  (The dict is keyed by names; parents have different names here.) *)
Definition sample_comp (Ms : list hcpm) (cond : list variable) (v : variable) : res (list hcpm) :=
  if existsb (v_eqb v) cond then Ok [] else
  match find (fun m => match c_vars (h_c m) with w :: _ => String.eqb (v_name w) (v_name v) | [] => false end) Ms with
  | None => Err AssertionError
  | Some m => Ok [no_rows m]
  end.

(** operation.py 562-654 *)
Definition h_prod_sys (Msys : hcpm) (Ms : list hcpm) : res hcpm :=
  c <- prod_sys (h_c Msys) (map h_c Ms) ;;
  if existsb no_samples (Msys :: Ms) then Ok (mkH c [] [] [] []) else
  cs <- cond_of (map h_c Ms) ;;
  ms <- mapM (sample_comp Ms (map fst cs)) (parents (h_c Msys)) ;;
  R <- h_product_list (no_rows Msys :: List.concat ms) ;;
  idx <- get_col_ind (h_c R) (names (c_vars c)) ;;
  mk_h c (map (fun row => cols row idx) (h_Cs R)) (h_q R) (h_ps R) (h_idx R).
