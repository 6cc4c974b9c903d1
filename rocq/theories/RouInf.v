(** Model of the inference functions of /repo/BNS_JT/demos/routine/batch.py 200-305 (functions
    within [dummy], which itself uses names that are not defined). *)
From Coq Require Import ZArith List String Bool Arith QArith Qcanon.
From Verif Require Import Py Num Vari Cpm.
Import ListNotations.
Open Scope string_scope.
Open Scope Z_scope.
Open Scope list_scope.

(** routine/batch.py 209-215: the probability of one cell.  [C1_list.index(k)] raises
    ValueError; the table is that of [varis[c_name]], None is not subscriptable.  Rows of the
    component without a column (an IndexError) are not modelled. *)
Definition rt_cell (M1 : cpm) (w : variable) (st : Z) : res Qc :=
  match v_B w with
  | None => Err TypeError
  | Some B =>
      e <- py_index B st ;;
      ps <- mapM (fun k => match find_idx (fun c => at_ c 0 =? k) (c_C M1) with
                           | None => Err ValueError
                           | Some r => match nth_error (c_p M1) r with Some x => Ok x | None => Err IndexError end
                           end) e ;;
      Ok (qsum ps)
  end.
(** routine/batch.py 206-217: one parent, in column [fst iv]; the loop runs over [p_new] *)
Definition rt_col (Mc : dict cpm) (varis : dict variable) (C : list (list Z)) (p : list Qc) (iv : nat * variable) : res (list Qc) :=
  M1 <- dget Mc (v_name (snd iv)) ;;
  mapM (fun rp =>
    w <- dget varis (v_name (snd iv)) ;;
    x <- rt_cell M1 w (at_ (fst rp) (fst iv)) ;;
    Ok (snd rp * x)%Qc) (combine C p).
(** routine/batch.py 200-221 [prod_Msys_Mcomps] *)
Definition rt_prod (Msys : cpm) (Mc : dict cpm) (varis : dict variable) : res cpm :=
  p <- foldM (rt_col Mc varis (c_C Msys)) (combine (seq (c_nch Msys) (List.length (parents Msys))) (parents Msys)) (c_p Msys) ;;
  mk_cpm (c_vars Msys) (List.length (c_vars Msys)) (c_C Msys) p.

(** routine/batch.py 239-242, 291-297: the numbers of the rows with code [st] *)
Definition rt_rows (M : cpm) (name : string) (st : Z) : res (list nat) :=
  i <- name_index M name ;;
  Ok (filter (fun j => at_ (nth j (c_C M) []) i =? st) (seq 0 (List.length (c_C M)))).
Definition rt_p (M : cpm) (j : nat) : res Qc :=
  match nth_error (c_p M) j with Some x => Ok x | None => Err IndexError end.
(** routine/batch.py 237-248 [get_prob] *)
Definition rt_get_prob (M : cpm) (name : string) (st : Z) : res Qc :=
  js <- rt_rows M name st ;;
  foldM (fun acc j => x <- rt_p M j ;; Ok (acc + x)%Qc) js 0%Qc.
(** routine/batch.py 289-305 [get_Msub] *)
Definition rt_get_Msub (M : cpm) (name : string) (st : Z) : res cpm :=
  js <- rt_rows M name st ;;
  ps <- mapM (rt_p M) js ;;
  mk_cpm (c_vars M) (c_nch M) (map (fun j => nth j (c_C M) []) js) ps.
