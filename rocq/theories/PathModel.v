(** Model of the path-based system model: model.py 63-124 and branch.py 724-748.
    A configuration is given by its parts: the names of the edges, the ODs, the
    directory and the key of the output files. *)
From Coq Require Import ZArith List String Bool QArith Qcanon.
From Verif Require Import Py Num Vari Brc Cpm Model Bnb.
Import ListNotations.
Open Scope string_scope.
Open Scope Z_scope.
Open Scope list_scope.

(** model.py 72 and 111: [[np.inf] + sorted([y for _, y in path_times], reverse=True)].
    The paths of an OD with their times, which are finite numbers (sums of weights,
    trans.py 252-269), stand for [path_times[v]]. *)
Definition od_paths : Type := list (list string * Qc).
Definition od_values (pt : od_paths) : list value :=
  VInf :: map VNum (sort_desc (fun y x => qc_ltb x y) (map snd pt)).
Definition od_var (name : string) (pt : od_paths) : variable := mk_variable name (od_values pt) None.
Definition od_idx (name : string) (pt : od_paths) : res (list path_entry) :=
  get_path_time_idx (map (fun x => (fst x, VNum (snd x))) pt) (od_var name pt).

(** model.py 66-67 *)
Definition all_arcs (v : Z) (edges : list string) : dict Z := map (fun k => (k, v)) edges.

(** model.py 63-88 [get_branches]; [path_times] is by name of the OD instead of by the
    pair of nodes.  All ODs use the same key. *)
Fixpoint get_branches (fuel : nat) (edges : list string) (ods : list string) (path_times : dict od_paths)
    (key : string) (d : dir) : res (dict (list bb) * dir) :=
  match ods with
  | [] => Ok ([], d)
  | k :: ods' =>
      pt <- dget path_times k ;;
      pti <- od_idx k pt ;;
      fl <- eval_sys_state pti (all_arcs 0 edges) 1 ;;
      fu <- eval_sys_state pti (all_arcs 1 edges) 1 ;;
      d1 <- branch_and_bound fuel [(all_arcs 0 edges, all_arcs 1 edges, fl, fu)] pti 1 key d ;;
      r <- get_branches fuel edges ods' path_times key d1 ;;
      Ok ((k, get_sb_saved d1 key) :: fst r, snd r)
  end.

(** branch.py 724-748 [get_cmat_from_branches]; [None] has no items: TypeError.
    [argsort] may order equal entries in any way; here the order is kept. *)
Definition join_code (v : variable) (lo up : Z) : res Z :=
  match v_B v with
  | None => Err TypeError
  | Some B => a <- py_index B lo ;; b <- py_index B up ;; py_list_index (set_eqb (a ++ b)) B
  end.
Definition branch_row (variables : dict variable) (b : bb) : res (list Z) :=
  if negb (fl b =? fu b) then Err AssertionError else
  cs <- mapM (fun kv => lo <- dget (lower b) (fst kv) ;; up <- dget (upper b) (fst kv) ;; join_code (snd kv) lo up) variables ;;
  Ok (fl b :: cs).
Definition get_cmat_from_branches (branches : list bb) (variables : dict variable) : res (list (list Z)) :=
  rows <- mapM (branch_row variables) branches ;;
  Ok (sort_desc (fun y x => hd 0 y <? hd 0 x) rows).

(** model.py 91-124 [model_given_od_scen]: [scen] gives the probabilities of the damage
    states [ds] of each edge *)
Definition arc_cpm (ds : list value) (kv : string * list Qc) : res cpm :=
  mk_cpm [mk_variable (fst kv) ds None] 1 (map (fun s => [s]) (zrange 0 (Z.of_nat (List.length (snd kv))))) (snd kv).
Definition model_given_od_scen (edges : list string) (ds : list value) (scen : dict (list Qc)) (od : string) (pt : od_paths)
    (branches : list bb) : res (dict cpm * dict variable) :=
  let varis := map (fun kv => (fst kv, mk_variable (fst kv) ds None)) scen in
  cpms <- mapM (fun kv => M <- arc_cpm ds kv ;; Ok (fst kv, M)) scen ;;
  let varis' := dset varis od (od_var od pt) in
  variables <- mapM (fun k => v <- dget varis' k ;; Ok (k, v)) edges ;;
  c <- get_cmat_from_branches branches variables ;;
  M <- mk_cpm (od_var od pt :: map snd variables) 1 c (map (fun _ => 1%Qc) c) ;;
  Ok (dset cpms od M, varis').
