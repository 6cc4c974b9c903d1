(** Model of the legacy branch and bound: branch.py 261-467 ([Branch_old], [get_cmat],
    [get_idx], [run_bnb]) and bnb_fns.py.  Arcs are named by strings and states are
    integers; numpy arrays are lists; the type assertions hold for typed arguments. *)
From Coq Require Import ZArith List String Bool Arith QArith Qcanon.
From Verif Require Import Py Num Vari Cpm.
Import ListNotations.
Open Scope string_scope.
Open Scope Z_scope.
Open Scope list_scope.

(** branch.py 261-315 [Branch_old]; [V] is the type of the values attached to the states.
    The field [names] is the same list for all branches of a run and is left out. *)
Record lbranch (V : Type) : Type := mkLB {
  l_down : list Z; l_up : list Z; l_complete : bool;
  l_dstate : Z; l_ustate : Z; l_dval : option V; l_uval : option V }.
Arguments mkLB {V}.
Arguments l_down {V}. Arguments l_up {V}. Arguments l_complete {V}.
Arguments l_dstate {V}. Arguments l_ustate {V}. Arguments l_dval {V}. Arguments l_uval {V}.

(** [l[i] = a] for a position inside the list *)
Definition set_nth {A} (l : list A) (i : nat) (a : A) : list A := firstn i l ++ a :: skipn (S i) l.
(** [del l[i]] *)
Definition del_nth {A} (l : list A) (i : nat) : list A := firstn i l ++ skipn (S i) l.

(** branch.py 389-393 [get_idx(x, False)]: positions of the incomplete branches *)
Fixpoint idx_from {V} (k : nat) (brs : list (lbranch V)) : list nat :=
  match brs with
  | [] => []
  | b :: r => if l_complete b then idx_from (S k) r else k :: idx_from (S k) r
  end.
Definition get_idx {V} (brs : list (lbranch V)) : list nat := idx_from 0 brs.

Section Run.
(** [sys_fn(vector)] returns state, value and a result for the branching functions;
    [info] is a constant of a run and is built into the functions, except for
    [arcs = info['arcs']] *)
Variable V R : Type.
Variable sys_fn : list Z -> res (Z * V * R).
Variable next_comp_fn : list string -> R -> R -> res string.
Variable next_state_fn : string -> list Z -> R -> R -> res Z.
Variable arcs : list string.

(** branch.py 437: names of the arcs whose bounds differ *)
Definition cand_comps (down up : list Z) : res (list string) :=
  mapM (fun i => py_index arcs (Z.of_nat i))
       (filter (fun i => nth i down 0 <? nth i up 0) (seq 0 (Nat.min (List.length up) (List.length down)))).

(** branch.py 416-465: the loop, one unit of fuel per pass *)
Fixpoint bnb_loop (fuel : nat) (brs : list (lbranch V)) (idx : list nat) : res (list (lbranch V)) :=
  match idx with
  | [] => Ok brs
  | branch_id :: rest =>
      match fuel with
      | O => Err OutOfFuel
      | S f =>
          b <- py_index brs (Z.of_nat branch_id) ;;
          d <- sys_fn (l_down b) ;;
          u <- sys_fn (l_up b) ;;
          if fst (fst d) =? fst (fst u) then
            bnb_loop f (set_nth brs branch_id
                          (mkLB (l_down b) (l_up b) true (fst (fst d)) (fst (fst u))
                                (Some (snd (fst d))) (Some (snd (fst u))))) rest
          else
            cand <- cand_comps (l_down b) (l_up b) ;;
            c <- next_comp_fn cand (snd d) (snd u) ;;
            i <- py_list_index (String.eqb c) arcs ;;
            di <- py_index (l_down b) i ;;
            ui <- py_index (l_up b) i ;;
            s <- next_state_fn c [di; ui] (snd d) (snd u) ;;
            let bd := mkLB (l_down b) (set_nth (l_up b) (Z.to_nat i) s) (l_complete b)
                           (l_dstate b) (l_ustate b) (l_dval b) (l_uval b) in
            let bu := mkLB (set_nth (l_down b) (Z.to_nat i) (s + 1)) (l_up b) (l_complete b)
                           (l_dstate b) (l_ustate b) (l_dval b) (l_uval b) in
            let brs' := del_nth brs branch_id ++ [bd; bu] in
            bnb_loop f brs' (get_idx brs')
      end
  end.

(** branch.py 396-467 [run_bnb]; the constructor asserts that there are as many names
    as components (line 293) *)
Definition run_bnb (fuel : nat) (comp_max_states : list Z) : res (list (lbranch V)) :=
  if (List.length comp_max_states =? List.length arcs)%nat then
    let brs := [mkLB (map (fun _ => 1) comp_max_states) comp_max_states false 1 1 None None] in
    bnb_loop fuel brs (get_idx brs)
  else Err AssertionError.
End Run.

(** bnb_fns.py 6-66 [bnb_sys]: state, value (time or infinity) and the path found.
    [np.sort] sorts the times in increasing order; [argsort] of the sorted times (line 41)
    is taken to be 0, 1, 2, ...; numpy may permute equal times only. *)
Definition bnb_sys (paths : list (list string)) (times : list Qc) (arcs : list string) (max_state : Z)
  (comp_states : list Z) : res (Z * value * list string) :=
  let path_time := sort_desc qc_ltb times in
  let path_sort_idx := zrange 0 (Z.of_nat (List.length path_time)) in
  path <- mapM (py_index paths) path_sort_idx ;;
  surv_comps <- mapM (fun i => py_index arcs (Z.of_nat i))
                     (filter (fun i => nth i comp_states 0 =? max_state) (seq 0 (List.length comp_states))) ;;
  match find_idx (forallb (fun a => mem_str a surv_comps)) path with
  | Some i =>
      state <- py_index path_sort_idx (Z.of_nat i) ;;
      val <- py_index path_time (Z.of_nat i) ;;
      p <- py_index path (Z.of_nat i) ;;
      Ok (state, VNum val, p)
  | None => Ok (Z.of_nat (List.length path_time), VInf, [])
  end.

(** [[l.append(x) for x in l2 if x not in l]] *)
Definition append_new (l l2 : list string) : list string :=
  fold_left (fun acc x => if mem_str x acc then acc else acc ++ [x]) l2 l.
(** bnb_fns.py 69-110 [bnb_next_comp]: [comps_order] starts with the arcs of the paths *)
Definition comps_order (paths : list (list string)) (arcs : list string) : list string :=
  let c := fold_left append_new paths [] in
  append_new c (filter (fun x => negb (mem_str x c)) arcs).
Definition bnb_next_comp (paths : list (list string)) (arcs : list string) (cand : list string) : res string :=
  match filter (fun i => mem_str (nth i cand "") (comps_order paths arcs)) (seq 0 (List.length cand)) with
  | [] => Err IndexError
  | i :: _ => py_index cand (Z.of_nat i)
  end.

(** bnb_fns.py 113-117 [bnb_next_state] *)
Definition bnb_next_state (c : string) (bound : list Z) : res Z := Ok 1.

(** branch.py 355-380: the code of a component between [down] and [up] (counted from 1);
    [any(loc)] is true when a position other than 0 was found.  Without a table
    ([B] is None) the membership test raises a TypeError. *)
Definition cmat_code (v : variable) (flag : bool) (down up : Z) : res Z :=
  let n := nvals v in
  let ds := if flag then down - 1 else n - up in
  let us := if flag then up - 1 else n - down in
  if us =? ds then Ok us
  else
    let b1 := map (fun x => [x]) (zrange ds us) in
    loc <- (match v_B v with
            | Some B => Ok (map (fun s => find_idx (set_eqb s) B) b1)
            | None => match b1 with [] => Ok [] | _ => Err TypeError end
            end) ;;
    if existsb (fun o => match o with Some (S _) => true | _ => false end) loc then
      match loc with
      | Some i :: _ => Ok (Z.of_nat i)
      | _ => Ok 0
      end
    else Ok n.

(** branch.py 318-386 [get_cmat] *)
Definition get_cmat {V} (branches : list (lbranch V)) (comp_var : list variable) (flag : bool) : res (list (list Z)) :=
  let complete := filter (fun b => l_complete b) branches in
  match complete with
  | [] => Err IndexError
  | b0 :: _ =>
      let no_comp := List.length (l_down b0) in
      mapM (fun b =>
              cs <- mapM (fun j =>
                            d <- py_index (l_down b) (Z.of_nat j) ;;
                            u <- py_index (l_up b) (Z.of_nat j) ;;
                            v <- py_index comp_var (Z.of_nat j) ;;
                            cmat_code v flag d u) (seq 0 no_comp) ;;
              Ok (l_ustate b :: cs)) complete
  end.
