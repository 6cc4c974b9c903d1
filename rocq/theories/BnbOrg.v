(** Model of the branch and bound that returns its branches (branch.py 580-590, 647-721).
    The prints are left out. *)
From Coq Require Import ZArith List String Bool Arith.
From Verif Require Import Py Num Vari Bnb.
Import ListNotations.
Open Scope string_scope.
Open Scope Z_scope.
Open Scope list_scope.

(** branch.py 580-590 [get_arcs_given_bstar_nobreak]: without a path the loop is over
    None, TypeError *)
Definition get_arcs_given_bstar_nobreak (b : bb) (path_time_idx : list path_entry) (arc_cond : Z) : res (list string) :=
  let matched := map fst (filter (fun kv => snd kv =? arc_cond) (upper b)) in
  match find (fun e => forallb (fun x => mem_str x matched) (pe_path e)) (skipn 1 path_time_idx) with
  | None => Err TypeError
  | Some e =>
      r <- mapM (fun x => u <- dget (upper b) x ;; w <- dget (lower b) x ;; Ok (x, w <? u)) (pe_path e) ;;
      Ok (map fst (filter snd r))
  end.

(** The local variables of [branch_and_bound_org] that outlive an iteration: [_path], and
    (upper, lower, fl, sb), which are bound together; None: not bound yet. *)
Record locals : Type := mk_locals { l_path : option (list string); l_cur : option (dict Z * dict Z * Z * list bb) }.

(** branch.py 674-686: [_path] is bound to each path that is looked at; with a path that
    survives at the upper state the other variables are bound as well *)
Fixpoint org_find (b : bb) (matched : list string) (bstars : list bb) (l : list path_entry) (st : locals) : locals :=
  match l with
  | [] => st
  | e :: l' =>
      if forallb (fun x => mem_str x matched) (pe_path e) then
        mk_locals (Some (pe_path e))
          (Some (upper b, lower b, fl b, filter (fun x => negb (bb_eqb x b)) bstars))
      else org_find b matched bstars l' (mk_locals (Some (pe_path e)) (l_cur st))
  end.

(** branch.py 688-709: the loop over the arcs of [_path] *)
Fixpoint org_arcs (b : bb) (path_time_idx : list path_entry) (arc_cond : Z) (path : list string)
    (cur : option (dict Z * dict Z * Z * list bb)) : res (option (dict Z * dict Z * Z * list bb)) :=
  match path with
  | [] => Ok cur
  | arc :: path' =>
      u <- dget (upper b) arc ;; w <- dget (lower b) arc ;;
      if w <? u then
        match cur with
        | None => Err UnboundLocalError
        | Some (up, low, f, sb) =>
            let up0 := set_arc arc 0 up in
            s <- eval_sys_state path_time_idx up0 arc_cond ;;
            org_arcs b path_time_idx arc_cond path'
              (Some (set_arc arc 1 up0, set_arc arc 1 low, f, sb ++ [(low, up0, f, s)]))
        end
      else org_arcs b path_time_idx arc_cond path' cur
  end.

(** branch.py 669-716: one branch *)
Definition org_star (path_time_idx : list path_entry) (arc_cond : Z) (bstars : list bb) (st : locals) (b : bb)
  : res locals :=
  let matched := map fst (filter (fun kv => snd kv =? arc_cond) (upper b)) in
  let st := org_find b matched bstars (skipn 1 path_time_idx) st in
  match l_path st with
  | None => Err UnboundLocalError
  | Some path =>
      cur <- org_arcs b path_time_idx arc_cond path (l_cur st) ;;
      match cur with
      | None => Err UnboundLocalError
      | Some (up, low, f, sb) => Ok (mk_locals (Some path) (Some (up, low, f, sb ++ [(low, up, fu b, fu b)])))
      end
  end.

(** branch.py 663-721 [branch_and_bound_org]; the loop need not end: [fuel] *)
Fixpoint org_loop (fuel : nat) (path_time_idx : list path_entry) (arc_cond : Z) (bstars : list bb) (st : locals)
    (sb_saved : list bb) : res (list bb) :=
  match bstars with
  | [] => Ok sb_saved
  | _ =>
      match fuel with
      | O => Err OutOfFuel
      | S fuel' =>
          st <- foldM (org_star path_time_idx arc_cond bstars) bstars st ;;
          match l_cur st with
          | None => Err UnboundLocalError
          | Some (_, _, _, sb) =>
              org_loop fuel' path_time_idx arc_cond (filter (fun x => negb (complete x)) sb) st
                (sb_saved ++ filter complete sb)
          end
      end
  end.
Definition branch_and_bound_org (fuel : nat) (bstars : list bb) (path_time_idx : list path_entry) (arc_cond : Z)
  : res (list bb) :=
  org_loop fuel path_time_idx arc_cond bstars (mk_locals None None) [].
