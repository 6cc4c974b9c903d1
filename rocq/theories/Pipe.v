(** Model of /repo/BNS_JT/pipes_sys.py: flow through the stages of a pipe network.  [scipy.optimize.milp] is an
    argument; SpecPipe.v states what is assumed of it.  Numbers are exact.  The three arrays [A], [b_down] and
    [b_up] are one list of rows with their two bounds; the functions return the rows that they append. *)
From Coq Require Import ZArith List String Bool Arith QArith Qcanon.
From Verif Require Import Py Num Vari Brc Flow Lp.
Import ListNotations.
Open Scope string_scope.
Open Scope Z_scope.
Open Scope list_scope.

Definition lrow : Type := (list Qc * Qc * Qc).
Definition zeros (n : nat) : list Qc := repeat 0%Qc n.
Fixpoint set_nat (r : list Qc) (i : nat) (a : Qc) : list Qc :=
  match r, i with [], _ => [] | _ :: r', O => a :: r' | b :: r', S i' => b :: set_nat r' i' a end.
(** [a_i[0][i] = a] *)
Definition set_at (r : list Qc) (i : Z) (a : Qc) : res (list Qc) :=
  let n := Z.of_nat (List.length r) in
  let j := if i <? 0 then i + n else i in
  if (0 <=? j) && (j <? n) then Ok (set_nat r (Z.to_nat j) a) else Err IndexError.


(** pipes_sys.py 6-26; [inds] is [orig_end_inds] of line 125 *)
Definition do_node (orig_end : list string) (inds : dict Z) (es_idx : dict Z) (edges : dict (string * string)) : res (list lrow) :=
  let no_x := List.length edges in
  mapM (fun o =>
    i <- dget inds o ;;
    a <- set_at (zeros (no_x + List.length orig_end)) (Z.of_nat no_x + i) (-(1))%Qc ;;
    a <- foldM (fun a ep =>
      e_ind <- dget es_idx (fst ep) ;;
      if String.eqb (fst (snd ep)) o then set_at a e_ind 1%Qc else Ok a) edges a ;;
    Ok (a, 0%Qc, 0%Qc)) orig_end.

(** pipes_sys.py 45-51, 82-87: +1 for edges out of [n], -1 for edges into it *)
Definition balance_step (n : string) (edges : dict (string * string)) (es_idx : dict Z) (a : list Qc) (e : string) : res (list Qc) :=
  pair <- dget edges e ;;
  e_ind <- dget es_idx e ;;
  if String.eqb (fst pair) n then set_at a e_ind 1%Qc
  else if String.eqb (snd pair) n then set_at a e_ind (-(1))%Qc else Ok a.

(** pipes_sys.py 29-72 *)
Definition do_sub (sub_bw_nodes sub_bw_edges : list (list string)) (edges : dict (string * string)) (es_idx : dict Z)
  (depots : list (list string)) (no_d_vars : nat) : res (list lrow) :=
  let no_x := List.length edges in
  rs <- mapM (fun mn =>
    prev <- py_index depots (Z.of_nat (fst mn)) ;;
    now <- py_index depots (Z.of_nat (fst mn) + 1) ;;
    inner <- mapM (fun n =>
      if negb (mem_str n prev) && negb (mem_str n now) then
        es <- py_index sub_bw_edges (Z.of_nat (fst mn)) ;;
        a <- foldM (balance_step n edges es_idx) es (zeros no_d_vars) ;;
        Ok [(a, 0%Qc, 0%Qc)]
      else Ok []) (snd mn) ;;
    a <- foldM (fun a n =>
      es <- py_index sub_bw_edges (Z.of_nat (fst mn)) ;;
      foldM (fun a e =>
        pair <- dget edges e ;;
        e_ind <- dget es_idx e ;;
        if String.eqb (snd pair) n then set_at a e_ind 1%Qc else Ok a) es a) now (zeros no_x ++ repeat (-(1))%Qc (no_d_vars - no_x)) ;;
    Ok (List.concat inner ++ [(a, 0%Qc, 0%Qc)])) (combine (seq 0 (List.length sub_bw_nodes)) sub_bw_nodes) ;;
  Ok (List.concat rs).

(** pipes_sys.py 75-93 *)
Definition do_incoming (no_sub : nat) (depots : list (list string)) (no_d_vars : nat) (edges : dict (string * string)) (es_idx : dict Z)
  : res (list lrow) :=
  rs <- mapM (fun m =>
    ns <- py_index depots (Z.of_nat m) ;;
    mapM (fun n =>
      a <- foldM (balance_step n edges es_idx) (keys edges) (zeros no_d_vars) ;;
      Ok (a, 0%Qc, 0%Qc)) ns) (seq 1 (no_sub - 1)) ;;
  Ok (List.concat rs).

(** pipes_sys.py 96-113; capacities are finite numbers *)
Definition do_capacity (edges : dict (string * string)) (edges2comps : dict string) (varis : dict variable) (comps_st : dict Z)
  (es_idx : dict Z) (no_d_vars : nat) : res (list lrow) :=
  mapM (fun ep =>
    x <- dget edges2comps (fst ep) ;;
    v <- dget varis x ;;
    s <- dget comps_st x ;;
    w <- py_index (v_values v) s ;;
    c <- num w ;;
    s0 <- dget comps_st (fst (snd ep)) ;;
    shut <- (if s0 =? 0 then Ok true else (s1 <- dget comps_st (snd (snd ep)) ;; Ok (s1 =? 0))) ;;
    e_ind <- dget es_idx (fst ep) ;;
    a <- set_at (zeros no_d_vars) e_ind 1%Qc ;;
    Ok (a, 0%Qc, if (shut : bool) then 0%Qc else c)) edges.

(** [{n: i for i, n in enumerate(l)}] *)
Definition enum_dict (l : list string) : dict Z :=
  fold_left (fun d ni => dset d (fst ni) (Z.of_nat (snd ni))) (combine l (seq 0 (List.length l))) [].

Section Oracle.
(** [milp(c=c, constraints=..., integrality=all)] with the default bounds 0 <= x: [res.fun] and [res.x], None without success *)
Variable milp : list Qc -> list lrow -> option (Qc * list Qc).

(** pipes_sys.py 116-162; [node_coords] is not used *)
Definition run_pipes_fun (comps_st : dict Z) (edges : dict (string * string)) (es_idx : dict Z) (edges2comps : dict string)
  (depots : list (list string)) (varis : dict variable) (sub_bw_nodes sub_bw_edges : list (list string)) : res (option (Qc * list Qc)) :=
  let no_x := List.length edges in
  orig_end <- py_index depots 0 ;;
  _ <- py_index depots (-1) ;;
  let no_u := List.length orig_end in
  let n := (no_x + no_u)%nat in
  let c := zeros no_x ++ repeat (-(1))%Qc no_u in
  r1 <- do_node orig_end (enum_dict orig_end) es_idx edges ;;
  r2 <- do_sub sub_bw_nodes sub_bw_edges edges es_idx depots n ;;
  r3 <- do_incoming (List.length sub_bw_nodes) depots n edges es_idx ;;
  r4 <- do_capacity edges edges2comps varis comps_st es_idx n ;;
  Ok (milp c (r1 ++ r2 ++ r3 ++ r4)).

(** [if k not in d: d[k] = comps_st[k]] *)
Definition put_new (comps_st : dict Z) (d : dict Z) (k : string) : res (dict Z) :=
  match dfind d k with Some _ => Ok d | None => s <- dget comps_st k ;; Ok (dset d k s) end.

(** pipes_sys.py 165-201.  Without success [res.x] is None, an error when it is indexed. *)
Definition sys_fun_pipes (comps_st : dict Z) (thres : Qc) (edges : dict (string * string)) (es_idx : dict Z) (edges2comps : dict string)
  (depots : list (list string)) (varis : dict variable) (sub_bw_nodes sub_bw_edges : list (list string)) : res (Qc * st * option (dict Z)) :=
  r <- run_pipes_fun comps_st edges es_idx edges2comps depots varis sub_bw_nodes sub_bw_edges ;;
  let sys_val := match r with Some (f, _) => (- f)%Qc | None => 0%Qc end in
  if qc_ltb sys_val thres then Ok (sys_val, F_, None)
  else
    m <- foldM (fun d ep =>
      e_idx <- dget es_idx (fst ep) ;;
      y <- match r with Some (_, y) => Ok y | None => Err TypeError end ;;
      w <- py_index y e_idx ;;
      if qc_ltb 0%Qc w then
        x <- dget edges2comps (fst ep) ;;
        d <- put_new comps_st d x ;;
        d <- put_new comps_st d (fst (snd ep)) ;;
        put_new comps_st d (snd (snd ep))
      else Ok d) edges [] ;;
    Ok (sys_val, S_, Some m).

(** as the function that [brc.run] calls; an exception is not passed on (the theorems are about
    calls without) *)
Definition pipes_sysfun (thres : Qc) (edges : dict (string * string)) (es_idx : dict Z) (edges2comps : dict string)
  (depots : list (list string)) (varis : dict variable) (sub_bw_nodes sub_bw_edges : list (list string)) : sysfun :=
  fun x => match sys_fun_pipes x thres edges es_idx edges2comps depots varis sub_bw_nodes sub_bw_edges with Ok r => r | Err _ => (0%Qc, U_, None) end.
End Oracle.
