(** Model of [max_flow], /repo/BNS_JT/operation.py 886-938.  [nx.maximum_flow] is an argument;
    SpecFlow.v states what is assumed of it. *)
From Coq Require Import ZArith List String Bool Arith QArith Qcanon.
From Verif Require Import Py Num Vari Brc.
Import ListNotations.
Open Scope string_scope.
Open Scope Z_scope.
Open Scope list_scope.

(** edges of an [nx.Graph] with the attribute 'capacity' *)
Definition cgraph : Type := list (string * string * Qc).
Definition same_ends (u v : string) (e : string * string * Qc) : bool :=
  (String.eqb (fst (fst e)) u && String.eqb (snd (fst e)) v) || (String.eqb (fst (fst e)) v && String.eqb (snd (fst e)) u).
(** [G.add_edge(u, v, capacity=c)]: one edge between two nodes, a second one replaces its capacity *)
Definition add_edge (g : cgraph) (u v : string) (c : Qc) : cgraph :=
  if existsb (same_ends u v) g then map (fun e => if same_ends u v e then (fst e, c) else e) g else g ++ [(u, v, c)].

(** capacities are finite numbers *)
Definition num (w : value) : res Qc := match w with VNum c => Ok c | _ => Err TypeError end.

(** operation.py 918-920 *)
Definition flow_graph (comps_st : dict Z) (edges : dict (string * string)) (varis : dict variable) : res cgraph :=
  foldM (fun g kx =>
    uv <- dget edges (fst kx) ;;
    v <- dget varis (fst kx) ;;
    w <- py_index (v_values v) (snd kx) ;;
    c <- num w ;;
    Ok (add_edge g (fst uv) (snd uv) c)) comps_st [].

(** operation.py 924-936.  [f_dict[a][b]] is [f a b]; the next state of sufficient capacity.  Without one
    Python stores None, and the first comparison with it is a TypeError. *)
Definition flow_rule (f : string -> string -> Qc) (comps_st : dict Z) (edges : dict (string * string)) (varis : dict variable)
  : res (dict Z) :=
  foldM (fun m kx =>
    uv <- dget edges (fst kx) ;;
    let kf := qmax (f (fst uv) (snd uv)) (f (snd uv) (fst uv)) in
    if qc_ltb 0%Qc kf then
      v <- dget varis (fst kx) ;;
      cs <- mapM num (v_values v) ;;
      match find_idx (fun c => qc_leb kf c) cs with
      | Some i => Ok (dset m (fst kx) (Z.of_nat i))
      | None => Err TypeError
      end
    else Ok m) comps_st [].

Section Oracle.
(** [nx.maximum_flow(G, s, t)]: value and flows *)
Variable nx_flow : cgraph -> string -> string -> res (Qc * (string -> string -> Qc)).

(** operation.py 886-938 *)
Definition max_flow (comps_st : dict Z) (target : Qc) (o d : string) (edges : dict (string * string)) (varis : dict variable)
  : res (Qc * st * option (dict Z)) :=
  g <- flow_graph comps_st edges varis ;;
  '(val, f) <- nx_flow (add_edge g d "new_t" target) o "new_t" ;;
  if qc_leb target val then
    m <- flow_rule f comps_st edges varis ;;
    Ok (val, S_, Some m)
  else Ok (val, F_, None).

(** as the function that [brc.run] calls; an exception is not passed on (the theorems are
    about calls without) *)
Definition flow_sysfun (target : Qc) (o d : string) (edges : dict (string * string)) (varis : dict variable) : sysfun :=
  fun x => match max_flow x target o d edges varis with Ok r => r | Err _ => (0%Qc, U_, None) end.
End Oracle.
