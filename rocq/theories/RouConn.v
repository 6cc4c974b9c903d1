(** Model of [conn], /repo/BNS_JT/demos/routine/batch.py 49-79: connection by a maximum flow and a shortest path.
    [nx.maximum_flow] and [nx.shortest_path] are arguments; SpecFlow.v and SpecTrans.v state what is
    assumed of them. *)
From Coq Require Import ZArith List String Bool Arith QArith Qcanon.
From Verif Require Import Py Num Vari Brc Flow Trans.
Import ListNotations.
Open Scope string_scope.
Open Scope Z_scope.
Open Scope list_scope.

(** routine/batch.py 50-53 *)
Definition arc_graph (comps_st : dict Z) (arcs : dict (string * string)) : res cgraph :=
  foldM (fun g kx =>
    if 0 <? snd kx then uv <- dget arcs (fst kx) ;; Ok (add_edge g (fst uv) (snd uv) 1%Qc) else Ok g) comps_st [].
(** [n in G.nodes] (56): nodes enter the graph with their edges *)
Definition in_nodes (g : cgraph) (n : string) : bool :=
  existsb (fun e => String.eqb (fst (fst e)) n || String.eqb (snd (fst e)) n) g.
(** the same graph for [nx.shortest_path], which does not read the capacities *)
Definition plain_graph (g : cgraph) : graph :=
  mkGraph false false (nodup string_dec (flat_map (fun e => [fst (fst e); snd (fst e)]) g))
    (map (fun e => mkEdge (fst (fst e)) (snd (fst e)) (KInt 0) None None) g).

(** routine/batch.py 69-72: the first name of the pair, else of the pair turned; [list.index] raises ValueError *)
Definition pair_is (a b : string) (kuv : string * (string * string)) : bool :=
  String.eqb (fst (snd kuv)) a && String.eqb (snd (snd kuv)) b.
Definition arc_name (arcs : dict (string * string)) (ab : string * string) : res string :=
  match find (pair_is (fst ab) (snd ab)) arcs with
  | Some kuv => Ok (fst kuv)
  | None => match find (pair_is (snd ab) (fst ab)) arcs with Some kuv => Ok (fst kuv) | None => Err ValueError end
  end.
(** routine/batch.py 66-73 *)
Definition arc_rule (arcs : dict (string * string)) (p : list string) : res (dict Z) :=
  foldM (fun m ab => k <- arc_name arcs ab ;; Ok (dset m k 1)) (pairwise p) [].

Section Oracles.
Variable nx_flow : cgraph -> string -> string -> res (Qc * (string -> string -> Qc)).
Variable nx_path : graph -> string -> string -> option (list string).

(** routine/batch.py 49-79.  The pair [arcs[k]] is a list of two nodes; a path that is not found raises NetworkXNoPath. *)
Definition rou_conn (comps_st : dict Z) (o d : string) (arcs : dict (string * string)) : res (Qc * st * option (dict Z)) :=
  g <- arc_graph comps_st arcs ;;
  val <- (if in_nodes g o && in_nodes g d then vf <- nx_flow g o d ;; Ok (fst vf) else Ok 0%Qc) ;;
  if qc_ltb 0%Qc val then
    match nx_path (plain_graph g) o d with
    | None => Err NetworkXNoPath
    | Some p => m <- arc_rule arcs p ;; Ok (val, S_, Some m)
    end
  else Ok (val, F_, None).

(** routine/batch.py 101, the function for [brc.run]; an exception is not passed on (the theorems are about calls without) *)
Definition rou_sysfun (o d : string) (arcs : dict (string * string)) : sysfun :=
  fun x => match rou_conn x o d arcs with Ok r => r | Err _ => (0%Qc, U_, None) end.
End Oracles.
