(** Model of /repo/BNS_JT/demos/max_flow/batch.py 18-67: flow networks with and without directions.
    [nx.maximum_flow] is an argument; SpecMaxFlow.v states what is assumed of it. *)
From Coq Require Import ZArith List String Bool Arith QArith Qcanon.
From Verif Require Import Py Num Vari Brc Flow.
Import ListNotations.
Open Scope string_scope.
Open Scope Z_scope.
Open Scope list_scope.

(** [nx.Graph] ([bi = true]) and [nx.DiGraph]: the edge that [add_edge(u, v)] would replace *)
Definition same_edge (bi : bool) (u v : string) (e : string * string * Qc) : bool :=
  if bi then same_ends u v e else String.eqb (fst (fst e)) u && String.eqb (snd (fst e)) v.
(** [G.add_edge(u, v, capacity=c)] *)
Definition put_edge (bi : bool) (g : cgraph) (u v : string) (c : Qc) : cgraph :=
  if existsb (same_edge bi u v) g then map (fun e => if same_edge bi u v e then (fst e, c) else e) g else g ++ [(u, v, c)].

(** batch.py 18-32, edges as pairs (the dicts that are accepted here fail in [max_flow_fun], which
    reads [v[0]]).  Without edges [next] raises StopIteration; ValueError stands for it. *)
Definition mf_graph (bi : bool) (comps_st : dict Z) (edges : dict (string * string)) (varis : dict variable) : res cgraph :=
  match edges with
  | [] => Err ValueError
  | _ => foldM (fun g kuv =>
      v <- dget varis (fst kuv) ;;
      s <- dget comps_st (fst kuv) ;;
      w <- py_index (v_values v) s ;;
      c <- num w ;;
      Ok (put_edge bi g (fst (snd kuv)) (snd (snd kuv)) c)) edges []
  end.

(** batch.py 56-59 *)
Definition flow_on (bi : bool) (f : string -> string -> Qc) (u v : string) : Qc := if bi then qmax (f u v) (f v u) else f u v.
(** batch.py 54-63 *)
Definition mf_rule (bi : bool) (f : string -> string -> Qc) (edges : dict (string * string)) (varis : dict variable) : res (dict Z) :=
  foldM (fun m kuv =>
    let flow := flow_on bi f (fst (snd kuv)) (snd (snd kuv)) in
    if qc_ltb 0%Qc flow then
      v <- dget varis (fst kuv) ;;
      cs <- mapM num (v_values v) ;;
      match find_idx (fun c => qc_leb flow c) cs with
      | Some i => Ok (dset m (fst kuv) (Z.of_nat i))
      | None => Err AssertionError
      end
    else Ok m) edges [].

Section Oracle.
(** [nx.maximum_flow(G, s, t)]: value and flows *)
Variable nx_flow : bool -> cgraph -> string -> string -> res (Qc * (string -> string -> Qc)).

(** batch.py 34-37 and 40-67 *)
Definition max_flow_fun (comps_st : dict Z) (o d : string) (edges : dict (string * string)) (varis : dict variable)
    (target : Qc) (bi : bool) : res (Qc * st * option (dict Z)) :=
  g <- mf_graph bi comps_st edges varis ;;
  '(mf, f) <- nx_flow bi (put_edge bi g d "t_new" target) o "t_new" ;;
  if qc_ltb mf target then Ok (mf, F_, Some [])
  else m <- mf_rule bi f edges varis ;; Ok (mf, S_, Some m).

(** batch.py 134, the function that [brc.run] calls; an exception is not passed on (the
    theorems are about calls without) *)
Definition mf_sysfun (o d : string) (edges : dict (string * string)) (varis : dict variable) (target : Qc) (bi : bool) : sysfun :=
  fun x => match max_flow_fun x o d edges varis target bi with Ok r => r | Err _ => (0%Qc, U_, None) end.
End Oracle.

(** batch.py 110-133 [init_prob] after the input file is read: an edge with its nodes, the capacities of its
    states and their probabilities.  The edges come from a JSON object, so that the names are
    different. *)
Record link := mk_link { l_from : string; l_to : string; l_caps : list Qc; l_prob : list Qc }.
(** batch.py 115-117 *)
Definition init_varis (ls : dict link) : dict variable := map (fun kl => (fst kl, mk_variable (fst kl) (map VNum (l_caps (snd kl))) None)) ls.
(** batch.py 119-121 *)
Definition init_edges (ls : dict link) : dict (string * string) := map (fun kl => (fst kl, (l_from (snd kl), l_to (snd kl)))) ls.
(** batch.py 127-132 *)
Definition init_probs (ls : dict link) : prob_dict :=
  map (fun kl => (fst kl, PDict (combine (zrange 0 (Z.of_nat (List.length (l_prob (snd kl))))) (l_prob (snd kl))))) ls.
(** batch.py 110-137 and 156-173 [main]: the search for the pair and target of an entry of 'sysout_setup' *)
Definition mf_main (nx_flow : bool -> cgraph -> string -> string -> res (Qc * (string -> string -> Qc))) (ls : dict link)
    (o d : string) (target : Qc) (bi : bool) (g : config) : res rstate :=
  run (init_varis ls) (init_probs ls) (mf_sysfun nx_flow o d (init_edges ls) (init_varis ls) target bi) g None None.
