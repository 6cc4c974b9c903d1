(** Model of the reading of network files and of the path-based set-up: config.py 36-39 and
    88-131, trans.py 251-271 and model.py 9-29. *)
From Coq Require Import ZArith List String Bool QArith Qcanon.
From Verif Require Import Py Num Vari Brc Cpm Model Bnb PathModel Trans.
Import ListNotations.
Open Scope string_scope.
Open Scope Z_scope.
Open Scope list_scope.

(** config.py 88-106: the parts of a network file that are used.  Of an entry of
    'node_conn_df' these are its ends and its weight, which is a number here; of
    'component_list' the names (the positions are only attributes); of 'sysout_setup' the
    pairs of nodes.  A file that lacks a part raises KeyError in the code and is not modelled. *)
Record entry : Type := mkEntry { origin : string; destination : string; weight : Qc }.
Record netfile : Type := mkNetfile {
  component_list : list string;
  node_conn_df : dict entry;
  sysout_setup : dict (string * string);
  graph_type : option string }.

(** config.py 36-39 and 108-122: direction and multiplicity of the graph.  The name must be
    spelled as in [graph_types]; the later [lower()] changes nothing. *)
Definition graph_kind (gt : option string) : res (bool * bool) :=
  match gt with
  | None => Ok (false, false)
  | Some t =>
      if String.eqb t "Graph" then Ok (false, false)
      else if String.eqb t "DiGraph" then Ok (true, false)
      else if String.eqb t "MultiGraph" then Ok (false, true)
      else if String.eqb t "MultiDiGraph" then Ok (true, true)
      else Err AssertionError
  end.

(** networkx [add_node] and [add_edge]: a node is added once.  In a simple graph a second
    edge between two nodes replaces the attributes of the first; in a multigraph the edge is
    identified by its key as well.  The edges are kept in the order of their addition and
    with the ends as first given; networkx reports the edges of undirected graphs by node. *)
Definition add_node (ns : list string) (n : string) : list string := if mem_str n ns then ns else ns ++ [n].
Definition add_hit (dir multi : bool) (e e' : gedge) : bool :=
  joins dir e' (e_src e) (e_dst e) && (if multi then gkey_eqb (e_key e') (e_key e) else true).
Definition add_edge (dir multi : bool) (es : list gedge) (e : gedge) : list gedge :=
  if existsb (add_hit dir multi e) es then
    map (fun e' => if add_hit dir multi e e' then mkEdge (e_src e') (e_dst e') (e_key e') (e_label e) (e_weight e) else e') es
  else es ++ [e].

(** config.py 124-128 *)
Definition entry_edge (kv : string * entry) : gedge :=
  mkEdge (origin (snd kv)) (destination (snd kv)) (KStr (fst kv)) (Some (fst kv)) (Some (VNum (weight (snd kv)))).
Definition add_entry (dir multi : bool) (acc : list string * list gedge) (kv : string * entry) : list string * list gedge :=
  (add_node (add_node (fst acc) (origin (snd kv))) (destination (snd kv)), add_edge dir multi (snd acc) (entry_edge kv)).

(** config.py 88-131 [read_model_from_json]: the graph, the edges and the ODs *)
Definition read_model (f : netfile) : res (graph * dict entry * dict (string * string)) :=
  kind <- graph_kind (graph_type f) ;;
  let ne := fold_left (add_entry (fst kind) (snd kind)) (node_conn_df f) ([], []) in
  let ns := fold_left add_node (component_list f) (fst ne) in
  Ok (mkGraph (fst kind) (snd kind) ns (snd ne), node_conn_df f, sysout_setup f).

(** ** trans.py 251-271 *)
(** the first edge between two nodes; a simple graph has no other *)
Definition edge_at (G : graph) (p : string * string) : option gedge :=
  find (fun e => joins (g_dir G) e (fst p) (snd p)) (g_edges G).
(** [nx.path_weight]: the sum of the weights, in multigraphs of the least; a weight that is
    no number raises TypeError *)
Definition num_weight (e : gedge) : res Qc := match e_weight e with Some (VNum q) => Ok q | _ => Err TypeError end.
Definition step_weight (G : graph) (p : string * string) : res Qc :=
  match filter (fun e => joins (g_dir G) e (fst p) (snd p)) (g_edges G) with
  | [] => Err NetworkXNoPath
  | e :: es =>
      w <- num_weight e ;;
      if g_multi G then foldM (fun m e' => w' <- num_weight e' ;; Ok (if qc_ltb w' m then w' else m)) es w else Ok w
  end.
Definition path_weight (G : graph) (p : list string) : res Qc :=
  ws <- mapM (step_weight G) (pairwise p) ;; Ok (qsum ws).
(** [G[x[0]][x[1]]['label']]: in multigraphs [G[a][b]] is indexed by the keys of the edges,
    so that 'label' is an unknown key (an entry of that name is not modelled) *)
Definition step_label (G : graph) (p : string * string) : res string :=
  if g_multi G then Err KeyError else
  match edge_at G p with Some e => label_of e | None => Err KeyError end.
(** trans.py 258-267: one path with its time *)
Definition path_entry_of (G : graph) (p : list string) : res (list string * Qc) :=
  val <- path_weight G p ;;
  edges_path <- mapM (step_label G) (pairwise p) ;;
  Ok (edges_path, val).

(** dicts whose keys are pairs of nodes; [setdefault(k, []).append(v)] *)
Definition pair_eqb (a b : string * string) : bool := String.eqb (fst a) (fst b) && String.eqb (snd a) (snd b).
Definition pdict : Type := list ((string * string) * od_paths).
Definition pfind (d : pdict) (k : string * string) : option od_paths :=
  match find (fun kv => pair_eqb (fst kv) k) d with Some kv => Some (snd kv) | None => None end.
Fixpoint append_to (d : pdict) (k : string * string) (v : list string * Qc) : pdict :=
  match d with
  | [] => [(k, [v])]
  | kv :: d' => if pair_eqb (fst kv) k then (fst kv, snd kv ++ [v]) :: d' else kv :: append_to d' k v
  end.

Section Oracle.
(** [nx.all_simple_paths]; SpecConfig.v states what is assumed of it *)
Variable nx_simple : graph -> string -> string -> res (list (list string)).

(** trans.py 251-271 [get_all_paths_and_times] *)
Definition get_all_paths_and_times (ods : list (string * string)) (G : graph) : res pdict :=
  foldM (fun path_time od =>
    paths <- nx_simple G (fst od) (snd od) ;;
    foldM (fun path_time p => x <- path_entry_of G p ;; Ok (append_to path_time od x)) paths path_time) ods [].

(** [path_times[ODs[k]]] by name of the OD; an OD without path is missing *)
Definition by_od (ods : dict (string * string)) (path_times : pdict) : dict od_paths :=
  flat_map (fun kv => match pfind path_times (snd kv) with Some pt => [(fst kv, pt)] | None => [] end) ods.

(** model.py 9-29 [setup_model]: the CPMs and variables of each OD and scenario; [ds] are
    the damage states, [scenarios] the probabilities of the damage states of the edges *)
Definition setup_model (fuel : nat) (f : netfile) (ds : list value) (scenarios : dict (dict (list Qc))) (key : string) (d : dir)
  : res (list ((string * string) * (dict cpm * dict variable))) :=
  infra <- read_model f ;;
  let G := fst (fst infra) in
  let edges := keys (snd (fst infra)) in
  let ods := snd infra in
  path_times <- get_all_paths_and_times (map snd ods) G ;;
  r <- get_branches fuel edges (keys ods) (by_od ods path_times) key d ;;
  mapM (fun os : (string * string) * (dict (list Qc)) =>
    pt <- dget (by_od ods path_times) (fst (fst os)) ;;
    brs <- dget (fst r) (fst (fst os)) ;;
    m <- model_given_od_scen edges ds (snd os) (fst (fst os)) pt brs ;;
    Ok (fst os, m))
    (flat_map (fun od => map (fun sc => ((od, fst sc), snd sc)) scenarios) (keys ods)).
End Oracle.
