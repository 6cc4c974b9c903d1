(** Model of trans.py 56-250: the system functions on networkx graphs.  Nodes, labels and
    components are named by strings.  The shortest path routines of networkx are
    arguments; SpecTrans.v states what is assumed of them. *)
From Coq Require Import ZArith List String Bool Arith QArith Qcanon.
From Verif Require Import Py Num Vari Brc.
Import ListNotations.
Open Scope string_scope.
Open Scope Z_scope.
Open Scope list_scope.

(** edge keys of multigraphs; in simple graphs the key is not used *)
Inductive gkey : Set := KInt (i : Z) | KStr (s : string).
Definition gkey_eqb (a b : gkey) : bool :=
  match a, b with KInt i, KInt j => i =? j | KStr s, KStr t => String.eqb s t | _, _ => false end.
(** an edge as reported by [G.edges(data=True)], with its attributes 'label' and 'weight' *)
Record gedge : Type := mkEdge {
  e_src : string; e_dst : string; e_key : gkey; e_label : option string; e_weight : option value }.
(** [Graph], [DiGraph], [MultiGraph] or [MultiDiGraph] *)
Record graph : Type := mkGraph { g_dir : bool; g_multi : bool; g_nodes : list string; g_edges : list gedge }.

(** the edge leads from [a] to [b] *)
Definition joins (dir : bool) (e : gedge) (a b : string) : bool :=
  (String.eqb (e_src e) a && String.eqb (e_dst e) b) ||
  (negb dir && String.eqb (e_src e) b && String.eqb (e_dst e) a).

(** trans.py 186-190: [H.remove_edge(n1, n2, key=label)] for multigraphs; the keyword is
    a TypeError for simple graphs, and then [H.remove_edge(n1, n2)] *)
Definition rm_hit (dir multi : bool) (n1 n2 label : string) (e : gedge) : bool :=
  joins dir e n1 n2 && (if multi then gkey_eqb (e_key e) (KStr label) else true).
Definition remove_edge (dir multi : bool) (es : list gedge) (n1 n2 label : string) : res (list gedge) :=
  if existsb (rm_hit dir multi n1 n2 label) es then Ok (filter (fun e => negb (rm_hit dir multi n1 n2 label e)) es)
  else Err NetworkXError.

(** trans.py 176-203, [update_G_given_comps_st] without [varis]: remove the failed edges,
    then the failed nodes; an edge without label is kept (the KeyError is caught) *)
Definition drop_edge (G : graph) (comps_st : dict Z) (es : list gedge) (e : gedge) : res (list gedge) :=
  match e_label e with
  | None => Ok es
  | Some l =>
      match dfind comps_st l with
      | Some s => if s =? 0 then remove_edge (g_dir G) (g_multi G) es (e_src e) (e_dst e) l else Ok es
      | None => Ok es
      end
  end.
Definition drop_node (comps_st : dict Z) (acc : list string * list gedge) (n0 : string) : list string * list gedge :=
  match dfind comps_st n0 with
  | Some s =>
      if s =? 0 then
        (filter (fun n => negb (String.eqb n n0)) (fst acc),
         filter (fun e => negb (String.eqb (e_src e) n0) && negb (String.eqb (e_dst e) n0)) (snd acc))
      else acc
  | None => acc
  end.
Definition update_conn (G : graph) (comps_st : dict Z) : res graph :=
  es <- foldM (drop_edge G comps_st) (g_edges G) (g_edges G) ;;
  let ne := fold_left (drop_node comps_st) (g_nodes G) (g_nodes G, es) in
  Ok (mkGraph (g_dir G) (g_multi G) (fst ne) (snd ne)).

(** trans.py 162-175, the same function with [varis]: new weights.  In multigraphs only
    the edges with key 0 are addressed; unknown keys are ignored by networkx. *)
Definition edge_weight (varis : dict variable) (comps_st : dict Z) (e : gedge) : res value :=
  k <- (match e_label e with Some l => Ok l | None => Err KeyError end) ;;
  v <- dget varis k ;;
  s <- dget comps_st k ;;
  py_index (v_values v) s.
Definition update_weights (G : graph) (comps_st : dict Z) (varis : dict variable) : res graph :=
  ws <- mapM (fun e => w <- edge_weight varis comps_st e ;; Ok (e_src e, e_dst e, w)) (g_edges G) ;;
  let look e := find (fun a => String.eqb (fst (fst a)) (e_src e) && String.eqb (snd (fst a)) (e_dst e)) (rev ws) in
  let upd e :=
    if negb (g_multi G) || gkey_eqb (e_key e) (KInt 0) then
      match look e with
      | Some a => mkEdge (e_src e) (e_dst e) (e_key e) (e_label e) (Some (snd a))
      | None => e
      end
    else e in
  Ok (mkGraph (g_dir G) (g_multi G) (g_nodes G) (map upd (g_edges G))).

(** trans.py 159-203 [update_G_given_comps_st]: an empty [varis] counts as none *)
Definition update_G (G : graph) (comps_st : dict Z) (varis : dict variable) : res graph :=
  match varis with [] => update_conn G comps_st | _ => update_weights G comps_st varis end.

(** order of times; strings do not occur as weights *)
Definition t_ltb (a b : value) : bool :=
  match a, b with
  | VNum x, VNum y => qc_ltb x y
  | VNum _, VInf => true
  | _, _ => false
  end.

(** trans.py 143-156 [get_edge_from_nodes]; for multigraphs the label of the lightest of
    the parallel edges; two or more edges without weight cannot be compared *)
Fixpoint pairwise {A} (l : list A) : list (A * A) :=
  match l with
  | a :: (b :: _) as r => (a, b) :: pairwise r
  | _ => []
  end.
Definition label_of (e : gedge) : res string := match e_label e with Some l => Ok l | None => Err KeyError end.
Definition edge_between (G : graph) (p : string * string) : res string :=
  let es := filter (fun e => joins (g_dir G) e (fst p) (snd p)) (g_edges G) in
  match es with
  | [] => if g_multi G then Err AttributeError else Err TypeError
  | e :: es' =>
      if g_multi G then
        match es' with
        | [] => label_of e
        | _ =>
            if existsb (fun e => match e_weight e with None => true | Some _ => false end) es then Err TypeError
            else
              match sort_desc (fun a b => match e_weight a, e_weight b with Some x, Some y => t_ltb x y | _, _ => false end) es with
              | e0 :: _ => label_of e0
              | [] => Err IndexError
              end
        end
      else label_of e
  end.
Definition get_edge_from_nodes (G : graph) (path : list string) : res (list string) := mapM (edge_between G) (pairwise path).

Section Oracles.
(** [nx.shortest_path] without weights; None stands for [NodeNotFound] and
    [NetworkXNoPath], which the code treats alike *)
Variable nx_path : graph -> string -> string -> option (list string).
(** [nx.shortest_path] and [nx.shortest_path_length] with weights *)
Variable nx_wpath : graph -> string -> string -> res (list string).
Variable nx_wlen : graph -> string -> string -> res value.

(** trans.py 109-140 [get_connectivity_given_comps]: edges and nodes of a path *)
Definition get_connectivity_given_comps (comps_st : dict Z) (G : graph) (o d : string) : res (list string * list string) :=
  H <- update_conn G comps_st ;;
  match nx_path H o d with
  | None => Ok ([], [])
  | Some p => es <- get_edge_from_nodes H p ;; Ok (es, p)
  end.

(** trans.py 206-223 [get_time_and_path_given_comps] *)
Definition get_time_and_path_given_comps (comps_st : dict Z) (G : graph) (o d : string) (varis : dict variable)
  : res (value * list string * list string) :=
  ok <- allM (fun kv => s <- dget comps_st (fst kv) ;; Ok (s <? nvals (snd kv))) varis ;;
  if ok then
    H <- update_G G comps_st varis ;;
    path <- nx_wpath H o d ;;
    d_time <- nx_wlen H o d ;;
    path_e <- get_edge_from_nodes H path ;;
    Ok (d_time, path, path_e)
  else Err AssertionError.

(** trans.py 99-105: the components of the path with their states *)
Definition comps_on (comps_st : dict Z) (m : dict Z) (l : list string) : dict Z :=
  fold_left (fun m k => match dfind comps_st k with Some s => dset m k s | None => m end) l m.

(** [if thres:] holds for numbers other than 0, and for infinity *)
Definition truthy (t : value) : bool := match t with VNum q => negb (qc_eqb q 0%Qc) | _ => true end.

(** trans.py 94-107: state and minimal component vector *)
Definition min_comps (comps_st : dict Z) (d_time : option value) (sys_st : st) (path_n path_e : list string)
  : option value * st * dict Z :=
  (d_time, sys_st, match sys_st with S_ => comps_on comps_st (comps_on comps_st [] path_e) path_n | _ => [] end).

(** trans.py 63-107 [sf_min_path] for a pair of nodes *)
Definition sf_min_path (comps_st : dict Z) (G : graph) (o d : string) (varis : dict variable) (thres : option value)
  : res (option value * st * dict Z) :=
  match (match thres with Some t => if truthy t then Some t else None | None => None end) with
  | Some t =>
      c <- get_time_and_path_given_comps comps_st G o d varis ;;
      let '(d_time, path_n, path_e) := c in
      Ok (min_comps comps_st (Some d_time) (if t_ltb t d_time then F_ else S_) path_n path_e)
  | None =>
      c <- get_connectivity_given_comps comps_st G o d ;;
      let '(path_e, path_n) := c in
      Ok (min_comps comps_st None (match path_n with [] => F_ | _ => S_ end) path_n path_e)
  end.

(** [nx.multi_source_dijkstra] *)
Variable nx_multi : graph -> list string -> string -> res (value * list string).

(** trans.py 226-248 [get_time_and_path_multi_dest] *)
Definition get_time_and_path_multi_dest (comps_st : dict Z) (G : graph) (origin : string) (dests : list string) (varis : dict variable)
  : res (value * list string * list string) :=
  ok <- allM (fun kv => v <- dget varis (fst kv) ;; Ok (snd kv <? nvals v)) comps_st ;;
  if ok then
    if g_dir G then Err AssertionError
    else
      H <- update_G G comps_st varis ;;
      match nx_multi H dests origin with
      | Err NetworkXNoPath => Ok (VInf, [], [])
      | Err e => Err e
      | Ok (d_time, nodes) =>
          let path := rev nodes in
          path_e <- get_edge_from_nodes H path ;;
          Ok (d_time, path, path_e)
      end
  else Err AssertionError.

(** trans.py 63-107 [sf_min_path] for an origin and several destinations; without a
    threshold the dictionary [od_pair] is indexed with 0 (line 132) *)
Definition sf_min_path_multi (comps_st : dict Z) (G : graph) (origin : string) (dests : list string) (varis : dict variable)
    (thres : option value) : res (option value * st * dict Z) :=
  match (match thres with Some t => if truthy t then Some t else None | None => None end) with
  | Some t =>
      c <- get_time_and_path_multi_dest comps_st G origin dests varis ;;
      let '(d_time, path_n, path_e) := c in
      Ok (min_comps comps_st (Some d_time) (if t_ltb t d_time then F_ else S_) path_n path_e)
  | None => H <- update_conn G comps_st ;; Err KeyError
  end.

(** trans.py 56-60 [sys_fun_wrap], as the function that [brc.run] calls.  Infinite times are
    recorded as 0 and an exception is not passed on (the state is unknown): the theorems are
    about graphs for which there is none. *)
Definition as_sysfun (f : dict Z -> res (option value * st * dict Z)) : sysfun :=
  fun x => match f x with
           | Ok (T, s, m) => (match T with Some (VNum q) => q | _ => 0%Qc end, s, Some m)
           | Err _ => (0%Qc, U_, None)
           end.
End Oracles.

(** model.py 32-60 [get_branches_by_od] for one OD pair; [edges] the names of the edges, [scen]
    the values of scenario 's1', [mx] the limit on branches and system calls.  The threshold is
    twice the time in the intact state. *)
Definition t_double (a : value) : value := match a with VNum q => VNum (q + q)%Qc | _ => a end.
Definition st_br_to_cs (s : st) : res Z := Ok match s with F_ => 0 | S_ => 1 | U_ => 2 end.
Definition get_branches_by_od nx_path nx_wpath nx_wlen (G : graph) (edges : list string) (scen : dict (list value)) (o d : string) (mx : Z)
  : res (list (list Z) * dict variable) :=
  varis <- mapM (fun k => vs <- dget scen k ;; Ok (k, mk_variable k vs None)) edges ;;
  let probs := map (fun kv => (fst kv, PList (map (fun _ => (1 / qz (nvals (snd kv)))%Qc) (v_values (snd kv))))) varis in
  c <- get_time_and_path_given_comps nx_wpath nx_wlen (best_of varis) G o d varis ;;
  let sys_fun := as_sysfun (fun x => sf_min_path nx_path nx_wpath nx_wlen x G o d varis (Some (t_double (fst (fst c))))) in
  s <- run varis probs sys_fun (mkCfg mx (Some mx) 0%Qc None true true) None None ;;
  match s_brs s with
  | Some brs => get_csys brs varis st_br_to_cs
  | None => Err TypeError
  end.
