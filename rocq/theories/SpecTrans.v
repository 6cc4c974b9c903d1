(** Specification vocabulary for the network system functions. *)
From Coq Require Import ZArith List String Bool QArith Qcanon.
From Verif Require Import Py Num Vari Brc SpecBrc Trans.
Import ListNotations.
Open Scope string_scope.
Open Scope Z_scope.
Open Scope list_scope.

(** a component is alive unless its state is given as 0 *)
Definition alive (comps : dict Z) (k : string) : Prop := dfind comps k <> Some 0.

(** an edge leads from [a] to [b]; without direction also back *)
Definition leads (G : graph) (e : gedge) (a b : string) : Prop :=
  (e_src e = a /\ e_dst e = b) \/ (g_dir G = false /\ e_src e = b /\ e_dst e = a).

(** origin and destination are connected by living nodes and edges *)
Inductive conn (G : graph) (comps : dict Z) : string -> string -> Prop :=
| conn_refl a : In a (g_nodes G) -> alive comps a -> conn G comps a a
| conn_step a b c e l : In a (g_nodes G) -> alive comps a -> In e (g_edges G) -> leads G e a b ->
    e_label e = Some l -> alive comps l -> conn G comps b c -> conn G comps a c.

(** a graph as networkx keeps it: edges join nodes, and no two edges join the same nodes
    (in multigraphs: with the same key); every edge has a label *)
Definition wf_graph (G : graph) : Prop :=
  NoDup (g_edges G) /\
  (forall e, In e (g_edges G) -> In (e_src e) (g_nodes G) /\ In (e_dst e) (g_nodes G) /\ e_label e <> None) /\
  (forall e e', In e (g_edges G) -> In e' (g_edges G) -> leads G e' (e_src e) (e_dst e) ->
     (g_multi G = true -> e_key e' = e_key e) -> e' = e).
(** multigraphs as the code expects them: keyed by the labels, with weights *)
Definition label_keys (G : graph) : Prop :=
  g_multi G = true -> forall e, In e (g_edges G) -> (exists l, e_label e = Some l /\ e_key e = KStr l) /\ e_weight e <> None.

(** a walk from [a] to [b] through the nodes [p] *)
Inductive walk (G : graph) : string -> list string -> string -> Prop :=
| walk_one a : In a (g_nodes G) -> walk G a [a] a
| walk_cons a b c e p : In a (g_nodes G) -> In e (g_edges G) -> leads G e a b -> walk G b p c -> walk G a (a :: p) c.

(** what is assumed of [nx.shortest_path]: a walk with the fewest nodes, if there is any *)
Definition nx_path_ok (nx_path : graph -> string -> string -> option (list string)) : Prop :=
  forall G a b, match nx_path G a b with
                | Some p => walk G a p b /\ forall q, walk G a q b -> (List.length p <= List.length q)%nat
                | None => forall q, ~ walk G a q b
                end.

(** travel times *)
Definition t_add (a b : value) : value := match a, b with VNum x, VNum y => VNum (x + y)%Qc | _, _ => VInf end.
Definition t_le (a b : value) : Prop :=
  match a, b with VNum x, VNum y => (x <= y)%Qc | VNum _, VInf | VInf, VInf => True | _, _ => False end.
(** [T] is the time of the walk along [p]: lightest edge between consecutive nodes *)
Definition step_time (G : graph) (a b : string) (w : value) : Prop :=
  (exists e, In e (g_edges G) /\ leads G e a b /\ e_weight e = Some w) /\
  forall e w', In e (g_edges G) -> leads G e a b -> e_weight e = Some w' -> t_le w w'.
Inductive walk_time (G : graph) : list string -> value -> Prop :=
| wt_one a : walk_time G [a] (VNum 0%Qc)
| wt_cons a b p w T : step_time G a b w -> walk_time G (b :: p) T -> walk_time G (a :: b :: p) (t_add w T).

(** weights that Dijkstra's algorithm handles: all given, not negative *)
Definition good_weights (G : graph) : Prop :=
  forall e, In e (g_edges G) -> exists w, e_weight e = Some w /\ t_le (VNum 0%Qc) w.
(** what is assumed of [nx.shortest_path] and [nx.shortest_path_length] with weights: a walk
    of least time and its time, if there is a walk *)
Definition nx_wpath_ok (nx_wpath : graph -> string -> string -> res (list string)) (nx_wlen : graph -> string -> string -> res value) : Prop :=
  forall G a b, good_weights G ->
    match nx_wpath G a b with
    | Ok p => walk G a p b /\ exists T, walk_time G p T /\ nx_wlen G a b = Ok T /\
                forall q Tq, walk G a q b -> walk_time G q Tq -> t_le T Tq
    | Err _ => forall q, ~ walk G a q b
    end.

(** [d] is reached from [o] within time [t] when edge [l] takes time [time l] *)
Inductive within (G : graph) (time : string -> value) : string -> string -> value -> Prop :=
| wi_refl a : In a (g_nodes G) -> within G time a a (VNum 0%Qc)
| wi_step a b c e l T : In a (g_nodes G) -> In e (g_edges G) -> leads G e a b -> e_label e = Some l ->
    within G time b c T -> within G time a c (t_add (time l) T).

(** the time that edge [l] takes in the state given by [x] *)
Definition edge_time (varis : dict variable) (x : dict Z) (l : string) : value :=
  match dfind varis l with Some v => nth (Z.to_nat (coord x l)) (v_values v) VInf | None => VInf end.
(** every edge has a variable with non-negative times, worst first *)
Definition times_ok (G : graph) (varis : dict variable) : Prop :=
  forall e l, In e (g_edges G) -> e_label e = Some l -> exists v, dfind varis l = Some v /\
    (forall w, In w (v_values v) -> t_le (VNum 0%Qc) w) /\
    (forall i j wi wj, (i <= j)%nat -> nth_error (v_values v) i = Some wi -> nth_error (v_values v) j = Some wj -> t_le wj wi).
(** every component has one of its states *)
Definition states_ok (varis : dict variable) (x : dict Z) : Prop :=
  NoDup (keys varis) /\ forall k v, In (k, v) varis -> exists s, dfind x k = Some s /\ 0 <= s < nvals v.
(** [y] is at least as good as [m] on the components of [m]; components that [x] does not
    know of stay unknown *)
Definition at_least (x m y : dict Z) : Prop :=
  (forall k s, dfind m k = Some s -> exists s', dfind y k = Some s' /\ s <= s') /\ (forall k, dfind x k = None -> dfind y k = None).

(** what is assumed of [nx.multi_source_dijkstra]: a walk of least time from one of the sources *)
Definition nx_multi_ok (nx_multi : graph -> list string -> string -> res (value * list string)) : Prop :=
  forall G srcs b, good_weights G -> srcs <> [] -> incl srcs (g_nodes G) ->
    match nx_multi G srcs b with
    | Ok (T, p) => (exists s, In s srcs /\ walk G s p b) /\ walk_time G p T /\
                   forall s q Tq, In s srcs -> walk G s q b -> walk_time G q Tq -> t_le T Tq
    | Err e => e = NetworkXNoPath /\ forall s q, In s srcs -> ~ walk G s q b
    end.
