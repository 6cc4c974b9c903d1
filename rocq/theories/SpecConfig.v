(** Specification vocabulary for network files and the set-up made from them. *)
From Coq Require Import ZArith List String Bool QArith Qcanon.
From Verif Require Import Py Num Vari Brc SpecBrc Trans SpecTrans Config.
Import ListNotations.
Open Scope string_scope.
Open Scope Z_scope.
Open Scope list_scope.

(** the types of graphs that a file may name *)
Definition kind_of (gt : option string) (dir multi : bool) : Prop :=
  (dir = false /\ multi = false /\ (gt = None \/ gt = Some "Graph")) \/
  (dir = true /\ multi = false /\ gt = Some "DiGraph") \/
  (dir = false /\ multi = true /\ gt = Some "MultiGraph") \/
  (dir = true /\ multi = true /\ gt = Some "MultiDiGraph").

(** an entry leads from [a] to [b]; without direction also back *)
Definition ends (dir : bool) (en : entry) (a b : string) : Prop :=
  (origin en = a /\ destination en = b) \/ (dir = false /\ origin en = b /\ destination en = a).
(** no two entries join the same nodes *)
Definition no_parallel (dir : bool) (l : dict entry) : Prop :=
  forall k en k' en', In (k, en) l -> In (k', en') l -> ends dir en' (origin en) (destination en) -> k' = k.
(** the last entry from [a] to [b] *)
Definition last_entry (dir : bool) (l : dict entry) (a b k : string) (en : entry) : Prop :=
  exists pre post, l = pre ++ (k, en) :: post /\ ends dir en a b /\ forall k' en', In (k', en') post -> ~ ends dir en' a b.

(** what is assumed of [nx.all_simple_paths] for two different nodes of the graph: the walks
    without repeated nodes, in a simple graph each once *)
Definition nx_simple_ok (nx_simple : graph -> string -> string -> res (list (list string))) : Prop :=
  forall G a b, In a (g_nodes G) -> In b (g_nodes G) -> a <> b ->
    exists l, nx_simple G a b = Ok l /\ (g_multi G = false -> NoDup l) /\ forall p, In p l <-> walk G a p b /\ NoDup p.

(** every edge has a number as weight *)
Definition num_weights (G : graph) : Prop := forall e, In e (g_edges G) -> exists w, e_weight e = Some (VNum w).
(** a trip from [a] to [b]: its nodes, the labels of its edges and its time *)
Inductive trip (G : graph) : string -> list string -> list string -> Qc -> string -> Prop :=
| trip_one a : In a (g_nodes G) -> trip G a [a] [] 0%Qc a
| trip_cons a b c e l w ns ls t : In a (g_nodes G) -> In e (g_edges G) -> leads G e a b -> e_label e = Some l ->
    e_weight e = Some (VNum w) -> trip G b ns ls t c -> trip G a (a :: ns) (l :: ls) (w + t)%Qc c.

(** a route from [a] to [b] in the network of a file: its nodes, its entries and its time *)
Inductive route (dir : bool) (l : dict entry) : string -> list string -> list string -> Qc -> string -> Prop :=
| route_one a : route dir l a [a] [] 0%Qc a
| route_cons a b c k en ns ks t : In (k, en) l -> ends dir en a b -> route dir l b ns ks t c ->
    route dir l a (a :: ns) (k :: ks) (weight en + t)%Qc c.
(** [b] is reached from [a] in time [t] by entries that are up *)
Definition reach (dir : bool) (l : dict entry) (up : string -> Prop) (a b : string) (t : Qc) : Prop :=
  exists ns ks, route dir l a ns ks t b /\ forall k, In k ks -> up k.
(** the travel time; infinite if there is no route *)
Definition travel_time (dir : bool) (l : dict entry) (up : string -> Prop) (a b : string) (v : value) : Prop :=
  match v with
  | VInf => forall t, ~ reach dir l up a b t
  | VNum t => reach dir l up a b t /\ forall t', reach dir l up a b t' -> (t <= t')%Qc
  | VStr _ => False
  end.
(** routes without repeated nodes *)
Definition simple_route (dir : bool) (l : dict entry) (a b : string) (ns : list string) (t : Qc) : Prop :=
  exists ks, route dir l a ns ks t b /\ NoDup ns.
(** the position of the first occurrence of a value *)
Definition first_at (vals : list value) (s : Z) (v : value) : Prop :=
  0 <= s /\ nth_error vals (Z.to_nat s) = Some v /\ forall j, (j < Z.to_nat s)%nat -> nth_error vals j <> Some v.
