(** Vocabulary for flows in networks with ([bi = false]) and without ([bi = true]) directions. *)
From Coq Require Import ZArith List String Bool Arith QArith Qcanon.
From Verif Require Import Py Num Vari Brc SpecBrc Flow SpecFlow MaxFlow.
Import ListNotations.
Open Scope string_scope.
Open Scope Z_scope.
Open Scope list_scope.

(** a flow [w] along an edge of capacity [c]; negative against the direction of the edge *)
Definition fits2 (bi : bool) (c w : Qc) : Prop := ((if bi then - c else 0) <= w)%Qc /\ (w <= c)%Qc.
(** the flow [phi], one entry for each edge, sends [v] units from [s] to [t] *)
Definition sends2 (bi : bool) (g : cgraph) (phi : list Qc) (s t : string) (v : Qc) : Prop :=
  Forall2 (fun e w => fits2 bi (snd e) w) g phi /\ (forall n, n <> s -> n <> t -> net g phi n = 0%Qc) /\ net g phi s = v.

(** graphs that [nx.Graph] and [nx.DiGraph] can hold, without loops *)
Fixpoint simple2 (bi : bool) (g : cgraph) : Prop :=
  match g with
  | [] => True
  | (u, v, _) :: g' => u <> v /\ (forall a b c, In (a, b, c) g' -> ~ (a = u /\ b = v) /\ (bi = true -> ~ (a = v /\ b = u))) /\ simple2 bi g'
  end.

(** [nx.maximum_flow]: a flow for every edge, for every pair of neighbours in both directions when there are
    none, then at most one of them positive; conserved, within the capacities, of greatest value *)
Definition signed2 (bi : bool) (f : string -> string -> Qc) (g : cgraph) : list Qc :=
  map (fun e => if bi then (f (fst (fst e)) (snd (fst e)) - f (snd (fst e)) (fst (fst e)))%Qc else f (fst (fst e)) (snd (fst e))) g.
Definition one_way (bi : bool) (f : string -> string -> Qc) (u v : string) : Prop :=
  (0 <= f u v)%Qc /\ (bi = true -> (0 <= f v u)%Qc /\ (f u v = 0%Qc \/ f v u = 0%Qc)).
Definition nx_flow2_ok (nx_flow : bool -> cgraph -> string -> string -> res (Qc * (string -> string -> Qc))) : Prop :=
  forall bi g s t, simple2 bi g -> (forall e, In e g -> (0 <= snd e)%Qc) -> is_node g s -> is_node g t -> s <> t ->
    exists val f, nx_flow bi g s t = Ok (val, f) /\ (forall u v c, In (u, v, c) g -> one_way bi f u v) /\
      sends2 bi g (signed2 bi f g) s t val /\ forall phi v, sends2 bi g phi s t v -> (v <= val)%Qc.

(** one edge for each component, with the capacity of its state *)
Definition network2 (edges : dict (string * string)) (varis : dict variable) (x : dict Z) : cgraph :=
  map (fun kuv => (snd kuv, cap varis (fst kuv) (coord x (fst kuv)))) edges.

(** no loops, no two edges from the same to the same node (when directed) or between the same nodes, the
    name 't_new' is free, one edge for each component *)
Definition edges2_ok (bi : bool) (edges : dict (string * string)) (varis : dict variable) : Prop :=
  keys edges = keys varis /\
  (forall k u v, In (k, (u, v)) edges -> u <> v /\ u <> "t_new" /\ v <> "t_new") /\
  (forall k k' u v, In (k, (u, v)) edges -> In (k', (u, v)) edges \/ (bi = true /\ In (k', (v, u)) edges) -> k = k').

(** a rule that keeps, for every component, the least state that carries its part of the flow [phi] *)
Definition carries2 (bi : bool) (varis : dict variable) (edges : dict (string * string)) (x : dict Z) (phi : list Qc) (r : dict Z) : Prop :=
  NoDup (keys r) /\ incl (keys r) (keys edges) /\
  forall i k uv w, nth_error edges i = Some (k, uv) -> nth_error phi i = Some w ->
    match dfind r k with
    | None => w = 0%Qc
    | Some z => w <> 0%Qc /\ 0 <= z <= coord x k /\ fits2 bi (cap varis k z) w /\ forall z', 0 <= z' < z -> ~ fits2 bi (cap varis k z') w
    end.

(** the input file: names and, with nodes, the edges are different; capacities and probabilities for the same
    states, capacities not decreasing *)
Definition links_ok (bi : bool) (ls : dict link) : Prop :=
  NoDup (keys ls) /\
  (forall k l, In (k, l) ls -> l_from l <> l_to l /\ l_from l <> "t_new" /\ l_to l <> "t_new" /\
     List.length (l_caps l) = List.length (l_prob l) /\ (forall c, In c (l_caps l) -> (0 <= c)%Qc) /\
     (forall i j c c', (i <= j)%nat -> nth_error (l_caps l) i = Some c -> nth_error (l_caps l) j = Some c' -> (c <= c')%Qc) /\
     (forall q, In q (l_prob l) -> (0 <= q)%Qc) /\ qsum (l_prob l) = 1%Qc) /\
  (forall k l k' l', In (k, l) ls -> In (k', l') ls -> (l_from l = l_from l' /\ l_to l = l_to l') \/ (bi = true /\ l_from l = l_to l' /\ l_to l = l_from l') -> k = k').
(** the vectors of states, the network in a state, its probability, the probability that a demand is not met *)
Definition link_space (ls : dict link) : list (dict Z) := space (map (fun kl => (fst kl, Z.of_nat (List.length (l_caps (snd kl))))) ls).
Definition link_net (ls : dict link) (x : dict Z) : cgraph :=
  map (fun kl => (l_from (snd kl), l_to (snd kl), nth (Z.to_nat (coord x (fst kl))) (l_caps (snd kl)) 0%Qc)) ls.
Definition link_pr (ls : dict link) (x : dict Z) : Qc := qprod (map (fun kl => nth (Z.to_nat (coord x (fst kl))) (l_prob (snd kl)) 0%Qc) ls).
Definition p_short (ls : dict link) (meets : dict Z -> bool) : Qc := qsum (map (link_pr ls) (filter (fun x => negb (meets x)) (link_space ls))).
