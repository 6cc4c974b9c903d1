(** Vocabulary for maximum flows: networks, flows along their edges, what is assumed of
    [nx.maximum_flow]. *)
From Coq Require Import ZArith List String Bool Arith QArith Qcanon.
From Verif Require Import Py Num Vari Brc SpecBrc Flow.
Import ListNotations.
Open Scope string_scope.
Open Scope Z_scope.
Open Scope list_scope.

(** a flow [w] along an edge of capacity [c]; negative against the direction of the edge *)
Definition fits (c w : Qc) : Prop := (- c <= w)%Qc /\ (w <= c)%Qc.
(** what leaves node [n] minus what arrives *)
Definition net (g : cgraph) (phi : list Qc) (n : string) : Qc :=
  qsum (map (fun ew => ((if String.eqb (fst (fst (fst ew))) n then snd ew else 0) -
                        (if String.eqb (snd (fst (fst ew))) n then snd ew else 0))%Qc) (combine g phi)).
(** the flow [phi], one entry for each edge, sends [v] units from [s] to [t] *)
Definition sends (g : cgraph) (phi : list Qc) (s t : string) (v : Qc) : Prop :=
  Forall2 (fun e w => fits (snd e) w) g phi /\ (forall n, n <> s -> n <> t -> net g phi n = 0%Qc) /\ net g phi s = v.

(** graphs that [nx.Graph] can hold, without loops *)
Fixpoint simple (g : cgraph) : Prop :=
  match g with
  | [] => True
  | (u, v, _) :: g' => u <> v /\ (forall a b c, In (a, b, c) g' -> ~ (a = u /\ b = v) /\ ~ (a = v /\ b = u)) /\ simple g'
  end.
Definition is_node (g : cgraph) (n : string) : Prop := exists e, In e g /\ (fst (fst e) = n \/ snd (fst e) = n).

(** [nx.maximum_flow] on a graph without direction: for every pair of neighbours the flow in both directions, at most
    one of them positive; conserved, within the capacities, of greatest value *)
Definition signed (f : string -> string -> Qc) (g : cgraph) : list Qc :=
  map (fun e => (f (fst (fst e)) (snd (fst e)) - f (snd (fst e)) (fst (fst e)))%Qc) g.
Definition nx_flow_ok (nx_flow : cgraph -> string -> string -> res (Qc * (string -> string -> Qc))) : Prop :=
  forall g s t, simple g -> (forall e, In e g -> (0 <= snd e)%Qc) -> is_node g s -> is_node g t -> s <> t ->
    exists val f, nx_flow g s t = Ok (val, f) /\
      (forall u v c, In (u, v, c) g -> (0 <= f u v)%Qc /\ (0 <= f v u)%Qc /\ (f u v = 0%Qc \/ f v u = 0%Qc)) /\
      sends g (signed f g) s t val /\ forall phi v, sends g phi s t v -> (v <= val)%Qc.

(** ends and capacities of components *)
Definition ends (edges : dict (string * string)) (k : string) : string * string :=
  match dfind edges k with Some uv => uv | None => ("", "") end.
Definition cap (varis : dict variable) (k : string) (s : Z) : Qc :=
  match dfind varis k with
  | Some v => match nth_error (v_values v) (Z.to_nat s) with Some (VNum c) => c | _ => 0%Qc end
  | None => 0%Qc
  end.
(** one edge for each component, with the capacity of its state *)
Definition network (edges : dict (string * string)) (varis : dict variable) (x : dict Z) : cgraph :=
  map (fun ks => (ends edges (fst ks), cap varis (fst ks) (snd ks))) x.

(** no loops, no two components between the same nodes, the name 'new_t' is free *)
Definition edges_ok (edges : dict (string * string)) (varis : dict variable) : Prop :=
  (forall k, In k (keys varis) -> exists u v, dfind edges k = Some (u, v) /\ u <> v /\ u <> "new_t" /\ v <> "new_t") /\
  (forall k k' u v, In k (keys varis) -> In k' (keys varis) -> dfind edges k = Some (u, v) ->
     dfind edges k' = Some (u, v) \/ dfind edges k' = Some (v, u) -> k = k').
(** capacities are non-negative numbers that do not decrease with the state *)
Definition caps_ok (varis : dict variable) : Prop :=
  forall k v, In (k, v) varis -> exists cs, v_values v = map VNum cs /\ (forall c, In c cs -> (0 <= c)%Qc) /\
    forall i j c c', (i <= j)%nat -> nth_error cs i = Some c -> nth_error cs j = Some c' -> (c <= c')%Qc.

(** a rule that keeps, for every component, the least state that carries its part of the flow [phi] *)
Definition carries (varis : dict variable) (x : dict Z) (phi : list Qc) (r : dict Z) : Prop :=
  NoDup (keys r) /\ incl (keys r) (keys x) /\
  forall i k s w, nth_error x i = Some (k, s) -> nth_error phi i = Some w ->
    match dfind r k with
    | None => w = 0%Qc
    | Some z => w <> 0%Qc /\ 0 <= z <= s /\ fits (cap varis k z) w /\ forall z', 0 <= z' < z -> ~ fits (cap varis k z') w
    end.
