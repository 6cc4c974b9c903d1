(** Vocabulary for pipe networks: plans of flows through the stages, what is assumed of [scipy.optimize.milp]. *)
From Coq Require Import ZArith List String Bool Arith QArith Qcanon.
From Verif Require Import Py Num Vari Brc SpecBrc SpecFlow Lp.
Import ListNotations.
Open Scope string_scope.
Open Scope Z_scope.
Open Scope list_scope.

Definition zq (z : Z) : Qc := Q2Qc (inject_Z z).

(** points of a program: [n] non-negative entries that satisfy all rows *)
Definition row_ok (y : list Qc) (r : list Qc * Qc * Qc) : Prop := (snd (fst r) <= dot (fst (fst r)) y)%Qc /\ (dot (fst (fst r)) y <= snd r)%Qc.
Definition feasible (n : nat) (A : list (list Qc * Qc * Qc)) (y : list Qc) : Prop :=
  List.length y = n /\ (forall a, In a y -> (0 <= a)%Qc) /\ Forall (row_ok y) A.
(** [milp] finds an optimal integral point of a bounded program that has integral points *)
Definition milp_ok (milp : list Qc -> list (list Qc * Qc * Qc) -> option (Qc * list Qc)) : Prop :=
  forall c A, (forall r, In r A -> List.length (fst (fst r)) = List.length c) ->
    (exists K, forall y, feasible (List.length c) A y -> forall a, In a y -> (a <= K)%Qc) ->
    (exists z, feasible (List.length c) A (map zq z)) ->
    exists z, milp c A = Some (dot c (map zq z), map zq z) /\ feasible (List.length c) A (map zq z) /\
      forall z', feasible (List.length c) A (map zq z') -> (dot c (map zq z) <= dot c (map zq z'))%Qc.

(** flows on the edges [es] out of, and into, a node or a set of nodes *)
Definition flow_out (edges : dict (string * string)) (x : string -> Qc) (es : list string) (n : string) : Qc :=
  qsum (map (fun e => if String.eqb (fst (ends edges e)) n then x e else 0%Qc) es).
Definition flow_in (edges : dict (string * string)) (x : string -> Qc) (es : list string) (n : string) : Qc :=
  qsum (map (fun e => if String.eqb (snd (ends edges e)) n then x e else 0%Qc) es).
Definition arrivals (edges : dict (string * string)) (x : string -> Qc) (es ns : list string) : Qc :=
  qsum (map (fun e => if in_dec string_dec (snd (ends edges e)) ns then x e else 0%Qc) es).

(** capacity of an edge in the state [x] of the components; none if a node at its ends is in state 0 *)
Definition comp_of (e2c : dict string) (e : string) : string := match dfind e2c e with Some c => c | None => "" end.
Definition pipe_cap (edges : dict (string * string)) (e2c : dict string) (varis : dict variable) (x : dict Z) (e : string) : Qc :=
  if (coord x (fst (ends edges e)) =? 0) || (coord x (snd (ends edges e)) =? 0) then 0%Qc
  else cap varis (comp_of e2c e) (coord x (comp_of e2c e)).

(** Flows [w] on the edges and [u] out of the origins: within the capacities; on every stage, nodes that are not
    depots of the stage pass on what they receive, and as much arrives at the depots at the end of the stage as leaves the
    origins; depots between stages pass on what they receive. *)
Definition plan (edges : dict (string * string)) (depots : list (list string)) (sub_nodes sub_edges : list (list string))
  (c : string -> Qc) (w u : string -> Qc) : Prop :=
  (forall e, In e (keys edges) -> (0 <= w e)%Qc /\ (w e <= c e)%Qc) /\
  (forall o, In o (nth 0 depots []) -> flow_out edges w (keys edges) o = u o) /\
  (forall m, (m < List.length sub_nodes)%nat ->
     (forall n, In n (nth m sub_nodes []) -> ~ In n (nth m depots []) -> ~ In n (nth (S m) depots []) ->
        flow_out edges w (nth m sub_edges []) n = flow_in edges w (nth m sub_edges []) n) /\
     arrivals edges w (nth m sub_edges []) (nth (S m) depots []) = qsum (map u (nth 0 depots []))) /\
  (forall m n, (1 <= m < List.length sub_nodes)%nat -> In n (nth m depots []) ->
     flow_out edges w (keys edges) n = flow_in edges w (keys edges) n).
Definition plan_value (depots : list (list string)) (u : string -> Qc) : Qc := qsum (map u (nth 0 depots [])).
Definition integral (edges : dict (string * string)) (w : string -> Qc) : Prop := forall e, In e (keys edges) -> exists z, w e = zq z.

(** networks whose parts fit together *)
Definition wf_pipes (edges : dict (string * string)) (es_idx : dict Z) (e2c : dict string) (depots : list (list string))
  (varis : dict variable) (sub_nodes sub_edges : list (list string)) : Prop :=
  NoDup (keys edges) /\
  (forall e u v, In (e, (u, v)) edges -> u <> v /\ In u (keys varis) /\ In v (keys varis) /\
     (exists c, dfind e2c e = Some c /\ In c (keys varis)) /\ (exists i, dfind es_idx e = Some i /\ 0 <= i < Z.of_nat (List.length edges))) /\
  (forall e e' i, In e (keys edges) -> In e' (keys edges) -> dfind es_idx e = Some i -> dfind es_idx e' = Some i -> e = e') /\
  List.length sub_edges = List.length sub_nodes /\ List.length depots = S (List.length sub_nodes) /\
  (forall ns, In ns depots -> NoDup ns) /\ (forall es, In es sub_edges -> NoDup es /\ incl es (keys edges)).

(** the rule names the component and the end nodes of every edge that is used, at their present states *)
Definition names_used (edges : dict (string * string)) (e2c : dict string) (x : dict Z) (w : string -> Qc) (r : dict Z) : Prop :=
  NoDup (keys r) /\
  forall k z, dfind r k = Some z <-> dfind x k = Some z /\ exists e, In e (keys edges) /\ (0 < w e)%Qc /\
    (k = comp_of e2c e \/ k = fst (ends edges e) \/ k = snd (ends edges e)).

(** a walk along the edges [es] that are in use *)
Inductive walk (edges : dict (string * string)) (w : string -> Qc) (es : list string) : string -> string -> Prop :=
| walk_here a : walk edges w es a a
| walk_on a e : walk edges w es a (fst (ends edges e)) -> In e es -> (0 < w e)%Qc -> walk edges w es a (snd (ends edges e)).
(** walks from an origin through depots of every stage *)
Fixpoint route (edges : dict (string * string)) (w : string -> Qc) (depots sub_edges : list (list string)) (m : nat) (d : string) : Prop :=
  match m with
  | O => In d (nth 0 depots [])
  | S m' => In d (nth m depots []) /\ exists d', route edges w depots sub_edges m' d' /\ walk edges w (nth m' sub_edges []) d' d
  end.
(** The stages are in order: what leaves the depots at the start of a stage belongs to the stage; no edge of the stage
    leads back there or leaves the depots at its end, and its end nodes are nodes of the stage. *)
Definition staged (edges : dict (string * string)) (depots sub_nodes sub_edges : list (list string)) : Prop :=
  forall m, (m < List.length sub_nodes)%nat ->
    (forall e, In e (keys edges) -> In (fst (ends edges e)) (nth m depots []) -> In e (nth m sub_edges [])) /\
    (forall e, In e (nth m sub_edges []) -> ~ In (snd (ends edges e)) (nth m depots []) /\ ~ In (fst (ends edges e)) (nth (S m) depots []) /\
       In (fst (ends edges e)) (nth m sub_nodes []) /\ In (snd (ends edges e)) (nth m sub_nodes [])).
