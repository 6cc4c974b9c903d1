(** Specification vocabulary for the demos rbd, routine and n3e3: connection in a network of
    components that work (1) or not (0). *)
From Coq Require Import ZArith List String Bool QArith Qcanon.
From Verif Require Import Py Num Brc SpecBrc Bnb SpecBnb Config SpecConfig.
Import ListNotations.
Open Scope string_scope.
Open Scope Z_scope.
Open Scope list_scope.

(** the entries lead from [o] to [d] over nodes and entries none of which is given as 0 *)
Definition joined (dir : bool) (l : dict entry) (x : dict Z) (o d : string) : Prop :=
  exists ns ks t, route dir l o ns ks t d /\
    (forall n, In n ns -> dfind x n <> Some 0) /\ (forall k, In k ks -> dfind x k <> Some 0).

(** the components [names] all have the probabilities [p] of not working and [q] of working *)
Definition alike (names : list string) (p q : Qc) : dict (list Qc) := map (fun k => (k, [p; q])) names.
Definition given (names : list string) (pr : dict (Qc * Qc)) : dict (list Qc) :=
  map (fun k => (k, match dfind pr k with Some p => [fst p; snd p] | None => [] end)) names.

(** pairs of probabilities of the two states *)
Definition pairs_ok (names : list string) (pr : dict (Qc * Qc)) : Prop :=
  forall k, In k names -> exists p, dfind pr k = Some p /\ (0 <= fst p)%Qc /\ (0 <= snd p)%Qc /\ (fst p + snd p = 1)%Qc.

(** a row of a matrix of codes: first the system, then the components [names]; 2 stands for both states *)
Definition row_has (names : list string) (row : list Z) (x : dict Z) : bool :=
  (List.length row =? S (List.length names))%nat &&
  forallb (fun kc => (snd kc =? 2) || (snd kc =? coord x (fst kc))) (combine names (tl row)).

(** the nodes other than [o] and [d] *)
Definition inner (o d : string) (l : list string) : list string := filter (fun n => negb (String.eqb n o || String.eqb n d)) l.

(** no branch is left of which the state is not known *)
Definition all_known (brs : list branch) : Prop := forall b, In b brs -> b_up_state b = F_ \/ b_down_state b = S_.

(** files that describe a network: a kind of graph, one entry for each label, one entry between two nodes unless
    the kind allows more *)
Definition net_file (f : netfile) (dir multi : bool) : Prop :=
  kind_of (graph_type f) dir multi /\ NoDup (keys (node_conn_df f)) /\ (multi = false -> no_parallel dir (node_conn_df f)).
(** [jb] tells for all states of the components [names] whether [o] and [d] are joined *)
Definition tells (dir : bool) (l : dict entry) (names : list string) (o d : string) (jb : dict Z -> bool) : Prop :=
  forall x, In x (arc_states names) -> (jb x = true <-> joined dir l x o d).
(** the ends and the component of interest, as rbd/batch.py 87-91 and 128 name them *)
Definition ends_ok (f : netfile) (o d kept : string) : Prop :=
  NoDup (component_list f) /\ In o (component_list f) /\ In d (component_list f) /\ o <> d /\
  ~ In "sys" (inner o d (component_list f)) /\ In kept (inner o d (component_list f)).
(** 1/10 and 9/10 for all inner nodes: probability of an event *)
Definition p_inner (f : netfile) (o d : string) (E : dict Z -> bool) : Qc :=
  event_prob (inner o d (component_list f)) (alike (inner o d (component_list f)) (Q2Qc (1 # 10)) (Q2Qc (9 # 10))) E.
