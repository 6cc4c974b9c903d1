(** Specification vocabulary for written network files and the delays of the demos. *)
From Coq Require Import ZArith List String Bool QArith Qcanon.
From Verif Require Import Py Num Vari Brc SpecBrc Bnb SpecBnb Trans SpecTrans Config SpecConfig PfMap SpecMap.
Import ListNotations.
Open Scope string_scope.
Open Scope Z_scope.
Open Scope list_scope.

(** an arc takes its length divided by its speed *)
Definition takes (root : Qc -> Qc) (coords : dict (Qc * Qc)) (speeds : dict Qc) (k : string) (a : string * string) (w : Qc) : Prop :=
  exists p q v, dfind coords (fst a) = Some p /\ dfind coords (snd a) = Some q /\ dfind speeds k = Some v /\ w = (root (dist2 p q) / v)%Qc.
(** a network with the times of its arcs *)
Definition timed (root : Qc -> Qc) (arcs : dict (string * string)) (coords : dict (Qc * Qc)) (speeds : dict Qc) (L : dict entry) : Prop :=
  Forall2 (fun ka ke => fst ke = fst ka /\ origin (snd ke) = fst (snd ka) /\ destination (snd ke) = snd (snd ka) /\
                        takes root coords speeds (fst ka) (snd ka) (weight (snd ke))) arcs L.
(** complete data: every arc has two different ends with coordinates, not at the same place, and a
    positive speed; no two arcs join the same nodes, in whatever direction *)
Definition data_ok (arcs : dict (string * string)) (coords : dict (Qc * Qc)) (speeds : dict Qc) : Prop :=
  arcs <> [] /\ NoDup (keys arcs) /\
  (forall k a, In (k, a) arcs -> exists p q v, dfind coords (fst a) = Some p /\ dfind coords (snd a) = Some q /\ p <> q /\ dfind speeds k = Some v /\ (0 < v)%Qc) /\
  (forall k a k' a', In (k, a) arcs -> In (k', a') arcs -> a' = a \/ a' = (snd a, fst a) -> k' = k).

(** the damage states: ten times, twice, once the time *)
Definition rate (s : Z) : Qc := if s =? 0 then Q2Qc 10 else if s =? 1 then Q2Qc 2 else 1%Qc.
Definition delayed (L : dict entry) (x : dict Z) : dict entry :=
  map (fun ke => (fst ke, mkEntry (origin (snd ke)) (destination (snd ke)) (rate (coord x (fst ke)) * weight (snd ke))%Qc)) L.
Definition delay_states (names : list string) : list (dict Z) := space (map (fun k => (k, 3)) names).
(** with the arcs in the states [x] the trip takes more than twice as long as without damage *)
Definition slow (L : dict entry) (o d : string) (x : dict Z) : Prop :=
  exists t0 t, travel_time false L (fun _ => True) o d (VNum t0) /\ travel_time false (delayed L x) (fun _ => True) o d (VNum t) /\
    (Q2Qc 2 * t0 < t)%Qc.
(** probability of an event for independent arcs *)
Definition delay_prob (names : list string) (scen : dict (list Qc)) (E : dict Z -> bool) : Qc :=
  qsum (map (arc_prob scen) (filter E (delay_states names))).
(** the three classes of arcs of the EMA demo *)
Definition class_probs (c : Z) : list Qc :=
  if c =? 0 then [Q2Qc (1 # 100); Q2Qc (4 # 100); Q2Qc (95 # 100)]
  else if c =? 1 then [Q2Qc (3 # 100); Q2Qc (12 # 100); Q2Qc (85 # 100)]
  else [Q2Qc (6 # 100); Q2Qc (24 # 100); Q2Qc (70 # 100)].
Definition class_scen (names : list string) (pk : list Z) : dict (list Qc) := combine names (map class_probs pk).
