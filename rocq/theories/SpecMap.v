(** Specification vocabulary for the failure map. *)
From Coq Require Import ZArith List String Bool QArith Qcanon.
From Verif Require Import Py Num Vari Trans SpecTrans Config SpecConfig PfMap.
Import ListNotations.
Open Scope string_scope.
Open Scope Z_scope.
Open Scope list_scope.

(** squared distance *)
Definition dist2 (p q : point) : Qc := ((fst p - fst q) * (fst p - fst q) + (snd p - snd q) * (snd p - snd q))%Qc.
(** the points of a segment *)
Definition on_segment (a b q : point) : Prop :=
  exists t : Qc, (0 <= t)%Qc /\ (t <= 1)%Qc /\
    fst q = (fst a + t * (fst b - fst a))%Qc /\ snd q = (snd a + t * (snd b - snd a))%Qc.
(** [m] is the least squared distance of [p] to a point of the segment *)
Definition least_dist2 (a b p : point) (m : Qc) : Prop :=
  (exists q, on_segment a b q /\ dist2 p q = m) /\ forall q, on_segment a b q -> (m <= dist2 p q)%Qc.

(** a square root with relative error [eps] of the square *)
Definition root_within (eps : Qc) (root : Qc -> Qc) : Prop :=
  forall a, (0 <= a)%Qc -> (0 <= root a)%Qc /\ ((1 - eps) * a <= root a * root a)%Qc /\ (root a * root a <= (1 + eps) * a)%Qc.

(** [sum_i sum_j w_i w_j cov_ij] *)
Definition dot (u w : list Qc) : Qc := qsum (map (fun p => fst p * snd p)%Qc (combine u w)).
Definition quad (cov : list (list Qc)) (w : list Qc) : Qc := dot w (map (fun row => dot row w) cov).

(** the roads with travel times (km at 100 km/h) *)
Definition road_time (root : Qc -> Qc) (f : mapfile) (r : road) : Qc :=
  match dfind (pm_nodes f) (r_from r), dfind (pm_nodes f) (r_to r) with
  | Some a, Some b => (root (dist2 a b) / qz 100)%Qc
  | _, _ => 0%Qc
  end.
Definition timed_roads (root : Qc -> Qc) (f : mapfile) : dict entry :=
  map (fun kr => (fst kr, mkEntry (r_from (snd kr)) (r_to (snd kr)) (road_time root f (snd kr)))) (pm_roads f).
(** travel time to the nearest of several places, infinite if none is reached *)
Definition nearest (l : dict entry) (up : string -> Prop) (n : string) (ds : list string) (v : value) : Prop :=
  match v with
  | VInf => forall d t, In d ds -> ~ reach false l up n d t
  | VNum t => (exists d, In d ds /\ reach false l up n d t) /\ forall d t', In d ds -> reach false l up n d t' -> (t <= t')%Qc
  | VStr _ => False
  end.
(** node [n] is late when the roads are in the states [x]: it takes more than [thres] times as
    long as with all roads intact.  A node without a route when all roads are intact is not. *)
Definition late (l : dict entry) (thres : Qc) (ds : list string) (n : string) (x : dict Z) : Prop :=
  exists t0, nearest l (fun _ => True) n ds (VNum t0) /\
    forall v, nearest l (fun k => dfind x k = Some 1) n ds v -> ~ t_le v (VNum (thres * t0)%Qc).

(** files of the demo: undirected, no road twice, no two roads between the same nodes, no
    road named like a node *)
Definition map_ok (f : mapfile) : Prop :=
  kind_of (pm_type f) false false /\ NoDup (keys (pm_roads f)) /\ NoDup (keys (pm_nodes f)) /\ pm_roads f <> [] /\
  (forall k r k' r', In (k, r) (pm_roads f) -> In (k', r') (pm_roads f) ->
     (r_from r = r_from r' /\ r_to r = r_to r') \/ (r_from r = r_to r' /\ r_to r = r_from r') -> k = k') /\
  pm_origins f <> [] /\ incl (pm_origins f) (keys (pm_nodes f)) /\ (0 < pm_thres f)%Qc /\
  (forall n, In n (keys (pm_nodes f)) -> ~ In n (keys (pm_roads f))).
(** the failure probabilities as a scenario *)
Definition road_scen (pf : dict Qc) : dict (list Qc) := map (fun kp => (fst kp, [snd kp; (1 - snd kp)%Qc])) pf.
(** nothing is missing: the roads join different places, the fragilities are there, the
    magnitude is in the range of the ground motion model *)
Definition map_full (f : mapfile) (eq_name : string) : Prop :=
  (forall k r, In (k, r) (pm_roads f) ->
     (exists a b, dfind (pm_nodes f) (r_from r) = Some a /\ dfind (pm_nodes f) (r_to r) = Some b /\ a <> b) /\
     exists fr, dfind (pm_frag f) (r_frag r) = Some fr /\ (3 <= List.length (sa_g fr))%nat) /\
  exists e, dfind (pm_eq f) eq_name = Some e /\ (Q2Qc 6 <= mw e)%Qc /\ (mw e <= Q2Qc (17 # 2))%Qc.
