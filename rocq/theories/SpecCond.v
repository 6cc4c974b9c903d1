(** Specification vocabulary for estimates of conditional probabilities. *)
From Coq Require Import ZArith List String Bool Permutation Sorted QArith Qcanon.
From Verif Require Import Py Num Vari Cpm SpecCpm Hybrid SpecHyb.
Import ListNotations.
Open Scope string_scope.
Open Scope Z_scope.
Open Scope list_scope.

(** every condition [(v, c)] of the second event is one of the first *)
Definition refines (vs : list variable) (codes : list Z) (cvs : list variable) (ccodes : list Z) : Prop :=
  incl (combine cvs ccodes) (combine vs codes).

(** probability of an event in the rows of the CPM *)
Definition known (M : hcpm) (vs : list variable) (codes : list Z) : Qc := total (fun row => hits (c_vars (h_c M)) row vs codes) (h_c M).

(** number of samples that the weights [w] are worth *)
Definition ess (w : list Qc) : Qc := (qsum w * qsum w / qsum (map (fun x => (x * x)%Qc) w))%Qc.
(** samples of round [i] with [r] samples *)
Definition in_round (r i : nat) : list nat := seq (i * r) r.
(** worth of the samples of [k] rounds, and of those with the event *)
Definition worth (M : hcpm) (k r : nat) : Qc := qsum (map (fun i => ess (map (wt M) (in_round r i))) (seq 0 k)).
Definition worth_of (M : hcpm) (G : list joint) (k r : nat) (vs : list variable) (codes : list Z) : Qc :=
  qsum (map (fun i => (ess (map (wt M) (in_round r i)) *
                       (qsum (map (counted M G vs codes true) (in_round r i)) / qsum (map (wt M) (in_round r i))))%Qc) (seq 0 k)).

(** for positive parameters, [d a b] are [n] numbers strictly between 0 and 1 *)
Definition beta_draws (n : nat) (d : Qc -> Qc -> list Qc) : Prop :=
  forall a b, (0 < a)%Qc -> (0 < b)%Qc -> List.length (d a b) = n /\ forall x, In x (d a b) -> (0 < x)%Qc /\ (x < 1)%Qc.

(** the number at position [(n - 1) t] of the sorted list, linear between two positions *)
Definition percentile_of (l : list Qc) (t v : Qc) : Prop :=
  exists s j, Permutation s l /\ StronglySorted Qcle s /\
    let h := ((qz (Z.of_nat (List.length l)) - 1) * t)%Qc in
    let x := nth j s 0%Qc in
    (qz (Z.of_nat j) <= h)%Qc /\ (h < qz (Z.of_nat j) + 1)%Qc /\
    ((S j < List.length l)%nat /\ v = ((1 - (h - qz (Z.of_nat j))) * x + (h - qz (Z.of_nat j)) * nth (S j) s 0)%Qc \/
     (S j = List.length l)%nat /\ v = x).

(** mean, variance and interval of the list [l] *)
Definition summary (p : Qc) (l : list Qc) (mean var lo hi : Qc) : Prop :=
  let n := qz (Z.of_nat (List.length l)) in
  (mean * n = qsum l)%Qc /\ (var * (n - 1) = qsum (map (fun x => (x - mean) * (x - mean)) l))%Qc /\
  percentile_of l ((1 - p) / Q2Qc 2)%Qc lo /\ percentile_of l ((1 + p) / Q2Qc 2)%Qc hi.

(** how many numbers of [l] are in the interval *)
Definition inside (lo hi : Qc) (l : list Qc) : nat := List.length (filter (fun x => qc_leb lo x && qc_leb x hi) l).

(** the ratios (k1 + u x1) / (k1 + u x1 + k2 + u x2) *)
Definition rats (k1 k2 u : Qc) (l1 l2 : list Qc) : list Qc :=
  map (fun x => ((k1 + u * fst x) / ((k1 + u * fst x) + (k2 + u * snd x)))%Qc) (combine l1 l2).

(** [M] stores the samples [G] in [k] rounds of [r].  Without target weights there is one round. *)
Definition stored_rounds (I : list Z) (G : list joint) (M : hcpm) (rep k r : nat) : Prop :=
  wf_cpm (h_c M) /\ sampled I G M /\ basic_samples G (c_vars (h_c M)) /\ (forall x, In x (h_q M) -> x <> 0%Qc) /\ G <> [] /\
  ((rep = O /\ k = 1%nat /\ r = List.length G) \/ (rep = r /\ r <> O /\ List.length G = (k * r)%nat)) /\
  (h_ps M <> [] \/ k = 1%nat).
(** besides, no weight is negative, and in each round one is positive *)
Definition in_rounds (I : list Z) (G : list joint) (M : hcpm) (rep k r : nat) : Prop :=
  stored_rounds I G M rep k r /\ (forall i, (i < List.length G)%nat -> (0 <= wt M i)%Qc) /\
  (forall i, (i < k)%nat -> exists j, In j (in_round r i) /\ (0 < wt M j)%Qc).
Definition event_in (M : hcpm) (vs : list variable) (codes : list Z) : Prop :=
  ev_ok (c_vars (h_c M)) vs codes /\ vs <> [] /\ codes_small vs codes.
