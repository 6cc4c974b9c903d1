(** Specification vocabulary for the power-cut network: structures fail independently given
    the hazard scenario and are repaired one per day in a fixed order. *)
From Coq Require Import ZArith List String Bool Arith QArith Qcanon.
From Verif Require Import Py Num Bnb.
Import ListNotations.
Open Scope string_scope.
Open Scope Z_scope.
Open Scope list_scope.

(** [f s]: structure [s] has failed *)
Definition pattern := string -> bool.

(** the structures repaired before [s], and [s] *)
Fixpoint upto (s : string) (rep : list string) : list string :=
  match rep with [] => [] | t :: rep' => t :: (if String.eqb t s then [] else upto s rep') end.
(** the day on which [s] works again: one failed structure is repaired per day *)
Definition day (f : pattern) (rep : list string) (s : string) : nat :=
  if f s then List.length (filter f (upto s rep)) else 0%nat.
(** a link set works again when its last structure does *)
Definition set_day (f : pattern) (rep : list string) (set : list string) : nat := list_max (map (day f rep) set).
(** a house has power again with the first of its link sets *)
Definition cut_days (f : pattern) (rep : list string) (sets : list (list string)) : nat :=
  match sets with
  | [] => 0%nat
  | s :: sets' => fold_right Nat.min (set_day f rep s) (map (set_day f rep) sets')
  end.

Definition fail_to (f : pattern) (s : string) (b : bool) : pattern := fun t => if String.eqb t s then b else f t.
(** expected value of [phi] for independent failures *)
Fixpoint expect (l : list (string * Qc)) (phi : pattern -> Qc) (f : pattern) : Qc :=
  match l with
  | [] => phi f
  | (s, p) :: l' => (p * expect l' phi (fail_to f s true) + (1 - p) * expect l' phi (fail_to f s false))%Qc
  end.
(** failure probabilities in scenario number [k] *)
Definition scenario (pfs : dict (list Qc)) (k : nat) : list (string * Qc) := map (fun sp => (fst sp, nth k (snd sp) 0%Qc)) pfs.
(** expected value of [phi] over the scenarios *)
Definition average (haz : dict Qc) (pfs : dict (list Qc)) (phi : pattern -> Qc) : Qc :=
  qsum (map (fun kp => snd kp * expect (scenario pfs (fst kp)) phi (fun _ => false))%Qc (combine (seq 0 (List.length haz)) (map snd haz))).
Definition indicator (b : bool) : Qc := if b then 1%Qc else 0%Qc.

(** the names of all nodes *)
Definition house_names (hs : string * list (list string)) : list string :=
  match snd hs with
  | [_] => [fst hs]
  | sets => map (fun i => (fst hs ++ num_str i)%string) (seq 0 (List.length sets)) ++ [fst hs]
  end.
Definition node_names (pfs : dict (list Qc)) (rep : list string) (lins : dict (list (list string))) : list string :=
  "haz" :: map (append "x") (keys pfs) ++ map (append "n") rep ++ map (append "c") rep ++ flat_map house_names lins.

(** admissible inputs: at most six scenarios and five structures (more have no state tables),
    a failure probability for every scenario, link sets of structures that are repaired, and
    no two nodes of the same name *)
Definition power_ok (haz : dict Qc) (pfs : dict (list Qc)) (rep : list string) (lins : dict (list (list string))) : Prop :=
  (1 <= List.length haz <= 6)%nat /\ (List.length rep <= 5)%nat /\ NoDup (node_names pfs rep lins) /\
  (forall s pf, In (s, pf) pfs -> List.length pf = List.length haz) /\ incl rep (keys pfs) /\
  (forall h sets, In (h, sets) lins -> sets <> [] /\ forall s, In s sets -> s <> [] /\ NoDup s /\ incl s rep) /\
  (forall k p, In (k, p) haz -> 0 <= p)%Qc /\ (exists k p, In (k, p) haz /\ 0 < p)%Qc /\
  (forall s pf p, In (s, pf) pfs -> In p pf -> 0 <= p <= 1)%Qc.
