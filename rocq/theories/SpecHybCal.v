(** Specification vocabulary for the system CPM of a hazard network with samples. *)
From Coq Require Import ZArith List String Bool QArith Qcanon.
From Verif Require Import Py Num Vari Cpm SpecCpm Hybrid SpecHyb SpecHybProd.
Import ListNotations.
Open Scope string_scope.
Open Scope Z_scope.
Open Scope list_scope.

(** a single state has one code only, its number *)
Definition plain_codes (v : variable) : Prop :=
  forall c k, code_ok v c -> (forall x, In x (states_of v c) <-> x = k) -> c = k.

(** the target weight of sample [i] when the hazard is in state [k]: the sampling weights in
    the CPMs of the system [HS] and of the hazard [HP], and the probabilities in state [k] of the
    hazard and of the components [Hc] *)
Definition state_weight (G : list joint) (h : variable) (HS HP : hcpm) (Hc : list hcpm) (k : Z) (i : nat) : Qc :=
  let a := set_joint (nth i G (fun _ => 0)) h k in
  (nth i (h_q HS) 0 * qprod (map (fun m => mass (h_c m) a) Hc) * (mass (h_c HP) a * nth i (h_q HP) 0))%Qc.
