(** Terms for the choice of the next vector. *)
From Coq Require Import ZArith List String Bool QArith Qcanon.
From Verif Require Import Py Num Vari Brc SpecBrc.
Import ListNotations.
Open Scope string_scope.
Open Scope Z_scope.
Open Scope list_scope.

(** [x] is the first of the elements with the largest key among those in [l] with [f] *)
Definition first_max {A} (key : A -> Qc) (f : A -> bool) (l : list A) (x : A) : Prop :=
  exists l1 l2, l = l1 ++ x :: l2 /\ f x = true /\
    (forall y, In y l1 -> f y = true -> (key y < key x)%Qc) /\ (forall y, In y l2 -> f y = true -> (key y <= key x)%Qc).
Definition unknown_up (b : branch) : bool := match b_up_state b with U_ => true | _ => false end.
Definition unknown_down (b : branch) : bool := match b_down_state b with U_ => true | _ => false end.
(** probability that all components are at least as good as in [x] *)
Definition above (varis : dict variable) (probs : prob_dict) (x : dict Z) : Qc :=
  prob_event varis probs (fun y => forallb (fun kv => coord x (fst kv) <=? snd kv) y).
(** the first branch that is not fully known has a known upper end *)
Definition stuck (brs : list branch) : Prop :=
  exists l1 b l2, brs = l1 ++ b :: l2 /\ (forall a, In a l1 -> unknown_up a = false /\ unknown_down a = false) /\ unknown_up b = false /\ unknown_down b = true.
