(** Specification vocabulary for the legacy branch and bound. *)
From Coq Require Import ZArith List String Bool QArith Qcanon.
From Verif Require Import Py Num Vari SpecCpm Legacy.
Import ListNotations.
Open Scope string_scope.
Open Scope Z_scope.
Open Scope list_scope.

(** vectors of component states, each counted from 1 to its maximum *)
Definition vec_ok (mx x : list Z) : Prop := Forall2 (fun m v => 1 <= v <= m) mx x.
(** [x] lies between [lo] and [up] *)
Fixpoint between (lo up x : list Z) : bool :=
  match lo, up, x with
  | [], [], [] => true
  | l :: lo', u :: up', v :: x' => (l <=? v) && (v <=? u) && between lo' up' x'
  | _, _, _ => false
  end.
(** number of branches that contain [x] *)
Definition lcovered {V} (brs : list (lbranch V)) (x : list Z) : nat :=
  List.length (filter (fun b => between (l_down b) (l_up b) x) brs).

(** all arcs of the path are in the best state *)
Definition available (arcs : list string) (max_state : Z) (x : list Z) (p : list string) : Prop :=
  forall a, In a p -> exists i, nth_error arcs i = Some a /\ nth_error x i = Some max_state.

(** states (from 0) of a component whose legacy states lie between [d] and [u]; without
    [flag] the order of the states is reversed *)
Definition lstate (n : Z) (flag : bool) (y : Z) : Z := if flag then y - 1 else n - y.
