(** Specification vocabulary for what the constructor of CPMs lets pass and for sorted
    rows.  Only the data types of the model are used. *)
From Coq Require Import ZArith List String Bool QArith Qcanon.
From Verif Require Import Py Num Vari Cpm.
Import ListNotations.
Open Scope string_scope.
Open Scope Z_scope.
Open Scope list_scope.

(** one entry per variable, none above [2^n - 1] for a variable of [n] values *)
Definition fits (vars : list variable) (row : list Z) : Prop :=
  Forall2 (fun v c => c <= 2 ^ Z.of_nat (List.length (v_values v)) - 1) vars row.

(** the table of [v] is stored and is that of [Variable(...)]: one entry for each of
    the [2^n - 1] sets of basic states *)
Definition full (v : variable) : Prop :=
  exists name values flag, v = mk_variable name values flag /\ v_B v <> None.

(** number of sets of basic states of [v] *)
Definition codes_of (v : variable) : Z := 2 ^ Z.of_nat (List.length (v_values v)) - 1.
(** a negative code counts from the end *)
Definition from_end (v : variable) (c : Z) : Z := if (c <? 0) && (- codes_of v <=? c) then c + codes_of v else c.
Definition lift_row (vars : list variable) (row : list Z) : list Z :=
  map (fun vc => from_end (fst vc) (snd vc)) (combine vars row).
Definition lift (M : cpm) : cpm := mkCpm (c_vars M) (c_nch M) (map (lift_row (c_vars M)) (c_C M)) (c_p M).

(** [a] comes before [b]: at the last position where the rows differ, [a] is smaller *)
Definition before (a b : list Z) : Prop :=
  exists a' b' x y t, a = a' ++ x :: t /\ b = b' ++ y :: t /\ x < y.
