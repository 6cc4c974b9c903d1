(** Comparison of a result of the model with the value that a test of /repo/BNS_JT/tests expects. *)
From Coq Require Import ZArith List String Bool Arith QArith Qcanon.
From Verif Require Import Py Num.
Import ListNotations.
Open Scope Z_scope.
Open Scope list_scope.

(** 0.9405 is [d4 9405] *)
Definition d1 (n : Z) : Qc := Q2Qc (n # 10).
Definition d2 (n : Z) : Qc := Q2Qc (n # 100).
Definition d3 (n : Z) : Qc := Q2Qc (n # 1000).
Definition d4 (n : Z) : Qc := Q2Qc (n # 10000).
Definition d5 (n : Z) : Qc := Q2Qc (n # 100000).

Definition within (e a b : Qc) : bool := qc_leb (a - b)%Qc e && qc_leb (b - a)%Qc e.
(** [np.testing.assert_array_almost_equal(a, b, decimal)]: differences below 1.5 * 10**-decimal *)
Definition tol3 : Qc := Q2Qc (15 # 10000).
Definition tol4 : Qc := Q2Qc (15 # 100000).
Definition tol5 : Qc := Q2Qc (15 # 1000000).
Definition tol6 : Qc := Q2Qc (15 # 10000000).
(** [pytest.approx(b, rel)] *)
Definition approx (rel a b : Qc) : bool := within (rel * b)%Qc a b.

Fixpoint near (e : Qc) (a b : list Qc) : bool :=
  match a, b with
  | [], [] => true
  | x :: a', y :: b' => within e x y && near e a' b'
  | _, _ => false
  end.
Fixpoint zs_eqb (a b : list Z) : bool :=
  match a, b with
  | [], [] => true
  | x :: a', y :: b' => (x =? y) && zs_eqb a' b'
  | _, _ => false
  end.
Fixpoint rows_eqb (a b : list (list Z)) : bool :=
  match a, b with
  | [], [] => true
  | x :: a', y :: b' => zs_eqb x y && rows_eqb a' b'
  | _, _ => false
  end.
Fixpoint strs_eqb (a b : list string) : bool :=
  match a, b with
  | [], [] => true
  | x :: a', y :: b' => String.eqb x y && strs_eqb a' b'
  | _, _ => false
  end.
(** [np.array(...) - 1] *)
Definition less1 (l : list (list Z)) : list (list Z) := map (map (fun z => z - 1)) l.

(** the test succeeds on the result, which is not an exception *)
Definition passes {A} (r : res A) (t : A -> bool) : Prop :=
  match r with Ok a => t a = true | Err _ => False end.
(** [pytest.raises] *)
Definition raises {A} (r : res A) (e : exn) : Prop := r = Err e.
