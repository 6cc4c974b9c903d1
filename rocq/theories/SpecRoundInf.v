(** Vocabulary of C105: inference in rounded arithmetic. *)
From Coq Require Import ZArith List String Bool Arith QArith Qcanon Permutation.
From Verif Require Import Py Num Vari Cpm SpecCpm SpecRound.
Import ListNotations.
Open Scope Z_scope.
Open Scope list_scope.

(** The computed product of numbers that are not negative has at most [k] relative errors
    of [u].  ([k] is 1 for a rounded multiplication.  [get_prod] computes
    exp(log a + log b): the relative error grows with the size of log a and log b, so that
    [k] is some hundreds for very small numbers.) *)
Definition product_within (u : Qc) (k : nat) (mul : Qc -> Qc -> Qc) : Prop :=
  forall a b, (0 <= a)%Qc -> (0 <= b)%Qc -> near u k (a * b) (mul a b).
(** The computed sum of numbers that are not negative has at most as many errors as there are
    numbers, as with any order of rounded additions. *)
Definition sum_within (u : Qc) (tot : list Qc -> Qc) : Prop :=
  forall l, (forall x, In x l -> 0 <= x)%Qc -> near u (List.length l) (qsum l) (tot l).

(** the same rows; no negative probability in the first; each of the second is the one of the
    first up to [n] errors *)
Definition alike (u : Qc) (n : nat) (M M' : cpm) : Prop :=
  c_vars M = c_vars M' /\ c_nch M = c_nch M' /\ c_C M = c_C M' /\
  Forall2 (fun x y => (0 <= x)%Qc /\ near u n x y) (c_p M) (c_p M').

Definition nonneg (M : cpm) : Prop := forall x, In x (c_p M) -> (0 <= x)%Qc.

(** the rows of the products that variable elimination sums *)
Fixpoint rows_summed (cpms : list cpm) (vars : list variable) : nat :=
  match vars with
  | [] => 0%nat
  | v :: vars' =>
      match product_list (filter (in_scope v) cpms) with
      | Ok M => (nrows M + match elim_step cpms v with Ok l => rows_summed l vars' | Err _ => 0 end)%nat
      | Err _ => 0%nat
      end
  end.
(** errors of a result of variable elimination: [n] in each input, [k] in each product *)
Definition elim_errors (k n : nat) (cpms : list cpm) (vars : list variable) : nat :=
  (List.length cpms * n + (List.length cpms - 1) * k + rows_summed cpms vars)%nat.
(** rows of the result, which [get_prob] adds up *)
Definition rows_left (cpms : list cpm) (vars : list variable) : nat := match variable_elim cpms vars with Ok M => nrows M | Err _ => 0%nat end.

(** [x] is a sum of the numbers of [l], added in pairs in any order and grouping, each sum
    rounded *)
Inductive added (rnd : Qc -> Qc) : list Qc -> Qc -> Prop :=
| add_none : added rnd [] 0%Qc
| add_one : forall x, added rnd [x] x
| add_two : forall l r x y, l <> [] -> r <> [] -> added rnd l x -> added rnd r y -> added rnd (l ++ r) (rnd (x + y)%Qc)
| add_order : forall l l' x, Permutation l l' -> added rnd l x -> added rnd l' x.
