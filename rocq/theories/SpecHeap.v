(** Specification vocabulary: programs on CPMs that are values, nothing shared. *)
From Coq Require Import ZArith List String Bool QArith Qcanon.
From Verif Require Import Py Num Vari Cpm Heap.
Import ListNotations.
Open Scope list_scope.

(** the value that a statement computes from the values of its operands *)
Definition value_of (env : list cpm) (o : op) : res cpm :=
  let at2 i j f := match nth_error env i, nth_error env j with Some a, Some b => f a b | _, _ => Err NameError end in
  let at1 i f := match nth_error env i with Some a => f a | None => Err NameError end in
  match o with
  | Product i j => at2 i j product
  | Merge i j => at2 i j merge
  | Condition i vs sts => at1 i (fun M => condition M vs sts)
  | Sum i vs flag => at1 i (fun M => sum M vs flag)
  | Subset i rows flag => at1 i (fun M => get_subset M rows flag)
  end.
Fixpoint run_values (env : list cpm) (ops : list op) : list cpm * res unit :=
  match ops with
  | [] => (env, Ok tt)
  | o :: rest => match value_of env o with Ok M => run_values (env ++ [M]) rest | Err e => (env, Err e) end
  end.

(** the objects that a statement uses, and that [merge] is called on *)
Definition operands (o : op) : list nat :=
  match o with Product i j | Merge i j => [i; j] | Condition i _ _ | Sum i _ _ | Subset i _ _ => [i] end.
Definition merged (o : op) : list nat := match o with Merge i _ => [i] | _ => [] end.
(** no object is used after [merge] has been called on it ([gone] before) *)
Fixpoint once (gone : list nat) (ops : list op) : Prop :=
  match ops with
  | [] => True
  | o :: rest => (forall i, In i (operands o) -> ~ In i gone) /\ once (merged o ++ gone) rest
  end.
