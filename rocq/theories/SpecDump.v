(** Specification vocabulary for dumps. *)
From Coq Require Import List.
Import ListNotations.

(** [l] consists of [a] and [b], each in its order *)
Inductive merged {A : Type} : list A -> list A -> list A -> Prop :=
| merged_nil : merged [] [] []
| merged_left x a b l : merged a b l -> merged (x :: a) b (x :: l)
| merged_right x a b l : merged a b l -> merged a (x :: b) (x :: l).
