(** Vocabulary for connection over arcs without direction that work or not. *)
From Coq Require Import ZArith List String Bool Arith QArith Qcanon.
From Verif Require Import Py.
Import ListNotations.
Open Scope string_scope.
Open Scope Z_scope.
Open Scope list_scope.

(** the arcs [ks], one after the other, lead from a node to a node *)
Inductive chain (arcs : dict (string * string)) : string -> list string -> string -> Prop :=
| chain_end a : chain arcs a [] a
| chain_arc a b c k ks : In (k, (a, b)) arcs \/ In (k, (b, a)) arcs -> chain arcs b ks c -> chain arcs a (k :: ks) c.
(** an arc works if its state is above 0 *)
Definition works (x : dict Z) (k : string) : Prop := exists s, dfind x k = Some s /\ 0 < s.
Definition linked (arcs : dict (string * string)) (x : dict Z) (o d : string) : Prop :=
  exists ks, chain arcs o ks d /\ forall k, In k ks -> works x k.
(** after the arcs [K] have failed *)
Definition linked_without (arcs : dict (string * string)) (x : dict Z) (K : list string) (o d : string) : Prop :=
  exists ks, chain arcs o ks d /\ forall k, In k ks -> works x k /\ ~ In k K.

(** names are different, no loops; states for arcs only *)
Definition arcs_ok (arcs : dict (string * string)) : Prop :=
  NoDup (keys arcs) /\ forall k u v, In (k, (u, v)) arcs -> u <> v.
Definition states_of (arcs : dict (string * string)) (x : dict Z) : Prop := NoDup (keys x) /\ incl (keys x) (keys arcs).
(** no two arcs between the same nodes *)
Definition single (arcs : dict (string * string)) : Prop :=
  forall k k' u v, In (k, (u, v)) arcs -> In (k', (u, v)) arcs \/ In (k', (v, u)) arcs -> k = k'.
