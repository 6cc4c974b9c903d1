(** Vocabulary for cuts of flow networks. *)
From Coq Require Import ZArith List String Bool Arith QArith Qcanon.
From Verif Require Import Py Num Flow.
Import ListNotations.
Open Scope string_scope.
Open Scope list_scope.

(** [side n] is true for the nodes on the side of the origin: capacity of the edges from this side to the other; when
    edges have no direction ([bi]) also of those entered the other way round *)
Definition crosses (bi : bool) (side : string -> bool) (e : string * string * Qc) : bool :=
  (side (fst (fst e)) && negb (side (snd (fst e)))) || (bi && side (snd (fst e)) && negb (side (fst (fst e)))).
Definition cut_cap (bi : bool) (g : cgraph) (side : string -> bool) : Qc := qsum (map snd (filter (crosses bi side) g)).
Definition splits (side : string -> bool) (s t : string) : Prop := side s = true /\ side t = false.
