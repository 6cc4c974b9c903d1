(** Specification vocabulary for the product of a system CPM with component CPMs, with samples. *)
From Coq Require Import ZArith List String Bool QArith Qcanon.
From Verif Require Import Py Num Vari Cpm SpecCpm Hybrid SpecHyb.
Import ListNotations.
Open Scope string_scope.
Open Scope Z_scope.
Open Scope list_scope.

(** the first component whose child has the name of [v] *)
Definition sampled_comp (Ms : list hcpm) (v : variable) : option hcpm :=
  find (fun m => mem_str (v_name v) (names (children (h_c m)))) Ms.
(** the components of the variables [l] *)
Definition sampled_comps (Ms : list hcpm) (l : list variable) : list hcpm :=
  flat_map (fun v => match sampled_comp Ms v with Some m => [m] | None => [] end) l.

(** weights of sample number [i] in all of [l] *)
Definition joint_q (l : list hcpm) (i : nat) : Qc := qprod (map (fun M => nth i (h_q M) 0%Qc) l).
Definition joint_t (l : list hcpm) (i : nat) : Qc := qprod (map (fun M => nth i (target_of M) 0%Qc) l).
