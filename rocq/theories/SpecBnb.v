(** Specification vocabulary for the path-based branch and bound. *)
From Coq Require Import ZArith List String Bool QArith Qcanon Sorting.
From Verif Require Import Py Num Vari Brc SpecBrc Bnb.
Import ListNotations.
Open Scope string_scope.
Open Scope Z_scope.
Open Scope list_scope.

(** all arcs of a (non-empty) path are in state [cond] *)
Definition survives (cond : Z) (x : dict Z) (path : list string) : Prop :=
  path <> [] /\ forall k, In k path -> dfind x k = Some cond.

(** [e] is the first surviving entry, after the entries [pre] *)
Definition first_surviving (cond : Z) (x : dict Z) (pti pre : list path_entry) (e : path_entry) : Prop :=
  (exists post, pti = pre ++ e :: post) /\ survives cond x (pe_path e) /\
  forall e', In e' pre -> ~ survives cond x (pe_path e').

(** system state: that of the first surviving path, otherwise that of the first entry *)
Definition sys_state_of (cond : Z) (pti : list path_entry) (x : dict Z) (s : Z) : Prop :=
  (exists pre e, first_surviving cond x pti pre e /\ s = pe_state e) \/
  ((forall e, In e pti -> ~ survives cond x (pe_path e)) /\ exists e l, pti = e :: l /\ s = pe_state e).

(** all states of the arcs, 0 (failed) or 1 *)
Definition arc_states (names : list string) : list (dict Z) := space (map (fun k => (k, 2)) names).

(** [x] lies between [lo] and [up] *)
Definition in_box (lo up x : dict Z) : bool :=
  forallb (fun kv => (coord lo (fst kv) <=? snd kv) && (snd kv <=? coord up (fst kv))) x.
Definition in_bb (b : bb) (x : dict Z) : bool := in_box (lower b) (upper b) x.
(** number of branches that contain [x] *)
Definition covered (l : list bb) (x : dict Z) : nat := List.length (filter (fun b => in_bb b x) l).

(** a path list: an entry without path, then paths over the arcs [names], best first *)
Definition paths_ok (names : list string) (pti : list path_entry) : Prop :=
  exists e0 l, pti = e0 :: l /\ pe_path e0 = [] /\
    (forall e, In e l -> pe_path e <> [] /\ NoDup (pe_path e) /\ incl (pe_path e) names /\ pe_state e0 <= pe_state e) /\
    StronglySorted (fun a b => pe_state b <= pe_state a) l.

(** a box of arc states whose states are right: that at the upper end is exact, that at
    the lower end not too high *)
Definition bb_ok (names : list string) (pti : list path_entry) (b : bb) : Prop :=
  In (lower b) (arc_states names) /\ In (upper b) (arc_states names) /\
  (forall k, In k names -> coord (lower b) k <= coord (upper b) k) /\
  (exists s, sys_state_of 1 pti (lower b) s /\ fl b <= s) /\ sys_state_of 1 pti (upper b) (fu b).

(** probability of an arc state and of a set of arc states: independent arcs,
    [scen] lists the probabilities of the states of each arc *)
Definition arc_prob (scen : dict (list Qc)) (x : dict Z) : Qc :=
  qprod (map (fun kv => match dfind scen (fst kv) with Some p => nth (Z.to_nat (snd kv)) p 0%Qc | None => 0%Qc end) x).
Definition event_prob (edges : list string) (scen : dict (list Qc)) (E : dict Z -> bool) : Qc :=
  qsum (map (arc_prob scen) (filter E (arc_states edges))).
