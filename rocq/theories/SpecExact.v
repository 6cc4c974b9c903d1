(** Specification vocabulary for the outcome of a complete search: extreme
    component vectors, the corner of a rule, rules without idle entries. *)
From Coq Require Import ZArith List String Bool QArith Qcanon.
From Verif Require Import Py Num Vari Brc SpecBrc.
Import ListNotations.
Open Scope string_scope.
Open Scope Z_scope.
Open Scope list_scope.

(** [x] survives, and nothing worse does *)
Definition min_survivor (varis : dict variable) (phi : dict Z -> bool) (x : dict Z) : Prop :=
  In x (space (comps_of varis)) /\ phi x = true /\
  forall y, In y (space (comps_of varis)) -> le_vec varis y x -> phi y = true -> y = x.

(** [x] fails, and nothing better does *)
Definition max_failure (varis : dict variable) (phi : dict Z -> bool) (x : dict Z) : Prop :=
  In x (space (comps_of varis)) /\ phi x = false /\
  forall y, In y (space (comps_of varis)) -> le_vec varis x y -> phi y = false -> y = x.

(** the worst vector that satisfies a survival rule: components that the rule
    does not mention are in state 0 *)
Definition low_corner (varis : dict variable) (r : dict Z) : dict Z :=
  map (fun kv => (fst kv, match dfind r (fst kv) with Some s => s | None => 0 end)) varis.

(** the best vector that satisfies a failure rule: components that the rule
    does not mention are in their last state *)
Definition high_corner (varis : dict variable) (r : dict Z) : dict Z :=
  map (fun kv => (fst kv, match dfind r (fst kv) with Some s => s | None => nvals (snd kv) - 1 end)) varis.

(** every entry of the rule says something: no state 0 in a survival rule, no
    last state in a failure rule; and it can be satisfied *)
Definition tidy_s (varis : dict variable) (r : dict Z) : Prop :=
  forall k s v, In (k, s) r -> In (k, v) varis -> 0 < s < nvals v.
Definition tidy_f (varis : dict variable) (r : dict Z) : Prop :=
  forall k s v, In (k, s) r -> In (k, v) varis -> 0 <= s < nvals v - 1.
Definition tidy_rules (varis : dict variable) (rs : ruleset) : Prop :=
  (forall r, In r (r_s rs) -> tidy_s varis r) /\ (forall r, In r (r_f rs) -> tidy_f varis r).

(** the minimal vectors that the system function returns have no idle entries *)
Definition sys_tidy (varis : dict variable) (phi : dict Z -> bool) (sys_fun : sysfun) : Prop :=
  forall x val sst r, In x (space (comps_of varis)) -> sys_fun x = (val, sst, Some r) ->
    forall k s v, In (k, s) r -> In (k, v) varis ->
      if phi x then 0 < s else s < nvals v - 1.

(** no rule makes another one redundant *)
Definition irredundant (rs : ruleset) : Prop :=
  antichain covers_s (r_s rs) /\ antichain covers_f (r_f rs).

(** the search may go on until every vector is classified *)
Definition no_limits (varis : dict variable) (g : config) : Prop :=
  Z.of_nat (List.length (space (comps_of varis))) < g_max_sf g /\
  g_max_nb g = None /\ g_max_rules g = None /\ (g_pf_bnd_wr g <= 0)%Qc.
