(** Specification vocabulary for the product of a system CPM with component CPMs. *)
From Coq Require Import ZArith List String Bool QArith Qcanon.
From Verif Require Import Py Num Vari Cpm SpecCpm.
Import ListNotations.
Open Scope string_scope.
Open Scope Z_scope.
Open Scope list_scope.

(** a component CPM: one child [v], some rows, with probabilities, one row for each basic
    state of [v]; the table of [v] lists basic states without repetition *)
Definition comp_ok (m : cpm) : Prop :=
  wf_cpm m /\ has_p m /\ c_nch m = 1%nat /\
  exists v, children m = [v] /\ c_C m <> [] /\ NoDup (map (hd 0) (c_C m)) /\
    (forall k, 0 <= k < nvals v <-> In k (map (hd 0) (c_C m))) /\
    (forall c, NoDup (states_of v c) /\ forall x, In x (states_of v c) -> 0 <= x < nvals v).

(** the first of the components whose child has the name of [v] *)
Definition comp_for (Ms : list cpm) (v : variable) : option cpm :=
  find (fun m => mem_str (v_name v) (names (children m))) Ms.
Definition in_comps (Ms : list cpm) (v : variable) : bool :=
  match comp_for Ms v with Some _ => true | None => false end.

(** probability that the child of the component [m] is in one of the states [s] *)
Definition comp_total (m : cpm) (s : list Z) : Qc :=
  qsum (map (fun k => total (fun row => hd 0 row =? k) m) s).
Definition comp_factor (Ms : list cpm) (v : variable) (c : Z) : Qc :=
  match comp_for Ms v with Some m => comp_total m (states_of v c) | None => 1%Qc end.

(** all components are unconditional, or all are conditioned on the same variable
    being in the same state *)
Definition conditioned (Ms : list cpm) (cs : list (variable * Z)) : Prop :=
  (cs = [] /\ forall m, In m Ms -> parents m = []) \/
  (exists y s, cs = [(y, s)] /\
     forall m, In m Ms -> parents m = [y] /\ forall row, In row (c_C m) -> nth_error row 1 = Some s).

(** admissible arguments *)
Definition prod_ok (Msys : cpm) (Ms : list cpm) (cs : list (variable * Z)) : Prop :=
  wf_cpm Msys /\ has_p Msys /\ c_C Msys <> [] /\ Ms <> [] /\ Forall comp_ok Ms /\ conditioned Ms cs /\
  forall m, In m Ms -> agree (c_vars Msys) (c_vars m).

(** parents of the system that have a component, and the others *)
Definition mult_of (Msys : cpm) (Ms : list cpm) : list variable := filter (in_comps Ms) (parents Msys).
Definition rest_of (Msys : cpm) (Ms : list cpm) : list variable := filter (fun v => negb (in_comps Ms v)) (parents Msys).
(** conditions on variables that are not among [l] *)
Definition new_conds (cs : list (variable * Z)) (l : list variable) : list (variable * Z) :=
  filter (fun ys => negb (mem_str (v_name (fst ys)) (names l))) cs.

(** total probability of the rows that allow [a] as far as the variables [K] go *)
Definition mass_on (K : list variable) (M : cpm) (a : joint) : Qc :=
  total (fun row => forallb (fun vc => negb (mem_str (v_name (fst vc)) (names K)) ||
                                       mem_Z (a (v_name (fst vc))) (states_of (fst vc) (snd vc)))
                            (combine (c_vars M) row)) M.

(** the codes of the child name the basic states of the same number *)
Definition basic_child (m : cpm) : Prop :=
  forall v row x, In v (children m) -> In row (c_C m) -> (In x (states_of v (hd 0 row)) <-> x = hd 0 row).

(** the component CPMs of the variables [l] *)
Definition comps_for (Ms : list cpm) (l : list variable) : list cpm :=
  flat_map (fun v => match comp_for Ms v with Some m => [m] | None => [] end) l.

Definition meets_conds (cs : list (variable * Z)) (a : joint) : Prop :=
  forall y s, In (y, s) cs -> In (a (v_name y)) (states_of y s).
