(** Specification vocabulary for networks of CPMs. *)
From Coq Require Import ZArith List String Bool Relations.
From Coq Require Import QArith Qcanon.
From Verif Require Import Py Num Vari Cpm SpecCpm.
Import ListNotations.
Open Scope string_scope.
Open Scope Z_scope.
Open Scope list_scope.

(** [p] is a parent of [v]: it is in the parent part of the CPM filed under [v] *)
Definition parent_of (cpms : dict cpm) (v p : string) : Prop :=
  exists M, dfind cpms v = Some M /\ In p (names (parents M)).

(** [x] is one of [varis] or an ancestor of one *)
Definition relevant (cpms : dict cpm) (varis : list string) (x : string) : Prop :=
  exists v, In v varis /\ clos_refl_trans_1n string (parent_of cpms) v x.

(** [l] is a topological listing of (some of) the CPMs: no number twice, and every
    parent is a child of a CPM listed before *)
Definition defines (cpms : list cpm) (j : nat) (n : string) : Prop :=
  exists M, nth_error cpms j = Some M /\ In n (names (children M)).
Definition needs (cpms : list cpm) (j : nat) (n : string) : Prop :=
  exists M, nth_error cpms j = Some M /\ In n (names (parents M)).
Definition topological (cpms : list cpm) (l : list nat) : Prop :=
  NoDup l /\ (forall j, In j l -> (j < List.length cpms)%nat) /\
  forall l1 j l2 n, l = l1 ++ j :: l2 -> needs cpms j n -> exists i, In i l1 /\ defines cpms i n.

(** acyclic and closed: the CPMs can be ranked so that every parent is a child of
    a CPM of lower rank *)
Definition acyclic (cpms : list cpm) : Prop :=
  exists r : nat -> nat, forall j n, needs cpms j n -> exists i, defines cpms i n /\ (r i < r j)%nat.

(** no variable is a child of two CPMs *)
Definition one_definition (cpms : list cpm) : Prop :=
  forall i j n, defines cpms i n -> defines cpms j n -> i = j.

(** the joint state that lists the states [sample] of the variables [vars]; other
    variables are in state 0 *)
Definition joint_of (vars : list variable) (sample : list Z) : string -> Z :=
  fun n => match find (fun vs => String.eqb (v_name (fst vs)) n) (combine vars sample) with
           | Some vs => snd vs | None => 0%Z end.

(** CPMs fit for sampling: every row has a probability, which is not negative, and
    lists basic states; no row occurs twice; same name, same variable; one definition
    per variable *)
Definition net_ok (cpms : list cpm) : Prop :=
  (forall M, In M cpms -> wf_cpm M /\ has_p M /\ lists_states M /\ NoDup (c_C M) /\ Forall (fun x => 0 <= x)%Qc (c_p M)) /\
  (forall M M', In M cpms -> In M' cpms -> agree (c_vars M) (c_vars M')) /\ one_definition cpms.

(** for all states of the parents the probabilities of the children add up to one *)
Definition normal (M : cpm) : Prop :=
  forall a, (forall p, In p (parents M) -> 0 <= a (v_name p) < nvals p) -> marg (children M) (mass M) a = 1%Qc.
