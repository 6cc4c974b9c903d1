(** Specification vocabulary for CPMs: what a row of codes means, and the value
    of a CPM at a joint basic state.  Only the data types of the model are used. *)
From Coq Require Import ZArith List String Bool QArith Qcanon.
From Verif Require Import Py Num Vari Cpm.
Import ListNotations.
Open Scope string_scope.
Open Scope Z_scope.
Open Scope list_scope.

(** the basic states that code [c] of variable [v] stands for *)
Definition states_of (v : variable) (c : Z) : list Z :=
  match v_B v with
  | Some B => if c <? 0 then [] else nth (Z.to_nat c) B []
  | None => []
  end.

(** a joint basic state *)
Definition joint := string -> Z.

(** the codes [row] of the variables [vs] allow the joint state [a] *)
Definition row_match (vs : list variable) (row : list Z) (a : joint) : bool :=
  forallb (fun vc => mem_Z (a (v_name (fst vc))) (states_of (fst vc) (snd vc))) (combine vs row).

(** rows without probabilities count as one each *)
Definition weights (M : cpm) : list Qc :=
  match c_p M with [] => map (fun _ => 1%Qc) (c_C M) | p => p end.

(** value of a CPM at a joint state: total weight of the rows that allow it *)
Definition mass (M : cpm) (a : joint) : Qc :=
  qsum (map snd (filter (fun rp => row_match (c_vars M) (fst rp) a) (combine (c_C M) (weights M)))).

(** A variable usable in CPMs: it has a table, the table has an entry for every
    non-empty intersection of two of its entries, and no more than 2^n entries.
    (True of every table made by [Variable(...)], see [mk_variable_ok].) *)
Definition var_ok (v : variable) : Prop :=
  exists B, v_B v = Some B /\ Z.of_nat (List.length B) <= 2 ^ nvals v /\
    forall e1 e2 x, In e1 B -> In e2 B -> In x e1 -> In x e2 ->
      exists e, In e B /\ forall y, In y e <-> In y e1 /\ In y e2.

Definition code_ok (v : variable) (c : Z) : Prop :=
  exists B, v_B v = Some B /\ 0 <= c < Z.of_nat (List.length B).

Definition wf_cpm (M : cpm) : Prop :=
  NoDup (names (c_vars M)) /\ Forall var_ok (c_vars M) /\ (c_nch M <= List.length (c_vars M))%nat /\
  (forall row, In row (c_C M) -> Forall2 code_ok (c_vars M) row) /\
  (c_p M = [] \/ List.length (c_p M) = List.length (c_C M)).

(** variables of the same name are the same *)
Definition agree (l1 l2 : list variable) : Prop :=
  forall v1 v2, In v1 l1 -> In v2 l2 -> v_name v1 = v_name v2 -> v1 = v2.

(** the joint state [a] agrees with the evidence "[vs] are in the states [codes]";
    variables outside the scope do not count *)
Definition ev_match (scope vs : list variable) (codes : list Z) (a : joint) : bool :=
  forallb (fun vc => negb (mem_str (v_name (fst vc)) (names scope)) ||
                     mem_Z (a (v_name (fst vc))) (states_of (fst vc) (snd vc))) (combine vs codes).

(** admissible evidence for variables [scope] *)
Definition ev_ok (scope vs : list variable) (codes : list Z) : Prop :=
  List.length vs = List.length codes /\ NoDup (names vs) /\ agree vs scope /\
  (forall v c, In (v, c) (combine vs codes) -> In v scope -> code_ok v c).

(** [a] with the state of [v] changed to [x] *)
Definition set_joint (a : joint) (v : variable) (x : Z) : joint :=
  fun n => if String.eqb n (v_name v) then x else a n.

(** sum of [f] over all basic states of the variables [l] *)
Fixpoint marg (l : list variable) (f : joint -> Qc) (a : joint) : Qc :=
  match l with
  | [] => f a
  | v :: l' => qsum (map (fun x => marg l' f (set_joint a v x)) (zrange 0 (nvals v)))
  end.

(** every row of [M] names one basic state of [v] *)
Definition basic_in (M : cpm) (v : variable) : Prop :=
  forall row c, In row (c_C M) -> In (v, c) (combine (c_vars M) row) ->
    exists s, 0 <= s < nvals v /\ forall x, In x (states_of v c) <-> x = s.

(** the codes of [row] leave the event "[vs] are in the states [codes]" possible;
    variables outside the scope do not count *)
Definition hits (scope : list variable) (row : list Z) (vs : list variable) (codes : list Z) : bool :=
  forallb (fun vc => forallb (fun wr =>
    negb (String.eqb (v_name (fst wr)) (v_name (fst vc))) ||
    existsb (fun x => mem_Z x (states_of (fst vc) (snd vc))) (states_of (fst wr) (snd wr)))
    (combine scope row)) (combine vs codes).

(** total probability of the rows that satisfy [f] *)
Definition total (f : list Z -> bool) (M : cpm) : Qc :=
  qsum (map snd (filter (fun rp => f (fst rp)) (combine (c_C M) (c_p M)))).

(** [M'] is [M] with further rows, with probabilities adding up to one *)
Definition completes (M M' : cpm) : Prop :=
  exists C p, List.length C = List.length p /\ (forall x, In x p -> 0 <= x)%Qc /\
    M' = mkCpm (c_vars M) (c_nch M) (c_C M ++ C) (c_p M ++ p) /\ qsum (c_p M ++ p) = 1%Qc.

(** no variable is a child of both *)
Definition disjoint_children (M1 M2 : cpm) : Prop :=
  forall v w, In v (children M1) -> In w (children M2) -> v_name v <> v_name w.

(** CPMs that can be multiplied in any order: well formed, same name same
    variable, every variable child of at most one *)
Fixpoint pairwise (R : cpm -> cpm -> Prop) (l : list cpm) : Prop :=
  match l with [] => True | M :: l' => (forall M', In M' l' -> R M M') /\ pairwise R l' end.
Definition fit (M1 M2 : cpm) : Prop := agree (c_vars M1) (c_vars M2) /\ disjoint_children M1 M2.
Definition fit_list (l : list cpm) : Prop := Forall wf_cpm l /\ pairwise fit l.

(** every row has a probability *)
Definition has_p (M : cpm) : Prop := List.length (c_p M) = List.length (c_C M).

(** value of a list of CPMs: the product *)
Definition pmass (l : list cpm) (a : joint) : Qc := qprod (map (fun M => mass M a) l).

(** admissible lists and variables for elimination: each eliminated variable is
    a child somewhere and one CPM lists it in basic states only (the others may
    use composite states) *)
Definition ve_ok (l : list cpm) (vars : list variable) : Prop :=
  fit_list l /\ Forall has_p l /\ (forall v, In v vars -> exists M, In M l /\ In v (c_vars M) /\ basic_in M v) /\
  (forall v, In v vars -> exists M, In M l /\ In v (children M)) /\ NoDup (names vars).

(** the codes pass the test of the constructor of [Cpm] *)
Definition codes_small (vs : list variable) (codes : list Z) : Prop :=
  forall v c, In (v, c) (combine vs codes) -> c < 2 ^ nvals v.

(** no CPM has negative values, and all are positive at the joint state [a] *)
Definition alive (l : list cpm) (a : joint) : Prop :=
  forall M, In M l -> (forall b, 0 <= mass M b)%Qc /\ (0 < mass M a)%Qc /\ c_vars M <> [].

(** the variables that [sum(vs, flag)] keeps: of the children those outside [vs]
    (flag=True) or those in [vs] (flag=False), and all parents *)
Definition sum_keeps (M : cpm) (vs : list variable) (flag : bool) : list variable :=
  filter (fun v => negb (Bool.eqb flag (mem_str (v_name v) (names vs)))) (children M) ++ parents M.

(** [r] lists for the variables [K] the codes that [row] has for them *)
Definition restricts (scope : list variable) (row : list Z) (K : list variable) (r : list Z) : Prop :=
  Forall2 (fun v c => In (v, c) (combine scope row)) K r.

(** row numbers below [n] that are not in [rows] *)
Definition other_rows (n : nat) (rows : list nat) : list nat :=
  filter (fun i => negb (existsb (Nat.eqb i) rows)) (seq 0 n).

(** the listed rows with their probabilities *)
Definition rows_of (M : cpm) (idx : list nat) : cpm :=
  mkCpm (c_vars M) (c_nch M) (map (fun i => nth i (c_C M) []) idx)
        (match c_p M with [] => [] | _ => map (fun i => nth i (c_p M) 0%Qc) idx end).

(** every cell names the basic state of the same number *)
Definition lists_states (M : cpm) : Prop :=
  forall row v c, In row (c_C M) -> In (v, c) (combine (c_vars M) row) ->
    0 <= c < nvals v /\ forall x, In x (states_of v c) <-> x = c.

(** the variables named [x] and [z] are connected by CPMs of [l] with a variable in common *)
Inductive linked (l : list cpm) : string -> string -> Prop :=
| linked_refl : forall x, linked l x x
| linked_step : forall M x y z, In M l -> In x (names (c_vars M)) -> In y (names (c_vars M)) -> linked l y z -> linked l x z.
