(** Vocabulary of C102: rounding and searches that choose freely. *)
From Coq Require Import ZArith List String Bool QArith Qcanon Permutation.
From Verif Require Import Py Num Vari Brc SpecBrc Round.
Import ListNotations.
Open Scope Z_scope.
Open Scope list_scope.

Definition qabs (x : Qc) : Qc := if qc_ltb x 0%Qc then (- x)%Qc else x.

(** The standard model of floating point arithmetic: the error of an operation
    is at most [u] times its result ([u] is 2^-53 for floats rounded to
    nearest, without underflow and overflow). *)
Definition rounding (u : Qc) (rnd : Qc -> Qc) : Prop := forall x, (qabs (rnd x - x) <= u * qabs x)%Qc.

(** [y] is [x] up to [n] relative errors of [u] *)
Definition near (u : Qc) (n : nat) (x y : Qc) : Prop := (x * (1 - u) ^ n <= y)%Qc /\ (y <= x * (1 + u) ^ n)%Qc.

(** number of roundings behind a branch probability: at most two for each component
    and one for each of its states *)
Definition ops (varis : dict variable) : nat :=
  fold_right Nat.add 0%nat (map (fun kv : string * variable => (S (S (Z.to_nat (nvals (snd kv))))%nat)) varis).

(** What a search can reach with any choice of the vectors that are evaluated,
    of the branches that are split, where they are split, in which order they
    are kept, and when the decomposition starts anew.  The choices of brc.py
    depend on probabilities, so with rounding they may be others than with
    exact numbers. *)
Definition box : Type := (dict Z * dict Z)%type.
Definition whole (varis : dict variable) : box :=
  (map (fun kv : string * variable => (fst kv, 0)) varis, map (fun kv : string * variable => (fst kv, nvals (snd kv) - 1)) varis).
Inductive searched (varis : dict variable) (sys_fun : sysfun) (rs0 : ruleset) : ruleset -> list box -> Prop :=
| S_start : searched varis sys_fun rs0 rs0 [whole varis]
| S_anew rs bs : searched varis sys_fun rs0 rs bs -> searched varis sys_fun rs0 rs [whole varis]
| S_split rs l1 d u l2 k s :
    searched varis sys_fun rs0 rs (l1 ++ (d, u) :: l2) -> In k (keys varis) -> coord d k < s <= coord u k ->
    searched varis sys_fun rs0 rs (l1 ++ (d, dset u k (s - 1)) :: (dset d k s, u) :: l2)
| S_order rs bs bs' :
    searched varis sys_fun rs0 rs bs -> Permutation bs bs' -> searched varis sys_fun rs0 rs bs'
| S_call rs bs x rule st r rs' :
    searched varis sys_fun rs0 rs bs -> In x (space (comps_of varis)) ->
    run_sys_fn x sys_fun varis = Ok (rule, st, r) -> update_rule_set rs rule st = Ok rs' ->
    searched varis sys_fun rs0 rs' bs.

Definition box_of (b : branch) : box := (b_down b, b_up b).

(** probability of a box in rounded arithmetic: the product over the components
    of the sum over the states *)
Definition r_comp (rnd : Qc -> Qc) (probs : prob_dict) (up : dict Z) (kv : string * Z) : Qc :=
  r_sum rnd (map (fun x => rnd (pr probs (fst kv) x)) (zrange (snd kv) (coord up (fst kv) + 1))).
Definition r_prob (rnd : Qc -> Qc) (probs : prob_dict) (down up : dict Z) : Qc :=
  fold_left (fun p kv => rnd (p * r_comp rnd probs up kv)%Qc) down 1%Qc.

(** the probability stored in a branch: computed with rounding, or 1 for the
    branch that the decomposition starts with (brc.py 386) *)
Definition stored_p (rnd : Qc -> Qc) (varis : dict variable) (probs : prob_dict) (b : branch) : Prop :=
  b_p b = r_prob rnd probs (b_down b) (b_up b) \/ (box_of b = whole varis /\ b_p b = 1%Qc).

(** vectors in the branches with a given label *)
Definition in_failing (brs : list branch) (x : dict Z) : bool :=
  existsb (fun b => st_eqb (b_up_state b) F_ && in_branch b x) brs.
Definition in_surviving (brs : list branch) (x : dict Z) : bool :=
  existsb (fun b => st_eqb (b_down_state b) S_ && in_branch b x) brs.
