(** Specification vocabulary for CPMs with samples.  A list [G] of joint states are the
    samples of the whole network; every CPM stores its part of each of them. *)
From Coq Require Import ZArith List String Bool QArith Qcanon.
From Verif Require Import Py Num Vari Cpm SpecCpm Hybrid.
Import ListNotations.
Open Scope string_scope.
Open Scope Z_scope.
Open Scope list_scope.

(** the states of the variables [vs] in the joint state [a] *)
Definition row_at (vs : list variable) (a : joint) : list Z := map (fun v => a (v_name v)) vs.

(** [M] stores the samples [G] with the numbers [I]; one sampling weight for each, and no
    or as many target weights *)
Definition sampled (I : list Z) (G : list joint) (M : hcpm) : Prop :=
  h_idx M = I /\ h_Cs M = map (row_at (c_vars (h_c M))) G /\ List.length (h_q M) = List.length G /\
  (h_ps M = [] \/ List.length (h_ps M) = List.length G).

(** state [x] of [v] has the number [x] in the table *)
Definition basic_state (v : variable) (x : Z) : Prop := 0 <= x < nvals v /\ forall y, In y (states_of v x) <-> y = x.
Definition basic_samples (G : list joint) (vs : list variable) : Prop :=
  forall a v, In a G -> In v vs -> basic_state v (a (v_name v)).

(** target weights; without any they are the sampling weights *)
Definition target_of (M : hcpm) : list Qc := match h_ps M with [] => h_q M | p => p end.

Definition times (l1 l2 : list Qc) : list Qc := map (fun xy => (fst xy * snd xy)%Qc) (combine l1 l2).

(** [a] with the variables [vs] in the states [codes] *)
Fixpoint evidence (vs : list variable) (codes : list Z) (a : joint) : joint :=
  match vs, codes with
  | v :: vs', c :: codes' => fun n => if String.eqb n (v_name v) then c else evidence vs' codes' a n
  | _, _ => a
  end.

(** one of [vs] is among [l] *)
Definition touches (vs l : list variable) : bool := existsb (fun v => mem_str (v_name v) (names vs)) l.

(** evidence in basic states *)
Definition basic_ev (scope vs : list variable) (codes : list Z) : Prop :=
  List.length vs = List.length codes /\ NoDup (names vs) /\ agree vs scope /\
  (forall v c, In (v, c) (combine vs codes) -> In v scope -> basic_state v c).

(** weight that likelihood weighting gives to the sample [a]: observed variables get the
    probability of the evidence, the others the ratio of their probabilities with and
    without it *)
Definition lweight (vs : list variable) (codes : list Z) (M : cpm) (a : joint) : Qc :=
  let b := evidence vs codes a in
  if touches vs (children M) then mass M b
  else if touches vs (c_vars M) then (mass M b / mass M a)%Qc else 1%Qc.
Definition lweights (vs : list variable) (codes : list Z) (l : list cpm) (a : joint) : Qc :=
  qprod (map (fun M => lweight vs codes M a) l).

(** weight of sample [i], and the same if the sample counts for the event, else 0 *)
Definition wt (M : hcpm) (i : nat) : Qc := (nth i (target_of M) 0 / nth i (h_q M) 0)%Qc.
Definition counted (M : hcpm) (G : list joint) (vs : list variable) (codes : list Z) (flag : bool) (i : nat) : Qc :=
  if Bool.eqb flag (ev_match (c_vars (h_c M)) vs codes (nth i G (fun _ => 0))) then wt M i else 0%Qc.

(** [x] differs from [w] by more than 1/10^4 + w/10^5 *)
Definition far (w x : Qc) : Prop :=
  let tol := (Q2Qc (1 # 10000) + Q2Qc (1 # 100000) * w)%Qc in (0 <= w)%Qc /\ ((w + tol < x)%Qc \/ (x + tol < w)%Qc).

(** sum of the weights of the samples that agree (or, without [flag], disagree) with the event *)
Definition votes (M : hcpm) (G : list joint) (vs : list variable) (codes : list Z) (flag : bool) : Qc :=
  qsum (map (counted M G vs codes flag) (seq 0 (List.length G))).

(** [es] are the tables of the observed variables [vs] given their parents, parents first *)
Inductive observed : list variable -> list cpm -> Prop :=
| observed_nil : observed [] []
| observed_cons v M vs es : children M = [v] -> (forall a, qsum (map (fun x => mass M (set_joint a v x)) (zrange 0 (nvals v))) = 1%Qc) ->
    (forall w, In w vs -> ~ In (v_name w) (names (c_vars M))) -> observed vs es -> observed (v :: vs) (M :: es).
