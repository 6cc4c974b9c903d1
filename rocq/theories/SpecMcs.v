(** Specification vocabulary for the Monte Carlo estimators. *)
From Coq Require Import ZArith List String Bool QArith Qcanon Permutation.
From Verif Require Import Py Num Vari Brc SpecBrc Mcs.
Import ListNotations.
Open Scope Z_scope.
Open Scope list_scope.

(** mean of [f] under a distribution (list of weighted outcomes) *)
Definition mean {A} (D : list (Qc * A)) (f : A -> Qc) : Qc := qsum (map (fun o => (fst o * f (snd o))%Qc) D).

(** [x] lies in a branch with an end that is not decided *)
Definition is_u (s : st) : bool := match s with U_ => true | _ => false end.
Definition open_branch (b : branch) : bool := is_u (b_down_state b) || is_u (b_up_state b).
Definition open_region (brs : list branch) (x : dict Z) : bool := existsb (fun b => open_branch b && in_branch b x) brs.

(** every branch is open, or fails at its upper end, or survives at its lower end *)
Definition settled_or_open (brs : list branch) : Prop :=
  forall b, In b brs -> open_branch b = true \/ b_up_state b = F_ \/ b_down_state b = S_.

(** number of failures among the vectors of a list *)
Definition failures (phi : dict Z -> bool) (l : list (dict Z)) : nat := List.length (filter (fun x => negb (phi x)) l).

(** mean and squared coefficient of variation of  low + u * X,  where X has the beta
    distribution with parameters 1/100 + k and 1/100 + n - k *)
Definition post_mean (low u : Qc) (n k : Z) : Qc := (low + u * ((qz k + Q2Qc (1 # 100)) / (qz n + Q2Qc (1 # 50))))%Qc.
Definition post_cov2 (low u : Qc) (n k : Z) : Qc :=
  (u * u * ((qz k + Q2Qc (1 # 100)) * (qz n - qz k + Q2Qc (1 # 100)) /
            ((qz n + Q2Qc (1 # 50)) * (qz n + Q2Qc (1 # 50))) / (qz n + Q2Qc (1 # 50) + 1)) /
   (post_mean low u n k * post_mean low u n k))%Qc.

(** components of two states *)
Definition binary (varis : dict variable) : Prop := forall k v, In (k, v) varis -> nvals v = 2.

(** on the vectors of the list, the system function answers [phi] *)
Definition answers (phi : dict Z -> bool) (sys_fun : sysfun) (l : list (dict Z)) : Prop :=
  forall x, In x l -> snd (fst (sys_fun x)) = if phi x then S_ else F_.

(** distributions given as dictionaries over exactly the states 0, ..., n-1 *)
Definition full_dicts (varis : dict variable) (probs : prob_dict) : Prop :=
  Forall2 (fun kv kd => fst kd = fst kv /\ exists l, snd kd = PDict l /\ Permutation (map fst l) (zrange 0 (nvals (snd kv)))) varis probs.

(** [v] is the variable of its name in [varis] *)
Definition comp_of_varis (varis : dict variable) (v : variable) : Prop := dfind varis (v_name v) = Some v.

(** the CPMs fit the components: one CPM per component, and a system CPM over all of them *)
Definition cpms_fit (varis : dict variable) (probs : prob_dict) (cpms : dict scpm) (sys : string) (v0 : variable) (vs : list variable) : Prop :=
  (exists Ms, dfind cpms sys = Some Ms /\ sc_vars Ms = v0 :: vs) /\ 1 <= nvals v0 /\
  ~ In sys (map v_name vs) /\ NoDup (map v_name vs) /\ List.length vs = List.length probs /\
  forall v, In v vs -> comp_of_varis varis v /\ exists M, dfind cpms (v_name v) = Some M /\ sc_vars M = [v].

