(** Specification vocabulary for the evaluations that follow the failure map. *)
From Coq Require Import ZArith List String Bool Arith QArith Qcanon.
From Verif Require Import Py Num Vari SpecBrc.
Import ListNotations.
Open Scope string_scope.
Open Scope Z_scope.
Open Scope list_scope.

(** a random vector with finitely many values: weights and values *)
Definition law : Type := list (Qc * (string -> Qc)).
Definition mean_of (l : law) (g : (string -> Qc) -> Qc) : Qc := qsum (map (fun wz => fst wz * g (snd wz))%Qc l).
Definition cov_of (l : law) (g h : (string -> Qc) -> Qc) : Qc :=
  mean_of l (fun z => ((g z - mean_of l g) * (h z - mean_of l h))%Qc).
(** it has the given means and covariances *)
Definition law_fits (names : list string) (MEAN : dict Qc) (COV : list (list Qc)) (l : law) : Prop :=
  qsum (map fst l) = 1%Qc /\
  (forall k, In k names -> dfind MEAN k = Some (mean_of l (fun z => z k))) /\
  (forall i j ki kj, nth_error names i = Some ki -> nth_error names j = Some kj ->
     exists row, nth_error COV i = Some row /\ nth_error row j = Some (cov_of l (fun z => z ki) (fun z => z kj))).

(** a road fails when its variable is at most 0: it is in state [c] when [turned c] of it is *)
Definition turned (c x : Qc) : Qc := (c * x)%Qc.
Definition sign_of (c : Z) : Qc := if c =? 0 then 1%Qc else (- (1))%Qc.
Definition side (kc : string * Z) (z : string -> Qc) : Qc := turned (sign_of (snd kc)) (z (fst kc)).
(** the roads that a row of codes decides on, with their states; 2 stands for both *)
Definition decided (names : list string) (row : list Z) : list (string * Z) :=
  filter (fun kc => negb (snd kc =? 2)) (combine names (tl row)).
(** means and covariances of the turned variables of these roads *)
Definition side_means (l : law) (D : list (string * Z)) : list Qc := map (fun kc => mean_of l (side kc)) D.
Definition side_covs (l : law) (D : list (string * Z)) : list (list Qc) := map (fun kc => map (fun kc' => cov_of l (side kc) (side kc')) D) D.

(** total weight of the states of an event *)
Definition weight_of (sp : list (dict Z)) (w : dict Z -> Qc) (E : dict Z -> bool) : Qc := qsum (map w (filter E sp)).
