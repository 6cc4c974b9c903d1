(** Which probabilities the completions of an incomplete CPM can have. *)
From Coq Require Import ZArith List String Bool Arith Lia QArith Qcanon.
From Verif Require Import Py Num Vari Cpm SpecCpm PyFacts VariFacts CpmFacts CpmCond CpmProd CpmList CpmSum CpmMarg CpmElim CpmProb.
Import ListNotations.
Open Scope string_scope.
Open Scope Z_scope.
Open Scope list_scope.

Lemma qinv_pos (x : Qc) : (0 < x)%Qc -> (0 < / x)%Qc.
Proof.
  intros H. destruct (Qclt_le_dec 0 (/ x)) as [X|X]; auto. exfalso.
  assert (N : x <> 0%Qc) by (intros ->; revert H; apply Qcle_not_lt, Qcle_refl).
  assert (Y : (/ x * x <= 0 * x)%Qc) by (apply Qcmult_le_compat_r; auto; apply Qclt_le_weak; auto).
  rewrite (Qcmult_comm (/ x)), Qcmult_inv_r, Qcmult_0_l in Y by auto. revert Y. apply Qclt_not_le. reflexivity.
Qed.

Lemma pos_nz (x : Qc) : (0 < x)%Qc -> x <> 0%Qc.
Proof. intros H ->. revert H. apply Qcle_not_lt, Qcle_refl. Qed.

Lemma div_le a b c d : (0 < b -> 0 < d -> a * d <= c * b -> a / b <= c / d)%Qc.
Proof.
  intros B D H. assert (P : (0 <= / b * / d)%Qc).
  { replace 0%Qc with (0 * / d)%Qc by ring. apply Qcmult_le_compat_r; apply Qclt_le_weak, qinv_pos; auto. }
  assert (X := Qcmult_le_compat_r _ _ _ H P). assert (Nb := pos_nz b B). assert (Nd := pos_nz d D).
  replace (a * d * (/ b * / d))%Qc with (a / b)%Qc in X by (field; auto).
  replace (c * b * (/ b * / d))%Qc with (c / d)%Qc in X by (field; auto). auto.
Qed.

Lemma div_lt a b c d : (0 < b -> 0 < d -> a * d < c * b -> a / b < c / d)%Qc.
Proof.
  intros B D H. apply Qcnot_le_lt. intros X. assert (Nb := pos_nz b B). assert (Nd := pos_nz d D).
  assert (P : (0 <= b * d)%Qc).
  { replace 0%Qc with (0 * d)%Qc by ring. apply Qcmult_le_compat_r; apply Qclt_le_weak; auto. }
  assert (Y := Qcmult_le_compat_r _ _ _ X P).
  replace (c / d * (b * d))%Qc with (c * b)%Qc in Y by (field; auto).
  replace (a / b * (b * d))%Qc with (a * d)%Qc in Y by (field; auto). revert Y. apply Qclt_not_le. auto.
Qed.

Lemma mul_nonneg x y : (0 <= x -> 0 <= y -> 0 <= x * y)%Qc.
Proof. intros X Y. replace 0%Qc with (0 * y)%Qc by ring. apply Qcmult_le_compat_r; auto. Qed.

(** ** a CPM with further rows *)
Definition extend (M : cpm) (C : list (list Z)) (p : list Qc) : cpm :=
  mkCpm (c_vars M) (c_nch M) (c_C M ++ C) (c_p M ++ p).

Lemma extend_wf M C p : wf_cpm M -> has_p M -> List.length C = List.length p -> (forall r, In r C -> Forall2 code_ok (c_vars M) r) ->
  wf_cpm (extend M C p).
Proof.
  intros (A1 & A2 & A3 & A4 & _) P L H. unfold extend, wf_cpm. cbn [c_vars c_nch c_C c_p]. repeat split; auto.
  - intros row Hr. apply in_app_or in Hr as [Hr|Hr]; auto.
  - right. rewrite !app_length. unfold has_p in P. lia.
Qed.

Lemma extend_completes M C p : List.length C = List.length p -> (forall x, In x p -> 0 <= x)%Qc ->
  (qsum (c_p M) + qsum p = 1)%Qc -> completes M (extend M C p).
Proof. intros L N S. exists C, p. repeat split; auto. rewrite qsum_app. auto. Qed.

Lemma total_extend f M C p : has_p M -> total f (extend M C p) = (total f M + qsum (map snd (filter (fun rp => f (fst rp)) (combine C p))))%Qc.
Proof.
  intros P. unfold total, extend. cbn [c_C c_p]. rewrite combine_app_eq by (symmetry; exact P). rewrite filter_app, map_app, qsum_app. auto.
Qed.

Lemma total_le_sum f M : has_p M -> (forall x, In x (c_p M) -> 0 <= x)%Qc -> (0 <= total f M /\ total f M <= qsum (c_p M))%Qc.
Proof.
  unfold has_p, total. generalize (c_C M) as C, (c_p M) as p. induction C as [|r C IH]; intros [|q p] L H; cbn in L; try discriminate.
  - split; apply Qcle_refl.
  - cbn [combine filter fst]. assert (0 <= q)%Qc by (apply H; left; auto). destruct (IH p ltac:(lia) (fun x Hx => H x (or_intror Hx))).
    destruct (f r); cbn [map snd qsum]; split; qc_lra.
Qed.

(** the probability of an event in a completion, rows of both kinds given *)
Lemma two_rows f M r1 r0 a b : has_p M -> f r1 = true -> f r0 = false ->
  total f (extend M [r1; r0] [a; b]) = (total f M + a)%Qc.
Proof.
  intros P H1 H0. rewrite total_extend by auto. cbn [combine filter fst]. rewrite H1, H0. cbn [map snd qsum]. ring.
Qed.

(** ** quotients *)
Lemma ratio_up (p1 p2 a b u : Qc) : (0 <= p1 -> p1 <= p2 -> 0 <= a -> a <= b -> b <= u -> 0 < p2 + b ->
  (p1 + a) / (p2 + b) <= (p1 + u) / (p2 + u))%Qc.
Proof.
  intros H1 H2 H3 H4 H5 H6. apply div_le; auto; [qc_lra|].
  (* (p1 + a)(p2 + u) <= (p1 + u)(p2 + b) *)
  assert (X : (0 <= (u - a) * (p2 - p1))%Qc) by (apply mul_nonneg; qc_lra).
  assert (Y : (0 <= (b - a) * (p1 + u))%Qc) by (apply mul_nonneg; qc_lra).
  apply Qcle_minus_iff. replace ((p1 + u) * (p2 + b) + - ((p1 + a) * (p2 + u)))%Qc with ((u - a) * (p2 - p1) + (b - a) * (p1 + u))%Qc by ring.
  revert X Y. generalize ((u - a) * (p2 - p1))%Qc, ((b - a) * (p1 + u))%Qc. intros; qc_lra.
Qed.

Lemma ratio_low (p1 p2 a b u : Qc) : (0 <= p1 -> 0 <= a -> b <= u -> 0 < p2 + b -> p1 / (p2 + u) <= (p1 + a) / (p2 + b))%Qc.
Proof.
  intros H1 H3 H5 H6. apply div_le; auto; [qc_lra|].
  assert (X : (0 <= p1 * (u - b))%Qc) by (apply mul_nonneg; qc_lra).
  assert (Y : (0 <= a * (p2 + u))%Qc) by (apply mul_nonneg; qc_lra).
  apply Qcle_minus_iff. replace ((p1 + a) * (p2 + u) + - (p1 * (p2 + b)))%Qc with (p1 * (u - b) + a * (p2 + u))%Qc by ring.
  revert X Y. generalize (p1 * (u - b))%Qc, (a * (p2 + u))%Qc. intros; qc_lra.
Qed.
