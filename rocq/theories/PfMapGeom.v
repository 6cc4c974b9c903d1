(** Proofs about distances of points to roads. *)
From Coq Require Import ZArith List String Bool QArith Qcanon Lia Lqa.
From Verif Require Import Py Num PfMap SpecMap.
Import ListNotations.
Open Scope Z_scope.
Open Scope list_scope.

Ltac qc_all := qc_hyps; unfold Qcle, Qclt; repeat progress (rewrite ?qc_this_plus, ?qc_this_minus, ?qc_this_opp, ?qc_this_mult, ?qc_this_0, ?qc_this_1 in * ).

Lemma qc_sq_pos (a : Qc) : (0 <= a * a)%Qc.
Proof. unfold Qcle. qc_push. nra. Qed.
Lemma qc_sq2_pos (a b : Qc) : (0 <= a * a + b * b)%Qc.
Proof. unfold Qcle. qc_all. nra. Qed.
Lemma qc_sum_sq (a b : Qc) : (a * a + b * b = 0 -> a = 0 /\ b = 0)%Qc.
Proof.
  intros H. apply qc_eq_q in H. qc_push. assert (A : (this a * this a == 0)%Q) by nra. assert (B : (this b * this b == 0)%Q) by nra.
  split; apply Qc_is_canon; rewrite qc_this_0; nra.
Qed.
Lemma qc_mult_pos (a b : Qc) : (0 < a)%Qc -> (0 < b)%Qc -> (0 < a * b)%Qc.
Proof. unfold Qclt. intros. qc_push. nra. Qed.
Lemma qc_pos_cancel (a b c : Qc) : (0 < c)%Qc -> (a * c <= b * c)%Qc -> (a <= b)%Qc.
Proof. unfold Qclt, Qcle. intros. qc_push. nra. Qed.
Lemma qc_le_mul (a b c : Qc) : (0 <= c)%Qc -> (a <= b)%Qc -> (a * c <= b * c)%Qc.
Proof. unfold Qcle. intros. qc_push. nra. Qed.

Section Distance.
Variables (x1 y1 x2 y2 x0 y0 : Qc).
Let u := (x2 - x1)%Qc.
Let v := (y2 - y1)%Qc.
Let a := (x0 - x1)%Qc.
Let b := (y0 - y1)%Qc.
Let D := (u * u + v * v)%Qc.
Hypothesis HD : (0 < D)%Qc.
Let s := ((a * u + b * v) / D)%Qc.
Let at_t (t : Qc) : point := ((x1 + t * u)%Qc, (y1 + t * v)%Qc).

Lemma D_ne : D <> 0%Qc.
Proof. intros E. rewrite E in HD. apply (Qclt_not_eq _ _ HD). auto. Qed.
Lemma sD : (s * D = a * u + b * v)%Qc.
Proof. unfold s. field. apply D_ne. Qed.
Lemma dist_at t : dist2 (x0, y0) (at_t t) = (a * a + b * b - (1 + 1) * t * (s * D) + t * t * D)%Qc.
Proof. rewrite sD. unfold dist2, at_t, D, a, b. cbn [fst snd]. ring. Qed.
Lemma seg_at q : on_segment (x1, y1) (x2, y2) q -> exists t, (0 <= t)%Qc /\ (t <= 1)%Qc /\ dist2 (x0, y0) q = dist2 (x0, y0) (at_t t).
Proof.
  intros (t & L & U & E1 & E2). cbn [fst snd] in *. exists t. split; auto. split; auto. unfold dist2, at_t. cbn [fst snd]. rewrite E1, E2. reflexivity.
Qed.
Lemma at_seg t : (0 <= t)%Qc -> (t <= 1)%Qc -> on_segment (x1, y1) (x2, y2) (at_t t).
Proof. intros L U. exists t. cbn. auto. Qed.
Lemma least_at t m : (0 <= t)%Qc -> (t <= 1)%Qc -> dist2 (x0, y0) (at_t t) = m ->
  (forall t', (0 <= t')%Qc -> (t' <= 1)%Qc -> (m <= dist2 (x0, y0) (at_t t'))%Qc) -> least_dist2 (x1, y1) (x2, y2) (x0, y0) m.
Proof.
  intros L U E H. split; [exists (at_t t); split; auto; apply at_seg; auto|].
  intros q Hq. destruct (seg_at q Hq) as (t' & L' & U' & ->). auto.
Qed.
Lemma least_start : (s < 0)%Qc -> least_dist2 (x1, y1) (x2, y2) (x0, y0) (a * a + b * b)%Qc.
Proof.
  intros Hs. apply (least_at 0); [apply Qcle_refl|discriminate|rewrite dist_at; ring|]. intros t L U. rewrite dist_at.
  assert (P : (0 <= t * (t - (1 + 1) * s) * D)%Qc).
  { apply qcmult_nonneg; [apply qcmult_nonneg; auto|apply Qclt_le_weak; exact HD]. clear - L Hs. clearbody s. qc_all. lra. }
  revert P. generalize (s * D)%Qc s D (a * a + b * b)%Qc. clear. intros. qc_all. nra.
Qed.
Lemma least_end : (1 < s)%Qc -> least_dist2 (x1, y1) (x2, y2) (x0, y0) ((x0 - x2) * (x0 - x2) + (y0 - y2) * (y0 - y2))%Qc.
Proof.
  intros Hs. apply (least_at 1); [discriminate|apply Qcle_refl|unfold dist2, at_t, u, v; cbn [fst snd]; ring|]. intros t L U.
  replace ((x0 - x2) * (x0 - x2) + (y0 - y2) * (y0 - y2))%Qc with (dist2 (x0, y0) (at_t 1)) by (unfold dist2, at_t, u, v; cbn [fst snd]; ring).
  rewrite !dist_at.
  assert (P : (0 <= (1 - t) * ((1 + 1) * s - 1 - t) * D)%Qc).
  { apply qcmult_nonneg; [|apply Qclt_le_weak; exact HD]. clear - Hs L U. clearbody s. apply qcmult_nonneg; qc_all; lra. }
  revert P. generalize (s * D)%Qc s D (a * a + b * b)%Qc. clear. intros. qc_all. nra.
Qed.
Lemma least_inner : (0 <= s)%Qc -> (s <= 1)%Qc -> least_dist2 (x1, y1) (x2, y2) (x0, y0) ((v * a - u * b) * (v * a - u * b) / D)%Qc.
Proof.
  assert (M : ((v * a - u * b) * (v * a - u * b) / D = a * a + b * b - s * s * D)%Qc).
  { replace (s * s * D)%Qc with (s * (s * D))%Qc by ring. rewrite sD. unfold s. field_simplify_eq; [|apply D_ne]. unfold D. ring. }
  intros L U. rewrite M. apply (least_at s); auto.
  - rewrite dist_at. ring.
  - intros t L' U'. rewrite dist_at. assert (P : (0 <= (t - s) * (t - s) * D)%Qc).
    { apply qcmult_nonneg; [apply qc_sq_pos|apply Qclt_le_weak; exact HD]. }
    revert P. generalize (s * D)%Qc s D (a * a + b * b)%Qc. clear. intros. qc_all. nra.
Qed.
End Distance.

Lemma qc_pos_ne (a : Qc) : (0 <= a)%Qc -> a <> 0%Qc -> (0 < a)%Qc.
Proof. intros H N. destruct (Qcle_lt_or_eq _ _ H); auto. congruence. Qed.
Lemma root_mul eps r m : (0 <= eps)%Qc -> (0 <= m)%Qc -> (r <= (1 + eps) * m)%Qc -> (eps <= 1)%Qc -> ((1 - eps) * r <= m)%Qc.
Proof.
  intros E M R L. apply Qcle_trans with ((1 - eps) * ((1 + eps) * m))%Qc; [apply qcmult_le_l; auto; qc_lra|].
  assert (P : (0 <= eps * eps * m)%Qc) by (apply qcmult_nonneg; auto; apply qc_sq_pos).
  qc_all. nra.
Qed.

Lemma shortest_ok root eps a b p : (0 <= eps)%Qc -> (eps < 1)%Qc -> root_within eps root -> a <> b ->
  exists r m, shortest_distance root a b p = Ok r /\ least_dist2 a b p m /\ (0 <= r)%Qc /\
    ((1 - eps) * m <= r * r)%Qc /\ ((1 - eps) * (r * r) <= m)%Qc.
Proof.
  intros E0 E1 Hr Hab. destruct a as [x1 y1], b as [x2 y2], p as [x0 y0].
  set (u := (x2 - x1)%Qc). set (v := (y2 - y1)%Qc). set (D := (u * u + v * v)%Qc).
  assert (ND : D <> 0%Qc).
  { intros E. apply qc_sum_sq in E as [Eu Ev]. apply Hab. unfold u, v in *. f_equal; [replace x1 with (x2 - (x2 - x1))%Qc by ring; rewrite Eu|replace y1 with (y2 - (y2 - y1))%Qc by ring; rewrite Ev]; ring. }
  assert (HD : (0 < D)%Qc).
  { apply qc_pos_ne; auto. apply qc_sq2_pos. }
  unfold shortest_distance. unfold sqr. fold u v. change (u * u + v * v)%Qc with D.
  destruct (qc_eqb D 0%Qc) eqn:Q; [apply qc_eqb_eq in Q; contradiction|].
  set (s := (((x0 - x1) * u + (y0 - y1) * v) / D)%Qc).
  assert (S2 : (((x0 - x2) * (x1 - x2) + (y0 - y2) * (y1 - y2)) / ((x1 - x2) * (x1 - x2) + (y1 - y2) * (y1 - y2)) = 1 - s)%Qc).
  { replace ((x1 - x2) * (x1 - x2) + (y1 - y2) * (y1 - y2))%Qc with D by (unfold D, u, v; ring).
    unfold s. field_simplify_eq; auto. unfold D, u, v. ring. }
  rewrite S2. clear S2.
  destruct (qc_ltb s 0%Qc) eqn:S1.
  - apply qc_ltb_lt in S1. pose proof (least_start x1 y1 x2 y2 x0 y0 HD S1) as Lm.
    set (m := ((x0 - x1) * (x0 - x1) + (y0 - y1) * (y0 - y1))%Qc) in *.
    assert (M0 : (0 <= m)%Qc). { apply qc_sq2_pos. }
    destruct (Hr m M0) as (R0 & R1 & R2). exists (root m), m. split; auto. split; auto. split; auto. split; auto. apply root_mul; auto. apply Qclt_le_weak; auto.
  - apply qc_ltb_ge in S1. destruct (qc_ltb (1 - s)%Qc 0%Qc) eqn:S2.
    + apply qc_ltb_lt in S2. assert (S3 : (1 < s)%Qc) by (clear - S2; clearbody s; qc_lra). pose proof (least_end x1 y1 x2 y2 x0 y0 HD S3) as Lm.
      set (m := ((x0 - x2) * (x0 - x2) + (y0 - y2) * (y0 - y2))%Qc) in *.
      assert (M0 : (0 <= m)%Qc). { apply qc_sq2_pos. }
      destruct (Hr m M0) as (R0 & R1 & R2). exists (root m), m. split; auto. split; auto. split; auto. split; auto. apply root_mul; auto. apply Qclt_le_weak; auto.
    + apply qc_ltb_ge in S2. assert (S3 : (s <= 1)%Qc) by (clear - S2; clearbody s; qc_lra). pose proof (least_inner x1 y1 x2 y2 x0 y0 HD S1 S3) as Lm.
      fold u v in Lm. change (u * u + v * v)%Qc with D in Lm.
      replace (v * x0 - u * y0 + x2 * y1 - y2 * x1)%Qc with (v * (x0 - x1) - u * (y0 - y1))%Qc by (unfold u, v; ring).
      set (n := (v * (x0 - x1) - u * (y0 - y1))%Qc) in *. replace (v * v + u * u)%Qc with D by (unfold D; ring).
      assert (A0 : (0 <= qabs n)%Qc). { unfold qabs. destruct (qc_ltb n 0%Qc) eqn:N; [apply qc_ltb_lt in N|apply qc_ltb_ge in N]; clear - N; clearbody n; qc_lra. }
      assert (A2 : (qabs n * qabs n = n * n)%Qc). { unfold qabs. destruct (qc_ltb n 0%Qc); ring. }
      destruct (Hr D) as (R0 & R1 & R2); [apply Qclt_le_weak; auto|]. set (q := root D) in *.
      assert (Q2 : (0 < q * q)%Qc). { apply Qclt_le_trans with ((1 - eps) * D)%Qc; auto. apply qc_mult_pos; auto. clear - E1. qc_lra. }
      assert (Nq : q <> 0%Qc). { intros E. rewrite E in Q2. replace (0 * 0)%Qc with 0%Qc in Q2 by ring. apply (Qclt_not_eq _ _ Q2). auto. }
      exists (qabs n / q)%Qc, (n * n / D)%Qc. split; auto. split; auto.
      assert (P : (0 < q)%Qc) by (apply qc_pos_ne; auto).
      split; [apply qc_pos_cancel with q; auto; replace (qabs n / q * q)%Qc with (qabs n) by (field; auto); replace (0 * q)%Qc with 0%Qc by ring; auto|].
      assert (RR : (qabs n / q * (qabs n / q) = n * n / (q * q))%Qc) by (rewrite <- A2; field; auto).
      rewrite RR. pose proof (qc_sq_pos n) as N0. assert (QD : (0 < q * q * D)%Qc) by (apply qc_mult_pos; auto).
      split; apply qc_pos_cancel with (q * q * D)%Qc; auto.
      * replace ((1 - eps) * (n * n / D) * (q * q * D))%Qc with ((1 - eps) * (q * q) * (n * n))%Qc by (field; auto).
        replace (n * n / (q * q) * (q * q * D))%Qc with (D * (n * n))%Qc by (field; auto). apply qc_le_mul; auto. apply root_mul; auto; apply Qclt_le_weak; auto.
      * replace ((1 - eps) * (n * n / (q * q)) * (q * q * D))%Qc with ((1 - eps) * D * (n * n))%Qc by (field; auto).
        replace (n * n / D * (q * q * D))%Qc with (q * q * (n * n))%Qc by (field; auto). apply qc_le_mul; auto.
Qed.

Lemma shortest_same root a p : shortest_distance root a a p = Err ZeroDivisionError.
Proof.
  destruct a as [x1 y1], p as [x0 y0]. unfold shortest_distance, sqr. replace ((x1 - x1) * (x1 - x1) + (y1 - y1) * (y1 - y1))%Qc with 0%Qc by ring. reflexivity.
Qed.
