(** C112: confidence intervals of estimates. *)
From Coq Require Import Reals Lra.
From Verif Require Import Interval.
Open Scope R_scope.

Lemma root_pos : 0 < sqrt (2 * PI).
Proof. apply sqrt_lt_R0. pose proof PI_RGT_0. lra. Qed.
Lemma pdf_pos x : 0 < norm_pdf x.
Proof. unfold norm_pdf. apply Rmult_lt_0_compat; [apply exp_pos|apply Rinv_0_lt_compat, root_pos]. Qed.
Lemma pdf_falls x y : 0 <= x -> x < y -> norm_pdf y < norm_pdf x.
Proof.
  intros H L. unfold norm_pdf. apply Rmult_lt_compat_r; [apply Rinv_0_lt_compat, root_pos|]. apply exp_increasing.
  assert (x ^ 2 < y ^ 2); [|lra]. replace (y ^ 2) with (x ^ 2 + (y - x) * (y + x)) by ring. assert (0 < (y - x) * (y + x)) by (apply Rmult_lt_0_compat; lra). lra.
Qed.
Lemma pdf_small x : norm_pdf x < 41 / 100.
Proof.
  unfold norm_pdf. pose proof root_pos as P.
  assert (S : 100 / 41 < sqrt (2 * PI)).
  { replace (100 / 41) with (sqrt ((100 / 41) * (100 / 41))) by (apply sqrt_square; lra). apply sqrt_lt_1; [lra|pose proof PI_RGT_0; lra|]. pose proof PI2_3_2. lra. }
  assert (E : exp (- (x ^ 2) / 2) <= 1).
  { rewrite <- exp_0. pose proof (pow2_ge_0 x). destruct (Req_dec (x ^ 2) 0) as [Z|Z]; [right; f_equal; lra|left; apply exp_increasing; lra]. }
  apply Rle_lt_trans with (1 / sqrt (2 * PI)).
  - apply Rmult_le_compat_r; [left; apply Rinv_0_lt_compat; auto|auto].
  - replace (41 / 100) with (1 / (100 / 41)) by field. unfold Rdiv. rewrite !Rmult_1_l. apply Rinv_lt_contravar; [apply Rmult_lt_0_compat; lra|lra].
Qed.

(** The interval of maximum likelihood is symmetric about the estimate; to each side it is less
    than 0.41 standard deviations, whatever the confidence. *)
Theorem C112_mle prob_C u prob_Cs var conf : 0 <= u -> 0 < var ->
  let '(low, up) := mle_cint prob_C u prob_Cs var conf in
  let prob := mle_prob prob_C u prob_Cs in
  exists h, low = prob - h /\ up = prob + h /\ 0 <= h /\ h <= 41 / 100 * (u * sqrt var) /\ (0 < u -> 0 < h < 41 / 100 * (u * sqrt var)).
Proof.
  intros Hu Hv. unfold mle_cint, mle_prob. exists (u * (z_of conf * sqrt var)). pose proof (sqrt_lt_R0 var Hv) as S. pose proof (pdf_pos (1 - (1 - conf) * (1 / 2))) as P. pose proof (pdf_small (1 - (1 - conf) * (1 / 2))) as Q. fold (z_of conf) in P, Q.
  split; [ring|]. split; [ring|]. assert (A : 0 < z_of conf * sqrt var) by (apply Rmult_lt_0_compat; auto).
  assert (B : z_of conf * sqrt var < 41 / 100 * sqrt var) by (apply Rmult_lt_compat_r; auto).
  split; [apply Rmult_le_pos; lra|]. split.
  - replace (41 / 100 * (u * sqrt var)) with (u * (41 / 100 * sqrt var)) by ring. apply Rmult_le_compat_l; lra.
  - intros U. split; [apply Rmult_lt_0_compat; auto|]. replace (41 / 100 * (u * sqrt var)) with (u * (41 / 100 * sqrt var)) by ring. apply Rmult_lt_compat_l; auto.
Qed.
(** More confidence gives a narrower interval. *)
Theorem C112_mle_narrower prob_C u prob_Cs var c c' : 0 < u -> 0 < var -> 0 <= c -> c < c' ->
  fst (mle_cint prob_C u prob_Cs var c) < fst (mle_cint prob_C u prob_Cs var c') /\
  snd (mle_cint prob_C u prob_Cs var c') < snd (mle_cint prob_C u prob_Cs var c).
Proof.
  intros Hu Hv Hc L. unfold mle_cint. cbn [fst snd]. pose proof (sqrt_lt_R0 var Hv) as S.
  assert (Z : z_of c' < z_of c) by (apply pdf_falls; lra). assert (B : z_of c' * sqrt var < z_of c * sqrt var) by (apply Rmult_lt_compat_r; auto).
  split; apply Rplus_lt_compat_l; apply Rmult_lt_compat_l; lra.
Qed.
(** So an interval of more confidence does not contain one of less. *)
Theorem C112_mle_nested_refuted : ~ (forall prob_C u prob_Cs var c c', 0 <= u <= 1 -> 0 < var -> 0 < c -> c < c' -> c' < 1 ->
  fst (mle_cint prob_C u prob_Cs var c') <= fst (mle_cint prob_C u prob_Cs var c)).
Proof.
  intros H. specialize (H 0 1 (1 / 2) (1 / 100) (9 / 10) (95 / 100) ltac:(lra) ltac:(lra) ltac:(lra) ltac:(lra) ltac:(lra)).
  destruct (C112_mle_narrower 0 1 (1 / 2) (1 / 100) (9 / 10) (95 / 100)) as [A _]; lra.
Qed.

(** The interval from the beta distribution is within what the known part leaves open, and one of
    more confidence contains one of less. *)
Theorem C112_bayes ppf base u a b c c' :
  (forall q q', 0 <= q -> q <= q' -> q' <= 1 -> ppf q a b <= ppf q' a b) -> (forall q, 0 <= q <= 1 -> 0 <= ppf q a b <= 1) ->
  0 <= u -> 0 <= c -> c <= c' -> c' <= 1 ->
  let i := bayes_cint ppf base u a b c in let i' := bayes_cint ppf base u a b c' in
  base <= fst i' /\ fst i' <= fst i /\ fst i <= snd i /\ snd i <= snd i' /\ snd i' <= base + u.
Proof.
  intros Mo Bo Hu Hc L Hc'. cbn [bayes_cint fst snd]. unfold bayes_cint. cbn [fst snd].
  assert (K : forall x y, x <= y -> base + u * x <= base + u * y) by (intros x y H; apply Rplus_le_compat_l, Rmult_le_compat_l; auto).
  split; [|split; [|split; [|split]]].
  - pose proof (Bo (1 / 2 * (1 - c')) ltac:(lra)) as [X _]. apply (K 0) in X. lra.
  - apply K, Mo; lra.
  - apply K, Mo; lra.
  - apply K, Mo; lra.
  - pose proof (Bo (1 - 1 / 2 * (1 - c')) ltac:(lra)) as [_ X]. apply K in X. lra.
Qed.
(** The probabilities asked for are equally far from 0 and 1 and leave [1 - conf_p] outside. *)
Theorem C112_tails base u a b c : 0 < u ->
  let i := bayes_cint (fun q _ _ => q) base u a b c in (snd i - fst i) / u = c /\ fst i - base = base + u - snd i.
Proof. intros H. unfold bayes_cint. cbn [fst snd]. split; [field; lra|ring]. Qed.

Example C112_ex :
  0 < 1 / 5 /\ 0 < 1 / 100 /\
  (forall q q', 0 <= q -> q <= q' -> q' <= 1 -> q ^ 2 <= q' ^ 2) /\ (forall q, 0 <= q <= 1 -> 0 <= q ^ 2 <= 1) /\
  bayes_cint (fun q _ _ => q ^ 2) (1 / 10) (1 / 5) 3 4 (4 / 5) = (102 / 1000, 262 / 1000).
Proof.
  split; [lra|]. split; [lra|]. split; [intros; apply pow_incr; lra|]. split; [intros q Hq; split; [apply pow_le; lra|]; replace 1 with (1 ^ 2) by ring; apply pow_incr; lra|].
  unfold bayes_cint. f_equal; field.
Qed.
Print Assumptions C112_mle.
Print Assumptions C112_mle_narrower.
Print Assumptions C112_mle_nested_refuted.
Print Assumptions C112_bayes.
