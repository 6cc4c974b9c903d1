(** C110: attenuation with distance and magnitude in demos/pf_map, over the reals. *)
From Coq Require Import List String Reals Lra Lia.
From Verif Require Import Py Gmpe.
Import ListNotations.
Open Scope R_scope.

Lemma fall f f' a b : a < b -> (forall x, a <= x <= b -> derivable_pt_lim f x (f' x)) -> (forall x, a <= x <= b -> f' x < 0) -> f b < f a.
Proof.
  intros L D N. destruct (MVT_cor2 f f' a b L D) as (x & E & Hx). specialize (N x). assert (f' x * (b - a) < 0); [|lra].
  replace (f' x * (b - a)) with (- (- f' x * (b - a))) by ring. assert (0 < - f' x * (b - a)); [|lra]. apply Rmult_lt_0_compat; [|lra]. assert (f' x < 0) by (apply N; lra). lra.
Qed.
(** the part that depends on the distance; [a] is the factor of the logarithm *)
Definition part (C k a r : R) : R := c4 / 2 * ln (r ^ 2 + C) + k * r + a * ln r.
Definition part0 (C k r : R) : R := c4 / 2 * ln (r ^ 2 + C) + k * r.
Lemma deriv_in C r : derivable_pt_lim (fun r => r ^ 2 + C) r (2 * r).
Proof.
  replace (2 * r) with (INR 2 * r ^ Nat.pred 2 + 0) by (cbn; ring). apply derivable_pt_lim_plus; [apply derivable_pt_lim_pow|apply derivable_pt_lim_const].
Qed.
Lemma deriv_part0 C k r : 0 < C -> derivable_pt_lim (part0 C k) r (c4 / 2 * (/ (r ^ 2 + C) * (2 * r)) + k).
Proof.
  intros HC. replace (c4 / 2 * (/ (r ^ 2 + C) * (2 * r)) + k) with (c4 / 2 * (/ (r ^ 2 + C) * (2 * r)) + k * 1) by ring.
  apply (derivable_pt_lim_plus (fun r => c4 / 2 * ln (r ^ 2 + C)) (fun r => k * r)).
  - apply (derivable_pt_lim_scal (fun r => ln (r ^ 2 + C))). apply (derivable_pt_lim_comp (fun r => r ^ 2 + C) ln); [apply deriv_in|]. apply derivable_pt_lim_ln. pose proof (pow2_ge_0 r). lra.
  - apply (derivable_pt_lim_scal (fun r => r)). apply derivable_pt_lim_id.
Qed.
Lemma deriv_part C k a r : 0 < C -> 0 < r -> derivable_pt_lim (part C k a) r (c4 / 2 * (/ (r ^ 2 + C) * (2 * r)) + k + a * / r).
Proof.
  intros HC Hr. apply (derivable_pt_lim_plus (part0 C k) (fun r => a * ln r)); [apply deriv_part0; auto|]. apply (derivable_pt_lim_scal ln). apply derivable_pt_lim_ln. auto.
Qed.
Lemma fall0 C k a b : 0 < C -> k < 0 -> 0 <= a -> a < b -> part0 C k b < part0 C k a.
Proof.
  intros HC Hk Ha L. apply (fall _ (fun r => c4 / 2 * (/ (r ^ 2 + C) * (2 * r)) + k)); [auto|intros; apply deriv_part0; auto|].
  intros x Hx. assert (P : 0 < r1) by (unfold r1; lra). pose proof (pow2_ge_0 x). assert (0 < / (x ^ 2 + C)) by (apply Rinv_0_lt_compat; lra).
  assert (0 <= / (x ^ 2 + C) * (2 * x)) by (apply Rmult_le_pos; lra). unfold c4. lra.
Qed.
Lemma fall1 C k q a b : 0 < C -> k < 0 -> C <= 2000 -> q <= c7 + c8 -> 70 <= a -> a < b -> part C k q b < part C k q a.
Proof.
  intros HC Hk HC2 Hq Ha L. apply (fall _ (fun r => c4 / 2 * (/ (r ^ 2 + C) * (2 * r)) + k + q * / r)); [auto|intros; apply deriv_part; auto; lra|].
  intros x Hx. assert (Hx2 : 4900 <= x ^ 2) by (replace 4900 with (70 ^ 2) by ring; apply pow_incr; lra).
  assert (E : c4 / 2 * (/ (x ^ 2 + C) * (2 * x)) + q * / x = (c4 * x ^ 2 + q * (x ^ 2 + C)) * (/ (x ^ 2 + C) * / x)).
  { field. split; lra. }
  assert (N : c4 * x ^ 2 + q * (x ^ 2 + C) <= 0).
  { assert (q * (x ^ 2 + C) <= (c7 + c8) * (x ^ 2 + C)) by (apply Rmult_le_compat_r; lra). unfold c4, c7, c8 in *. lra. }
  assert (P : 0 < / (x ^ 2 + C) * / x) by (apply Rmult_lt_0_compat; apply Rinv_0_lt_compat; lra).
  assert (0 <= - (c4 * x ^ 2 + q * (x ^ 2 + C)) * (/ (x ^ 2 + C) * / x)) by (apply Rmult_le_pos; lra). lra.
Qed.

Lemma ln_sqrt x : 0 < x -> ln (sqrt x) = / 2 * ln x.
Proof. intros H. rewrite <- (sqrt_sqrt x) at 2 by lra. rewrite ln_mult by (apply sqrt_lt_R0; auto). lra. Qed.
Lemma exp_bound Mw : Mw <= 85 / 10 -> exp (c8 * Mw) <= 112.
Proof.
  intros H. assert (L : c8 * Mw <= 1 + 1 + 1 + 1 + 2756 / 10000) by (unfold c8; lra).
  apply Rle_trans with (exp (1 + 1 + 1 + 1 + 2756 / 10000)).
  - destruct L as [L|L]; [left; apply exp_increasing; auto|right; f_equal; auto].
  - rewrite !exp_plus. pose proof exp_le_3 as E. assert (P : 0 < exp 1) by apply exp_pos.
    assert (S1 : exp 1 * exp 1 <= 9) by (replace 9 with (3 * 3) by ring; apply Rmult_le_compat; lra).
    assert (S2 : exp 1 * exp 1 * exp 1 <= 27) by (replace 27 with (9 * 3) by ring; apply Rmult_le_compat; try lra; apply Rmult_le_pos; lra).
    assert (S3 : exp 1 * exp 1 * exp 1 * exp 1 <= 81) by (replace 81 with (27 * 3) by ring; apply Rmult_le_compat; try lra; repeat apply Rmult_le_pos; lra).
    assert (T : exp (2756 / 10000) <= 112 / 81).
    { pose proof (exp_ineq1_le (- (2756 / 10000))) as X. rewrite exp_Ropp in X. assert (Q : 0 < exp (2756 / 10000)) by apply exp_pos.
      assert (Y : (1 + - (2756 / 10000)) * exp (2756 / 10000) <= / exp (2756 / 10000) * exp (2756 / 10000)) by (apply Rmult_le_compat_r; lra).
      rewrite Rinv_l in Y by lra. lra. }
    replace 112 with (81 * (112 / 81)) by field. apply Rmult_le_compat; try lra; [repeat apply Rmult_le_pos; lra|left; apply exp_pos].
Qed.
Lemma near_term Mw : Mw <= 85 / 10 -> 0 < (c7 * exp (c8 * Mw)) ^ 2 <= 2000.
Proof.
  intros H. pose proof (exp_bound Mw H). pose proof (exp_pos (c8 * Mw)). assert (0 < c7 * exp (c8 * Mw)) by (apply Rmult_lt_0_compat; unfold c7; lra). split; [apply pow_lt; auto|].
  assert (c7 * exp (c8 * Mw) <= 34) by (unfold c7; lra). apply Rle_trans with (34 ^ 2); [apply pow_incr; lra|lra].
Qed.
Lemma slope Mw : Mw <= 85 / 10 -> c5 + c6 * Mw < 0.
Proof. unfold c5, c6. lra. Qed.

(** * Values *)
(** At the epicentre and at 130 and 260 km, with all constants as decimals. *)
Theorem C110_values Mw :
  let near := (299 / 1000 * exp (503 / 1000 * Mw)) ^ 2 in
  let size := - (6104 / 10000) + 451 / 1000 * Mw - 209 / 1000 * (85 / 10 - Mw) ^ 2 in
  ln_Sa Mw 0 = size - 1158 / 1000 * (ln (299 / 1000) + 503 / 1000 * Mw) /\
  ln_Sa Mw 130 = size - 579 / 1000 * ln (16900 + near) + (141 / 1000000 * Mw - 255 / 100000) * 130 + 299 / 1000 * ln (13 / 7) /\
  ln_Sa Mw 260 = size - 579 / 1000 * ln (67600 + near) + (141 / 1000000 * Mw - 255 / 100000) * 260 + 299 / 1000 * ln (26 / 7) + 503 / 1000 * ln 2.
Proof.
  cbv zeta. unfold ln_Sa. change (299 / 1000) with c7. change (503 / 1000) with c8. assert (P : 0 < c7 * exp (c8 * Mw)) by (apply Rmult_lt_0_compat; [unfold c7; lra|apply exp_pos]).
  split; [|split].
  - destruct (Rle_dec 0 r1) as [X|X]; [|unfold r1 in X; lra]. replace (0 ^ 2 + (c7 * exp (c8 * Mw)) ^ 2) with ((c7 * exp (c8 * Mw)) * (c7 * exp (c8 * Mw))) by ring.
    rewrite sqrt_square by lra. rewrite ln_mult; [|unfold c7; lra|apply exp_pos]. rewrite ln_exp. unfold c1, c2, c3, c4. lra.
  - destruct (Rle_dec 130 r1) as [X|X]; [unfold r1 in X; lra|]. destruct (Rle_dec 130 r2) as [Y|Y]; [|unfold r2 in Y; lra].
    rewrite ln_sqrt by (pose proof (pow_lt _ 2 P); lra). replace (130 ^ 2) with 16900 by ring. replace (130 / r1) with (13 / 7) by (unfold r1; field). unfold c1, c2, c3, c4, c5, c6. lra.
  - destruct (Rle_dec 260 r1) as [X|X]; [unfold r1 in X; lra|]. destruct (Rle_dec 260 r2) as [Y|Y]; [unfold r2 in Y; lra|].
    rewrite ln_sqrt by (pose proof (pow_lt _ 2 P); lra). replace (260 ^ 2) with 67600 by ring. replace (260 / r1) with (26 / 7) by (unfold r1; field). replace (260 / r2) with 2 by (unfold r2; field). unfold c1, c2, c3, c4, c5, c6. lra.
Qed.

(** * Distance *)
(** The further a road is from the epicentre, the less it is shaken, at every magnitude that is
    accepted; the three ranges of distance join without a jump. *)
Theorem C110_distance Mw r r' : Mw <= 85 / 10 -> 0 <= r -> r < r' -> ln_Sa Mw r' < ln_Sa Mw r.
Proof.
  intros HM Hr L. destruct (near_term Mw HM) as [HC HC2]. pose proof (slope Mw HM) as Hk.
  set (C := (c7 * exp (c8 * Mw)) ^ 2) in *. set (k := c5 + c6 * Mw) in *.
  set (b := c1 + (c2 * Mw + c3 * (85 / 10 - Mw) ^ 2)).
  assert (S : forall r, 0 <= r -> ln_Sa Mw r = b + (part0 C k r + (if Rle_dec r r1 then 0 else if Rle_dec r r2 then c7 * ln (r / r1) else c7 * ln (r / r1) + c8 * ln (r / r2)))).
  { intros x Hx. unfold ln_Sa. fold C. fold k. rewrite ln_sqrt by (pose proof (pow2_ge_0 x); lra). unfold b, part0. lra. }
  assert (D : forall x y, 0 < x -> 0 < y -> ln (x / y) = ln x - ln y) by (intros x y A B; unfold Rdiv; rewrite ln_mult, ln_Rinv; auto; try lra; apply Rinv_0_lt_compat; auto).
  (* the three ranges, closed *)
  assert (A1 : forall x, 0 <= x <= r1 -> ln_Sa Mw x = b + part0 C k x).
  { intros x Hx. rewrite S by lra. destruct (Rle_dec x r1); lra. }
  assert (A2 : forall x, r1 <= x <= r2 -> ln_Sa Mw x = b - c7 * ln r1 + part C k c7 x).
  { intros x Hx. assert (0 < r1 /\ 0 < r2) as [P1 P2] by (unfold r1, r2; lra). rewrite S by lra. unfold part. fold (part0 C k x). destruct (Rle_dec x r1) as [X|X].
    - assert (x = r1) as -> by lra. unfold part0. lra.
    - destruct (Rle_dec x r2); [|lra]. rewrite D by lra. unfold part0. lra. }
  assert (A3 : forall x, r2 <= x -> ln_Sa Mw x = b - c7 * ln r1 - c8 * ln r2 + part C k (c7 + c8) x).
  { intros x Hx. assert (0 < r1 /\ 0 < r2 /\ r1 < r2) as (P1 & P2 & P3) by (unfold r1, r2; lra). rewrite S by lra. unfold part. destruct (Rle_dec x r1) as [X|X]; [lra|].
    destruct (Rle_dec x r2) as [Y|Y].
    - assert (x = r2) as -> by lra. rewrite D by lra. unfold part0. lra.
    - rewrite !D by lra. unfold part0. lra. }
  assert (M1' : forall x y, 0 <= x -> x < y -> y <= r1 -> ln_Sa Mw y < ln_Sa Mw x) by (intros x y X Y Z; rewrite !A1 by lra; pose proof (fall0 C k x y HC Hk X Y); lra).
  assert (M2' : forall x y, r1 <= x -> x < y -> y <= r2 -> ln_Sa Mw y < ln_Sa Mw x).
  { intros x y X Y Z. rewrite !A2 by lra. assert (part C k c7 y < part C k c7 x); [|lra]. apply fall1; auto; unfold r1, c7, c8 in *; lra. }
  assert (M3' : forall x y, r2 <= x -> x < y -> ln_Sa Mw y < ln_Sa Mw x).
  { intros x y X Y. rewrite !A3 by lra. assert (part C k (c7 + c8) y < part C k (c7 + c8) x); [|lra]. apply fall1; auto; unfold r2 in *; lra. }
  assert (M2 : forall x y, r1 <= x -> x < y -> ln_Sa Mw y < ln_Sa Mw x).
  { intros x y X Y. destruct (Rle_dec y r2) as [Z|Z]; [auto|]. destruct (Rle_dec r2 x) as [W|W]; [auto|].
    apply Rlt_trans with (ln_Sa Mw r2); [apply M3'; lra|apply M2'; lra]. }
  destruct (Rle_dec r' r1) as [Z|Z]; [auto|]. destruct (Rle_dec r1 r) as [W|W]; [auto|].
  apply Rlt_trans with (ln_Sa Mw r1); [apply M2; lra|apply M1'; lra].
Qed.

(** * Magnitude *)
(** Up to magnitude 8.18 a stronger earthquake shakes every road more. *)
Theorem C110_magnitude M M' r : 6 <= M -> M < M' -> M' <= 818 / 100 -> 0 <= r -> ln_Sa M r < ln_Sa M' r.
Proof.
  intros H6 L H8 Hr. unfold ln_Sa. set (f3 := if Rle_dec r r1 then _ else _). clearbody f3.
  destruct (near_term M) as [C0 _]; [lra|]. destruct (near_term M') as [C1 _]; [lra|]. pose proof (pow2_ge_0 r) as R0.
  rewrite !ln_sqrt by lra. set (C := (c7 * exp (c8 * M)) ^ 2) in *. set (C' := (c7 * exp (c8 * M')) ^ 2) in *.
  set (d := M' - M). assert (Hd : 0 < d) by (unfold d; lra). set (g := exp (2 * (c8 * d))).
  assert (G : 1 <= g). { unfold g. rewrite <- exp_0. left. apply exp_increasing. unfold c8. lra. }
  assert (E : C' = g * C).
  { unfold C', C, g, d. replace (c8 * M') with (c8 * (M' - M) + c8 * M) by ring. rewrite exp_plus. replace (2 * (c8 * (M' - M))) with (c8 * (M' - M) + c8 * (M' - M)) by ring. rewrite exp_plus. ring. }
  assert (LN : ln (r ^ 2 + C') <= 2 * (c8 * d) + ln (r ^ 2 + C)).
  { replace (2 * (c8 * d)) with (ln g) by (unfold g; apply ln_exp). rewrite <- ln_mult by lra.
    assert (I : r ^ 2 + C' <= g * (r ^ 2 + C)). { rewrite E, Rmult_plus_distr_l. assert (1 * r ^ 2 <= g * r ^ 2) by (apply Rmult_le_compat_r; lra). lra. }
    destruct I as [I|I]; [left; apply ln_increasing; lra|right; rewrite I; auto]. }
  assert (K : 0 <= c6 * d * r) by (apply Rmult_le_pos; [apply Rmult_le_pos; [unfold c6|]; lra|auto]).
  assert (Q : c2 * M' + c3 * (85 / 10 - M') ^ 2 - (c2 * M + c3 * (85 / 10 - M) ^ 2) = d * (c2 - c3 * (17 - M - M'))) by (unfold d; field).
  assert (B : d * (5847 / 10000) <= d * (c2 - c3 * (17 - M - M'))) by (apply Rmult_le_compat_l; [lra|unfold c2, c3; lra]).
  assert (F : c4 * (/ 2 * ln (r ^ 2 + C')) >= c4 * (/ 2 * ln (r ^ 2 + C)) - d * (5825 / 10000)) by (unfold c4, c8 in *; lra).
  assert (M' = M + d) as EM by (unfold d; ring). assert (U : (c5 + c6 * M') * r = (c5 + c6 * M) * r + c6 * d * r) by (rewrite EM; ring). lra.
Qed.
(** Near the largest magnitude that is accepted this is no longer so. *)
Theorem C110_magnitude_refuted : ~ (forall M M' r, 6 <= M -> M < M' -> M' <= 85 / 10 -> 0 <= r -> ln_Sa M r <= ln_Sa M' r).
Proof.
  intros H. specialize (H (84 / 10) (85 / 10) 0 ltac:(lra) ltac:(lra) ltac:(lra) ltac:(lra)). unfold ln_Sa in H.
  destruct (Rle_dec 0 r1) as [X|X]; [|unfold r1 in X; lra].
  assert (S : forall M, ln (sqrt (0 ^ 2 + (c7 * exp (c8 * M)) ^ 2)) = ln c7 + c8 * M).
  { intros M. assert (P : 0 < c7 * exp (c8 * M)) by (apply Rmult_lt_0_compat; [unfold c7; lra|apply exp_pos]). replace (0 ^ 2 + (c7 * exp (c8 * M)) ^ 2) with ((c7 * exp (c8 * M)) * (c7 * exp (c8 * M))) by ring.
    rewrite sqrt_square by lra. rewrite ln_mult; [|unfold c7; lra|apply exp_pos]. rewrite ln_exp. auto. }
  rewrite !S in H. assert (E : forall a b c, c4 * (a + b) + c * 0 = c4 * a + c4 * b) by (intros; ring). rewrite !E in H. unfold c2, c3, c4, c8 in H. lra.
Qed.

(** * The results *)
(** Accepted are exactly the magnitudes from 6 to 8.5; the roads keep their order. *)
Theorem C110_accepted spline Mw Rrup :
  match gmpe_cam03 spline Mw Rrup with
  | Ok (l, al, ep) => 6 <= Mw <= 85 / 10 /\ keys l = keys Rrup /\ keys ep = keys Rrup /\ al = std_al Mw /\
      (forall e x, In (e, x) l <-> exists r, In (e, r) Rrup /\ x = ln_Sa Mw r) /\
      (forall e x, In (e, x) ep <-> exists r, In (e, r) Rrup /\ x = std_ep spline Mw r)
  | Err e => e = AssertionError /\ (Mw < 6 \/ 85 / 10 < Mw)
  end.
Proof.
  unfold gmpe_cam03. destruct (Rle_dec 6 Mw) as [A|A]; [|split; [auto|left; lra]]. destruct (Rle_dec Mw (85 / 10)) as [B|B]; [|split; [auto|right; lra]].
  split; [auto|]. assert (K : forall f : R -> R, keys (map (fun er : string * R => (fst er, f (snd er))) Rrup) = keys Rrup) by (intros f; unfold keys; rewrite map_map; apply map_ext; auto).
  split; [apply K|]. split; [apply (K (fun r => std_ep spline Mw r))|]. split; [auto|].
  assert (I : forall (f : R -> R) e x, In (e, x) (map (fun er : string * R => (fst er, f (snd er))) Rrup) <-> exists r, In (e, r) Rrup /\ x = f r).
  { intros f e x. rewrite in_map_iff. split; [intros ([e' r] & E & H); cbn in E; injection E as <- <-; eauto|intros (r & H & ->); exists (e, r); auto]. }
  split; [apply I|apply (I (fun r => std_ep spline Mw r))].
Qed.
(** The aleatory deviation takes two values and falls by almost a half at magnitude 7.16. *)
Theorem C110_aleatory Mw : (Mw < 716 / 100 -> std_al Mw = 10307 / 10000) /\ (716 / 100 <= Mw -> std_al Mw = 543 / 1000).
Proof. unfold std_al, M1. destruct (Rlt_dec Mw _); unfold c11, c12, c13; split; intros; lra. Qed.
(** The epistemic deviation is the same for all roads within 1 km, and for all beyond 70 km. *)
Theorem C110_epistemic spline Mw r r' : (r <= 1 /\ r' <= 1 \/ 70 <= r /\ 70 <= r') -> std_ep spline Mw r = std_ep spline Mw r'.
Proof.
  unfold std_ep, clip. intros [[A B]|[A B]].
  - rewrite !(Rmax_right _ 1) by auto. auto.
  - rewrite !(Rmax_left _ 1) by lra. rewrite !(Rmin_right _ 70) by auto. auto.
Qed.
(** Between these distances it is the interpolated value, for magnitudes from 8.2 on that of 8.2. *)
Theorem C110_interpolated spline Mw r : 1 <= r <= 70 ->
  (5 <= Mw <= 82 / 10 -> std_ep spline Mw r = spline Mw r) /\ (82 / 10 <= Mw -> std_ep spline Mw r = spline (82 / 10) r).
Proof.
  intros H. unfold std_ep, clip. rewrite (Rmax_left r), (Rmin_left r) by lra. split; intros; (rewrite Rmax_left by lra); [rewrite Rmin_left by lra|rewrite Rmin_right by lra]; auto.
Qed.
(** Of two roads of the same type, both beyond 70 km, the one further away fails with smaller
    probability, if the distribution function falls with its mean. *)
Theorem C110_failure spline norm_cdf Mw r r' med disp :
  (forall x m m' s, 0 < s -> m < m' -> norm_cdf x m' s < norm_cdf x m s) ->
  Mw <= 85 / 10 -> 70 <= r -> r < r' ->
  road_pf spline norm_cdf Mw r' med disp < road_pf spline norm_cdf Mw r med disp.
Proof.
  intros N HM Hr L. unfold road_pf. rewrite (C110_epistemic spline Mw r' r) by (right; lra). apply N.
  - apply sqrt_lt_R0. assert (0 < std_al Mw) by (unfold std_al, c11, c12, c13; destruct (Rlt_dec Mw M1); lra). pose proof (pow_lt (std_al Mw) 2 H). pose proof (pow2_ge_0 (std_ep spline Mw r)). pose proof (pow2_ge_0 disp). lra.
  - unfold road_mean. pose proof (C110_distance Mw r r' HM ltac:(lra) L). lra.
Qed.

(** two roads at 75 and 140 km, magnitude 7 *)
Example C110_ex : exists l ep, gmpe_cam03 (fun m r => m + r) 7 [("a", 75); ("b", 140)]%string = Ok (l, 10307 / 10000, ep) /\
  dfind ep "a" = Some 77 /\ dfind ep "b" = Some 77 /\
  (exists x y, dfind l "a" = Some x /\ dfind l "b" = Some y /\ y < x) /\
  (forall x m m' s : R, 0 < s -> m < m' -> (x - m') / s < (x - m) / s) /\
  road_pf (fun m r => m + r) (fun x m s => (x - m) / s) 7 140 2 1 < road_pf (fun m r => m + r) (fun x m s => (x - m) / s) 7 75 2 1.
Proof.
  assert (T : std_al 7 = 10307 / 10000) by (apply C110_aleatory; lra).
  assert (N : forall x m m' s : R, 0 < s -> m < m' -> (x - m') / s < (x - m) / s) by (intros; apply Rmult_lt_compat_r; [apply Rinv_0_lt_compat|]; lra).
  unfold gmpe_cam03. destruct (Rle_dec 6 7); [|lra]. destruct (Rle_dec 7 (85 / 10)); [|lra]. rewrite T. do 2 eexists. split; [reflexivity|].
  assert (P : forall r, 70 <= r -> std_ep (fun m r => m + r) 7 r = 77).
  { intros x Hx. unfold std_ep, clip. rewrite (Rmax_left 7), (Rmin_left 7), (Rmax_left x), (Rmin_right x) by lra. lra. }
  cbn. split; [f_equal; apply P; lra|]. split; [f_equal; apply P; lra|]. split; [do 2 eexists; split; [reflexivity|]; split; [reflexivity|]; apply C110_distance; lra|].
  split; [exact N|]. apply C110_failure; auto; lra.
Qed.
Print Assumptions C110_values.
Print Assumptions C110_distance.
Print Assumptions C110_magnitude.
Print Assumptions C110_magnitude_refuted.
Print Assumptions C110_accepted.
Print Assumptions C110_failure.
