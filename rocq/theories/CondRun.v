(** [get_rat_dist] and [get_prob_and_cov_cond]. *)
From Coq Require Import ZArith List String Bool Arith Lia QArith Qcanon Qround Permutation Sorted Field.
From Verif Require Import Py PyFacts Num Vari VariFacts Cpm SpecCpm CpmFacts CpmCond CpmMarg CpmProb Hybrid SpecHyb HybFacts HybEst NetSys McsFacts CondEst SpecCond CondFacts.
Import ListNotations.
Open Scope string_scope.
Open Scope Z_scope.
Open Scope list_scope.

Lemma two_half p : ((1 - p) / (1 + 1) = (1 - p) / Q2Qc 2)%Qc.
Proof. replace (Q2Qc 2) with (1 + 1)%Qc by (apply Qc_is_canon; reflexivity). reflexivity. Qed.
Lemma two_half' p : (1 - (1 - p) / (1 + 1) = (1 + p) / Q2Qc 2)%Qc.
Proof. replace (Q2Qc 2) with (1 + 1)%Qc by (apply Qc_is_canon; reflexivity). field. discriminate. Qed.
Lemma half_range p : (0 < p)%Qc -> (p < 1)%Qc -> (0 <= (1 - p) / Q2Qc 2)%Qc /\ ((1 - p) / Q2Qc 2 <= 1)%Qc /\ (0 <= (1 + p) / Q2Qc 2)%Qc /\ ((1 + p) / Q2Qc 2 <= 1)%Qc /\
  ((1 - p) / Q2Qc 2 <= (1 + p) / Q2Qc 2)%Qc /\ ((1 + p) / Q2Qc 2 - (1 - p) / Q2Qc 2 = p)%Qc.
Proof.
  intros P0 P1. replace (Q2Qc 2) with (1 + 1)%Qc by (apply Qc_is_canon; reflexivity). assert (T : (0 < 1 + 1)%Qc) by reflexivity.
  assert (E : ((1 + p) / (1 + 1) - (1 - p) / (1 + 1) = p)%Qc) by (field; discriminate).
  assert (A : (0 <= (1 - p) / (1 + 1))%Qc) by (apply qc_le_div; auto; replace (0 * (1 + 1))%Qc with 0%Qc by ring; qc_lra). assert (B : ((1 + p) / (1 + 1) <= 1)%Qc) by (apply qc_div_le; auto; replace (1 * (1 + 1))%Qc with (1 + 1)%Qc by ring; qc_lra).
  revert E A B. generalize ((1 - p) / (1 + 1))%Qc ((1 + p) / (1 + 1))%Qc. intros x y E A B. assert (y = x + p)%Qc by (rewrite <- E; ring). subst y. repeat split; auto; qc_lra.
Qed.

Section Ratio.
Variables (n : nat) (d1 d2 : Qc -> Qc -> list Qc) (k1 k2 u a1 a2 b1 b2 p : Qc).
Hypotheses (D1 : beta_draws n d1) (D2 : beta_draws n d2) (N2 : (1 < n)%nat) (K1 : (0 <= k1)%Qc) (K2 : (0 <= k2)%Qc) (U : (0 <= u)%Qc)
  (KU : (0 < u)%Qc \/ (0 < k1 + k2)%Qc) (A1 : (0 < a1)%Qc) (A2 : (0 < a2)%Qc) (B1 : (0 < b1)%Qc) (B2 : (0 < b2)%Qc) (P0 : (0 < p)%Qc) (P1 : (p < 1)%Qc).
Let R := rats k1 k2 u (d1 a1 b1) (d2 a2 b2).

Lemma rat_parts x : In x (combine (d1 a1 b1) (d2 a2 b2)) -> (0 <= k1 + u * fst x)%Qc /\ (0 <= k2 + u * snd x)%Qc /\ (0 < (k1 + u * fst x) + (k2 + u * snd x))%Qc.
Proof.
  destruct x as [x y]. intros H. destruct (proj2 (D1 a1 b1 A1 B1) x (in_combine_l _ _ _ _ H)) as [X0 _]. destruct (proj2 (D2 a2 b2 A2 B2) y (in_combine_r _ _ _ _ H)) as [Y0 _]. cbn [fst snd].
  assert (Q1 : (0 <= u * x)%Qc) by (apply qcmult_nonneg; auto; qc_lra). assert (Q2 : (0 <= u * y)%Qc) by (apply qcmult_nonneg; auto; qc_lra).
  repeat split.
  - revert Q1. generalize (u * x)%Qc. intros. qc_lra.
  - revert Q2. generalize (u * y)%Qc. intros. qc_lra.
  - destruct KU as [H0|H0].
    + assert (Q3 : (0 < u * x)%Qc) by (apply qc_mul_pos; auto). revert Q2 Q3. generalize (u * x)%Qc (u * y)%Qc. intros. qc_lra.
    + revert Q1 Q2. generalize (u * x)%Qc (u * y)%Qc. intros. qc_lra.
Qed.
Lemma rats_length : List.length R = n.
Proof. unfold R, rats. rewrite map_length, combine_length, (proj1 (D1 a1 b1 A1 B1)), (proj1 (D2 a2 b2 A2 B2)). lia. Qed.
Lemma rats_range x : In x R -> (0 <= x)%Qc /\ (x <= 1)%Qc.
Proof.
  intros H. apply in_map_iff in H as (y & <- & H). destruct (rat_parts y H) as (H1 & H2 & H3). split; [apply qc_le_div|apply qc_div_le]; auto.
  rewrite Qcmult_1_l. revert H1 H2. generalize (k1 + u * fst y)%Qc (k2 + u * snd y)%Qc. intros. qc_lra.
Qed.
Lemma rat_dist_ok : exists mean var lo hi, get_rat_dist d1 d2 k1 k2 u a1 a2 b1 b2 p = Ok (mean, var, (lo, hi)) /\ summary p R mean var lo hi.
Proof.
  unfold get_rat_dist.
  assert (G1 : forallb (qc_leb 0%Qc) [k1; k2; a1; a2; b1; b2] = true).
  { cbn [forallb]. rewrite !(proj2 (qc_leb_le _ _)); auto using Qclt_le_weak. }
  assert (G2 : qc_ltb 0%Qc p && qc_ltb p 1%Qc = true) by (rewrite !(proj2 (qc_ltb_lt _ _)); auto).
  assert (G3 : forallb (qc_ltb 0%Qc) [a1; b1; a2; b2] = true) by (cbn [forallb]; rewrite !(proj2 (qc_ltb_lt _ _)); auto).
  rewrite G1, G2, G3. cbn [negb].
  rewrite (mapM_ok _ (fun x => ((k1 + u * fst x) / ((k1 + u * fst x) + (k2 + u * snd x)))%Qc)).
  2:{ intros x Hx. destruct (rat_parts x Hx) as (_ & _ & H3). cbv zeta.
      replace (u * (fst x + snd x) + k1 + k2)%Qc with (k1 + u * fst x + (k2 + u * snd x))%Qc by ring.
      destruct (qc_eqb _ 0%Qc) eqn:E; [apply qc_eqb_eq in E; apply qc_pos_neq in H3; congruence|]. do 2 f_equal. ring. }
  cbn [bind]. cbv zeta. fold (rats k1 k2 u (d1 a1 b1) (d2 a2 b2)). fold R. rewrite two_half, <- two_half, two_half', two_half.
  do 4 eexists. split; [reflexivity|]. unfold summary. cbv zeta. destruct (half_range p P0 P1) as (H1 & H2 & H3 & H4 & _).
  assert (RN : R <> []) by (intros X; pose proof rats_length as L; rewrite X in L; cbn in L; lia).
  rewrite rats_length. assert (N1 : (1 < qz (Z.of_nat n))%Qc) by (rewrite <- qz_1; unfold Qclt; rewrite !qz_this, <- Zlt_Qlt; lia).
  split; [field; apply qc_pos_neq; qc_lra|]. split; [field; repeat split; apply qc_pos_neq; qc_lra|]. split; apply percentile_ok; auto.
Qed.
End Ratio.

Lemma summary_range p l mean var lo hi : (0 < p)%Qc -> (p < 1)%Qc -> (1 < List.length l)%nat -> (forall x, In x l -> (0 <= x)%Qc /\ (x <= 1)%Qc) -> summary p l mean var lo hi ->
  (0 <= mean)%Qc /\ (mean <= 1)%Qc /\ (0 <= var)%Qc /\ (0 <= lo)%Qc /\ (lo <= hi)%Qc /\ (hi <= 1)%Qc /\
  ((qz (Z.of_nat (List.length l)) - 1) * p - 1 <= qz (Z.of_nat (inside lo hi l)))%Qc.
Proof.
  intros P0 P1 N2 HR (S1 & S2 & S3 & S4). destruct (half_range p P0 P1) as (H1 & H2 & H3 & H4 & H5 & H6).
  assert (N1 : (1 < qz (Z.of_nat (List.length l)))%Qc) by (rewrite <- qz_1; unfold Qclt; rewrite !qz_this, <- Zlt_Qlt; lia).
  assert (Q0 : (0 <= qsum l)%Qc) by (apply qsum_nonneg; intros x Hx; apply HR; auto).
  assert (Q1 : (qsum l <= qz (Z.of_nat (List.length l)))%Qc).
  { replace (qz (Z.of_nat (List.length l))) with (qsum (map (fun _ => 1%Qc) l)) by (rewrite qsum_const; ring). rewrite <- (map_id l) at 1. apply qsum_map_le. intros x Hx. apply HR. auto. }
  assert (EM : mean = (qsum l / qz (Z.of_nat (List.length l)))%Qc) by (rewrite <- S1; field; apply qc_pos_neq; qc_lra).
  split; [rewrite EM; apply qc_le_div; [qc_lra|]; replace (0 * qz (Z.of_nat (List.length l)))%Qc with 0%Qc by ring; auto|].
  split; [rewrite EM; apply qc_div_le; [qc_lra|]; replace (1 * qz (Z.of_nat (List.length l)))%Qc with (qz (Z.of_nat (List.length l))) by ring; auto|].
  assert (V0 : (0 <= qsum (map (fun x => (x - mean) * (x - mean)) l))%Qc).
  { apply qsum_nonneg. intros y Hy. apply in_map_iff in Hy as (x & <- & _). destruct (Qclt_le_dec (x - mean) 0) as [X|X].
    - replace ((x - mean) * (x - mean))%Qc with ((- (x - mean)) * (- (x - mean)))%Qc by ring. revert X. generalize (x - mean)%Qc. intros z X. apply qcmult_nonneg; qc_lra.
    - apply qcmult_nonneg; auto. }
  split.
  { assert (EV : var = (qsum (map (fun x => (x - mean) * (x - mean)) l) / (qz (Z.of_nat (List.length l)) - 1))%Qc) by (rewrite <- S2; field; apply qc_pos_neq; qc_lra).
    rewrite EV. apply qc_le_div; [qc_lra|]. replace (0 * (qz (Z.of_nat (List.length l)) - 1))%Qc with 0%Qc by ring. auto. }
  split; [apply (percentile_range _ _ _ 0%Qc 1%Qc S3); auto|]. split; [apply (percentile_mono l _ _ lo hi S3 S4); auto|]. split; [apply (percentile_range _ _ _ 0%Qc 1%Qc S4); auto|].
  pose proof (coverage l _ _ lo hi S3 S4) as C. rewrite H6 in C. exact C.
Qed.

(** all numbers equal *)
Lemma summary_const p l mean var lo hi c : (0 < p)%Qc -> (p < 1)%Qc -> (1 < List.length l)%nat -> (forall x, In x l -> x = c) -> summary p l mean var lo hi ->
  mean = c /\ var = 0%Qc /\ lo = c /\ hi = c.
Proof.
  intros P0 P1 N2 HR (S1 & S2 & S3 & S4).
  assert (N1 : (1 < qz (Z.of_nat (List.length l)))%Qc) by (rewrite <- qz_1; unfold Qclt; rewrite !qz_this, <- Zlt_Qlt; lia).
  assert (Q1 : qsum l = (qz (Z.of_nat (List.length l)) * c)%Qc).
  { rewrite <- qsum_const. rewrite <- (map_id l) at 1. apply qsum_map_ext. intros x Hx. apply HR; auto. }
  assert (N0 : qz (Z.of_nat (List.length l)) <> 0%Qc) by (apply qc_pos_neq; qc_lra). assert (M0 : (qz (Z.of_nat (List.length l)) - 1)%Qc <> 0%Qc) by (apply qc_pos_neq; qc_lra).
  assert (EM : mean = c).
  { transitivity (mean * qz (Z.of_nat (List.length l)) / qz (Z.of_nat (List.length l)))%Qc; [field; auto|]. rewrite S1, Q1. field. auto. }
  split; auto. split.
  - transitivity (var * (qz (Z.of_nat (List.length l)) - 1) / (qz (Z.of_nat (List.length l)) - 1))%Qc; [field; auto|]. rewrite S2, qsum_map_zero; [field; auto|].
    intros x Hx. rewrite (HR x Hx), EM. ring.
  - assert (B : forall x, In x l -> (c <= x)%Qc /\ (x <= c)%Qc) by (intros x Hx; rewrite (HR x Hx); split; apply Qcle_refl).
    split; apply Qcle_antisym; first [apply (percentile_range _ _ _ c c S3 B)|apply (percentile_range _ _ _ c c S4 B)].
Qed.

(** ** Effective sizes *)
Lemma block_seq k r i (Hi : (i < k)%nat) : block (seq 0 (k * r)) r i = in_round r i.
Proof.
  unfold block, in_round. replace (k * r)%nat with (i * r + (r + (k - 1 - i) * r))%nat by nia. rewrite seq_app, skipn_app, skipn_all2 by (rewrite seq_length; lia).
  rewrite seq_length, Nat.sub_diag. cbn [skipn app Nat.add]. rewrite seq_app, firstn_app, firstn_all2 by (rewrite seq_length; lia). rewrite seq_length, Nat.sub_diag. cbn [firstn]. apply app_nil_r.
Qed.

Lemma bayes_round_ess w e : (0 < qsum w)%Qc -> (0 < qsum (map (fun x => x * x) w))%Qc -> bayes_round (w, e) = ((ess w * (qsum e / qsum w))%Qc, ess w).
Proof.
  intros W0 W2. unfold bayes_round. cbn [fst snd]. set (N := qz (Z.of_nat (List.length w))).
  assert (N0 : N <> 0%Qc).
  { unfold N. destruct w as [|x w]; [discriminate W0|]. apply qc_pos_neq, qz_pos. cbn [List.length]. lia. }
  apply qc_pos_neq in W0. apply qc_pos_neq in W2.
  assert (E : (N * (qsum w / N * (qsum w / N)) / (qsum (map (fun x => x * x) w) / N) = ess w)%Qc) by (unfold ess; field; auto).
  rewrite E. f_equal. transitivity (qsum (map (fun x => x * (ess w / qsum w)) e))%Qc.
  - f_equal. apply map_ext. intros x. field. auto.
  - rewrite qsum_map_scale_r, map_id. field. auto.
Qed.

Section Rounds.
Variables (M : hcpm) (G : list joint).
Hypotheses (W0 : forall i, (i < List.length G)%nat -> (0 <= wt M i)%Qc).

Lemma counted_range vs codes i : (i < List.length G)%nat -> (0 <= counted M G vs codes true i)%Qc /\ (counted M G vs codes true i <= wt M i)%Qc.
Proof. intros H. specialize (W0 i H). unfold counted. destruct (Bool.eqb _ _); split; auto; apply Qcle_refl. Qed.
Lemma counted_mono vs codes cvs ccodes i : refines vs codes cvs ccodes -> (i < List.length G)%nat -> (counted M G vs codes true i <= counted M G cvs ccodes true i)%Qc.
Proof.
  intros Rf H. specialize (W0 i H). unfold counted. destruct (ev_match (c_vars (h_c M)) vs codes _) eqn:E; cbn [Bool.eqb].
  - replace (ev_match (c_vars (h_c M)) cvs ccodes _) with true; [apply Qcle_refl|]. symmetry. unfold ev_match in *. rewrite forallb_forall in *. intros x Hx. apply E, Rf, Hx.
  - destruct (ev_match (c_vars (h_c M)) cvs ccodes _); cbn [Bool.eqb]; auto. apply Qcle_refl.
Qed.

Variables (k r : nat).
Hypotheses (L : List.length G = (k * r)%nat) (WP : forall i, (i < k)%nat -> exists j, In j (in_round r i) /\ (0 < wt M j)%Qc).

Lemma round_in i j : (i < k)%nat -> In j (in_round r i) -> (j < List.length G)%nat.
Proof. intros Hi Hj. apply in_seq in Hj. rewrite L. nia. Qed.
Lemma round_pos i : (i < k)%nat -> (0 < qsum (map (wt M) (in_round r i)))%Qc /\ (0 < qsum (map (fun x => x * x)%Qc (map (wt M) (in_round r i))))%Qc.
Proof.
  intros Hi. destruct (WP i Hi) as (j & Hj & Pj). assert (B : forall x, In x (in_round r i) -> (0 <= wt M x)%Qc) by (intros x Hx; apply W0; eapply round_in; eauto).
  assert (K : forall f : nat -> Qc, (forall x, In x (in_round r i) -> 0 <= f x)%Qc -> (0 < f j)%Qc -> (0 < qsum (map f (in_round r i)))%Qc).
  { intros f F0 Fj. apply in_split in Hj as (l1 & l2 & E). rewrite E in *. rewrite map_app, qsum_app. cbn [map qsum].
    assert (Q1 : (0 <= qsum (map f l1))%Qc) by (apply qsum_nonneg; intros y Hy; apply in_map_iff in Hy as (x & <- & Hx); apply F0, in_or_app; auto).
    assert (Q2 : (0 <= qsum (map f l2))%Qc) by (apply qsum_nonneg; intros y Hy; apply in_map_iff in Hy as (x & <- & Hx); apply F0, in_or_app; right; right; auto).
    revert Q1 Q2 Fj. generalize (qsum (map f l1)) (qsum (map f l2)) (f j). intros. qc_lra. }
  split; [apply K; auto|]. rewrite map_map. apply K; [intros x Hx; apply qcmult_nonneg; auto|]. apply qc_mul_pos; auto.
Qed.
Lemma ess_nonneg i : (i < k)%nat -> (0 <= ess (map (wt M) (in_round r i)))%Qc.
Proof.
  intros Hi. destruct (round_pos i Hi) as [P1 P2]. unfold ess. apply qc_le_div; auto.
  replace (0 * qsum (map (fun x => x * x) (map (wt M) (in_round r i))))%Qc with 0%Qc by ring. apply qcmult_nonneg; apply Qclt_le_weak; auto.
Qed.
Lemma worth_range vs codes : (0 <= worth_of M G k r vs codes)%Qc /\ (worth_of M G k r vs codes <= worth M k r)%Qc.
Proof.
  unfold worth_of, worth. split.
  - apply qsum_nonneg. intros y Hy. apply in_map_iff in Hy as (i & <- & Hi). apply in_seq in Hi. apply qcmult_nonneg; [apply ess_nonneg; lia|]. destruct (round_pos i ltac:(lia)) as [P1 _].
    apply qc_le_div; auto. replace (0 * qsum (map (wt M) (in_round r i)))%Qc with 0%Qc by ring.
    apply qsum_nonneg. intros y Hy. apply in_map_iff in Hy as (j & <- & Hj). apply counted_range. apply (round_in i); auto; lia.
  - apply qsum_map_le. intros i Hi. apply in_seq in Hi. destruct (round_pos i ltac:(lia)) as [P1 _]. rewrite <- (Qcmult_1_r (ess (map (wt M) (in_round r i)))) at 2.
    apply qcmult_le_l; [apply ess_nonneg; lia|]. apply qc_div_le; auto. rewrite Qcmult_1_l. apply qsum_map_le. intros j Hj. apply counted_range. apply (round_in i); auto; lia.
Qed.
Lemma worth_mono vs codes cvs ccodes : refines vs codes cvs ccodes -> (worth_of M G k r vs codes <= worth_of M G k r cvs ccodes)%Qc.
Proof.
  intros Rf. unfold worth_of. apply qsum_map_le. intros i Hi. apply in_seq in Hi. destruct (round_pos i ltac:(lia)) as [P1 _].
  apply qcmult_le_l; [apply ess_nonneg; lia|]. apply qc_div_le; auto. unfold Qcdiv. rewrite <- Qcmult_assoc, (Qcmult_comm (/ _)), Qcmult_inv_r by (apply qc_pos_neq; auto).
  rewrite Qcmult_1_r. apply qsum_map_le. intros j Hj. apply counted_mono; auto. apply (round_in i); auto; lia.
Qed.
End Rounds.

Lemma hits_refines scope row vs codes cvs ccodes : refines vs codes cvs ccodes -> hits scope row vs codes = true -> hits scope row cvs ccodes = true.
Proof. intros Rf H. unfold hits in *. rewrite forallb_forall in *. intros x Hx. apply H, Rf, Hx. Qed.
Lemma known_mono M vs codes cvs ccodes : (forall x, In x (c_p (h_c M)) -> 0 <= x)%Qc -> refines vs codes cvs ccodes -> (known M vs codes <= known M cvs ccodes)%Qc.
Proof. intros P Rf. apply total_mono; auto. intros row _. apply hits_refines. auto. Qed.

(** the call to [get_rat_dist] *)
Section Run.
Variables (I : list Z) (G : list joint) (M : hcpm) (d1 d2 : Qc -> Qc -> list Qc) (vs : list variable) (codes : list Z) (cvs : list variable) (ccodes : list Z) (rep k r : nat) (p : Qc).
Hypotheses (W : wf_cpm (h_c M)) (S : sampled I G M) (B : basic_samples G (c_vars (h_c M)))
  (E : ev_ok (c_vars (h_c M)) vs codes) (NE : vs <> []) (CS : codes_small vs codes)
  (E' : ev_ok (c_vars (h_c M)) cvs ccodes) (NE' : cvs <> []) (CS' : codes_small cvs ccodes)
  (NZ : forall x, In x (h_q M) -> x <> 0%Qc) (NG : G <> [])
  (RP : (rep = O /\ k = 1%nat /\ r = List.length G) \/ (rep = r /\ r <> O /\ List.length G = (k * r)%nat)) (HP : h_ps M <> [] \/ k = 1%nat).

Lemma len_G : List.length G = (k * r)%nat.
Proof. destruct RP as [(_ & -> & ->)|(_ & _ & R)]; lia. Qed.

Let w := fun i => map (wt M) (in_round r i).
Let e1 := fun i => map (counted M G vs codes true) (in_round r i).
Let e2 := fun i => map (counted M G cvs ccodes true) (in_round r i).
Lemma cond_start :
  rounds (List.length (h_Cs M)) rep = Ok (k, r) /\ h_Cs M <> [] /\
  mapM (fun i => w1 <- round_weights M vs (map SI codes) true r i ;; w2 <- round_weights M cvs (map SI ccodes) true r i ;; Ok (w1, w2)) (seq 0 k) =
    Ok (map (fun i => ((w i, e1 i), (w i, e2 i))) (seq 0 k)).
Proof.
  pose proof S as (S1 & S2 & S3 & S4). pose proof len_G as LG.
  split.
  { rewrite S2, map_length. unfold rounds. destruct RP as [(-> & -> & ->)|(-> & R1 & R2)]; auto.
    destruct r as [|r']; [lia|]. rewrite R2, Nat.mod_mul, Nat.eqb_refl, Nat.div_mul by lia. auto. }
  split; [rewrite S2; destruct G; [congruence|discriminate]|].
  assert (TG : forall vs codes i, (i < k)%nat -> block (kept_ratios M G vs codes true) r i = map (counted M G vs codes true) (in_round r i)).
  { intros vs' codes' i Hi. rewrite (kept_ratios_counted I G) by auto. rewrite LG, block_map, block_seq by auto. auto. }
  assert (TR : forall i, (i < k)%nat -> block (ratios M) r i = map (wt M) (in_round r i)).
  { intros i Hi. rewrite (ratios_wt I G) by auto. rewrite LG, block_map, block_seq by auto. auto. }
  apply mapM_ok. intros i Hi. apply in_seq in Hi. rewrite (round_weights_ok I G M vs codes true r i k) by (auto; lia). cbn [bind].
  rewrite (round_weights_ok I G M cvs ccodes true r i k) by (auto; lia). cbn [bind]. rewrite TR, !TG by lia. reflexivity.
Qed.
(** a round without weight *)
Lemma cond_zero i0 : (i0 < k)%nat -> (forall j, In j (in_round r i0) -> wt M j = 0%Qc) ->
  get_prob_and_cov_cond d1 d2 M vs (map SI codes) cvs (map SI ccodes) rep p = Err ValueError.
Proof.
  intros Hi Hz. unfold get_prob_and_cov_cond. destruct cond_start as (RD & CN & MM). rewrite RD. cbn [bind]. destruct (h_Cs M) as [|c0 Cs]; [congruence|].
  rewrite MM. cbn [bind]. rewrite !get_prob_spec by auto. cbn [bind].
  replace (existsb _ _) with true; auto. symmetry. apply existsb_exists. exists ((w i0, e1 i0), (w i0, e2 i0)). split; [apply in_map_iff; exists i0; split; auto; apply in_seq; lia|].
  cbn [fst]. apply forallb_forall. intros x Hx. unfold w in Hx. apply in_map_iff in Hx as (j & <- & Hj). rewrite (Hz j Hj). apply qc_eqb_eq. reflexivity.
Qed.

Hypotheses (W0 : forall i, (i < List.length G)%nat -> (0 <= wt M i)%Qc) (WP : forall i, (i < k)%nat -> exists j, In j (in_round r i) /\ (0 < wt M j)%Qc).
Lemma cond_call :
  let x := worth_of M G k r vs codes in let y := worth_of M G k r cvs ccodes in let n := worth M k r in let c := Q2Qc (1 # 100) in
  get_prob_and_cov_cond d1 d2 M vs (map SI codes) cvs (map SI ccodes) rep p =
  ('(prob, var, cint) <- get_rat_dist d1 d2 (known M vs codes) (known M cvs ccodes - known M vs codes)%Qc (1 - qsum (c_p (h_c M)))%Qc
     (c + x)%Qc (c + (y - x))%Qc (c + (n - x))%Qc (c + (n - (y - x)))%Qc p ;;
   Ok (prob, (var / (prob * prob))%Qc, cint)).
Proof.
  intros x y n c. unfold get_prob_and_cov_cond. pose proof len_G as LG. destruct cond_start as (RD & CN & MM).
  rewrite RD. cbn [bind]. destruct (h_Cs M) as [|c0 Cs]; [congruence|]. rewrite MM. clear RD CN MM.
  cbn [bind]. rewrite !get_prob_spec by auto. cbn [bind].
  assert (T : forall vs codes, total (fun row => Bool.eqb (hits (c_vars (h_c M)) row vs codes) true) (h_c M) = known M vs codes).
  { intros vs' codes'. unfold known, total. do 2 f_equal. apply filter_ext. intros z. destruct (hits _ _ _ _); auto. }
  rewrite !T.
  assert (EX : existsb (fun w => forallb (qc_eqb 0%Qc) (fst (fst w))) (map (fun i => ((w i, e1 i), (w i, e2 i))) (seq 0 k)) = false).
  { apply not_true_is_false. intros X. apply existsb_exists in X as (z & Hz & X). apply in_map_iff in Hz as (i & <- & Hi). apply in_seq in Hi. cbn [fst] in X.
    destruct (WP i ltac:(lia)) as (j & Hj & Pj). rewrite forallb_forall in X. specialize (X (wt M j)). unfold w in X. rewrite in_map_iff in X. specialize (X (ex_intro _ j (conj eq_refl Hj))).
    apply qc_eqb_eq in X. rewrite <- X in Pj. qc_lra. }
  rewrite EX. cbv zeta. rewrite !map_map.
  assert (BR : forall i e, In i (seq 0 k) -> bayes_round (w i, e) = ((ess (w i) * (qsum e / qsum (w i)))%Qc, ess (w i))).
  { intros i e Hi. apply in_seq in Hi. destruct (round_pos M G W0 k r LG WP i ltac:(lia)) as [P1 P2]. apply bayes_round_ess; auto. }
  assert (Q1 : qsum (map (fun i => fst (bayes_round (fst (w i, e1 i, (w i, e2 i))))) (seq 0 k)) = x).
  { apply qsum_map_ext. intros i Hi. cbn [fst]. rewrite BR by auto. reflexivity. }
  assert (Q2 : qsum (map (fun i => (snd (bayes_round (fst (w i, e1 i, (w i, e2 i)))) - fst (bayes_round (fst (w i, e1 i, (w i, e2 i)))))%Qc) (seq 0 k)) = (n - x)%Qc).
  { transitivity (qsum (map (fun i => ess (w i) + - (ess (w i) * (qsum (e1 i) / qsum (w i)))) (seq 0 k)))%Qc.
    - apply qsum_map_ext. intros i Hi. cbn [fst]. rewrite BR by auto. reflexivity.
    - rewrite qsum_map_plus. unfold n, x, worth, worth_of, Qcminus. f_equal. fold w. clear. induction (seq 0 k) as [|i l IH]; cbn [map qsum]; [ring|]. rewrite IH. unfold w, e1. ring. }
  assert (Q3 : qsum (map (fun i => (fst (bayes_round (snd (w i, e1 i, (w i, e2 i)))) - fst (bayes_round (fst (w i, e1 i, (w i, e2 i)))))%Qc) (seq 0 k)) = (y - x)%Qc).
  { transitivity (qsum (map (fun i => ess (w i) * (qsum (e2 i) / qsum (w i)) + - (ess (w i) * (qsum (e1 i) / qsum (w i)))) (seq 0 k)))%Qc.
    - apply qsum_map_ext. intros i Hi. cbn [fst snd]. rewrite !BR by auto. reflexivity.
    - rewrite qsum_map_plus. unfold y, x, worth_of, Qcminus. f_equal. clear. induction (seq 0 k) as [|i l IH]; cbn [map qsum]; [ring|]. rewrite IH. unfold w, e1. ring. }
  assert (Q4 : qsum (map (fun i => (snd (bayes_round (fst (w i, e1 i, (w i, e2 i)))) -
      (fst (bayes_round (snd (w i, e1 i, (w i, e2 i)))) - fst (bayes_round (fst (w i, e1 i, (w i, e2 i))))))%Qc) (seq 0 k)) = (n - (y - x))%Qc).
  { transitivity (qsum (map (fun i => ess (w i) + (- (ess (w i) * (qsum (e2 i) / qsum (w i))) + (ess (w i) * (qsum (e1 i) / qsum (w i))))) (seq 0 k)))%Qc.
    - apply qsum_map_ext. intros i Hi. cbn [fst snd]. rewrite !BR by auto. cbn [fst snd]. ring.
    - rewrite !qsum_map_plus. replace (n - (y - x))%Qc with (n + (- y + x))%Qc by ring. unfold n, y, x, worth, worth_of. f_equal. f_equal. clear. induction (seq 0 k) as [|i l IH]; cbn [map qsum]; [ring|]. rewrite IH. unfold w, e2. ring. }
  rewrite Q1, Q2, Q3, Q4. reflexivity.
Qed.
End Run.
