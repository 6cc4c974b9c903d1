(** CPMs with samples: evidence in basic states, estimates, likelihood weighting. *)
From Coq Require Import ZArith List String Bool Arith Lia QArith Qcanon Permutation Field.
From Verif Require Import Py Num Vari Cpm SpecCpm PyFacts VariFacts CpmFacts CpmCond CpmProd CpmList CpmSum CpmMarg CpmElim CpmProb VeCond VeFacts CalFacts Mcs SpecMcs NetSys Hybrid SpecHyb HybFacts.
Import ListNotations.
Open Scope string_scope.
Open Scope Z_scope.
Open Scope list_scope.

Lemma basic_ev_ok scope vs codes : basic_ev scope vs codes -> ev_ok scope vs codes.
Proof. intros (H1 & H2 & H3 & H4). split; auto. split; auto. split; auto. intros v c Hi Hv. apply basic_code. auto. Qed.

Lemma evidence_basic scope vs codes a v : basic_ev scope vs codes -> In v scope -> basic_state v (a (v_name v)) ->
  basic_state v (evidence vs codes a (v_name v)).
Proof.
  intros (E1 & E2 & E3 & E4) Hv B. destruct (in_dec string_dec (v_name v) (names vs)) as [J|J]; [|rewrite evidence_out; auto].
  apply in_map_iff in J as (w & J1 & J2). assert (w = v) by (apply E3; auto). subst w.
  destruct (In_nth_error _ _ J2) as [j Hj]. destruct (nth_combine_SI vs codes j v E1 Hj) as (c & X & _). rewrite (evidence_in vs codes a v c); auto.
Qed.
Lemma evidence_match scope vs codes a : basic_ev scope vs codes -> ev_match scope vs codes (evidence vs codes a) = true.
Proof.
  intros (E1 & E2 & E3 & E4). unfold ev_match. apply forallb_forall. intros [v c] H. cbn [fst snd].
  destruct (mem_str (v_name v) (names scope)) eqn:X; auto. cbn [negb orb]. rewrite (evidence_in vs codes a v c) by auto. apply mem_Z_In.
  apply mem_str_In, in_map_iff in X as (w & X1 & X2). assert (v = w) by (apply E3; auto; eapply in_combine_l; eauto). subst w.
  apply (proj2 (E4 v c H X2)). auto.
Qed.

Lemma overlap_evidence M c' vs codes a : wf_cpm M -> has_p M -> basic_ev (c_vars M) vs codes -> (forall v, In v (c_vars M) -> basic_state v (a (v_name v))) ->
  condition M (Vars vs) (map SI codes) = Ok c' -> overlap c' (evidence vs codes a) = mass M (evidence vs codes a).
Proof.
  intros W P E B H. pose proof (basic_ev_ok _ _ _ E) as E'. destruct (condition_ok M vs codes W E') as (c2 & C1 & C2 & C3 & C4 & C5).
  assert (c2 = c') by congruence. subst c2. rewrite overlap_mass; auto.
  - rewrite C5, (evidence_match (c_vars M)) by auto. reflexivity.
  - exact (condition_p M vs codes c' W E' P H).
  - intros v Hv. rewrite C3 in Hv. apply (evidence_basic (c_vars M) vs codes a v E Hv). auto.
Qed.

(** the weights after conditioning *)
Lemma h_condition_basic I G M vs codes : wf_cpm (h_c M) -> has_p (h_c M) -> basic_ev (c_vars (h_c M)) vs codes -> sampled I G M -> basic_samples G (c_vars (h_c M)) ->
  List.length I = List.length G -> G <> [] -> c_vars (h_c M) <> [] ->
  exists c' ps, condition (h_c M) (Vars vs) (map SI codes) = Ok c' /\
    h_condition M (Vars vs) (map SI codes) = Ok (mkH c' (h_Cs M) (h_q M) ps (h_idx M)) /\ List.length ps = List.length G /\
    forall i, (i < List.length G)%nat -> let b := evidence vs codes (nth i G (fun _ => 0)) in
      nth i ps 0%Qc = if touches vs (children (h_c M)) then (mass (h_c M) b * nth i (h_q M) 0)%Qc
                      else if touches vs (c_vars (h_c M)) then mass (h_c M) b else nth i (h_q M) 0%Qc.
Proof.
  intros W P E S BS LI NG NV. pose proof (basic_ev_ok _ _ _ E) as E'.
  destruct (h_condition_ok I G M vs codes W E' S BS LI NG NV) as (c' & H1 & H2). pose proof S as (S1 & S2 & S3 & S4).
  exists c', (new_weights M c' vs codes G). split; auto. split; auto. split; [apply new_weights_length; auto|].
  intros i Hi b. unfold new_weights.
  assert (PR : nth i (map (fun a => overlap c' (evidence vs codes a)) G) 0%Qc = mass (h_c M) b).
  { rewrite (nth_indep _ 0%Qc ((fun a => overlap c' (evidence vs codes a)) (fun _ => 0))) by (rewrite map_length; auto).
    rewrite (map_nth (fun a => overlap c' (evidence vs codes a))). apply overlap_evidence; auto.
    intros v Hv. apply BS; auto. apply nth_In; auto. }
  destruct (touches vs (children (h_c M))).
  - rewrite nth_times by (rewrite map_length; lia). rewrite PR. auto.
  - destruct (touches vs (c_vars (h_c M))); auto.
Qed.

(** ** Compatibility of samples *)
Lemma hits_sample vars vs codes a : NoDup (names vars) -> agree vs vars -> (forall v, In v vars -> basic_state v (a (v_name v))) ->
  hits vars (row_at vars a) vs codes = ev_match vars vs codes a.
Proof.
  intros N A B. apply eq_true_iff_eq. unfold hits, ev_match. rewrite !forallb_forall. split; intros H [v c] Hin; specialize (H _ Hin); cbn [fst snd] in *.
  - destruct (mem_str (v_name v) (names vars)) eqn:X; auto. cbn [negb orb]. apply mem_str_In, in_map_iff in X as (w & X1 & X2).
    assert (v = w) by (apply A; auto; eapply in_combine_l; eauto). subst w.
    rewrite forallb_forall in H. specialize (H (v, a (v_name v))). cbn [fst snd] in H. rewrite String.eqb_refl in H. cbn [negb orb] in H.
    assert (Y : In (v, a (v_name v)) (combine vars (row_at vars a))) by (apply row_at_combine; auto).
    specialize (H Y). apply existsb_exists in H as (x & Z1 & Z2). apply (B v X2) in Z1. subst x. auto.
  - apply forallb_forall. intros [w r] Hw. apply row_at_combine in Hw as [Hw ->]. cbn [fst snd].
    destruct (String.eqb_spec (v_name w) (v_name v)) as [Z|]; auto. cbn [negb orb].
    assert (v = w) by (apply A; auto; eapply in_combine_l; eauto). subst w.
    assert (X : mem_str (v_name v) (names vars) = true) by (apply mem_str_In, in_map; auto). rewrite X in H. cbn [negb orb] in H.
    apply existsb_exists. exists (a (v_name v)). split; auto. apply (B v Hw). auto.
Qed.

Lemma compatible_samples G vars vs codes : NoDup (names vars) -> Forall var_ok vars -> basic_samples G vars -> ev_ok vars vs codes ->
  fn_iscompatible (map (row_at vars) G) vars vs (map SI codes) = Ok (map (ev_match vars vs codes) G).
Proof.
  intros N V B E. set (M := mkCpm vars O (map (row_at vars) G) []).
  assert (W : wf_cpm M).
  { split; auto. split; auto. split; [cbn; lia|]. split; [|left; auto]. intros row Hr. cbn [M c_C c_vars] in *. apply in_map_iff in Hr as (a & <- & Ha).
    unfold row_at. assert (K : forall l, incl l vars -> Forall2 code_ok l (map (fun v => a (v_name v)) l)); [|apply K; intros x; auto].
    induction l as [|v l IH]; intros HI; cbn; constructor; [apply basic_code, B; auto; apply HI; left; auto|]. apply IH. intros x Hx. apply HI. right; auto. }
  change (map (row_at vars) G) with (c_C M). change vars with (c_vars M) at 1. rewrite fn_iscompatible_spec by auto. f_equal.
  cbn [M c_C c_vars]. rewrite map_map. apply map_ext_in. intros a Ha. pose proof E as (_ & _ & E3 & _).
  rewrite cmp_hits by auto using row_at_length. apply hits_sample; auto.
Qed.

(** ** Estimates *)
Lemma block_map {A B} (f : A -> B) l r i : block (map f l) r i = map f (block l r i).
Proof. unfold block. rewrite skipn_map, firstn_map. auto. Qed.
Lemma combine_skipn {A B} (l1 : list A) (l2 : list B) k : combine (skipn k l1) (skipn k l2) = skipn k (combine l1 l2).
Proof. revert l1 l2. induction k as [|k IH]; intros [|x l1] [|y l2]; cbn; auto. rewrite combine_nil. auto. Qed.
Lemma block_combine {A B} (l1 : list A) (l2 : list B) r i : combine (block l1 r i) (block l2 r i) = block (combine l1 l2) r i.
Proof. unfold block. rewrite <- combine_firstn, combine_skipn. auto. Qed.
Lemma block_length {A} (l : list A) r i k : List.length l = (k * r)%nat -> (i < k)%nat -> List.length (block l r i) = r.
Proof. intros L H. unfold block. rewrite firstn_length, skipn_length, L. nia. Qed.
Lemma qsum_app' l1 l2 : qsum (l1 ++ l2) = (qsum l1 + qsum l2)%Qc.
Proof. induction l1 as [|x l1 IH]; cbn [app qsum]; [ring|]. rewrite IH. ring. Qed.
Lemma skipn_skipn' {A} x y (l : list A) : skipn x (skipn y l) = skipn (y + x) l.
Proof. revert l. induction y as [|y IH]; intros [|z l]; cbn; auto. apply skipn_nil. Qed.
Lemma In_skipn {A} (x : A) k l : In x (skipn k l) -> In x l.
Proof. revert l. induction k as [|k IH]; intros [|y l] H; cbn in *; auto. Qed.
Lemma In_block {A} (x : A) l r i : In x (block l r i) -> In x l.
Proof. unfold block. intros H. apply (In_skipn x (i * r)). rewrite <- (firstn_skipn r). apply in_or_app. auto. Qed.
Lemma blocks_sum k : forall l r, List.length l = (k * r)%nat -> qsum (map (fun i => qsum (block l r i)) (seq 0 k)) = qsum l.
Proof.
  induction k as [|k IH]; intros l r L; [destruct l; [auto|discriminate]|].
  transitivity (qsum (firstn r l ++ skipn r l)); [|rewrite firstn_skipn; auto]. rewrite qsum_app'. cbn [seq map qsum]. f_equal. rewrite <- seq_shift, map_map.
  rewrite <- (IH (skipn r l) r) by (rewrite skipn_length, L; cbn; lia). f_equal. apply map_ext. intros i. unfold block. rewrite skipn_skipn'. auto.
Qed.

Definition ratios (M : hcpm) : list Qc := map (fun pq => (fst pq / snd pq)%Qc) (combine (target_of M) (h_q M)).
Definition kept_ratios (M : hcpm) (G : list joint) (vs : list variable) (codes : list Z) (flag : bool) : list Qc :=
  map (fun wa => if Bool.eqb flag (ev_match (c_vars (h_c M)) vs codes (snd wa)) then fst wa else 0%Qc) (combine (ratios M) G).

Lemma same_ratio (q : list Qc) : (forall x, In x q -> x <> 0%Qc) -> map (fun pq => (fst pq / snd pq)%Qc) (combine q q) = map (fun _ => 1%Qc) q.
Proof.
  induction q as [|x q IH]; intros H; auto. cbn [combine map fst snd]. rewrite IH by (intros y Hy; apply H; right; auto). f_equal.
  field. apply H. left. auto.
Qed.
Lemma Qcdiv_same x : x <> 0%Qc -> (x / x = 1)%Qc.
Proof. intros H. field. auto. Qed.

Lemma round_weights_ok I G M vs codes flag r i k : wf_cpm (h_c M) -> sampled I G M -> basic_samples G (c_vars (h_c M)) -> ev_ok (c_vars (h_c M)) vs codes ->
  (forall x, In x (h_q M) -> x <> 0%Qc) -> List.length G = (k * r)%nat -> (i < k)%nat -> h_ps M <> [] \/ k = 1%nat ->
  round_weights M vs (map SI codes) flag r i = Ok (block (ratios M) r i, block (kept_ratios M G vs codes flag) r i).
Proof.
  intros W S B E NZ L Hi HP. pose proof (target_length _ _ _ S) as T. pose proof S as (S1 & S2 & S3 & S4). unfold round_weights.
  rewrite S2, block_map. rewrite compatible_samples; auto; [|apply W|apply W|].
  2:{ intros a v Ha. apply B. eapply In_block; eauto. }
  cbn [bind].
  assert (X : match h_ps M with [] => map (fun _ => 1%Qc) (h_q M) | q :: l => map (fun pq => (fst pq / snd pq)%Qc) (combine (block (q :: l) r i) (block (h_q M) r i)) end = block (ratios M) r i).
  { unfold ratios, target_of. destruct (h_ps M) as [|p0 ps] eqn:EP.
    - destruct HP as [HP|HP]; [congruence|]. subst k. assert (i = O) by lia. subst i. rewrite same_ratio by auto.
      unfold block. cbn [Nat.mul skipn]. rewrite firstn_all2 by (rewrite map_length; lia). auto.
    - rewrite block_combine, block_map. auto. }
  rewrite X. assert (LR : List.length (ratios M) = (k * r)%nat) by (unfold ratios; rewrite map_length, combine_length; lia).
  rewrite (block_length (ratios M) r i k) by auto. rewrite map_length, (block_length G r i k) by auto. rewrite Nat.eqb_refl. do 2 f_equal.
  unfold kept_ratios. rewrite block_map, <- block_combine. generalize (block (ratios M) r i) (block G r i). clear.
  induction l as [|x l IH]; intros [|a g]; auto. cbn [map combine fst snd]. rewrite IH. auto.
Qed.

Lemma ratios_wt I G M : sampled I G M -> ratios M = map (wt M) (seq 0 (List.length G)).
Proof.
  intros S. pose proof (target_length _ _ _ S) as T. destruct S as (_ & _ & L & _). unfold wt, ratios.
  revert T L. generalize (target_of M) (h_q M) (List.length G). clear. intros t q n. revert t q. induction n as [|n IH]; intros [|x t] [|y q] H1 H2; cbn in H1, H2; try lia; auto.
  cbn [combine map fst snd seq nth]. f_equal. rewrite <- seq_shift, map_map. cbn [nth]. apply IH; lia.
Qed.
Lemma kept_ratios_counted I G M vs codes flag : sampled I G M -> kept_ratios M G vs codes flag = map (counted M G vs codes flag) (seq 0 (List.length G)).
Proof.
  intros S. unfold kept_ratios, counted. rewrite (ratios_wt I G) by auto. generalize (wt M). clear. intros w. revert w. induction G as [|a G IH]; intros w; auto.
  cbn [combine map fst snd List.length seq nth]. f_equal. rewrite <- seq_shift, !map_map. cbn [nth]. apply (IH (fun i => w (S i))).
Qed.
Lemma kept_ratios_votes I G M vs codes flag : sampled I G M -> qsum (kept_ratios M G vs codes flag) = votes M G vs codes flag.
Proof. intros S. unfold votes. rewrite (kept_ratios_counted I G) by auto. reflexivity. Qed.

Lemma mle_ok I G M vs codes flag repeat k r : wf_cpm (h_c M) -> sampled I G M -> basic_samples G (c_vars (h_c M)) -> ev_ok (c_vars (h_c M)) vs codes ->
  vs <> [] -> codes_small vs codes -> (forall x, In x (h_q M) -> x <> 0%Qc) -> G <> [] ->
  (repeat = O /\ k = 1%nat /\ r = List.length G) \/ (repeat = r /\ r <> O /\ List.length G = (k * r)%nat) -> h_ps M <> [] \/ k = 1%nat ->
  exists cov2, get_prob_and_cov M vs (map SI codes) MLE flag repeat =
    Ok ((total (fun row => Bool.eqb (hits (c_vars (h_c M)) row vs codes) flag) (h_c M) +
         (1 - qsum (c_p (h_c M))) * (votes M G vs codes flag / qz (Z.of_nat r)))%Qc, cov2).
Proof.
  intros W S B E NE CS NZ NG R HP. unfold get_prob_and_cov. rewrite get_prob_spec by auto. cbn [bind].
  pose proof S as (S1 & S2 & S3 & S4).
  assert (LG : List.length G = (k * r)%nat) by (destruct R as [(_ & -> & ->)|(_ & _ & R)]; lia).
  assert (RD : rounds (List.length (h_Cs M)) repeat = Ok (k, r)).
  { rewrite S2, map_length. unfold rounds. destruct R as [(-> & -> & ->)|(-> & R1 & R2)]; auto.
    destruct r as [|r]; [lia|]. rewrite R2, Nat.mod_mul, Nat.eqb_refl, Nat.div_mul by lia. auto. }
  rewrite RD. cbn [bind]. destruct (h_Cs M) as [|c0 Cs] eqn:EC; [destruct G; [congruence|discriminate]|].
  rewrite (mapM_ok _ (fun i => (block (ratios M) r i, block (kept_ratios M G vs codes flag) r i))).
  2:{ intros i Hi. apply in_seq in Hi. eapply round_weights_ok; eauto. lia. }
  cbn [bind]. eexists. do 2 f_equal. f_equal. f_equal. rewrite !map_map. cbn [mle_round fst snd].
  rewrite <- (kept_ratios_votes I G) by auto.
  assert (LK : List.length (kept_ratios M G vs codes flag) = (k * r)%nat).
  { pose proof (target_length _ _ _ S) as T. unfold kept_ratios, ratios. rewrite map_length, combine_length, map_length, combine_length. lia. }
  rewrite <- (blocks_sum k _ r LK). unfold Qcdiv. rewrite <- qsum_map_scale_r. f_equal.
Qed.

Lemma close_same w : close_to w w = true.
Proof.
  unfold close_to. apply qc_leb_le. replace (w - w)%Qc with 0%Qc by ring. unfold qabs at 1. replace (qc_ltb 0 0) with false by reflexivity.
  assert (A : (0 <= qabs w)%Qc).
  { unfold qabs. destruct (qc_ltb w 0) eqn:E.
    - apply qc_ltb_lt, Qclt_le_weak in E. apply Qcopp_le_compat in E. exact E.
    - destruct (Qclt_le_dec w 0) as [X|X]; auto. apply qc_ltb_lt in X. congruence. }
  apply (Qcmult_le_compat_r 0 (qabs w) (Q2Qc (1 # 100000))) in A; [|discriminate].
  replace 0%Qc with (0 + 0)%Qc by ring. apply Qcplus_le_compat; [discriminate|]. rewrite Qcmult_comm. replace (0 * Q2Qc (1 # 100000))%Qc with 0%Qc in A by ring. exact A.
Qed.
Lemma far_close w x : far w x -> close_to w x = false.
Proof.
  intros [W H]. destruct (close_to w x) eqn:E; auto. exfalso. unfold close_to in E. apply qc_leb_le in E. set (t := (Q2Qc (1 # 10000) + Q2Qc (1 # 100000) * w)%Qc) in *.
  assert (QW : qabs w = w).
  { unfold qabs. destruct (qc_ltb w 0) eqn:X; auto. apply qc_ltb_lt in X. exfalso. apply (Qclt_not_le _ _ X). auto. }
  rewrite QW in E. fold t in E. unfold qabs in E. destruct (qc_ltb (x - w) 0) eqn:X.
  - apply qc_ltb_lt in X. destruct H as [H|H].
    + assert (0 <= t)%Qc by (unfold t; clear -W; assert (A : (0 * Q2Qc (1 # 100000) <= w * Q2Qc (1 # 100000))%Qc) by (apply Qcmult_le_compat_r; [auto|discriminate]); rewrite (Qcmult_comm _ w);
        revert A; generalize (w * Q2Qc (1 # 100000))%Qc; intros z A; replace (0 * Q2Qc (1 # 100000))%Qc with 0%Qc in A by ring;
        assert (B : (0 <= Q2Qc (1 # 10000))%Qc) by discriminate; revert B; generalize (Q2Qc (1 # 10000)); intros k B; qc_lra). qc_lra.
    + qc_lra.
  - apply qc_ltb_ge in X. destruct H as [H|H]; qc_lra.
Qed.

Definition mle_var (M : hcpm) (G : list joint) (vs : list variable) (codes : list Z) (flag : bool) : Qc :=
  let n := qz (Z.of_nat (List.length G)) in
  let m := (votes M G vs codes flag / n)%Qc in
  if forallb (fun i => close_to (wt M 0) (wt M i)) (seq 0 (List.length G)) then (wt M 0 * wt M 0 * (1 - m) * m / n)%Qc
  else qsum (map (fun i => ((counted M G vs codes flag i - m) / n * ((counted M G vs codes flag i - m) / n))%Qc) (seq 0 (List.length G))).
Lemma mle_one_ok I G M vs codes flag : wf_cpm (h_c M) -> sampled I G M -> basic_samples G (c_vars (h_c M)) -> ev_ok (c_vars (h_c M)) vs codes ->
  vs <> [] -> codes_small vs codes -> (forall x, In x (h_q M) -> x <> 0%Qc) -> G <> [] ->
  let u := (1 - qsum (c_p (h_c M)))%Qc in
  let prob := (total (fun row => Bool.eqb (hits (c_vars (h_c M)) row vs codes) flag) (h_c M) + u * (votes M G vs codes flag / qz (Z.of_nat (List.length G))))%Qc in
  get_prob_and_cov M vs (map SI codes) MLE flag 0 = Ok (prob, (u * u * mle_var M G vs codes flag / (prob * prob))%Qc).
Proof.
  intros W S B E NE CS NZ NG u prob. unfold get_prob_and_cov. rewrite get_prob_spec by auto. cbn [bind rounds].
  pose proof S as (S1 & S2 & S3 & S4).
  destruct (h_Cs M) as [|c0 Cs] eqn:EC; [destruct G; [congruence|discriminate]|]. rewrite <- EC in *.
  assert (LG : List.length (h_Cs M) = List.length G) by (rewrite S2, map_length; auto). rewrite LG. cbn [seq mapM].
  rewrite (round_weights_ok I G M vs codes flag (List.length G) 0 1); auto; [|lia]. cbn [bind map].
  unfold block. cbn [Nat.mul skipn]. rewrite (ratios_wt I G), (kept_ratios_counted I G) by auto.
  rewrite !firstn_all2 by (rewrite map_length, seq_length; lia). unfold mle_round. cbn [fst snd qsum]. fold u. fold (votes M G vs codes flag).
  replace (hd 0%Qc (map (wt M) (seq 0 (List.length G)))) with (wt M 0) by (destruct G; [congruence|reflexivity]).
  rewrite forallb_map, map_map. rewrite !Qcplus_0_r. reflexivity.
Qed.

(** ** Conditioning and elimination of a sampled network *)
Section HNet.
Variables (I : list Z) (G : list joint).
Hypothesis NI : NoDup I.
Hypothesis LI : List.length I = List.length G.
Hypothesis NG : G <> [].

Lemma h_op_condition_ok l vs codes : Forall wf_cpm (map h_c l) -> Forall has_p (map h_c l) -> ready I G l ->
  (forall M, In M l -> basic_ev (c_vars (h_c M)) vs codes) ->
  (forall M i, In M l -> (i < List.length G)%nat -> nth i (h_q M) 0%Qc <> 0%Qc /\ (touches vs (children (h_c M)) = false -> touches vs (c_vars (h_c M)) = true ->
    nth i (h_q M) 0%Qc = mass (h_c M) (nth i G (fun _ => 0)))) ->
  exists l', h_op_condition l vs (map SI codes) = Ok l' /\ op_condition (map h_c l) (Vars vs) (map SI codes) = Ok (map h_c l') /\ ready I G l' /\
    Forall2 (fun N N' => wf_cpm N' /\ same_shape N N' /\ has_p N' /\ forall v, basic_in N v -> basic_in N' v) (map h_c l) (map h_c l') /\
    forall i, (i < List.length G)%nat -> q_of l' i <> 0%Qc /\ (t_of l' i / q_of l' i)%Qc = lweights vs codes (map h_c l) (nth i G (fun _ => 0)).
Proof using All.
  intros W P R E Q. unfold h_op_condition, op_condition. cbn [bind]. rewrite cond_states_SI. cbn [bind].
  induction l as [|M l IH].
  - exists []. split; auto. split; auto. split; [intros M []|]. split; [constructor|]. intros i Hi. unfold q_of, t_of, lweights. cbn [map qprod].
    split; [discriminate|]. apply Qcdiv_same. discriminate.
  - cbn [map] in W, P. inversion W as [|? ? W1 W2]; inversion P as [|? ? P1 P2]; subst.
    destruct IH as (l' & H1 & H2 & H3 & H4 & H5); auto.
    { intros N HN. apply R. right; auto. } { intros N HN. apply E. right; auto. } { intros N i HN. apply Q. right; auto. }
    destruct (R M (or_introl eq_refl)) as (R1 & R2 & R3). specialize (E M (or_introl eq_refl)).
    destruct (h_condition_basic I G M vs codes W1 P1 E R1 R2 LI NG R3) as (c' & ps & C1 & C2 & C3 & C4).
    exists (mkH c' (h_Cs M) (h_q M) ps (h_idx M) :: l'). cbn [map mapM]. rewrite C2, C1. cbn [bind]. rewrite H1, H2. cbn [bind].
    pose proof (basic_ev_ok _ _ _ E) as E'. destruct (condition_ok _ vs codes W1 E') as (c2 & D1 & D2 & D3 & D4 & _). assert (c2 = c') by congruence. subst c2.
    pose proof R1 as (X1 & X2 & X3 & X4).
    split; auto. split; auto. split; [|split].
    + intros N [<-|HN]; [|auto]. cbn [h_c]. rewrite D3. split; auto. split; auto. cbn [h_c h_Cs]. rewrite D3. auto.
    + constructor; auto. cbn [h_c]. split; auto. split; [split; congruence|]. split; [exact (condition_p _ vs codes c' W1 E' P1 C1)|].
      intros v Hv. exact (basic_condition _ vs codes c' v W1 E' Hv C1).
    + intros i Hi. destruct (H5 i Hi) as [Y1 Y2]. specialize (C4 i Hi). cbv zeta in C4. destruct (Q M i (or_introl eq_refl) Hi) as [Q2 Q1].
      unfold q_of, t_of, lweights in *. cbn [map qprod h_q]. set (q0 := nth i (h_q M) 0%Qc) in *.
      assert (TT : target_of (mkH c' (h_Cs M) (h_q M) ps (h_idx M)) = ps).
      { unfold target_of. cbn [h_ps h_q]. destruct ps; auto. destruct G; [congruence|discriminate]. }
      rewrite TT. split; [intros Z; apply Qcmult_integral in Z as [Z|Z]; auto|]. rewrite <- Y2, C4.
      set (Qs := qprod (map (fun M : hcpm => nth i (h_q M) 0%Qc) l')) in *. set (Ts := qprod (map (fun M : hcpm => nth i (target_of M) 0%Qc) l')) in *.
      unfold lweight. destruct (touches vs (children (h_c M))); [|destruct (touches vs (c_vars (h_c M)))]; cbv zeta; rewrite <- ?Q1 by auto; fold q0; field; auto.
Qed.

Lemma qprod_nonzero (l : list Qc) : qprod l <> 0%Qc -> forall x, In x l -> x <> 0%Qc.
Proof using.
  induction l as [|y l IH]; cbn [qprod]; intros H x []; subst.
  - intros ->. apply H. ring.
  - apply IH; auto. intros Z. apply H. rewrite Z. ring.
Qed.

Lemma h_network_estimate l vs codes vars es cs l0 c : ve_ok (map h_c l) vars -> ready I G l -> (forall M, In M l -> basic_ev (c_vars (h_c M)) vs codes) ->
  (forall M i, In M l -> (i < List.length G)%nat -> nth i (h_q M) 0%Qc <> 0%Qc /\ (touches vs (children (h_c M)) = false -> touches vs (c_vars (h_c M)) = true ->
    nth i (h_q M) 0%Qc = mass (h_c M) (nth i G (fun _ => 0)))) ->
  op_condition (map h_c l) (Vars vs) (map SI codes) = Ok l0 -> variable_elim l0 vars = Ok c ->
  ev_ok (c_vars c) es cs -> es <> [] -> codes_small es cs ->
  exists l' M cov2, h_op_condition l vs (map SI codes) = Ok l' /\ map h_c l' = l0 /\ h_variable_elim l' vars = Ok M /\ h_c M = c /\ sampled I G M /\
    get_prob_and_cov M es (map SI cs) MLE true 0 =
    Ok ((total (fun row => hits (c_vars c) row es cs) c +
         (1 - qsum (c_p c)) * (qsum (map (fun a => if ev_match (c_vars c) es cs a then lweights vs codes (map h_c l) a else 0%Qc) G) / qz (Z.of_nat (List.length G))))%Qc, cov2).
Proof using All.
  intros V R E Q OC VE EE NE CS. pose proof V as ([V1 _] & V2 & _).
  destruct (h_op_condition_ok l vs codes V1 V2 R E Q) as (l' & H1 & H2 & H3 & H4 & H5). assert (EL : map h_c l' = l0) by congruence. subst l0.
  pose proof (ve_ok_map _ _ _ V H4) as V'.
  destruct (h_variable_elim_ok I G NI LI NG l' vars c V' H3 VE) as (M & EM & HM & SM & WM).
  destruct (variable_elim_ok _ _ _ V' VE) as (Wc & _ & VC & _).
  assert (BM : basic_samples G (c_vars (h_c M))).
  { intros a v Ha Hv. rewrite HM in Hv. apply VC in Hv as [(N & HN & Hv) _]. apply in_map_iff in HN as (N' & <- & HN). destruct (H3 N' HN) as (_ & B & _). apply B; auto. }
  pose proof SM as (S1 & S2 & S3 & S4).
  destruct (mle_ok I G M es cs true 0 1 (List.length G)) as (cov2 & EP); auto; [rewrite HM; auto|rewrite HM; auto| |].
  - intros x Hx. apply (In_nth _ _ 0%Qc) in Hx as (i & Hi & <-). rewrite S3 in Hi. destruct (WM i Hi) as [-> _]. apply (H5 i Hi).
  - exists l', M, cov2. split; auto. split; auto. split; auto. split; auto. split; auto. rewrite EP. do 2 f_equal. rewrite HM. f_equal.
    + unfold total. do 2 f_equal. apply filter_ext. intros rp. destruct (hits _ _ _ _); auto.
    + do 2 f_equal. unfold votes, counted, wt.
      transitivity (qsum (map (fun a => if ev_match (c_vars c) es cs a then lweights vs codes (map h_c l) a else 0%Qc) (map (fun i => nth i G (fun _ => 0)) (seq 0 (List.length G))))); [|rewrite nth_seq; auto].
      rewrite map_map. f_equal. apply map_ext_in. intros i Hi. apply in_seq in Hi.
      rewrite HM. destruct (WM i ltac:(lia)) as [-> ->]. destruct (H5 i ltac:(lia)) as [_ ->]. destruct (ev_match _ _ _ _); auto.
Qed.
End HNet.

(** ** Likelihood weighting *)
Lemma evidence_set vs codes a v x : In v vs -> List.length vs = List.length codes -> forall n, evidence vs codes (set_joint a v x) n = evidence vs codes a n.
Proof.
  revert codes. induction vs as [|w vs IH]; intros [|c codes] H L n; cbn in H, L; try tauto; try lia. cbn [evidence].
  destruct (String.eqb_spec n (v_name w)) as [|D]; auto. destruct H as [->|H]; [|apply IH; auto; lia].
  clear -D. revert codes. induction vs as [|w' vs IH]; intros [|c codes]; cbn [evidence]; try (unfold set_joint; destruct (String.eqb_spec n (v_name v)); congruence).
  destruct (String.eqb n (v_name w')); auto.
Qed.
Lemma touches_false vs l v : touches vs l = false -> In v l -> ~ In (v_name v) (names vs).
Proof.
  unfold touches. intros H Hv X. rewrite <- not_true_iff_false in H. apply H. apply existsb_exists. exists v. split; auto. apply mem_str_In. auto.
Qed.

Lemma observed_total vs es : observed vs es -> forall a, marg vs (pmass es) a = 1%Qc.
Proof.
  induction 1 as [|v M vs es H1 H2 H3 H4 IH]; intros a; [reflexivity|]. cbn [marg].
  rewrite <- (H2 a). f_equal. apply map_ext. intros x.
  rewrite (marg_ext vs _ (fun b => pmass es b * mass M b)%Qc) by (intros b; unfold pmass; cbn [map qprod]; ring).
  rewrite marg_factor_list by (intros w Hw; apply mass_ignores; auto). rewrite IH. ring.
Qed.
Lemma observed_children vs es : observed vs es -> forall M, In M es -> touches vs (children M) = true.
Proof.
  induction 1 as [|v M vs es H1 H2 H3 H4 IH]; intros N HN; [destruct HN|]. destruct HN as [<-|HN].
  - rewrite H1. unfold touches. cbn [existsb]. apply orb_true_iff. left. apply mem_str_In. left. auto.
  - specialize (IH N HN). unfold touches in *. apply existsb_exists in IH as (w & I1 & I2). apply existsb_exists. exists w. split; auto.
    apply mem_str_In. apply mem_str_In in I2. right. auto.
Qed.

Lemma observed_nodup vs es : observed vs es -> NoDup (names vs).
Proof.
  induction 1 as [|v M vs es CH _ NO O IH]; [constructor|]. cbn. constructor; auto. intros X. apply in_map_iff in X as (w & E & Hw).
  apply (NO w Hw). rewrite E. apply in_map. unfold children in CH. rewrite <- (firstn_skipn (c_nch M) (c_vars M)), CH. left; auto.
Qed.
Lemma marg_ext_range l f g : NoDup (names l) -> forall a, (forall b, (forall v, In v l -> 0 <= b (v_name v) < nvals v) -> f b = g b) -> marg l f a = marg l g a.
Proof.
  intros N. assert (K : forall a, (forall b, (forall n, ~ In n (names l) -> b n = a n) -> (forall v, In v l -> 0 <= b (v_name v) < nvals v) -> f b = g b) -> marg l f a = marg l g a).
  { induction l as [|v l IH]; intros a H; cbn [marg]; [apply H; [auto|intros v []]|]. inversion N as [|? ? N1 N2]; subst. f_equal. apply map_ext_in. intros x Hx. apply In_zrange in Hx.
    apply IH; auto. intros b Hb Hr. apply H.
    - intros n Hn. rewrite Hb by (intros X; apply Hn; right; auto). unfold set_joint. destruct (String.eqb_spec n (v_name v)) as [->|]; auto. exfalso. apply Hn. left. auto.
    - intros w [<-|Hw]; auto. rewrite Hb by auto. unfold set_joint. rewrite String.eqb_refl. lia. }
  intros a H. apply K. auto.
Qed.
Lemma lw_inner vs codes es rs f a : observed vs es -> List.length vs = List.length codes ->
  (forall M, In M rs -> touches vs (children M) = false) ->
  (forall M b, In M rs -> (forall v, In v vs -> 0 <= b (v_name v) < nvals v) -> mass M b = 0%Qc -> mass M (evidence vs codes b) = 0%Qc) ->
  (forall b, f (evidence vs codes b) = f b) -> (forall b b', (forall n, b n = b' n) -> f b = f b') ->
  marg vs (fun b => pmass (es ++ rs) b * lweights vs codes (es ++ rs) b * f b)%Qc a =
  (pmass (es ++ rs) (evidence vs codes a) * f a)%Qc.
Proof.
  intros O L NC SU F FE.
  set (g := fun b => (pmass (es ++ rs) (evidence vs codes b) * f b)%Qc).
  assert (IG : forall v, In v vs -> ignores v g).
  { intros v Hv b x. unfold g. rewrite <- (F (set_joint b v x)), <- (F b). f_equal.
    - apply pmass_ext. intros n. apply evidence_set; auto.
    - apply FE. intros n. apply evidence_set; auto. }
  rewrite (marg_ext_range vs _ (fun b => pmass es b * g b)%Qc (observed_nodup vs es O)).
  - rewrite marg_factor_list by auto. rewrite (observed_total vs es O). unfold g. ring.
  - intros b RG. unfold g. assert (A1 : forall l1 l2, pmass (l1 ++ l2) b = (pmass l1 b * pmass l2 b)%Qc).
    { intros l1 l2. unfold pmass. induction l1 as [|M l1 IH]; cbn [map app qprod]; [ring|]. rewrite IH. ring. }
    assert (A2 : forall l1 l2, lweights vs codes (l1 ++ l2) b = (lweights vs codes l1 b * lweights vs codes l2 b)%Qc).
    { intros l1 l2. unfold lweights. induction l1 as [|M l1 IH]; cbn [map app qprod]; [ring|]. rewrite IH. ring. }
    assert (A3 : forall l1 l2 d, pmass (l1 ++ l2) d = (pmass l1 d * pmass l2 d)%Qc).
    { intros l1 l2 d. unfold pmass. induction l1 as [|M l1 IH]; cbn [map app qprod]; [ring|]. rewrite IH. ring. }
    rewrite A2, A3, (A3 es rs (evidence vs codes b)).
    assert (X1 : lweights vs codes es b = pmass es (evidence vs codes b)).
    { unfold lweights, pmass. f_equal. apply map_ext_in. intros M HM. unfold lweight. rewrite (observed_children vs es O M HM). auto. }
    assert (X2 : (pmass rs b * lweights vs codes rs b = pmass rs (evidence vs codes b))%Qc).
    { unfold lweights, pmass. clear -NC SU RG. induction rs as [|M rs IH]; cbn [map qprod]; [ring|].
      rewrite <- IH; [|intros N HN; apply NC; right; auto|intros N d HN; apply SU; right; auto].
      unfold lweight at 1. rewrite (NC M (or_introl eq_refl)). destruct (touches vs (c_vars M)) eqn:T.
      - cbv zeta. destruct (Qc_eq_dec (mass M b) 0) as [Z|Z].
        + rewrite (SU M b (or_introl eq_refl) RG Z), Z. ring.
        + field. auto.
      - rewrite (mass_ext M (evidence vs codes b) b); [ring|]. intros v Hv. apply evidence_out. apply (touches_false vs (c_vars M)); auto. }
    rewrite X1, <- X2. ring.
Qed.

(** ** The Bayesian estimate with unit weights *)
Lemma bayes_ok I G M vs codes flag : wf_cpm (h_c M) -> sampled I G M -> basic_samples G (c_vars (h_c M)) -> ev_ok (c_vars (h_c M)) vs codes ->
  vs <> [] -> codes_small vs codes -> G <> [] -> h_ps M = [] -> (forall x, In x (h_q M) -> x <> 0%Qc) ->
  let low := total (fun row => Bool.eqb (hits (c_vars (h_c M)) row vs codes) flag) (h_c M) in
  let u := (1 - qsum (c_p (h_c M)))%Qc in
  let n := Z.of_nat (List.length G) in
  let k := Z.of_nat (List.length (filter (fun a => Bool.eqb flag (ev_match (c_vars (h_c M)) vs codes a)) G)) in
  get_prob_and_cov M vs (map SI codes) Bayesian flag 0 = Ok (post_mean low u n k, post_cov2 low u n k).
Proof.
  intros W S B E NE CS NG HP NZ low u n k. unfold get_prob_and_cov. rewrite get_prob_spec by auto. cbn [bind]. fold low.
  pose proof S as (S1 & S2 & S3 & S4). cbn [rounds bind].
  destruct (h_Cs M) as [|c0 Cs] eqn:EC; [destruct G; [congruence|discriminate]|]. rewrite <- EC in *.
  assert (LG : List.length (h_Cs M) = List.length G) by (rewrite S2, map_length; auto). rewrite LG.
  cbn [seq mapM]. rewrite (round_weights_ok I G M vs codes flag (List.length G) 0 1); auto; [|lia]. cbn [bind map].
  fold u. unfold block. cbn [Nat.mul skipn].
  pose proof (target_length _ _ _ S) as T.
  assert (RT : ratios M = map (fun _ => 1%Qc) G).
  { unfold ratios, target_of. rewrite HP, same_ratio by auto. clear -S3. revert S3. generalize (h_q M). induction G as [|a g IH]; intros [|x q] L; cbn in L; try lia; auto.
    cbn. f_equal. apply IH. lia. }
  assert (RK : qsum (kept_ratios M G vs codes flag) = qz k).
  { unfold kept_ratios. rewrite RT. unfold k. clear. induction G as [|a g IH]; [reflexivity|]. cbn [map combine fst snd filter]. destruct (Bool.eqb flag _).
    - cbn [qsum List.length]. rewrite IH, qz_S. reflexivity.
    - cbn [qsum]. rewrite IH. ring. }
  assert (N0 : qz n <> 0%Qc).
  { unfold n. destruct G as [|g0 G0]; [congruence|]. intros Z.
    assert (X : (0 < qz (Z.of_nat (List.length (g0 :: G0))))%Qc) by (apply qz_pos; cbn [List.length]; lia). rewrite Z in X. discriminate X. }
  rewrite RT, !firstn_all2 by (unfold kept_ratios; rewrite ?map_length, ?combine_length; lia).
  assert (BR : bayes_round (map (fun _ => 1%Qc) G, kept_ratios M G vs codes flag) = (qz k, qz n)).
  { unfold bayes_round. cbn [fst snd]. rewrite map_length. fold n.
    assert (S1' : forall l : list joint, qsum (map (fun _ => 1%Qc) l) = qz (Z.of_nat (List.length l))).
    { induction l as [|x l IH]; [reflexivity|]. cbn [map qsum List.length]. rewrite IH, qz_S. reflexivity. }
    rewrite map_map. replace (1 * 1)%Qc with 1%Qc by ring. rewrite !S1'. fold n.
    assert (NE1 : (qz n * (qz n / qz n * (qz n / qz n)) / (qz n / qz n) = qz n)%Qc) by (rewrite !Qcdiv_same by auto; field; discriminate).
    rewrite NE1. f_equal. rewrite <- RK. f_equal. transitivity (map (fun x : Qc => x) (kept_ratios M G vs codes flag)); [|apply map_id]. apply map_ext. intros x. field. auto. }
  rewrite BR. cbn [map qsum fst snd]. unfold post_cov2, post_mean, bayes_prior.
  assert (A1 : (Q2Qc (1 # 100) + (qz k + 0) + (Q2Qc (1 # 100) + (qz n - qz k + 0)) = qz n + Q2Qc (1 # 50))%Qc).
  { replace (Q2Qc (1 # 50)) with (Q2Qc (1 # 100) + Q2Qc (1 # 100))%Qc by (apply Qc_is_canon; reflexivity). ring. }
  rewrite !A1.
  replace (Q2Qc (1 # 100) + (qz k + 0))%Qc with (qz k + Q2Qc (1 # 100))%Qc by ring.
  replace (Q2Qc (1 # 100) + (qz n - qz k + 0))%Qc with (qz n - qz k + Q2Qc (1 # 100))%Qc by ring. reflexivity.
Qed.
