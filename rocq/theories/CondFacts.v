(** Percentiles, ratios of draws, effective sizes. *)
From Coq Require Import ZArith List String Bool Arith Lia QArith Qcanon Qround Permutation Sorted Field.
From Verif Require Import Py PyFacts Num Vari VariFacts Cpm SpecCpm CpmFacts CpmCond CpmMarg CpmProb Hybrid SpecHyb HybFacts HybEst NetSys McsFacts CondEst SpecCond.
Import ListNotations.
Open Scope string_scope.
Open Scope Z_scope.
Open Scope list_scope.

(** ** Sorted lists *)
Lemma sort_sorted (l : list Qc) : StronglySorted Qcle (sort_desc qc_ltb l).
Proof.
  assert (H := sort_desc_sorted qc_ltb l). assert (S : StronglySorted (fun x y => qc_ltb y x = false) (sort_desc qc_ltb l)).
  { apply H.
    - intros x y E. apply qc_ltb_lt in E. apply qc_ltb_ge. apply Qclt_le_weak. auto.
    - intros x y z E1 E2. apply qc_ltb_ge in E1, E2. apply qc_ltb_ge. eapply Qcle_trans; eauto. }
  revert S. generalize (sort_desc qc_ltb l). clear. induction 1 as [|a l S IH F]; constructor; auto.
  rewrite Forall_forall in *. intros y Hy. apply qc_ltb_ge. auto.
Qed.
Lemma sorted_nth (s : list Qc) : StronglySorted Qcle s -> forall i k, (i <= k)%nat -> (k < List.length s)%nat -> (nth i s 0 <= nth k s 0)%Qc.
Proof.
  induction 1 as [|a s S IH F]; intros i k L1 L2; [cbn in L2; lia|]. destruct i as [|i], k as [|k]; cbn [nth List.length] in *; [qc_lra| |lia|].
  - rewrite Forall_forall in F. apply F, nth_In. lia.
  - apply IH; lia.
Qed.
Lemma sorted_perm_eq (l1 l2 : list Qc) : StronglySorted Qcle l1 -> StronglySorted Qcle l2 -> Permutation l1 l2 -> l1 = l2.
Proof.
  revert l2. induction l1 as [|a l1 IH]; intros [|b l2] S1 S2 P; auto.
  - apply Permutation_nil in P. discriminate.
  - symmetry in P. apply Permutation_nil in P. discriminate.
  - inversion_clear S1 as [|? ? S1' F1]. inversion_clear S2 as [|? ? S2' F2]. rewrite Forall_forall in F1, F2.
    assert (a = b).
    { apply Qcle_antisym.
      - assert (I : In b (a :: l1)) by (apply (Permutation_in b (Permutation_sym P)); left; auto). destruct I as [->|I]; [apply Qcle_refl|auto].
      - assert (I : In a (b :: l2)) by (apply (Permutation_in a P); left; auto). destruct I as [->|I]; [apply Qcle_refl|auto]. }
    subst b. f_equal. apply IH; auto. apply Permutation_cons_inv in P. auto.
Qed.

(** ** Percentiles *)
Lemma floor_le (h : Qc) : (qz (Qfloor (this h)) <= h)%Qc.
Proof. unfold Qcle. rewrite qz_this. apply Qfloor_le. Qed.
Lemma floor_lt (h : Qc) : (h < qz (Qfloor (this h)) + 1)%Qc.
Proof. unfold Qclt. rewrite qc_this_plus, qc_this_1, qz_this. change 1%Q with (inject_Z 1). rewrite <- inject_Z_plus. apply Qlt_floor. Qed.
Lemma qz_lt_inv a b : (qz a < qz b)%Qc -> a < b.
Proof. unfold Qclt. rewrite !qz_this. rewrite <- Zlt_Qlt. auto. Qed.
Lemma qz_le_inv a b : (qz a <= qz b)%Qc -> a <= b.
Proof. unfold Qcle. rewrite !qz_this. rewrite <- Zle_Qle. auto. Qed.
Lemma qz_1 : qz 1 = 1%Qc.
Proof. apply Qc_is_canon. reflexivity. Qed.
Lemma qz_plus a b : qz (a + b) = (qz a + qz b)%Qc.
Proof. apply Qc_is_canon. rewrite qc_this_plus, !qz_this. rewrite inject_Z_plus. reflexivity. Qed.

Lemma percentile_ok l t : l <> [] -> (0 <= t)%Qc -> (t <= 1)%Qc -> percentile_of l t (percentile l t).
Proof.
  intros NE T0 T1. unfold percentile. set (s := sort_desc qc_ltb l). set (h := ((qz (Z.of_nat (List.length l)) - 1) * t)%Qc). set (z := Qfloor (this h)).
  assert (N1 : (1 <= qz (Z.of_nat (List.length l)))%Qc) by (rewrite <- qz_1; apply qz_le; destruct l; [congruence|cbn [List.length]; lia]).
  assert (H0 : (0 <= h)%Qc) by (apply qcmult_nonneg; auto; qc_lra).
  assert (H1 : (h <= qz (Z.of_nat (List.length l)) - 1)%Qc).
  { unfold h. rewrite <- (Qcmult_1_r (qz (Z.of_nat (List.length l)) - 1)) at 2. apply qcmult_le_l; auto. qc_lra. }
  pose proof (floor_le h) as F1. pose proof (floor_lt h) as F2. fold z in F1, F2.
  assert (Z0 : 0 <= z).
  { apply Zlt_succ_le. apply qz_lt_inv. unfold Z.succ. rewrite qz_plus, qz_1. eapply Qcle_lt_trans; [|exact F2]. exact H0. }
  assert (Zn : z <= Z.of_nat (List.length l) - 1) by (apply qz_le_inv; rewrite qz_minus, qz_1; eapply Qcle_trans; eauto).
  exists s, (Z.to_nat z). split; [apply sort_desc_perm|]. split; [apply sort_sorted|]. cbv zeta. fold h. rewrite Z2Nat.id by auto. split; [auto|]. split; [auto|].
  assert (Ls : List.length s = List.length l) by (apply Permutation_length, sort_desc_perm).
  destruct (Z.eq_dec z (Z.of_nat (List.length l) - 1)) as [E|E].
  - right. split; [lia|]. rewrite (nth_overflow s (nth (Z.to_nat z) s 0%Qc) (n := S (Z.to_nat z))) by lia. ring.
  - left. split; [lia|]. rewrite (nth_indep s (nth (Z.to_nat z) s 0%Qc) 0%Qc (n := S (Z.to_nat z))) by lia. ring.
Qed.

(** a percentile is between neighbours *)
Lemma interp_between (x y g : Qc) : (x <= y)%Qc -> (0 <= g)%Qc -> (g <= 1)%Qc -> (x <= (1 - g) * x + g * y)%Qc /\ ((1 - g) * x + g * y <= y)%Qc.
Proof.
  intros H G0 G1. assert (A : (0 <= g * (y - x))%Qc) by (apply qcmult_nonneg; auto; qc_lra). assert (B : (0 <= (1 - g) * (y - x))%Qc) by (apply qcmult_nonneg; qc_lra).
  split; [replace ((1 - g) * x + g * y)%Qc with (x + g * (y - x))%Qc by ring|replace ((1 - g) * x + g * y)%Qc with (y - (1 - g) * (y - x))%Qc by ring].
  - revert A. generalize (g * (y - x))%Qc. intros. qc_lra.
  - revert B. generalize ((1 - g) * (y - x))%Qc. intros. qc_lra.
Qed.
Lemma percentile_near l t v : percentile_of l t v ->
  exists s j, Permutation s l /\ StronglySorted Qcle s /\ (j < List.length s)%nat /\ (nth j s 0 <= v)%Qc /\
    ((S j < List.length s)%nat -> (v <= nth (S j) s 0)%Qc) /\ ((S j = List.length s)%nat -> v = nth j s 0%Qc) /\
    let h := ((qz (Z.of_nat (List.length l)) - 1) * t)%Qc in (qz (Z.of_nat j) <= h)%Qc /\ (h < qz (Z.of_nat j) + 1)%Qc /\
    ((S j < List.length s)%nat -> v = ((1 - (h - qz (Z.of_nat j))) * nth j s 0 + (h - qz (Z.of_nat j)) * nth (S j) s 0)%Qc).
Proof.
  intros (s & j & P & S & H). cbv zeta in H. destruct H as (H1 & H2 & H). exists s, j. assert (L := Permutation_length P).
  split; auto. split; auto. rewrite L. cbv zeta. split; [destruct H as [[H _]|[H _]]; lia|].
  set (h := ((qz (Z.of_nat (List.length l)) - 1) * t)%Qc) in *.
  destruct H as [[Hj E]|[Hj E]].
  - assert (B := interp_between (nth j s 0%Qc) (nth (Datatypes.S j) s 0%Qc) (h - qz (Z.of_nat j))%Qc (sorted_nth s S j (Datatypes.S j) ltac:(lia) ltac:(lia)) ltac:(qc_lra) ltac:(qc_lra)).
    rewrite <- E in B. repeat split; auto; try tauto. lia.
  - rewrite E. repeat split; auto; try lia. qc_lra.
Qed.

Lemma count_perm {A} (f : A -> bool) l1 l2 : Permutation l1 l2 -> List.length (filter f l1) = List.length (filter f l2).
Proof. induction 1; cbn [filter]; auto; try congruence; [destruct (f x); cbn; congruence|destruct (f x), (f y); cbn; congruence]. Qed.
Lemma filter_none {A} (f : A -> bool) l : (forall x, In x l -> f x = false) -> filter f l = [].
Proof. induction l as [|a l IH]; intros H; auto. cbn [filter]. rewrite (H a) by (left; auto). apply IH. intros x Hx. apply H. right; auto. Qed.
Lemma filter_len {A} (f : A -> bool) l : (List.length (filter f l) <= List.length l)%nat.
Proof. induction l as [|a l IH]; cbn [filter]; auto. destruct (f a); cbn [List.length]; lia. Qed.
Lemma In_nth_firstn (s : list Qc) k x : In x (firstn k s) -> exists i, (i < k)%nat /\ (i < List.length s)%nat /\ x = nth i s 0%Qc.
Proof.
  revert s. induction k as [|k IH]; intros [|a s] H; cbn [firstn] in H; try destruct H as [H|H]; try (destruct H; fail).
  - exists O. cbn. subst. repeat split; lia.
  - destruct (IH s H) as (i & L1 & L2 & E). exists (S i). cbn. repeat split; auto; lia.
Qed.
Lemma In_nth_skipn (s : list Qc) k x : In x (skipn k s) -> exists i, (k <= i)%nat /\ (i < List.length s)%nat /\ x = nth i s 0%Qc.
Proof.
  revert s. induction k as [|k IH]; intros s H; cbn [skipn] in H.
  - apply (In_nth _ _ 0%Qc) in H as (i & L & E). exists i. repeat split; auto; lia.
  - destruct s as [|a s]; [destruct H|]. destruct (IH s H) as (i & L1 & L2 & E). exists (S i). cbn. repeat split; auto; lia.
Qed.

Lemma few_below l t v : percentile_of l t v ->
  (qz (Z.of_nat (List.length (filter (fun x => qc_ltb x v) l))) <= (qz (Z.of_nat (List.length l)) - 1) * t + 1)%Qc.
Proof.
  intros H. apply percentile_near in H as (s & j & P & S & Lj & Lo & Up & Ed & H). cbv zeta in H. destruct H as (H1 & _).
  rewrite <- (count_perm _ _ _ P). set (h := ((qz (Z.of_nat (List.length l)) - 1) * t)%Qc) in *.
  assert (K : (List.length (filter (fun x => qc_ltb x v) s) <= Datatypes.S j)%nat).
  { rewrite <- (firstn_skipn (Datatypes.S j) s), filter_app, app_length. rewrite (filter_none _ (skipn (Datatypes.S j) s)).
    - cbn [List.length]. pose proof (filter_len (fun x => qc_ltb x v) (firstn (Datatypes.S j) s)). rewrite firstn_length in H. lia.
    - intros x Hx. apply In_nth_skipn in Hx as (i & L1 & L2 & ->). apply qc_ltb_ge. eapply Qcle_trans; [apply Up; lia|]. apply sorted_nth; auto. }
  apply (Qcle_trans _ (qz (Z.of_nat (Datatypes.S j)))); [apply qz_le; lia|]. rewrite Nat2Z.inj_succ. unfold Z.succ. rewrite qz_plus, qz_1. qc_lra.
Qed.
Lemma few_above l t v : percentile_of l t v ->
  (qz (Z.of_nat (List.length (filter (fun x => qc_ltb v x) l))) < qz (Z.of_nat (List.length l)) - (qz (Z.of_nat (List.length l)) - 1) * t)%Qc.
Proof.
  intros H. apply percentile_near in H as (s & j & P & S & Lj & Lo & Up & Ed & H). cbv zeta in H. destruct H as (_ & H2 & _).
  rewrite <- (count_perm _ _ _ P). assert (L := Permutation_length P). rewrite <- L in *. set (h := ((qz (Z.of_nat (List.length s)) - 1) * t)%Qc) in *.
  assert (K : (List.length (filter (fun x => qc_ltb v x) s) <= List.length s - Datatypes.S j)%nat).
  { rewrite <- (firstn_skipn (Datatypes.S j) s) at 1. rewrite filter_app, app_length. rewrite (filter_none _ (firstn (Datatypes.S j) s)).
    - cbn [List.length]. pose proof (filter_len (fun x => qc_ltb v x) (skipn (Datatypes.S j) s)). rewrite skipn_length in H. lia.
    - intros x Hx. apply In_nth_firstn in Hx as (i & L1 & L2 & ->). apply qc_ltb_ge. eapply Qcle_trans; [|exact Lo]. apply sorted_nth; auto. lia. }
  apply (Qcle_lt_trans _ (qz (Z.of_nat (List.length s) - Z.of_nat (Datatypes.S j)))); [apply qz_le; lia|]. rewrite qz_minus, Nat2Z.inj_succ. unfold Z.succ. rewrite qz_plus, qz_1. clearbody h. revert H2. generalize (qz (Z.of_nat j)) (qz (Z.of_nat (List.length s))). intros a b ?. replace (b - (a + 1))%Qc with (b - a - 1)%Qc by ring. qc_lra.
Qed.
Lemma coverage l t1 t2 lo hi : percentile_of l t1 lo -> percentile_of l t2 hi ->
  ((qz (Z.of_nat (List.length l)) - 1) * (t2 - t1) - 1 <= qz (Z.of_nat (inside lo hi l)))%Qc.
Proof.
  intros H1 H2. apply few_below in H1. apply few_above in H2.
  assert (C : (List.length l <= inside lo hi l + List.length (filter (fun x => qc_ltb x lo) l) + List.length (filter (fun x => qc_ltb hi x) l))%nat).
  { unfold inside. clear. induction l as [|x l IH]; [cbn; lia|]. cbn [filter List.length].
    destruct (qc_leb lo x) eqn:A.
    - destruct (qc_leb x hi) eqn:B; cbn [andb]; [destruct (qc_ltb x lo), (qc_ltb hi x); cbn [List.length]; lia|].
      apply qc_leb_gt, qc_ltb_lt in B. rewrite B. destruct (qc_ltb x lo); cbn [List.length]; lia.
    - apply qc_leb_gt, qc_ltb_lt in A. rewrite A. cbn [andb]. destruct (qc_ltb hi x); cbn [List.length]; lia. }
  apply inj_le, qz_le in C. rewrite !Nat2Z.inj_add, !qz_plus in C. replace ((qz (Z.of_nat (List.length l)) - 1) * (t2 - t1))%Qc with ((qz (Z.of_nat (List.length l)) - 1) * t2 - (qz (Z.of_nat (List.length l)) - 1) * t1)%Qc by ring.
  set (x1 := ((qz (Z.of_nat (List.length l)) - 1) * t1)%Qc) in *. set (x2 := ((qz (Z.of_nat (List.length l)) - 1) * t2)%Qc) in *. clearbody x1 x2. qc_lra.
Qed.

Lemma percentile_range l t v lb ub : percentile_of l t v -> (forall x, In x l -> (lb <= x)%Qc /\ (x <= ub)%Qc) -> (lb <= v)%Qc /\ (v <= ub)%Qc.
Proof.
  intros H B. apply percentile_near in H as (s & j & P & S & Lj & Lo & Up & Ed & _).
  assert (Bs : forall i, (i < List.length s)%nat -> (lb <= nth i s 0)%Qc /\ (nth i s 0 <= ub)%Qc) by (intros i Li; apply B, (Permutation_in _ P), nth_In; auto).
  split; [eapply Qcle_trans; [apply (Bs j Lj)|auto]|]. destruct (Nat.eq_dec (Datatypes.S j) (List.length s)) as [E|E].
  - rewrite (Ed E). apply Bs; auto.
  - eapply Qcle_trans; [apply Up; lia|]. apply Bs. lia.
Qed.
Lemma percentile_below l t v ub : percentile_of l t v -> (forall x, In x l -> (x < ub)%Qc) -> (v < ub)%Qc.
Proof.
  intros H B. apply percentile_near in H as (s & j & P & S & Lj & Lo & Up & Ed & _).
  assert (Bs : forall i, (i < List.length s)%nat -> (nth i s 0 < ub)%Qc) by (intros i Li; apply B, (Permutation_in _ P), nth_In; auto).
  destruct (Nat.eq_dec (Datatypes.S j) (List.length s)) as [E|E].
  - rewrite (Ed E). apply Bs; auto.
  - eapply Qcle_lt_trans; [apply Up; lia|]. apply Bs. lia.
Qed.
Lemma percentile_mono l t1 t2 v1 v2 : percentile_of l t1 v1 -> percentile_of l t2 v2 -> (t1 <= t2)%Qc -> (v1 <= v2)%Qc.
Proof.
  intros H1 H2 T. apply percentile_near in H1 as (s & j & P & S & Lj & Lo & Up & Ed & H1). apply percentile_near in H2 as (s' & j' & P' & S' & Lj' & Lo' & Up' & Ed' & H2).
  assert (s' = s) by (apply sorted_perm_eq; auto; transitivity l; auto; symmetry; auto). subst s'. cbv zeta in H1, H2.
  assert (L := Permutation_length P). set (m := (qz (Z.of_nat (List.length l)) - 1)%Qc) in *.
  assert (M0 : (0 <= m)%Qc) by (unfold m; assert (X : (qz 1 <= qz (Z.of_nat (List.length l)))%Qc) by (apply qz_le; lia); rewrite qz_1 in X; qc_lra).
  assert (HT : (m * t1 <= m * t2)%Qc) by (apply qcmult_le_l; auto).
  destruct H1 as (A1 & A2 & A3), H2 as (B1 & B2 & B3). set (h1 := (m * t1)%Qc) in *. set (h2 := (m * t2)%Qc) in *.
  assert (J : (j <= j')%nat).
  { assert (X : (qz (Z.of_nat j) < qz (Z.of_nat j' + 1))%Qc) by (rewrite qz_plus, qz_1; qc_lra). apply qz_lt_inv in X. lia. }
  destruct (Nat.eq_dec j j') as [->|Nj].
  - destruct (Nat.eq_dec (Datatypes.S j') (List.length s)) as [E|E]; [rewrite (Ed E), (Ed' E); apply Qcle_refl|].
    rewrite A3, B3 by lia. assert (Y := sorted_nth s S j' (Datatypes.S j') ltac:(lia) ltac:(lia)). set (x := nth j' s 0%Qc) in *. set (y := nth (Datatypes.S j') s 0%Qc) in *.
    assert (Q : (0 <= (h2 - h1) * (y - x))%Qc) by (apply qcmult_nonneg; qc_lra).
    set (a := ((1 - (h1 - qz (Z.of_nat j'))) * x + (h1 - qz (Z.of_nat j')) * y)%Qc).
    replace ((1 - (h2 - qz (Z.of_nat j'))) * x + (h2 - qz (Z.of_nat j')) * y)%Qc with (a + (h2 - h1) * (y - x))%Qc by (unfold a; ring).
    revert Q. generalize ((h2 - h1) * (y - x))%Qc. intros. qc_lra.
  - eapply Qcle_trans; [apply Up; lia|]. eapply Qcle_trans; [|exact Lo']. apply sorted_nth; auto; lia.
Qed.
