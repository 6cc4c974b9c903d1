(** C102: the bounds of [run] in rounded arithmetic. *)
From Coq Require Import ZArith List String Bool Arith Lia QArith Qcanon Permutation.
From Verif Require Import Py Num Vari Brc SpecBrc PyFacts BrcFacts BrcProb BrcDecomp BrcRun BrcMain NetSys McsFacts Round SpecRound RoundFacts PropBrc.
Import ListNotations.
Open Scope string_scope.
Open Scope Z_scope.
Open Scope list_scope.

(** number of roundings behind a bound computed from [n] branches *)
Definition n_ops (varis : dict variable) (n : nat) : nat := (ops varis + n)%nat.

Section Main.
Variables (varis : dict variable) (probs : prob_dict) (phi : dict Z -> bool) (sys_fun : sysfun) (rs0 : ruleset) (u : Qc) (rnd : Qc -> Qc).
Hypothesis (Hw : wf_varis varis) (Hp : wf_probs varis probs) (Hs : sys_ok varis phi sys_fun).
Hypothesis (R0 : wf_rules varis rs0) (T0 : sound_rules varis phi rs0).
Hypothesis (u0 : (0 <= u)%Qc) (u1 : (u <= 1)%Qc) (R : rounding u rnd).

Lemma low_near rs brs : searched varis sys_fun rs0 rs (map box_of brs) -> (forall b, In b brs -> stored_p rnd varis probs b) ->
  near u (n_ops varis (List.length brs)) (prob_event varis probs (in_failing brs)) (r_low rnd brs) /\
  near u (n_ops varis (List.length brs)) (prob_event varis probs (in_surviving brs)) (r_surv rnd brs).
Proof.
  intros H S. destruct (searched_brs varis phi sys_fun rs0 Hw Hs R0 T0 rs brs H) as [B P].
  split; apply (sum_near varis probs u rnd Hw Hp u0 u1 R); auto.
Qed.

Lemma fail_le rs brs : searched varis sys_fun rs0 rs (map box_of brs) -> labels_by_rules rs brs ->
  (prob_event varis probs (in_failing brs) <= p_fail varis probs phi)%Qc /\
  (prob_event varis probs (in_surviving brs) <= 1 - p_fail varis probs phi)%Qc.
Proof.
  intros H L. pose proof (searched_labels varis phi sys_fun rs0 Hw Hs R0 T0 rs brs H L) as SL. split.
  - apply prob_event_mono; auto. intros x Hx E. apply existsb_exists in E as (b & Hb & E). apply andb_true_iff in E as [E1 E2].
    apply st_eqb_eq in E1. destruct (SL b x Hb Hx E2) as [A _]. rewrite (A E1). auto.
  - unfold p_fail. pose proof (prob_event_compl varis probs Hp phi) as C. 
    apply Qcle_trans with (prob_event varis probs phi); [|qc_lra].
    apply prob_event_mono; auto. intros x Hx E. apply existsb_exists in E as (b & Hb & E). apply andb_true_iff in E as [E1 E2].
    apply st_eqb_eq in E1. destruct (SL b x Hb Hx E2) as [_ A]. auto.
Qed.

Lemma pf_range : (0 <= p_fail varis probs phi)%Qc /\ (p_fail varis probs phi <= 1)%Qc.
Proof.
  split; [apply prob_event_nonneg; auto|]. rewrite <- (prob_total varis probs Hp). apply prob_event_mono; auto.
Qed.

(** an upper estimate of a number that is near [x <= y <= 1] *)
Lemma near_upper n x y z : (0 <= x)%Qc -> (x <= y)%Qc -> (y <= 1)%Qc -> near u n x z ->
  (qz (Z.of_nat n) * u <= Q2Qc (1 # 2))%Qc -> (0 <= z)%Qc /\ (z <= y + (qz (Z.of_nat n) * u + qz (Z.of_nat n) * u))%Qc.
Proof.
  intros Hx Hxy Hy N T. split; [apply (near_nonneg u u1 n x z); auto|]. destruct N as [_ N].
  pose proof (high_twice u u0 n T) as H. set (t := (qz (Z.of_nat n) * u)%Qc) in *.
  assert (T0' : (0 <= t)%Qc) by (apply qcmult_nonneg; auto; apply qz_nonneg).
  apply Qcle_trans with (x * (1 + t + t))%Qc; [eapply Qcle_trans; [exact N|apply qcmult_le_l; auto]|].
  assert (X : (x * (t + t) <= 1 * (t + t))%Qc) by (apply Qcmult_le_compat_r; [apply Qcle_trans with y; auto|qc_lra]).
  replace (x * (1 + t + t))%Qc with (x + x * (t + t))%Qc by ring. replace (1 * (t + t))%Qc with (t + t)%Qc in X by ring.
  set (w := (x * (t + t))%Qc) in *. qc_lra.
Qed.

Lemma entry_bounds rs brs : searched varis sys_fun rs0 rs (map box_of brs) -> labels_by_rules rs brs ->
  (forall b, In b brs -> stored_p rnd varis probs b) ->
  let t := (qz (Z.of_nat (n_ops varis (List.length brs))) * u)%Qc in
  (t <= Q2Qc (1 # 2))%Qc ->
  (0 <= r_low rnd brs)%Qc /\ (r_low rnd brs <= p_fail varis probs phi + (t + t))%Qc /\
  (p_fail varis probs phi <= r_up rnd brs + (t + t + u))%Qc.
Proof.
  intros H L S t Ht. destruct (low_near rs brs H S) as [N1 N2]. destruct (fail_le rs brs H L) as [F1 F2]. destruct pf_range as [P0 P1].
  destruct (near_upper _ _ (p_fail varis probs phi) _ (prob_event_nonneg varis probs Hw Hp _) F1 P1 N1 Ht) as [A1 A2].
  assert (P2 : (1 - p_fail varis probs phi <= 1)%Qc) by qc_lra.
  destruct (near_upper _ _ (1 - p_fail varis probs phi)%Qc _ (prob_event_nonneg varis probs Hw Hp _) F2 P2 N2 Ht) as [B1 B2].
  fold t in A2, B2. split; auto. split; auto.
  assert (T0' : (0 <= t)%Qc) by (apply qcmult_nonneg; auto; apply qz_nonneg).
  pose proof (R (1 - r_surv rnd brs)%Qc) as Q. fold (r_up rnd brs) in Q.
  destruct (qabs_ge (r_up rnd brs - (1 - r_surv rnd brs))%Qc) as [_ Q2].
  assert (T2 : (t + t <= 1)%Qc).
  { assert (E : (Q2Qc (1 # 2) + Q2Qc (1 # 2) <= 1)%Qc) by (vm_compute; discriminate). clearbody t. revert Ht E. clear.
    generalize (Q2Qc (1 # 2)). intros w Ht E. qc_lra. }
  assert (K : (qabs (1 - r_surv rnd brs) <= 1)%Qc).
  { clear - B1 B2 P0 T2. generalize dependent (r_surv rnd brs). intros z B1 B2. set (pf := p_fail varis probs phi) in *. clearbody pf t.
    apply qabs_le; [qc_lra|]. replace (- (1 - z))%Qc with (z - 1)%Qc by ring. qc_lra. }
  assert (K2 : (u * qabs (1 - r_surv rnd brs) <= u * 1)%Qc) by (apply qcmult_le_l; auto).
  replace (u * 1)%Qc with u in K2 by ring.
  set (q := (u * qabs (1 - r_surv rnd brs))%Qc) in *. set (v := qabs (r_up rnd brs - (1 - r_surv rnd brs))%Qc) in *.
  clearbody q v t. set (a := r_up rnd brs) in *. set (z := r_surv rnd brs) in *. set (pf := p_fail varis probs phi) in *. clearbody a z pf.
  replace (- (a - (1 - z)))%Qc with (1 - z - a)%Qc in Q2 by ring. qc_lra.
Qed.

Lemma all_labelled rs brs : searched varis sys_fun rs0 rs (map box_of brs) -> labels_by_rules rs brs ->
  (forall b, In b brs -> b_up_state b = F_ \/ b_down_state b = S_) ->
  prob_event varis probs (in_failing brs) = p_fail varis probs phi /\
  prob_event varis probs (in_surviving brs) = (1 - p_fail varis probs phi)%Qc.
Proof.
  intros H L A. destruct (fail_le rs brs H L) as [F1 F2].
  assert (G : (1 <= prob_event varis probs (in_failing brs) + prob_event varis probs (in_surviving brs))%Qc).
  { rewrite <- (prob_total varis probs Hp). unfold prob_event. rewrite !qsum_filter.
    rewrite <- qsum_map_plus. apply qsum_map_le. intros x Hx.
    assert (Q : (0 <= prob_of probs x)%Qc) by (apply (prob_of_nonneg varis probs Hw Hp); auto).
    destruct (searched_brs varis phi sys_fun rs0 Hw Hs R0 T0 rs brs H) as [_ P]. specialize (P x Hx).
    destruct (filter (fun b => in_branch b x) brs) as [|b l] eqn:E; [discriminate|].
    assert (Hb : In b (filter (fun b => in_branch b x) brs)) by (rewrite E; left; auto). apply filter_In in Hb as [Hb Hin].
    assert (X : in_failing brs x = true \/ in_surviving brs x = true).
    { destruct (A b Hb) as [Lb|Lb]; [left|right]; apply existsb_exists; exists b; rewrite Lb, Hin; auto. }
    destruct (in_failing brs x), (in_surviving brs x); cbn; try qc_lra. }
  set (a := prob_event varis probs (in_failing brs)) in *. set (c := prob_event varis probs (in_surviving brs)) in *.
  set (pf := p_fail varis probs phi) in *. clearbody a c pf. split; apply Qcle_antisym; auto; qc_lra.
Qed.

Lemma near_lower n x z : (0 <= x)%Qc -> (x <= 1)%Qc -> near u n x z -> (x <= z + qz (Z.of_nat n) * u)%Qc.
Proof.
  intros Hx Hx1 [N _]. pose proof (low_bound u u0 u1 n) as B. set (t := (qz (Z.of_nat n) * u)%Qc) in *.
  assert (T0' : (0 <= t)%Qc) by (apply qcmult_nonneg; auto; apply qz_nonneg).
  assert (X : (x * (1 - t) <= z)%Qc) by (eapply Qcle_trans; [apply qcmult_le_l; [exact Hx|exact B]|exact N]).
  assert (Y : (x * t <= 1 * t)%Qc) by (apply Qcmult_le_compat_r; auto).
  replace (x * (1 - t))%Qc with (x - x * t)%Qc in X by ring. replace (1 * t)%Qc with t in Y by ring.
  clearbody t. set (w := (x * t)%Qc) in *. qc_lra.
Qed.

Lemma closed_bounds rs brs : searched varis sys_fun rs0 rs (map box_of brs) -> labels_by_rules rs brs ->
  (forall b, In b brs -> stored_p rnd varis probs b) ->
  (forall b, In b brs -> b_up_state b = F_ \/ b_down_state b = S_) ->
  let t := (qz (Z.of_nat (n_ops varis (List.length brs))) * u)%Qc in
  (t <= Q2Qc (1 # 2))%Qc ->
  (p_fail varis probs phi - t <= r_low rnd brs)%Qc /\ (r_up rnd brs <= p_fail varis probs phi + (t + u))%Qc.
Proof.
  intros H L S A t Ht. destruct (low_near rs brs H S) as [N1 N2]. destruct (all_labelled rs brs H L A) as [E1 E2]. destruct pf_range as [P0 P1].
  rewrite E1 in N1. rewrite E2 in N2.
  assert (Q0 : (0 <= 1 - p_fail varis probs phi)%Qc) by qc_lra. assert (Q1 : (1 - p_fail varis probs phi <= 1)%Qc) by qc_lra.
  pose proof (near_lower _ _ _ P0 P1 N1) as A1. pose proof (near_lower _ _ _ Q0 Q1 N2) as A2.
  destruct (near_upper _ _ (1 - p_fail varis probs phi)%Qc _ Q0 (Qcle_refl _) Q1 N2 Ht) as [B1 B2].
  fold t in A1, A2, B2. assert (T0' : (0 <= t)%Qc) by (apply qcmult_nonneg; auto; apply qz_nonneg).
  pose proof (R (1 - r_surv rnd brs)%Qc) as Q. fold (r_up rnd brs) in Q.
  destruct (qabs_ge (r_up rnd brs - (1 - r_surv rnd brs))%Qc) as [Q2 _].
  assert (T2 : (t + t <= 1)%Qc).
  { assert (E : (Q2Qc (1 # 2) + Q2Qc (1 # 2) <= 1)%Qc) by (vm_compute; discriminate). clearbody t. revert Ht E. clear.
    generalize (Q2Qc (1 # 2)). intros w Ht E. qc_lra. }
  assert (K : (qabs (1 - r_surv rnd brs) <= 1)%Qc).
  { clear - B1 B2 P0 T2. generalize dependent (r_surv rnd brs). intros z B1 B2. set (pf := p_fail varis probs phi) in *. clearbody pf t.
    apply qabs_le; [qc_lra|]. replace (- (1 - z))%Qc with (z - 1)%Qc by ring. qc_lra. }
  assert (K2 : (u * qabs (1 - r_surv rnd brs) <= u * 1)%Qc) by (apply qcmult_le_l; auto).
  replace (u * 1)%Qc with u in K2 by ring.
  set (q := (u * qabs (1 - r_surv rnd brs))%Qc) in *. set (v := qabs (r_up rnd brs - (1 - r_surv rnd brs))%Qc) in *.
  clearbody q v t. set (a := r_up rnd brs) in *. set (z := r_surv rnd brs) in *. set (pf := p_fail varis probs phi) in *.
  set (lo := r_low rnd brs) in *. clearbody a z pf lo.
  replace (a - (1 - z))%Qc with (a - 1 + z)%Qc in Q2 by ring. split; qc_lra.
Qed.
End Main.

(** C102.  Every probability that the decomposition stores is the exact one up to [ops]
    relative errors, and so are the sums behind the bounds, for every choice of
    vectors, splits and orders. *)
Theorem C102_near varis probs phi sys_fun rs0 rs brs u rnd :
  wf_varis varis -> wf_probs varis probs -> sys_ok varis phi sys_fun ->
  wf_rules varis rs0 -> sound_rules varis phi rs0 ->
  (0 <= u)%Qc -> (u <= 1)%Qc -> rounding u rnd ->
  searched varis sys_fun rs0 rs (map box_of brs) -> (forall b, In b brs -> stored_p rnd varis probs b) ->
  (forall b, In b brs -> near u (ops varis) (prob_event varis probs (in_branch b)) (b_p b)) /\
  near u (ops varis + List.length brs) (prob_event varis probs (in_failing brs)) (r_low rnd brs) /\
  near u (ops varis + List.length brs) (prob_event varis probs (in_surviving brs)) (r_surv rnd brs).
Proof.
  intros Hw Hp Hs R0 T0 u0 u1 R H S. split; [|apply (low_near varis probs phi sys_fun rs0 u rnd Hw Hp Hs R0 T0 u0 u1 R rs brs H S)].
  intros b Hb. apply (stored_near varis probs u rnd Hw Hp u0 u1 R); auto.
  apply (proj1 (searched_brs varis phi sys_fun rs0 Hw Hs R0 T0 rs brs H)). auto.
Qed.

(** The run returns when it looks for survivals first. *)
Theorem C102_returns varis probs phi sys_fun g rules rnd :
  wf_varis varis -> wf_probs varis probs -> sys_ok varis phi sys_fun ->
  wf_rules varis (rules_arg rules) -> sound_rules varis phi (rules_arg rules) ->
  g_surv_first g = true -> exists s, r_run rnd varis probs sys_fun g rules None = Ok s.
Proof.
  intros Hw Hp Hs R0 T0 Sf.
  destruct (r_run_spec varis probs phi sys_fun (rules_arg rules) g rnd Hw Hp Hs R0 T0 rules eq_refl) as [(s & E & _)|(X & _)]; [eauto|congruence].
Qed.

(** It is one of the searches of the first theorem, whatever the rounding is: the rules and
    branches that it returns are reached by calls, splits and reordering, the labels follow
    from the rules, and the last bounds are the rounded sums. *)
Theorem C102_run varis probs phi sys_fun g rules rnd s :
  wf_varis varis -> wf_probs varis probs -> sys_ok varis phi sys_fun ->
  wf_rules varis (rules_arg rules) -> sound_rules varis phi (rules_arg rules) ->
  0 < g_max_sf g -> r_run rnd varis probs sys_fun g rules None = Ok s ->
  exists brs, s_brs s = Some brs /\ searched varis sys_fun (rules_arg rules) (s_rules s) (map box_of brs) /\
    (forall b, In b brs -> stored_p rnd varis probs b) /\ labels_by_rules (s_rules s) brs /\
    last (m_pf_low (s_mon s)) 0%Qc = r_low rnd brs /\ last (m_pf_up (s_mon s)) 0%Qc = r_up rnd brs.
Proof.
  intros Hw Hp Hs R0 T0 Hm E.
  destruct (r_run_spec varis probs phi sys_fun (rules_arg rules) g rnd Hw Hp Hs R0 T0 rules eq_refl) as [(s' & E' & _ & A)|(_ & e & X)]; [|congruence].
  rewrite E in E'. injection E' as <-. destruct (A Hm) as (brs & Eb & (S & F) & L1 & L2). cbn [fst snd] in *.
  exists brs. rewrite Forall_forall in F. split; auto. split; auto. split; [|split; [|auto]].
  - intros b Hb. apply (F b Hb).
  - intros b Hb. destruct (F b Hb) as (_ & _ & [[C1 C2] [C3 C4]]). auto.
Qed.

(** Every pair of bounds in the record of the run contains the probability of failure up
    to a multiple of the unit roundoff: the number of roundings times [2 u], and one more
    [u] above. *)
Theorem C102_bounds varis probs phi sys_fun g rules u rnd s :
  wf_varis varis -> wf_probs varis probs -> sys_ok varis phi sys_fun ->
  wf_rules varis (rules_arg rules) -> sound_rules varis phi (rules_arg rules) ->
  (0 <= u)%Qc -> (u <= 1)%Qc -> rounding u rnd ->
  r_run rnd varis probs sys_fun g rules None = Ok s ->
  forall i low up nb,
    nth_error (m_pf_low (s_mon s)) i = Some low -> nth_error (m_pf_up (s_mon s)) i = Some up ->
    nth_error (m_no_br (s_mon s)) i = Some nb ->
    let t := (qz (Z.of_nat (ops varis) + nb) * u)%Qc in
    (t <= Q2Qc (1 # 2))%Qc ->
    (0 <= low)%Qc /\ (low <= p_fail varis probs phi + (t + t))%Qc /\ (p_fail varis probs phi <= up + (t + t + u))%Qc.
Proof.
  intros Hw Hp Hs R0 T0 u0 u1 R E i low up nb E1 E2 E3 t Ht.
  destruct (r_run_spec varis probs phi sys_fun (rules_arg rules) g rnd Hw Hp Hs R0 T0 rules eq_refl) as [(s' & E' & (h & F & H1 & H2 & H3) & _)|(_ & e & X)]; [|congruence].
  rewrite E in E'. injection E' as <-. rewrite H1 in E1. rewrite H2 in E2. rewrite H3 in E3.
  apply nth_map_inv in E1 as ([rs brs] & N & ->). rewrite (map_nth_error _ _ _ N) in E2. rewrite (map_nth_error _ _ _ N) in E3. injection E2 as <-. injection E3 as <-.
  apply nth_error_In in N. rewrite Forall_forall in F. destruct (F _ N) as [S FB]. cbn [fst snd] in *. rewrite Forall_forall in FB.
  assert (Et : t = (qz (Z.of_nat (n_ops varis (List.length brs))) * u)%Qc).
  { unfold t, n_ops, len. rewrite Nat2Z.inj_add. reflexivity. }
  rewrite Et in *. apply (entry_bounds varis probs phi sys_fun (rules_arg rules) u rnd Hw Hp Hs R0 T0 u0 u1 R rs brs S); auto.
  - intros b Hb. destruct (FB b Hb) as (_ & _ & [[C1 C2] [C3 C4]]). auto.
  - intros b Hb. apply (FB b Hb).
Qed.


(** When every branch is labelled, both bounds are that close to the probability of
    failure. *)
Theorem C102_closed varis probs phi sys_fun g rules u rnd s brs :
  wf_varis varis -> wf_probs varis probs -> sys_ok varis phi sys_fun ->
  wf_rules varis (rules_arg rules) -> sound_rules varis phi (rules_arg rules) ->
  (0 <= u)%Qc -> (u <= 1)%Qc -> rounding u rnd -> 0 < g_max_sf g ->
  r_run rnd varis probs sys_fun g rules None = Ok s -> s_brs s = Some brs ->
  (forall b, In b brs -> b_up_state b = F_ \/ b_down_state b = S_) ->
  let t := (qz (Z.of_nat (ops varis + List.length brs)) * u)%Qc in
  (t <= Q2Qc (1 # 2))%Qc ->
  let low := last (m_pf_low (s_mon s)) 0%Qc in
  let up := last (m_pf_up (s_mon s)) 0%Qc in
  (qabs (low - p_fail varis probs phi) <= t + t)%Qc /\ (qabs (up - p_fail varis probs phi) <= t + t + u)%Qc.
Proof.
  intros Hw Hp Hs R0 T0 u0 u1 R Hm E Eb A t Ht low up.
  destruct (C102_run varis probs phi sys_fun g rules rnd s Hw Hp Hs R0 T0 Hm E) as (brs' & Eb' & S & St & L & E1 & E2).
  rewrite Eb in Eb'. injection Eb' as <-. unfold low, up. rewrite E1, E2.
  destruct (closed_bounds varis probs phi sys_fun (rules_arg rules) u rnd Hw Hp Hs R0 T0 u0 u1 R _ brs S L St A Ht) as [C1 C2].
  destruct (entry_bounds varis probs phi sys_fun (rules_arg rules) u rnd Hw Hp Hs R0 T0 u0 u1 R _ brs S L St Ht) as (_ & D1 & D2).
  unfold n_ops in *. fold t in C1, C2, D1, D2.
  assert (T1 : (0 <= t)%Qc) by (apply qcmult_nonneg; auto; apply qz_nonneg). clearbody t.
  set (a := r_low rnd brs) in *. set (c := r_up rnd brs) in *. set (pf := p_fail varis probs phi) in *. clearbody a c pf.
  split; apply qabs_le; [qc_lra| |qc_lra|].
  - replace (- (a - pf))%Qc with (pf - a)%Qc by ring. qc_lra.
  - replace (- (c - pf))%Qc with (pf - c)%Qc by ring. qc_lra.
Qed.

(** Without rounding the search is the one of Brc.v. *)
Theorem C102_exact varis probs sys_fun g rules brs :
  r_run (fun x => x) varis probs sys_fun g rules brs = run varis probs sys_fun g rules brs.
Proof. exact (run_exact varis probs sys_fun g rules brs). Qed.

(** * Floats with a given number of bits *)
(** the largest number with [bits] binary digits that is not above [x >= 0] *)
Definition chop_pos (bits : Z) (x : Qc) : Qc :=
  let n := Qnum (this x) in
  let d := Zpos (Qden (this x)) in
  let k := bits + Z.log2 d - Z.log2 n in
  let up := 2 ^ Z.max k 0 in
  let dn := 2 ^ Z.max (- k) 0 in
  (qz ((n * up) / (d * dn) * dn) / qz up)%Qc.
Definition chop (bits : Z) (x : Qc) : Qc := if qc_ltb x 0 then (- chop_pos bits (- x))%Qc else chop_pos bits x.

Lemma qz_mult a b : qz (a * b) = (qz a * qz b)%Qc.
Proof. apply Qc_is_canon. rewrite qc_this_mult, !qz_this, inject_Z_mult. reflexivity. Qed.

Lemma qinv_nonneg q : (0 < q)%Qc -> (0 <= / q)%Qc.
Proof. intros H. pose proof (inv_nonneg q H) as I. unfold Qcdiv in I. rewrite Qcmult_1_l in I. exact I. Qed.

Lemma qc_frac x : x = (qz (Qnum (this x)) / qz (Zpos (Qden (this x))))%Qc.
Proof.
  assert (P : (0 < qz (Zpos (Qden (this x))))%Qc) by (apply qz_pos; lia). apply qc_pos_neq in P.
  assert (E : (x * qz (Zpos (Qden (this x))) = qz (Qnum (this x)))%Qc).
  { apply Qc_is_canon. rewrite qc_this_mult, !qz_this. destruct x as [[n d] c]. cbn. unfold Qeq. cbn. lia. }
  rewrite <- E. field. exact P.
Qed.

Lemma chop_pos_ok bits x : 1 <= bits -> (0 <= x)%Qc ->
  (0 <= x - chop_pos bits x)%Qc /\ (x - chop_pos bits x <= / qz (2 ^ (bits - 1)) * x)%Qc.
Proof.
  intros Hb Hx. unfold chop_pos. cbv zeta.
  pose proof (qc_frac x) as Ex. set (n := Qnum (this x)) in *. set (d := Zpos (Qden (this x))) in *.
  assert (Hd : 0 < d) by (unfold d; lia).
  assert (Hn : 0 <= n).
  { unfold n. change (0 <= this x)%Q in Hx. unfold Qle in Hx. cbn [Qnum Qden] in Hx. lia. }
  set (k := bits + Z.log2 d - Z.log2 n). set (up := 2 ^ Z.max k 0). set (dn := 2 ^ Z.max (- k) 0).
  assert (Hup : 0 < up) by (apply Z.pow_pos_nonneg; lia). assert (Hdn : 0 < dn) by (apply Z.pow_pos_nonneg; lia).
  set (A := n * up). set (C := d * dn). assert (HC : 0 < C) by (unfold C; nia).
  assert (Pu : (0 < qz up)%Qc) by (apply qz_pos; lia). assert (Pd : (0 < qz dn)%Qc) by (apply qz_pos; lia).
  assert (PC : (0 < qz C)%Qc) by (apply qz_pos; lia). assert (Pdd : (0 < qz d)%Qc) by (apply qz_pos; lia).
  set (w := 2 ^ (bits - 1)). assert (Hwp : 0 < w) by (apply Z.pow_pos_nonneg; lia). assert (Pw : (0 < qz w)%Qc) by (apply qz_pos; lia).
  assert (Nu := qc_pos_neq _ Pu). assert (Nd := qc_pos_neq _ Pd). assert (NC := qc_pos_neq _ PC). assert (Ndd := qc_pos_neq _ Pdd). assert (Nw := qc_pos_neq _ Pw).
  assert (E1 : (x - qz (A / C * dn) / qz up = (qz A - qz C * qz (A / C)) * / (qz d * qz up))%Qc).
  { rewrite Ex. unfold A, C. rewrite !qz_mult. fold A C. field. split; auto. }
  assert (E2 : (/ qz w * x = (/ qz w * qz A) * / (qz d * qz up))%Qc).
  { rewrite Ex. unfold A. rewrite qz_mult. field. auto. }
  assert (I : (0 <= / (qz d * qz up))%Qc).
  { rewrite <- qz_mult. apply qinv_nonneg. apply qz_pos. nia. }
  assert (E3 : (qz A - qz C * qz (A / C) = qz (A mod C))%Qc).
  { rewrite <- qz_mult, <- qz_minus. f_equal. pose proof (Z.div_mod A C ltac:(lia)). lia. }
  rewrite E1, E2, E3. pose proof (Z.mod_pos_bound A C HC) as M. split.
  - apply qcmult_nonneg; auto. rewrite <- (Z2Nat.id (A mod C)) by lia. apply qz_nonneg.
  - apply Qcmult_le_compat_r; auto.
    assert (G : (A mod C) * w <= A).
    { destruct (Z.eq_dec n 0) as [Zn|Nn].
      { assert (ZA : A = 0) by (unfold A; rewrite Zn; lia). rewrite ZA, Z.mod_0_l by lia. lia. }
      assert (L1 : d < 2 ^ (Z.log2 d + 1)) by (apply Z.log2_lt_pow2; lia).
      assert (L2 : 2 ^ Z.log2 n <= n) by (apply Z.log2_spec; lia).
      pose proof (Z.log2_nonneg d) as K1. pose proof (Z.log2_nonneg n) as K2.
      assert (L3 : 2 ^ (Z.log2 d + 1) * dn * w = 2 ^ Z.log2 n * up).
      { unfold dn, w, up. rewrite <- !Z.pow_add_r by lia. f_equal. unfold k. lia. }
      assert (L4 : C * w <= A).
      { unfold C, A. apply Z.le_trans with (2 ^ (Z.log2 d + 1) * dn * w); [|rewrite L3; nia]. apply Z.mul_le_mono_nonneg_r; [lia|]. nia. }
      nia. }
    apply qz_le in G. rewrite qz_mult in G.
    replace (qz (A mod C)) with (/ qz w * (qz (A mod C) * qz w))%Qc by (field; auto).
    apply qcmult_le_l; auto. apply qinv_nonneg. auto.
Qed.

Lemma chop_rounding bits : 1 <= bits -> rounding (/ qz (2 ^ (bits - 1)))%Qc (chop bits).
Proof.
  intros Hb x. unfold chop. destruct (qc_ltb x 0) eqn:E.
  - apply qc_ltb_lt in E. assert (Hx : (0 <= - x)%Qc) by qc_lra.
    destruct (chop_pos_ok bits (- x)%Qc Hb Hx) as [A B].
    assert (Ea : qabs x = (- x)%Qc) by (unfold qabs; rewrite (proj2 (qc_ltb_lt x 0) E); auto).
    rewrite Ea. set (c := chop_pos bits (- x)%Qc) in *. replace (- c - x)%Qc with (- x - c)%Qc by ring.
    rewrite qabs_pos; auto.
  - apply qc_ltb_ge in E. destruct (chop_pos_ok bits x Hb E) as [A B]. rewrite (qabs_pos x E).
    set (c := chop_pos bits x) in *. apply qabs_le.
    + apply Qcle_trans with 0%Qc; [qc_lra|]. apply Qcle_trans with (x - c)%Qc; auto.
    + replace (- (c - x))%Qc with (x - c)%Qc by ring. auto.
Qed.

(** * Examples *)
Definition rx_cfg : config := mkCfg 20 None 0%Qc None true true.
Definition rx_dummy : rstate := mkSt None (mkRules [] []) [] (fst init_monitor) (snd init_monitor).
Definition rx_run (rnd : Qc -> Qc) : rstate :=
  match r_run rnd ex_varis ex_probs ex_sys rx_cfg None None with Ok s => s | Err _ => rx_dummy end.
Definition rx_low (rnd : Qc -> Qc) : Qc := last (m_pf_low (s_mon (rx_run rnd))) 0%Qc.
Definition rx_up (rnd : Qc -> Qc) : Qc := last (m_pf_up (s_mon (rx_run rnd))) 0%Qc.

Definition nbrs (s : rstate) : nat := match s_brs s with Some b => List.length b | None => 0%nat end.
Lemma rx_rules : wf_rules ex_varis (rules_arg None) /\ sound_rules ex_varis ex_phi (rules_arg None).
Proof. split; split; cbn; tauto. Qed.

(** With the 53 bits of a float (chopped) six branches are found as without
    rounding; behind each bound there are at most 19 roundings, and the theorem puts the
    bounds within 38 and 39 units of the last place of 1/10, the probability of failure. *)
Example ex_C102_float :
  r_run (chop 53) ex_varis ex_probs ex_sys rx_cfg None None = Ok (rx_run (chop 53)) /\
  rounding (/ qz (2 ^ 52))%Qc (chop 53) /\
  m_no_br (s_mon (rx_run (chop 53))) = [1; 2; 5; 4; 6; 6; 6] /\
  p_fail ex_varis ex_probs ex_phi = Q2Qc (1 # 10) /\ ops ex_varis = 13%nat /\
  (rx_low (chop 53) <= Q2Qc (1 # 10) + qz 38 / qz (2 ^ 52))%Qc /\
  (Q2Qc (1 # 10) <= rx_up (chop 53) + qz 39 / qz (2 ^ 52))%Qc /\
  rx_low (chop 53) = Q2Qc (14411518807585583 # 144115188075855872) /\
  rx_up (chop 53) = Q2Qc (1801439850948203 # 18014398509481984).
Proof.
  assert (E : r_run (chop 53) ex_varis ex_probs ex_sys rx_cfg None None = Ok (rx_run (chop 53))) by (vm_compute; reflexivity).
  assert (Rd : rounding (/ qz (2 ^ 52))%Qc (chop 53)) by (apply (chop_rounding 53); lia).
  assert (Pf : p_fail ex_varis ex_probs ex_phi = Q2Qc (1 # 10)) by (apply Qc_is_canon; vm_compute; reflexivity).
  split; [exact E|]. split; [exact Rd|]. split; [vm_compute; reflexivity|]. split; [exact Pf|]. split; [vm_compute; reflexivity|].
  assert (B := C102_bounds ex_varis ex_probs ex_phi ex_sys rx_cfg None (/ qz (2 ^ 52))%Qc (chop 53) (rx_run (chop 53)) ex_wf_varis ex_wf_probs
    ex_sys_ok (proj1 rx_rules) (proj2 rx_rules) ltac:(vm_compute; discriminate) ltac:(vm_compute; discriminate) Rd E 6
    (rx_low (chop 53)) (rx_up (chop 53)) 6 ltac:(vm_compute; reflexivity) ltac:(vm_compute; reflexivity) ltac:(vm_compute; reflexivity)
    ltac:(vm_compute; discriminate)).
  destruct B as (_ & B1 & B2). rewrite Pf in B1, B2.
  split; [eapply Qcle_trans; [exact B1|]; vm_compute; discriminate|].
  split; [eapply Qcle_trans; [exact B2|]; vm_compute; discriminate|].
  split; apply Qc_is_canon; vm_compute; reflexivity.
Qed.

(** With three bits the search makes other choices and ends with five branches. *)
Example ex_C102_other_choices :
  r_run (chop 3) ex_varis ex_probs ex_sys rx_cfg None None = Ok (rx_run (chop 3)) /\
  m_no_br (s_mon (rx_run (chop 3))) = [1; 2; 5; 4; 5; 5; 5] /\
  nbrs (rx_run (chop 3)) = 5%nat /\ nbrs (rx_run (fun x => x)) = 6%nat.
Proof. do 3 (split; [vm_compute; reflexivity|]). vm_compute; reflexivity. Qed.

(** The tolerance is needed: a rounding that is always one per cent too large puts the
    upper bound below the probability of failure, even below zero. *)
Definition inflate (x : Qc) : Qc := (x * (1 + Q2Qc (1 # 100)))%Qc.
Theorem C102_tolerance_needed :
  rounding (Q2Qc (1 # 100)) inflate /\
  r_run inflate ex_varis ex_probs ex_sys rx_cfg None None = Ok (rx_run inflate) /\
  (rx_up inflate < 0)%Qc /\ (0 < p_fail ex_varis ex_probs ex_phi)%Qc.
Proof.
  split.
  - intros x. unfold inflate. set (u := Q2Qc (1 # 100)). assert (U : (0 <= u)%Qc) by (vm_compute; discriminate). clearbody u.
    replace (x * (1 + u) - x)%Qc with (u * x)%Qc by ring. destruct (qabs_ge x) as [A B].
    apply qabs_le; [apply qcmult_le_l; auto|]. replace (- (u * x))%Qc with (u * (- x))%Qc by ring. apply qcmult_le_l; auto.
  - split; [vm_compute; reflexivity|]. split; vm_compute; reflexivity.
Qed.

(** All six branches of the run with 53 bits are labelled. *)
Example ex_C102_closed :
  exists brs, s_brs (rx_run (chop 53)) = Some brs /\ List.length brs = 6%nat /\
    forallb (fun b => st_eqb (b_up_state b) F_ || st_eqb (b_down_state b) S_) brs = true /\
    (qz (Z.of_nat (ops ex_varis + 6)) * / qz (2 ^ 52) <= Q2Qc (1 # 2))%Qc.
Proof. eexists. split; [vm_compute; reflexivity|]. do 2 (split; [vm_compute; reflexivity|]). vm_compute; discriminate. Qed.
