(** Final theorems about estimates of conditional probabilities (C87). *)
From Coq Require Import ZArith List String Bool Arith Lia QArith Qcanon Permutation Lqa.
From Verif Require Import Py PyFacts Num Vari VariFacts Cpm CpmFacts SpecCpm CpmCond CpmProb Hybrid SpecHyb HybFacts HybEst NetSys McsFacts CondEst SpecCond CondFacts CondRun PropCpm PropProd PropVe PropHyb.
Import ListNotations.
Open Scope string_scope.
Open Scope Z_scope.
Open Scope list_scope.

Lemma shape_pos (c x y m : Qc) : (0 < c)%Qc -> (0 <= x)%Qc -> (x <= y)%Qc -> (y <= m)%Qc ->
  (0 < c + x)%Qc /\ (0 < c + (y - x))%Qc /\ (0 < c + (m - x))%Qc /\ (0 < c + (m - (y - x)))%Qc.
Proof.
  intros. unfold Qcle, Qclt in *. repeat split; repeat progress rewrite ?qc_this_plus, ?qc_this_minus; rewrite ?qc_this_0 in *; lra.
Qed.

(** For an event that includes the condition: the reported numbers are mean, variance (divided by the squared
    mean) and percentiles of the ratios (k1 + u x1) / (k1 + u x1 + k2 + u x2).  [k1] and [k2] are the known
    probabilities of the event and of the rest of the condition, [u] is the unknown probability; [x1] and
    [x2] are drawn with the worth of the samples that count for either, plus 1/100.  The numbers are between
    0 and 1, the bounds are in order, and at least [(n - 1) p - 1] of the [n] ratios are between them. *)
Theorem C87_estimate :
  forall I G M d1 d2 vs codes cvs ccodes rep k r p n,
    in_rounds I G M rep k r -> event_in M vs codes -> event_in M cvs ccodes -> refines vs codes cvs ccodes ->
    (forall x, In x (c_p (h_c M)) -> 0 <= x)%Qc -> (qsum (c_p (h_c M)) <= 1)%Qc -> (qsum (c_p (h_c M)) < 1)%Qc \/ (0 < known M cvs ccodes)%Qc ->
    beta_draws n d1 -> beta_draws n d2 -> (1 < n)%nat -> (0 < p)%Qc -> (p < 1)%Qc ->
    let x := worth_of M G k r vs codes in
    let y := worth_of M G k r cvs ccodes in
    let m := worth M k r in
    let c := Q2Qc (1 # 100) in
    let l := rats (known M vs codes) (known M cvs ccodes - known M vs codes)%Qc (1 - qsum (c_p (h_c M)))%Qc
               (d1 (c + x)%Qc (c + (m - x))%Qc) (d2 (c + (y - x))%Qc (c + (m - (y - x)))%Qc) in
    exists mean var lo hi,
      get_prob_and_cov_cond d1 d2 M vs (map SI codes) cvs (map SI ccodes) rep p = Ok (mean, (var / (mean * mean))%Qc, (lo, hi)) /\
      List.length l = n /\ summary p l mean var lo hi /\
      (0 <= mean)%Qc /\ (mean <= 1)%Qc /\ (0 <= var)%Qc /\ (0 <= lo)%Qc /\ (lo <= hi)%Qc /\ (hi <= 1)%Qc /\
      ((qz (Z.of_nat n) - 1) * p - 1 <= qz (Z.of_nat (inside lo hi l)))%Qc.
Proof.
  intros I G M d1 d2 vs codes cvs ccodes rep k r p n ((W & S & B & NZ & NG & RP & HP) & W0 & WP) (E1 & E2 & E3) (F1 & F2 & F3) Rf P0 U KU D1 D2 N2 Q0 Q1 x y m c l.
  assert (LG : List.length G = (k * r)%nat) by (eapply len_G; eauto).
  assert (KM := known_mono M vs codes cvs ccodes P0 Rf).
  assert (K0 : (0 <= known M vs codes)%Qc) by (apply total_nonneg; auto).
  assert (WM := worth_mono M G W0 k r LG WP vs codes cvs ccodes Rf). assert (R1 := worth_range M G W0 k r LG WP vs codes). assert (R2 := worth_range M G W0 k r LG WP cvs ccodes).
  fold x in WM, R1. fold y in WM, R2. fold m in R1, R2. destruct R1 as [X0 X1], R2 as [Y0 Y1]. assert (C0 : (0 < c)%Qc) by reflexivity.
  destruct (shape_pos c x y m C0 X0 WM Y1) as (A1 & A2 & B1 & B2).
  set (u := (1 - qsum (c_p (h_c M)))%Qc) in *. assert (U0 : (0 <= u)%Qc) by (unfold u; qc_lra).
  assert (K2 : (0 <= known M cvs ccodes - known M vs codes)%Qc) by qc_lra.
  assert (KU' : (0 < u)%Qc \/ (0 < known M vs codes + (known M cvs ccodes - known M vs codes))%Qc).
  { destruct KU as [H|H]; [left; unfold u; qc_lra|right]. replace (known M vs codes + (known M cvs ccodes - known M vs codes))%Qc with (known M cvs ccodes) by ring. auto. }
  destruct (rat_dist_ok n d1 d2 _ _ u _ _ _ _ p D1 D2 N2 K0 K2 U0 KU' A1 A2 B1 B2 Q0 Q1) as (mean & var & lo & hi & ER & SM). fold l in SM.
  assert (LL : List.length l = n) by (apply (rats_length n d1 d2 _ _ u _ _ _ _ D1 D2 N2 A1 A2 B1 B2)).
  exists mean, var, lo, hi. split; [|split; [exact LL|split; [exact SM|]]].
  - pose proof (cond_call I G M d1 d2 vs codes cvs ccodes rep k r p W S B E1 E2 E3 F1 F2 F3 NZ NG RP HP W0 WP) as CC. cbv zeta in CC. rewrite CC.
    fold x y m c u. rewrite ER. reflexivity.
  - assert (RG : forall z, In z l -> (0 <= z)%Qc /\ (z <= 1)%Qc) by (apply (rats_range n d1 d2 _ _ u _ _ _ _ D1 D2 K0 K2 U0 KU' A1 A2 B1 B2)).
    pose proof (summary_range p l mean var lo hi Q0 Q1 ltac:(lia) RG SM) as SR. rewrite LL in SR. exact SR.
Qed.
Print Assumptions C87_estimate.

(** Nothing unknown: the ratio itself, without spread, whatever is drawn *)
Theorem C87_exact :
  forall I G M d1 d2 vs codes cvs ccodes rep k r p n,
    in_rounds I G M rep k r -> event_in M vs codes -> event_in M cvs ccodes -> refines vs codes cvs ccodes ->
    (forall x, In x (c_p (h_c M)) -> 0 <= x)%Qc -> qsum (c_p (h_c M)) = 1%Qc -> (0 < known M cvs ccodes)%Qc ->
    beta_draws n d1 -> beta_draws n d2 -> (1 < n)%nat -> (0 < p)%Qc -> (p < 1)%Qc ->
    let v := (known M vs codes / known M cvs ccodes)%Qc in
    get_prob_and_cov_cond d1 d2 M vs (map SI codes) cvs (map SI ccodes) rep p = Ok (v, 0%Qc, (v, v)).
Proof.
  intros I G M d1 d2 vs codes cvs ccodes rep k r p n R E F Rf P0 U K D1 D2 N2 Q0 Q1 v.
  destruct (C87_estimate I G M d1 d2 vs codes cvs ccodes rep k r p n R E F Rf P0) as (mean & var & lo & hi & EQ & LL & SM & _); auto.
  { rewrite U. apply Qcle_refl. }
  cbv zeta in LL. set (l := rats _ _ _ _ _) in *.
  assert (HC : forall z, In z l -> z = v).
  { intros z Hz. apply in_map_iff in Hz as (w & <- & _). rewrite U. unfold v. replace (1 - 1)%Qc with 0%Qc by ring. f_equal; ring. }
  destruct (summary_const p l mean var lo hi v Q0 Q1 ltac:(lia) HC SM) as (-> & -> & -> & ->). rewrite EQ. do 3 f_equal. unfold Qcdiv. apply Qcmult_0_l.
Qed.
Print Assumptions C87_exact.

(** An event that is more probable than the condition among the known rows is rejected. *)
Theorem C87_outside :
  forall I G M d1 d2 vs codes cvs ccodes rep k r p,
    in_rounds I G M rep k r -> event_in M vs codes -> event_in M cvs ccodes -> (known M cvs ccodes < known M vs codes)%Qc ->
    get_prob_and_cov_cond d1 d2 M vs (map SI codes) cvs (map SI ccodes) rep p = Err ValueError.
Proof.
  intros I G M d1 d2 vs codes cvs ccodes rep k r p ((W & S & B & NZ & NG & RP & HP) & W0 & WP) (E1 & E2 & E3) (F1 & F2 & F3) K.
  pose proof (cond_call I G M d1 d2 vs codes cvs ccodes rep k r p W S B E1 E2 E3 F1 F2 F3 NZ NG RP HP W0 WP) as CC. cbv zeta in CC. rewrite CC.
  unfold get_rat_dist. cbn [forallb]. assert (X : qc_leb 0%Qc (known M cvs ccodes - known M vs codes)%Qc = false) by (apply qc_leb_gt; qc_lra).
  rewrite X. rewrite andb_false_r. reflexivity.
Qed.
Print Assumptions C87_outside.

(** So is a confidence level that is not between 0 and 1. *)
Theorem C87_level :
  forall I G M d1 d2 vs codes cvs ccodes rep k r p,
    in_rounds I G M rep k r -> event_in M vs codes -> event_in M cvs ccodes -> (p <= 0)%Qc \/ (1 <= p)%Qc ->
    get_prob_and_cov_cond d1 d2 M vs (map SI codes) cvs (map SI ccodes) rep p = Err ValueError.
Proof.
  intros I G M d1 d2 vs codes cvs ccodes rep k r p ((W & S & B & NZ & NG & RP & HP) & W0 & WP) (E1 & E2 & E3) (F1 & F2 & F3) K.
  pose proof (cond_call I G M d1 d2 vs codes cvs ccodes rep k r p W S B E1 E2 E3 F1 F2 F3 NZ NG RP HP W0 WP) as CC. cbv zeta in CC. rewrite CC.
  unfold get_rat_dist. destruct (forallb _ _); [|reflexivity]. cbn [negb].
  replace (qc_ltb 0%Qc p && qc_ltb p 1%Qc) with false; [reflexivity|]. symmetry. apply andb_false_iff. destruct K; [left|right]; apply qc_ltb_ge; auto.
Qed.
Print Assumptions C87_level.

(** So is a round in which no sample has weight. *)
Theorem C87_no_weight :
  forall I G M d1 d2 vs codes cvs ccodes rep k r p i,
    stored_rounds I G M rep k r -> event_in M vs codes -> event_in M cvs ccodes ->
    (i < k)%nat -> (forall j, In j (in_round r i) -> wt M j = 0%Qc) ->
    get_prob_and_cov_cond d1 d2 M vs (map SI codes) cvs (map SI ccodes) rep p = Err ValueError.
Proof.
  intros I G M d1 d2 vs codes cvs ccodes rep k r p i (W & S & B & NZ & NG & RP & HP) (E1 & E2 & E3) (F1 & F2 & F3) Hi Hz.
  exact (cond_zero I G M d1 d2 vs codes cvs ccodes rep k r p W S B E1 E2 E3 F1 F2 F3 NZ NG RP HP i Hi Hz).
Qed.
Print Assumptions C87_no_weight.

(** That the interval holds the true value is false when the event is the condition and something is
    unknown: the value is 1 and the upper bound is below 1. *)
Theorem C87_sure_refuted :
  forall I G M d1 d2 vs codes rep k r p n,
    in_rounds I G M rep k r -> event_in M vs codes ->
    (forall x, In x (c_p (h_c M)) -> 0 <= x)%Qc -> (qsum (c_p (h_c M)) < 1)%Qc ->
    beta_draws n d1 -> beta_draws n d2 -> (1 < n)%nat -> (0 < p)%Qc -> (p < 1)%Qc ->
    exists mean cov2 lo hi,
      get_prob_and_cov_cond d1 d2 M vs (map SI codes) vs (map SI codes) rep p = Ok (mean, cov2, (lo, hi)) /\ (hi < 1)%Qc.
Proof.
  intros I G M d1 d2 vs codes rep k r p n R E P0 U D1 D2 N2 Q0 Q1.
  destruct (C87_estimate I G M d1 d2 vs codes vs codes rep k r p n R E E) as (mean & var & lo & hi & EQ & LL & SM & _); auto.
  { intros z Hz. auto. }
  { apply Qclt_le_weak. auto. }
  cbv zeta in LL. exists mean, (var / (mean * mean))%Qc, lo, hi. split; auto. destruct SM as (_ & _ & _ & SM). apply (percentile_below _ _ _ 1%Qc SM).
  assert (K0 : (0 <= known M vs codes)%Qc) by (apply total_nonneg; auto).
  destruct R as ((W & S & B & NZ & NG & RP & HP) & W0 & WP). assert (LG : List.length G = (k * r)%nat) by (eapply len_G; eauto).
  destruct (worth_range M G W0 k r LG WP vs codes) as [X0 X1].
  intros z Hz. apply in_map_iff in Hz as ([a b] & <- & Hz). cbn [fst snd].
  set (x := worth_of M G k r vs codes) in *. set (m := worth M k r) in *. clearbody x m.
  assert (C0 : (0 < Q2Qc (1 # 100))%Qc) by reflexivity. destruct (shape_pos _ x x m C0 X0 (Qcle_refl x) X1) as (A1 & A2 & B1 & B2).
  destruct (proj2 (D1 _ _ A1 B1) a (in_combine_l _ _ _ _ Hz)) as [a0 _]. destruct (proj2 (D2 _ _ A2 B2) b (in_combine_r _ _ _ _ Hz)) as [b0 _].
  assert (U0 : (0 < 1 - qsum (c_p (h_c M)))%Qc) by qc_lra. revert U0. generalize (1 - qsum (c_p (h_c M)))%Qc. intros u U0.
  assert (Q2 : (0 < u * a)%Qc) by (apply qc_mul_pos; auto). assert (Q3 : (0 < u * b)%Qc) by (apply qc_mul_pos; auto).
  replace (known M vs codes - known M vs codes + u * b)%Qc with (u * b)%Qc by ring. revert Q2 Q3. generalize (u * a)%Qc (u * b)%Qc (known M vs codes) K0. intros f g t t0 f0 g0.
  assert (T : (0 < t + f + g)%Qc) by qc_lra. assert (V : (0 < 1 / (t + f + g))%Qc).
  { destruct (Qclt_le_dec 0 (1 / (t + f + g))) as [V|V]; auto. exfalso. assert (V' := inv_nonneg _ T). assert (V2 : (1 / (t + f + g) = 0)%Qc) by (apply Qcle_antisym; auto).
    assert (O : (1 / (t + f + g) * (t + f + g) = 1)%Qc) by (field; apply qc_pos_neq; auto). rewrite V2, Qcmult_0_l in O. discriminate O. }
  assert (O : (0 < g * (1 / (t + f + g)))%Qc) by (apply qc_mul_pos; auto).
  replace ((t + f) / (t + f + g))%Qc with (1 - g * (1 / (t + f + g)))%Qc by (field; apply qc_pos_neq; auto). revert O. generalize (g * (1 / (t + f + g)))%Qc. intros. qc_lra.
Qed.
Print Assumptions C87_sure_refuted.

(** * Examples *)
Definition in_rounds_b (G : list joint) (M : hcpm) (k r : nat) : bool :=
  forallb (fun i => qc_leb 0%Qc (wt M i)) (seq 0 (List.length G)) && forallb (fun i => existsb (fun j => qc_ltb 0%Qc (wt M j)) (in_round r i)) (seq 0 k) &&
  forallb (fun x => negb (qc_eqb x 0%Qc)) (h_q M) && forallb (fun a => forallb (fun v => basic_b1 v (a (v_name v))) (c_vars (h_c M))) G.
Lemma in_rounds_b_ok I G M rep k r : wf_cpm (h_c M) -> sampled I G M -> G <> [] ->
  (rep = O /\ k = 1%nat /\ r = List.length G) \/ (rep = r /\ r <> O /\ List.length G = (k * r)%nat) -> h_ps M <> [] \/ k = 1%nat ->
  in_rounds_b G M k r = true -> in_rounds I G M rep k r.
Proof.
  intros W S NG RP HP H. unfold in_rounds_b in H. rewrite !andb_true_iff in H. destruct H as (((H1 & H2) & H3) & H4). rewrite forallb_forall in H1, H2, H3.
  split; [split; [assumption|]; split; [assumption|]; split; [apply basic_samples_b; auto|]; split; [intros x Hx; specialize (H3 x Hx); intros ->; discriminate H3|]; auto|].
  split; intros i Hi.
  - apply qc_leb_le, H1, in_seq. lia.
  - specialize (H2 i ltac:(apply in_seq; lia)). apply existsb_exists in H2 as (x & X1 & X2). exists x. split; auto. apply qc_ltb_lt. auto.
Qed.

(** system s and component x: 3/5 known; four samples in two rounds *)
Definition Mc := mkCpm [vs; vx] 2 [[0; 0]; [1; 1]] [q 1 10; q 1 2].
Definition G4 : list joint := [j 0 0 0 0; j 0 1 0 0; j 0 1 0 1; j 0 0 0 1].
Definition Hc := mkH Mc (map (row_at [vs; vx]) G4) [q 1 4; q 1 4; q 1 4; q 1 4] [q 1 4; q 1 8; q 1 4; q 1 2] [0; 1; 2; 3].
Definition dd (a b : Qc) : list Qc := [(a / (a + b))%Qc; (a / (a + b + 1))%Qc; ((a + 1) / (a + b + 1))%Qc].
Definition cview (r : res (Qc * Qc * (Qc * Qc))) : res (Q * Q * (Q * Q)) :=
  match r with Ok (x, y, (z, w)) => Ok (this x, this y, (this z, this w)) | Err e => Err e end.

Lemma frac_range a b : (0 < a)%Qc -> (0 < b)%Qc -> (0 < a / (a + b))%Qc /\ (a / (a + b) < 1)%Qc.
Proof.
  intros A B. assert (T : (0 < a + b)%Qc) by qc_lra. assert (V' := inv_nonneg _ T).
  assert (V : (0 < 1 / (a + b))%Qc).
  { destruct (Qclt_le_dec 0 (1 / (a + b))) as [V|V]; auto. exfalso. assert (V2 : (1 / (a + b) = 0)%Qc) by (apply Qcle_antisym; auto).
    assert (O : (1 / (a + b) * (a + b) = 1)%Qc) by (field; apply qc_pos_neq; auto). rewrite V2, Qcmult_0_l in O. discriminate O. }
  assert (O1 : (0 < a * (1 / (a + b)))%Qc) by (apply qc_mul_pos; auto). assert (O2 : (0 < b * (1 / (a + b)))%Qc) by (apply qc_mul_pos; auto).
  replace (a / (a + b))%Qc with (a * (1 / (a + b)))%Qc by (field; apply qc_pos_neq; auto). split; auto.
  replace (a * (1 / (a + b)))%Qc with (1 - b * (1 / (a + b)))%Qc by (field; apply qc_pos_neq; auto). revert O2. generalize (b * (1 / (a + b)))%Qc. intros. qc_lra.
Qed.
Lemma dd_draws : beta_draws 3 dd.
Proof.
  intros a b A B. split; [reflexivity|]. intros x [<-|[<-|[<-|[]]]].
  - apply frac_range; auto.
  - replace (a + b + 1)%Qc with (a + (b + 1))%Qc by ring. apply frac_range; auto. qc_lra.
  - replace (a + b + 1)%Qc with (a + 1 + b)%Qc by ring. apply frac_range; auto. qc_lra.
Qed.
Definition half := q 1 2.
Ltac ex_event := split; [apply (basic_ev_ok _ _ _), (basic_ev_b ex_g); [ex_all|ex_all|vm_compute; reflexivity]|split; [discriminate|
  intros ? ? HH; cbn in HH; repeat (destruct HH as [HH|HH]; [injection HH as <- <-; reflexivity|]); destruct HH]].
Example C87_ex :
  in_rounds [0; 1; 2; 3] G4 Hc 2 2 2 /\ event_in Hc [vs; vx] [0; 0] /\ event_in Hc [vs] [0] /\ refines [vs; vx] [0; 0] [vs] [0] /\
  (forall x, In x (c_p (h_c Hc)) -> 0 <= x)%Qc /\ (qsum (c_p (h_c Hc)) < 1)%Qc /\ beta_draws 3 dd /\
  this (known Hc [vs; vx] [0; 0]) = (1 # 10)%Q /\ this (worth Hc 2 2) = (18 # 5)%Q /\
  this (worth_of Hc G4 2 2 [vs; vx] [0; 0]) = (6 # 5)%Q /\ this (worth_of Hc G4 2 2 [vs] [0]) = (9 # 5)%Q /\
  cview (get_prob_and_cov_cond dd dd Hc [vs; vx] [SI 0; SI 0] [vs] [SI 0] 2 half) = Ok (29006389 # 38718435, 6088209171600 # 841370602819321, (78767 # 108455, 50947 # 64855))%Q /\
  get_prob_and_cov_cond dd dd Hc [vs] [SI 1] [vx] [SI 0] 2 half = Err ValueError.
Proof.
  split; [apply in_rounds_b_ok; [apply wf_b_ok; [ex_all|vm_compute; reflexivity]| |discriminate|right; repeat split; discriminate|left; discriminate|vm_compute; reflexivity]|].
  { split; [reflexivity|]; split; [reflexivity|]; split; [reflexivity|]; right; reflexivity. }
  split; [ex_event|]. split; [ex_event|]. split; [intros x [<-|[]]; left; reflexivity|].
  split; [intros x [<-|[<-|[]]]; discriminate|]. split; [reflexivity|]. split; [apply dd_draws|].
  split; [vm_compute; reflexivity|]. split; [vm_compute; reflexivity|]. split; [vm_compute; reflexivity|]. split; [vm_compute; reflexivity|].
  split; vm_compute; reflexivity.
Qed.

(** a complete CPM: s = 0 has probability 1/2, x = 0 has 3/10, both together 1/10 *)
Definition Md := mkCpm [vs; vx] 2 [[0; 0]; [0; 1]; [1; 0]; [1; 1]] [q 1 10; q 2 5; q 1 5; q 3 10].
Definition Hd := mkH Md (map (row_at [vs; vx]) G4) [q 1 4; q 1 4; q 1 4; q 1 4] [] [0; 1; 2; 3].
Lemma Hd_ready : in_rounds [0; 1; 2; 3] G4 Hd 0 1 4.
Proof.
  apply in_rounds_b_ok; [apply wf_b_ok; [ex_all|vm_compute; reflexivity]| |discriminate|left; repeat split|right; reflexivity|vm_compute; reflexivity].
  split; [reflexivity|]; split; [reflexivity|]; split; [reflexivity|]; left; reflexivity.
Qed.
Example C87_exact_ex :
  in_rounds [0; 1; 2; 3] G4 Hd 0 1 4 /\ event_in Hd [vs; vx] [0; 0] /\ event_in Hd [vs] [0] /\ refines [vs; vx] [0; 0] [vs] [0] /\
  (forall x, In x (c_p (h_c Hd)) -> 0 <= x)%Qc /\ qsum (c_p (h_c Hd)) = 1%Qc /\ (0 < known Hd [vs] [0%Z])%Qc /\
  cview (get_prob_and_cov_cond dd dd Hd [vs; vx] [SI 0; SI 0] [vs] [SI 0] 0 half) = Ok (1 # 5, 0, (1 # 5, 1 # 5))%Q.
Proof.
  split; [exact Hd_ready|]. split; [ex_event|]. split; [ex_event|]. split; [intros x [<-|[]]; left; reflexivity|].
  split; [intros x [<-|[<-|[<-|[<-|[]]]]]; discriminate|]. split; [apply Qc_is_canon; reflexivity|]. split; [reflexivity|]. vm_compute. reflexivity.
Qed.

(** That the estimate is that of the event given the condition is false for an event that leaves out the
    condition.  With x = 0 given s = 0 the value is 1/5 and 3/5 is reported, without an error. *)
Theorem C87_given_refuted :
  exists I G M d1 d2 v c v' c' p n, in_rounds I G M 0 1 (List.length G) /\ event_in M [v] [c] /\ event_in M [v'] [c'] /\ event_in M [v; v'] [c; c'] /\
    (forall x, In x (c_p (h_c M)) -> 0 <= x)%Qc /\ qsum (c_p (h_c M)) = 1%Qc /\ beta_draws n d1 /\ beta_draws n d2 /\ (1 < n)%nat /\
    exists mean cov2 lo hi, get_prob_and_cov_cond d1 d2 M [v] [SI c] [v'] [SI c'] 0 p = Ok (mean, cov2, (lo, hi)) /\
      (known M [v; v'] [c; c'] / known M [v'] [c'] < lo)%Qc.
Proof.
  exists [0; 1; 2; 3], G4, Hd, dd, dd, vx, 0, vs, 0, half, 3%nat. split; [exact Hd_ready|]. split; [ex_event|]. split; [ex_event|]. split; [ex_event|].
  split; [intros x [<-|[<-|[<-|[<-|[]]]]]; discriminate|]. split; [apply Qc_is_canon; reflexivity|]. split; [apply dd_draws|]. split; [apply dd_draws|]. split; [lia|].
  assert (X : cview (get_prob_and_cov_cond dd dd Hd [vx] [SI 0] [vs] [SI 0] 0 half) = Ok (3 # 5, 0, (3 # 5, 3 # 5))%Q) by (vm_compute; reflexivity).
  destruct (get_prob_and_cov_cond dd dd Hd [vx] [SI 0] [vs] [SI 0] 0 half) as [[[a b] [lo hi]]|e]; [|discriminate X]. cbn [cview] in X.
  exists a, b, lo, hi. split; [reflexivity|]. assert (Y : this lo = (3 # 5)%Q) by congruence. unfold Qclt. rewrite Y. vm_compute. reflexivity.
Qed.
Print Assumptions C87_given_refuted.

(** That the mean is in the interval is false: one large draw among fifty.  (The draws are arbitrary
    numbers between 0 and 1 here.) *)
Definition skewed (a b : Qc) : list Qc := q 99 100 :: repeat (q 1 100) 49.
Definition even (a b : Qc) : list Qc := repeat half 50.
Theorem C87_mean_refuted :
  exists I G M d1 d2 vs codes cvs ccodes p n, in_rounds I G M 0 1 (List.length G) /\ event_in M vs codes /\ event_in M cvs ccodes /\ refines vs codes cvs ccodes /\
    (forall x, In x (c_p (h_c M)) -> 0 <= x)%Qc /\ (qsum (c_p (h_c M)) < 1)%Qc /\ beta_draws n d1 /\ beta_draws n d2 /\ (1 < n)%nat /\ p = q 95 100 /\
    exists mean cov2 lo hi, get_prob_and_cov_cond d1 d2 M vs (map SI codes) cvs (map SI ccodes) 0 p = Ok (mean, cov2, (lo, hi)) /\ (hi < mean)%Qc.
Proof.
  set (N := mkH Mc (map (row_at [vs; vx]) G4) [q 1 4; q 1 4; q 1 4; q 1 4] [] [0; 1; 2; 3]).
  exists [0; 1; 2; 3], G4, N, skewed, even, [vs; vx], [0; 0], [vs], [0], (q 95 100), 50%nat.
  split.
  { apply in_rounds_b_ok; [apply wf_b_ok; [ex_all|vm_compute; reflexivity]| |discriminate|left; repeat split|right; reflexivity|vm_compute; reflexivity].
    split; [reflexivity|]; split; [reflexivity|]; split; [reflexivity|]; left; reflexivity. }
  split; [ex_event|]. split; [ex_event|]. split; [intros x [<-|[]]; left; reflexivity|].
  split; [intros x [<-|[<-|[]]]; discriminate|]. split; [reflexivity|].
  split; [intros a b _ _; split; [reflexivity|]; intros x [<-|Hx]; [split; reflexivity|]; apply repeat_spec in Hx; subst x; split; reflexivity|].
  split; [intros a b _ _; split; [reflexivity|]; intros x Hx; apply repeat_spec in Hx; subst x; split; reflexivity|].
  split; [lia|]. split; [reflexivity|].
  assert (X : match get_prob_and_cov_cond skewed even N [vs; vx] (map SI [0; 0]) [vs] (map SI [0]) 0 (q 95 100) with Ok (m, _, (_, hi)) => qc_ltb hi m | Err _ => false end = true) by (vm_compute; reflexivity).
  destruct (get_prob_and_cov_cond skewed even N [vs; vx] (map SI [0; 0]) [vs] (map SI [0]) 0 (q 95 100)) as [[[a b] [lo hi]]|e]; [|discriminate X].
  exists a, b, lo, hi. split; [reflexivity|]. apply qc_ltb_lt. exact X.
Qed.
Print Assumptions C87_mean_refuted.

Definition Hz := mkH Mc (map (row_at [vs; vx]) G4) [q 1 4; q 1 4; q 1 4; q 1 4] [q 1 4; q 1 8; 0%Qc; 0%Qc] [0; 1; 2; 3].
Example C87_more_ex :
  stored_rounds [0; 1; 2; 3] G4 Hz 2 2 2 /\ (forall j, In j (in_round 2 1) -> wt Hz j = 0%Qc) /\
  get_prob_and_cov_cond dd dd Hz [vs; vx] [SI 0; SI 0] [vs] [SI 0] 2 half = Err ValueError /\
  get_prob_and_cov_cond dd dd Hc [vs; vx] [SI 0; SI 0] [vs] [SI 0] 2 1%Qc = Err ValueError /\
  match get_prob_and_cov_cond dd dd Hc [vs] [SI 0] [vs] [SI 0] 2 half with Ok (_, _, (lo, hi)) => qc_ltb lo hi && qc_ltb hi 1%Qc | Err _ => false end = true.
Proof.
  split.
  { split; [apply wf_b_ok; [ex_all|vm_compute; reflexivity]|]. split; [split; [reflexivity|]; split; [reflexivity|]; split; [reflexivity|]; right; reflexivity|].
    split; [apply basic_samples_b; vm_compute; reflexivity|]. split; [intros x Hx; cbn [h_q Hz In] in Hx; repeat (destruct Hx as [<-|Hx]); [discriminate ..|destruct Hx]|].
    split; [discriminate|]. split; [right; repeat split; discriminate|left; discriminate]. }
  split; [intros j [<-|[<-|[]]]; apply Qc_is_canon; reflexivity|]. split; [vm_compute; reflexivity|]. split; vm_compute; reflexivity.
Qed.
