(** C51, C59-C62: the Monte Carlo estimators. *)
From Coq Require Import ZArith List String Bool Arith QArith Qcanon Lia Permutation.
From Verif Require Import Py PyFacts Num Vari VariFacts Brc SpecBrc BrcFacts BrcProb BrcDecomp BrcRules BrcRun BrcMain BrcProper PropBrc NetSys Mcs SpecMcs McsFacts.
Import ListNotations.
Open Scope string_scope.
Open Scope Z_scope.
Open Scope list_scope.

Definition on_ok (f : dict Z -> Qc) (r : res (dict Z)) : Qc := match r with Ok x => f x | Err _ => 0%Qc end.

Lemma mean_okp (D : list (Qc * dict Z)) f : mean (map okp D) (on_ok f) = mean D f.
Proof. unfold mean. rewrite map_map. reflexivity. Qed.

(** * C51: distribution of the samples *)
Theorem C51_distribution :
  forall varis probs brs,
    wf_varis varis -> wf_probs varis probs -> binary varis -> boxes varis brs -> exact_probs varis probs brs -> partition varis brs ->
    (0 < prob_event varis probs (open_region brs))%Qc ->
    (forall o, In o (draw_sample brs probs) -> (0 < fst o)%Qc /\
       exists x, snd o = Ok x /\ In x (space (comps_of varis)) /\ open_region brs x = true) /\
    (forall f, mean (draw_sample brs probs) (on_ok f) =
       qsum (map (fun x => (prob_of probs x / prob_event varis probs (open_region brs) * f x)%Qc)
                 (filter (open_region brs) (space (comps_of varis))))).
Proof.
  intros varis probs brs Hw Hp H2 Hb He Hpt H0.
  destruct (draw_sample_ok varis probs Hw Hp brs Hb He Hpt) as (D & E & P & M); auto.
  - intros b k v Hin Ho Hk. destruct (Hb b Hin) as (B1 & B2 & B3). assert (V := H2 k v Hk).
    assert (X1 := sp_coord varis Hw _ k v B1 Hk). assert (X2 := sp_coord varis Hw _ k v B2 Hk).
    apply (binary_step varis probs Hp k v); auto; try lia. apply B3. eapply In_keys; eauto.
  - rewrite E. split.
    + intros o Ho. apply in_map_iff in Ho as (o' & <- & Ho). destruct (P o' Ho) as (P1 & P2 & P3). split; [exact P1|].
      exists (snd o'). auto.
    + intros f. rewrite mean_okp. apply M.
Qed.
Print Assumptions C51_distribution.

Definition bv (n : string) : variable := mk_variable n [VStr "f"; VStr "s"] None.
Definition mvaris : dict variable := [("x", bv "x"); ("y", bv "y"); ("z", bv "z"); ("w", bv "w")].
Definition mdist : pdist := PDict [(0, Q2Qc (1#4)); (1, Q2Qc (3#4))].
Definition mprobs : prob_dict := map (fun kv => (fst kv, mdist)) mvaris.
(** survives when two of the four components survive *)
Definition mphi (x : dict Z) : bool := 2 <=? coord x "x" + coord x "y" + coord x "z" + coord x "w".
Definition msys : sysfun := fun x => (0%Qc, (if mphi x then S_ else F_), None).
Definition brs_of (r : res rstate) : list branch :=
  match r with Ok s => match s_brs s with Some b => b | None => [] end | Err _ => [] end.
(** an unfinished search that starts with three known rules *)
Definition mrules : ruleset := mkRules [[("x", 1); ("y", 1)]; [("z", 1); ("w", 1)]] [[("x", 0); ("y", 0); ("z", 0)]].
Definition mcfg (n : Z) (max_nb : option Z) : config := mkCfg n max_nb 0%Qc None true true.
Definition mrun : res rstate := run mvaris mprobs msys (mcfg 1 None) (Some mrules) None.
Definition mbrs : list branch := brs_of mrun.

Lemma m_varis : wf_varis mvaris /\ binary mvaris.
Proof.
  split.
  - split; [repeat constructor; cbn; intuition discriminate|]. intros k v [H|[H|[H|[H|[]]]]]; injection H as <- <-; cbn; lia.
  - intros k v [H|[H|[H|[H|[]]]]]; injection H as <- <-; reflexivity.
Qed.
Lemma m_probs : wf_probs mvaris mprobs.
Proof.
  intros k v H. assert (E : dfind mprobs k = Some mdist /\ nvals v = 2) by (destruct H as [H|[H|[H|[H|[]]]]]; injection H as <- <-; split; reflexivity).
  destruct E as [E1 E2]. rewrite E2. split.
  - exists mdist. split; auto. intros x Hx. assert (C : x = 0 \/ x = 1) by lia. destruct C as [C|C]; subst x; eexists; (split; [reflexivity|]); discriminate.
  - change (zrange 0 2) with [0; 1]. cbn [map]. unfold pr. rewrite E1. apply Qc_is_canon. vm_compute. reflexivity.
Qed.
Lemma m_sys : sys_ok mvaris mphi msys.
Proof.
  split.
  - intros x y Hx Hy Hle H. unfold mphi in *. apply Z.leb_le in H. apply Z.leb_le.
    assert (K : forall k, In k ["x"; "y"; "z"; "w"] -> coord x k <= coord y k) by (intros k Hk; apply Hle; exact Hk).
    assert (A1 := K "x"). assert (A2 := K "y"). assert (A3 := K "z"). assert (A4 := K "w"). cbn in A1, A2, A3, A4. intuition lia.
  - intros x Hx. exists 0%Qc, None. split; [reflexivity|]. discriminate.
Qed.
Lemma m_start : start_ok mvaris mprobs mphi (Some mrules) None.
Proof.
  assert (T : forall r x, sat_s r x = true -> forall k v, In (k, v) r -> v <= coord x k) by (intros r x H; apply sat_s_spec; auto).
  assert (T' : forall r x, sat_f r x = true -> forall k v, In (k, v) r -> coord x k <= v) by (intros r x H; apply sat_f_spec; auto).
  assert (Pos : forall x k, In x (space (comps_of mvaris)) -> In k ["x"; "y"; "z"; "w"] -> 0 <= coord x k < 2).
  { intros x k Hx Hk. destruct (varis_find mvaris k Hk) as (v & Hv & _). assert (Y := sp_coord mvaris (proj1 m_varis) x k v Hx Hv).
    rewrite (proj2 m_varis k v Hv) in Y. exact Y. }
  split; [|split; [|discriminate]].
  - assert (N : forall r, In r (r_s mrules ++ r_f mrules) -> wf_rule mvaris r).
    { intros r H. cbn in H. repeat destruct H as [H|H]; subst; try contradiction;
      (split; [repeat constructor; cbn; intuition discriminate|intros k; cbn; intuition]). }
    split; intros r H; apply N; apply in_or_app; auto.
  - split; intros r x Hr Hx Hs; assert (P1 := Pos x "x" Hx); assert (P2 := Pos x "y" Hx); assert (P3 := Pos x "z" Hx); assert (P4 := Pos x "w" Hx);
      cbn in P1, P2, P3, P4; unfold mphi.
    + apply Z.leb_le. destruct Hr as [Hr|[Hr|[]]]; subst r.
      * assert (A := T _ _ Hs "x" 1 (or_introl eq_refl)). assert (B := T _ _ Hs "y" 1 (or_intror (or_introl eq_refl))). intuition lia.
      * assert (A := T _ _ Hs "z" 1 (or_introl eq_refl)). assert (B := T _ _ Hs "w" 1 (or_intror (or_introl eq_refl))). intuition lia.
    + apply Z.leb_gt. destruct Hr as [Hr|[]]; subst r.
      assert (A := T' _ _ Hs "x" 0 (or_introl eq_refl)). assert (B := T' _ _ Hs "y" 0 (or_intror (or_introl eq_refl))).
      assert (C := T' _ _ Hs "z" 0 (or_intror (or_intror (or_introl eq_refl)))). intuition lia.
Qed.

Lemma m_run : exists s, mrun = Ok s /\ s_brs s = Some mbrs /\ boxes mvaris mbrs /\ exact_probs mvaris mprobs mbrs /\ partition mvaris mbrs.
Proof.
  destruct m_varis as [W B]. assert (P := m_probs).
  destruct (C16_run_total mvaris mprobs mphi msys (mcfg 1 None) (Some mrules) None W P m_sys m_start (or_introl eq_refl)) as (s & E).
  destruct (C16_resume mvaris mprobs mphi msys (mcfg 1 None) (Some mrules) None s W P m_sys m_start eq_refl E) as (b & Eb & (_ & _ & V) & Pt & _).
  assert (X : mbrs = b). { unfold mbrs, mrun. rewrite E. cbn [brs_of]. rewrite Eb. reflexivity. }
  rewrite X. destruct (V b eq_refl) as (V1 & V2 & _). exists s. split; [exact E|]. split; [exact Eb|]. auto.
Qed.

(** four of the eight branches are open, with probability 45/256; seven vectors can be drawn *)
Example C51_distribution_ex :
  wf_varis mvaris /\ wf_probs mvaris mprobs /\ binary mvaris /\ boxes mvaris mbrs /\ exact_probs mvaris mprobs mbrs /\ partition mvaris mbrs /\
  (0 < prob_event mvaris mprobs (open_region mbrs))%Qc /\
  List.length mbrs = 8%nat /\ List.length (filter open_branch mbrs) = 4%nat /\
  this (prob_event mvaris mprobs (open_region mbrs)) = (45 # 256)%Q /\
  map (fun o => (this (fst o), snd o)) (draw_sample mbrs mprobs) =
    [((1 # 5)%Q, Ok [("x", 1); ("y", 0); ("z", 1); ("w", 0)]); ((1 # 15)%Q, Ok [("x", 1); ("y", 0); ("z", 0); ("w", 0)]);
     ((1 # 5)%Q, Ok [("x", 1); ("y", 0); ("z", 0); ("w", 1)]); ((1 # 15)%Q, Ok [("x", 0); ("y", 0); ("z", 1); ("w", 0)]);
     ((1 # 5)%Q, Ok [("x", 0); ("y", 1); ("z", 1); ("w", 0)]); ((1 # 15)%Q, Ok [("x", 0); ("y", 1); ("z", 0); ("w", 0)]);
     ((1 # 5)%Q, Ok [("x", 0); ("y", 1); ("z", 0); ("w", 1)])].
Proof.
  destruct m_run as (s & _ & _ & B1 & B2 & B3). destruct m_varis as [W B].
  split; [exact W|]. split; [exact m_probs|]. split; [exact B|]. split; [exact B1|]. split; [exact B2|]. split; [exact B3|].
  vm_compute. repeat split; reflexivity.
Qed.

(** A component of three states cannot be sampled: two weights for three states. *)
Definition t3varis : dict variable := [("x", mk_variable "x" [VStr "a"; VStr "b"; VStr "c"] None)].
Definition t3probs : prob_dict := [("x", PList [Q2Qc (1#4); Q2Qc (1#4); Q2Qc (1#2)])].
Lemma t3_probs : wf_probs t3varis t3probs.
Proof.
  intros k v [H|[]]. injection H as <- <-. split.
  - eexists. split; [reflexivity|]. intros x Hx. change (0 <= x < 3) in Hx.
    assert (C : x = 0 \/ x = 1 \/ x = 2) by lia. destruct C as [C|[C|C]]; subst x; eexists; (split; [reflexivity|]); discriminate.
  - apply Qc_is_canon. vm_compute. reflexivity.
Qed.
Definition t3br (d u : Z) (p : Q) : branch := mkBr [("x", d)] [("x", u)] U_ U_ (Q2Qc p).
Theorem C51_three_states_refuted :
  exists varis probs brs,
    wf_varis varis /\ wf_probs varis probs /\ boxes varis brs /\ exact_probs varis probs brs /\ partition varis brs /\
    (0 < prob_event varis probs (open_region brs))%Qc /\
    map (fun o => (this (fst o), snd o)) (draw_sample brs probs) = [(1%Q, Err ValueError)].
Proof.
  exists t3varis, t3probs, [t3br 0 2 1].
  assert (W : wf_varis t3varis).
  { split; [repeat constructor; cbn; intuition|]. intros k v [H|[]]. injection H as <- <-. cbn. lia. }
  split; [exact W|]. split; [exact t3_probs|].
  split.
  { intros b [<-|[]]. split; [vm_compute; auto|]. split; [vm_compute; auto|]. intros k [<-|[]]. vm_compute. discriminate. }
  split.
  { intros b [<-|[]]. apply Qc_is_canon. vm_compute. reflexivity. }
  split; [intros x H; vm_compute in H; repeat destruct H as [H|H]; subst; try contradiction; reflexivity|].
  split; [reflexivity|]. vm_compute. reflexivity.
Qed.
Print Assumptions C51_three_states_refuted.

(** * C59: what the estimator aims at *)
Definition fails (phi : dict Z -> bool) (x : dict Z) : Qc := if phi x then 0%Qc else 1%Qc.

Theorem C59_target :
  forall varis probs phi brs,
    wf_varis varis -> wf_probs varis probs -> binary varis -> boxes varis brs -> exact_probs varis probs brs -> partition varis brs ->
    sound_labels varis phi brs -> settled_or_open brs -> proper_labels brs ->
    (0 < prob_event varis probs (open_region brs))%Qc ->
    mcs_u_prob brs = prob_event varis probs (open_region brs) /\
    (mcs_pf_low brs + mcs_u_prob brs * mean (draw_sample brs probs) (on_ok (fails phi)) = p_fail varis probs phi)%Qc.
Proof.
  intros varis probs phi brs Hw Hp H2 Hb He Hpt Hs Ho Hpr H0.
  assert (U := u_prob_event varis probs brs He Hpt). split; [exact U|].
  destruct (C51_distribution varis probs brs Hw Hp H2 Hb He Hpt H0) as [_ M]. rewrite M, U.
  rewrite <- (target varis probs brs He Hpt phi Hs Ho Hpr). f_equal. unfold prob_event at 3.
  assert (N : prob_event varis probs (open_region brs) <> 0%Qc) by (intros X; rewrite X in H0; discriminate).
  set (P := prob_event varis probs (open_region brs)) in *. clearbody P. clear - N.
  induction (space (comps_of varis)) as [|x l IH]; cbn [filter map qsum]; [ring|].
  destruct (open_region brs x); cbn [andb map qsum]; [|exact IH].
  unfold fails at 1. destruct (phi x); cbn [negb map qsum]; [rewrite <- IH; ring|rewrite <- IH; field; exact N].
Qed.
Print Assumptions C59_target.

Theorem C59_after_run :
  forall varis probs phi sys_fun g rules brs s b,
    wf_varis varis -> wf_probs varis probs -> binary varis -> sys_ok varis phi sys_fun -> start_ok varis probs phi rules brs ->
    (forall b, brs = Some b -> proper_labels b) -> unlimited varis (g_max_nb g) -> 0 < g_max_sf g ->
    run varis probs sys_fun g rules brs = Ok s -> s_brs s = Some b ->
    (0 < prob_event varis probs (open_region b))%Qc ->
    (mcs_pf_low b + mcs_u_prob b * mean (draw_sample b probs) (on_ok (fails phi)) = p_fail varis probs phi)%Qc /\
    mcs_pf_low b = last (m_pf_low (s_mon s)) 0%Qc /\
    mcs_u_prob b = (last (m_pf_up (s_mon s)) 0 - last (m_pf_low (s_mon s)) 0)%Qc.
Proof.
  intros varis probs phi sys_fun g rules brs s b Hw Hp H2 Hs Hst Hpr Hu Hm H Eb H0.
  destruct (C16_resume varis probs phi sys_fun g rules brs s Hw Hp Hs Hst Hm H) as (b' & Eb' & (_ & _ & V) & Pt & _ & L & U).
  rewrite Eb in Eb'. injection Eb' as <-. destruct Hst as (Hr & Hsr & Hb).
  destruct (V b eq_refl) as (V1 & V2 & _).
  assert (Nc : no_cut varis (g_max_nb g)).
  { destruct Hu as [->|(m & -> & Hm')]; [exact I|exact Hm']. }
  destruct (run_settled varis probs phi sys_fun g rules brs s b Hw Hp Hs Hr Hsr Hb Nc Hm H Eb) as [S1 S2].
  assert (Pr : proper_labels b).
  { assert (P := run_proper varis probs Hw Hp phi sys_fun Hs g rules brs Hr Hsr Hb s).
    assert (P0 : proper_o brs) by (intros b0 E0; apply Forall_forall; intros b1; apply (Hpr b0 E0)).
    specialize (P P0 H b Eb). rewrite Forall_forall in P. exact P. }
  destruct (C59_target varis probs phi b Hw Hp H2 V1 V2 Pt S2 S1 Pr H0) as [T1 T2].
  split; [exact T2|]. split; [symmetry; exact L|]. rewrite L, U.
  assert (T : (qsum (map b_p b) = 1)%Qc).
  { rewrite (qsum_disjoint_event varis probs b (fun _ => true)).
    - apply prob_total; auto.
    - exact V2.
    - intros x Hx _. apply Pt; auto.
    - congruence. }
  assert (E : (qsum (map b_p b) = mcs_u_prob b + (qsum (map b_p (filter (fun b => st_eqb (b_up_state b) F_) b))
                + qsum (map b_p (filter (fun b => st_eqb (b_down_state b) S_) b))))%Qc).
  { clear - S1 Pr. unfold mcs_u_prob, mcs_brs_u. induction b as [|a l IH]; [reflexivity|].
    assert (P := Pr a (or_introl eq_refl)). assert (O := S1 a (or_introl eq_refl)).
    assert (X : (qsum (map b_p l) = qsum (map b_p (filter has_unknown l)) + (qsum (map b_p (filter (fun b => st_eqb (b_up_state b) F_) l))
                + qsum (map b_p (filter (fun b => st_eqb (b_down_state b) S_) l))))%Qc).
    { apply IH; intros c Hc; [apply S1|apply Pr]; right; exact Hc. }
    clear IH. cbn [map qsum filter]. unfold open_branch, is_u in O. unfold has_unknown at 1.
    destruct (b_down_state a), (b_up_state a); cbn [st_eqb orb] in *; cbn [map qsum]; rewrite X; try ring;
      exfalso; destruct P as [P1 P2]; try (specialize (P1 eq_refl)); try (specialize (P2 eq_refl)); destruct O as [O|[O|O]]; discriminate. }
  rewrite T in E. unfold mcs_pf_low in *. rewrite E. ring.
Qed.
Print Assumptions C59_after_run.

Example C59_after_run_ex :
  (exists s, mrun = Ok s /\ s_brs s = Some mbrs) /\ start_ok mvaris mprobs mphi (Some mrules) None /\ sys_ok mvaris mphi msys /\
  unlimited mvaris (g_max_nb (mcfg 1 None)) /\
  (0 < prob_event mvaris mprobs (open_region mbrs))%Qc /\
  this (mcs_pf_low mbrs) = (1 # 64)%Q /\ this (mcs_u_prob mbrs) = (45 # 256)%Q /\
  this (mean (draw_sample mbrs mprobs) (on_ok (fails mphi))) = (1 # 5)%Q /\
  this (p_fail mvaris mprobs mphi) = (13 # 256)%Q.
Proof.
  split; [destruct m_run as (s & H1 & H2 & _); exists s; auto|].
  split; [exact m_start|]. split; [exact m_sys|]. split; [left; reflexivity|].
  vm_compute. repeat split; reflexivity.
Qed.

(** With a limit on the number of branches the weighted mean misses the failure
    probability: truncation can leave a branch that fails at its lower end and survives
    at its upper end, which is in neither part (here 6/256 instead of 13/256). *)
Definition tbrs : list branch := brs_of (run mvaris mprobs msys (mcfg 3 (Some 8)) (Some mrules) None).
Theorem C59_truncated_refuted :
  exists varis probs phi sys_fun g rules s b,
    wf_varis varis /\ wf_probs varis probs /\ binary varis /\ sys_ok varis phi sys_fun /\ start_ok varis probs phi rules None /\
    0 < g_max_sf g /\ run varis probs sys_fun g rules None = Ok s /\ s_brs s = Some b /\
    (0 < prob_event varis probs (open_region b))%Qc /\
    (mcs_pf_low b + mcs_u_prob b * mean (draw_sample b probs) (on_ok (fails phi)) <> p_fail varis probs phi)%Qc.
Proof.
  destruct m_varis as [W B]. assert (P := m_probs).
  destruct (C16_run_total mvaris mprobs mphi msys (mcfg 3 (Some 8)) (Some mrules) None W P m_sys m_start (or_introl eq_refl)) as (s & E).
  destruct (C16_resume mvaris mprobs mphi msys (mcfg 3 (Some 8)) (Some mrules) None s W P m_sys m_start eq_refl E) as (b & Eb & _).
  assert (X : tbrs = b). { unfold tbrs. rewrite E. cbn [brs_of]. rewrite Eb. reflexivity. }
  exists mvaris, mprobs, mphi, msys, (mcfg 3 (Some 8)), (Some mrules), s, b.
  split; [exact W|]. split; [exact P|]. split; [exact B|]. split; [exact m_sys|]. split; [exact m_start|]. split; [reflexivity|].
  split; [exact E|]. split; [exact Eb|]. rewrite <- X. split; [vm_compute; reflexivity|].
  intros Y. apply (f_equal this) in Y. vm_compute in Y. discriminate.
Qed.
Print Assumptions C59_truncated_refuted.

(** * C60: the loop of [mcs_unknown_simple] *)
Lemma post_formula low u n k :
  posterior low u n k = (post_mean low u n k, post_cov2 low u n k).
Proof.
  unfold posterior, post_mean, post_cov2. rewrite qz_minus.
  assert (E : (prior + qz k + (prior + (qz n - qz k)) = qz n + Q2Qc (1 # 50))%Qc).
  { replace (Q2Qc (1 # 50)) with (prior + prior)%Qc by (apply Qc_is_canon; reflexivity). ring. }
  rewrite E. unfold prior.
  replace (Q2Qc (1 # 100) + qz k)%Qc with (qz k + Q2Qc (1 # 100))%Qc by ring.
  replace (Q2Qc (1 # 100) + (qz n - qz k))%Qc with (qz n - qz k + Q2Qc (1 # 100))%Qc by ring.
  reflexivity.
Qed.

Lemma loop_first (sys_fun : sysfun) low u cov_t : forall xs n k pf cov2 e, 
  mcs_loop sys_fun low u cov_t n k pf cov2 (map Ok xs) = Ok (Some e) ->
  forall ys zs, xs = ys ++ zs -> n + Z.of_nat (List.length ys) < e_nsamp e ->
  mcs_loop sys_fun low u cov_t n k pf cov2 (map Ok ys) = Ok None.
Proof.
  induction xs as [|x xs IH]; intros n k pf cov2 e H ys zs E L.
  - destruct ys; [|discriminate]. cbn [map mcs_loop] in *. destruct (above cov2 cov_t); [reflexivity|].
    destruct (9 <? n); [|discriminate]. injection H as <-. cbn in L. lia.
  - cbn [map mcs_loop] in H. destruct (above cov2 cov_t) eqn:A.
    2:{ destruct (9 <? n); [|discriminate]. injection H as <-. cbn in L. lia. }
    destruct ys as [|y ys]; cbn [map mcs_loop]; rewrite A; [reflexivity|]. cbn [app] in E. injection E as <- E.
    cbn [bind] in *. eapply IH; [exact H|exact E|]. cbn [List.length] in L. lia.
Qed.

Lemma qsum_nonneg_b (l : list branch) : (forall b, In b l -> (0 <= b_p b)%Qc) -> (0 <= qsum (map b_p l))%Qc.
Proof. intros H. apply qsum_nonneg. intros q Hq. apply in_map_iff in Hq as (b & <- & Hb). auto. Qed.

Theorem C60_estimate :
  forall phi sys_fun brs cov_t xs e,
    (forall b, In b brs -> (0 <= b_p b)%Qc) -> answers phi sys_fun xs ->
    mcs_unknown_simple brs sys_fun cov_t (map Ok xs) = Ok (Some e) ->
    let low := qsum (map b_p (filter (fun b => st_eqb (b_up_state b) F_) brs)) in
    let u := qsum (map b_p (filter open_branch brs)) in
    let cov2 n := post_cov2 low u (Z.of_nat n) (Z.of_nat (failures phi (firstn n xs))) in
    exists n, e_nsamp e = Z.of_nat n /\ (10 <= n <= List.length xs)%nat /\
      e_pf e = post_mean low u (Z.of_nat n) (Z.of_nat (failures phi (firstn n xs))) /\
      e_cov2 e = cov2 n /\ (0 <= cov_t)%Qc /\ (cov2 n <= cov_t * cov_t)%Qc /\
      (forall m, (10 <= m < n)%nat -> (cov_t * cov_t < cov2 m)%Qc) /\
      (low <= e_pf e)%Qc /\ (e_pf e <= low + u)%Qc.
Proof.
  intros phi sys_fun brs cov_t xs e Hb Ha H low u cov2.
  unfold mcs_unknown_simple in H. change (mcs_pf_low brs) with low in H.
  change (mcs_u_prob brs) with u in H.
  assert (Hu : (0 <= u)%Qc) by (apply qsum_nonneg_b; intros b H'; apply filter_In in H' as [H' _]; auto).
  pose proof (loop_first sys_fun low u cov_t xs 0 0 0%Qc 1%Qc e H) as F.
  destruct (loop_spec phi sys_fun low u cov_t xs [] 0%Qc 1%Qc e (linv_start phi low u) Ha H) as (ys & zs & E & En & L & P & A).
  cbn [app] in *. rewrite post_formula in P. injection P as P1 P2.
  assert (Fn : firstn (List.length ys) xs = ys) by (rewrite E, firstn_app, firstn_all, Nat.sub_diag; apply app_nil_r).
  exists (List.length ys). unfold cov2. rewrite Fn. split; [exact En|]. split; [rewrite E, app_length; lia|]. split; [exact P1|].
  split; [exact P2|]. rewrite <- P2. apply orb_false_iff in A as [A1 A2].
  assert (A0 : (0 <= cov_t)%Qc) by (apply qc_ltb_ge; exact A1). split; [exact A0|].
  split; [apply qc_ltb_ge; exact A2|]. split.
  - intros m Hm.
    assert (Lm : List.length (firstn m xs) = m) by (apply firstn_length_le; rewrite E, app_length; lia).
    assert (N := F (firstn m xs) (skipn m xs) (eq_sym (firstn_skipn m xs))). rewrite Lm, En in N.
    assert (N' := N ltac:(lia)). clear N.
    assert (An : answers phi sys_fun (firstn m xs)).
    { intros x Hx. apply Ha. rewrite <- (firstn_skipn m xs). apply in_or_app. auto. }
    pose proof (loop_none phi sys_fun low u cov_t (firstn m xs) [] 0%Qc 1%Qc (linv_start phi low u) An N') as B.
    cbn [app] in B. rewrite Lm, post_formula in B. specialize (B ltac:(lia)). apply orb_true_iff in B as [B|B]; [congruence|].
    apply qc_ltb_lt. exact B.
  - pose proof (post_bounds low u (List.length ys) (failures phi ys) (failures_le phi ys) Hu) as B. cbv zeta in B.
    rewrite post_formula in B. cbn [fst] in B. rewrite <- P1 in B. exact B.
Qed.
Print Assumptions C60_estimate.

(** the example: ten draws, two of which fail, for a threshold of one half *)
Definition mv (x y z w : Z) : dict Z := [("x", x); ("y", y); ("z", z); ("w", w)].
Definition mxs : list (dict Z) :=
  [mv 1 0 1 0; mv 1 0 0 1; mv 1 0 0 0; mv 0 1 1 0; mv 0 1 1 0; mv 1 0 1 0; mv 0 1 0 1; mv 0 0 1 0; mv 1 0 1 0; mv 1 0 0 1; mv 1 0 0 1; mv 1 0 0 0].
Definition e_view (r : res (option estimate)) : res (option (Q * Q * Z)) :=
  o <- r ;; Ok (match o with None => None | Some e => Some (this (e_pf e), this (e_cov2 e), e_nsamp e) end).
Lemma m_answers : answers mphi msys mxs.
Proof. intros x _. reflexivity. Qed.
(** with the threshold 2/5 the test fails after ten and after eleven draws *)
Example C60_estimate_ex :
  answers mphi msys mxs /\ (forall b, In b mbrs -> (0 <= b_p b)%Qc) /\
  (forall x, In x mxs -> In (Ok x) (map snd (draw_sample mbrs mprobs))) /\
  e_view (mcs_unknown_simple mbrs msys (Q2Qc (9 # 20)) (map Ok mxs)) = Ok (Some ((4351 # 85504)%Q, (1811261250 # 10431091751)%Q, 10)) /\
  e_view (mcs_unknown_simple mbrs msys (Q2Qc (2 # 5)) (map Ok mxs)) = Ok (Some ((18353 # 307712)%Q, (1307576250 # 10441810879)%Q, 12)).
Proof.
  split; [exact m_answers|]. split.
  { destruct m_run as (s & _ & _ & _ & B2 & _). intros b Hb. rewrite (B2 b Hb). apply (prob_event_nonneg mvaris mprobs (proj1 m_varis) m_probs). }
  split; [|split; vm_compute; reflexivity].
  assert (X : map snd (draw_sample mbrs mprobs) =
    [Ok (mv 1 0 1 0); Ok (mv 1 0 0 0); Ok (mv 1 0 0 1); Ok (mv 0 0 1 0); Ok (mv 0 1 1 0); Ok (mv 0 1 0 0); Ok (mv 0 1 0 1)]) by (vm_compute; reflexivity).
  rewrite X. intros x Hx. cbn [mxs In] in Hx. repeat (destruct Hx as [Hx|Hx]; [subst x; cbn [In]; tauto|]). contradiction.
Qed.

(** samples are never an error below the threshold 1, and the loop ends once the number
    of samples reaches a bound that depends on the known failure probability only *)
Theorem C60_no_exception :
  forall phi sys_fun brs cov_t xs,
    answers phi sys_fun xs -> (cov_t < 1)%Qc ->
    exists r, mcs_unknown_simple brs sys_fun cov_t (map Ok xs) = Ok r.
Proof.
  intros phi sys_fun brs cov_t xs Ha Hc.
  exact (loop_total phi sys_fun (mcs_pf_low brs) (mcs_u_prob brs) cov_t Hc xs [] 0%Qc 1%Qc (linv_start _ _ _) Ha).
Qed.
Print Assumptions C60_no_exception.

Theorem C60_terminates :
  forall phi sys_fun brs cov_t xs,
    (forall b, In b brs -> (0 <= b_p b)%Qc) -> answers phi sys_fun xs -> (0 <= cov_t)%Qc -> (cov_t < 1)%Qc ->
    let low := qsum (map b_p (filter (fun b => st_eqb (b_up_state b) F_) brs)) in
    let u := qsum (map b_p (filter open_branch brs)) in
    (0 < low)%Qc -> (10 <= List.length xs)%nat ->
    (u * u <= qz 4 * (qz (Z.of_nat (List.length xs)) + 1) * (cov_t * cov_t * (low * low)))%Qc ->
    exists e, mcs_unknown_simple brs sys_fun cov_t (map Ok xs) = Ok (Some e).
Proof.
  intros phi sys_fun brs cov_t xs Hb Ha Hc0 Hc low u Hl Hn Hq.
  destruct (C60_no_exception phi sys_fun brs cov_t xs Ha Hc) as (r & E). destruct r as [e|]; [exists e; exact E|]. exfalso.
  assert (Hu : (0 <= u)%Qc) by (apply qsum_nonneg_b; intros b H'; apply filter_In in H' as [H' _]; auto).
  pose proof (loop_none phi sys_fun low u cov_t xs [] 0%Qc 1%Qc (linv_start _ _ _) Ha E Hn) as A. cbn [app] in A.
  rewrite (post_stops low u (List.length xs) (failures phi xs) (failures_le phi xs)) in A; auto; [discriminate|apply Qclt_le_weak; auto].
Qed.
Print Assumptions C60_terminates.

(** for the example and the threshold 1/2, 126 samples are enough *)
Example C60_terminates_ex :
  (0 < mcs_pf_low mbrs)%Qc /\
  let low := mcs_pf_low mbrs in let u := mcs_u_prob mbrs in let cov_t := Q2Qc (1 # 2) in
  qc_leb (u * u)%Qc (qz 4 * (qz 126 + 1) * (cov_t * cov_t * (low * low)))%Qc = true /\
  qc_leb (u * u)%Qc (qz 4 * (qz 125 + 1) * (cov_t * cov_t * (low * low)))%Qc = false.
Proof. vm_compute. auto. Qed.

(** If the failing branches have probability 0 and no failure is drawn, the loop never
    ends: the coefficient of variation stays above 1. *)
Theorem C60_no_failure_endless :
  forall phi sys_fun brs cov_t xs,
    qsum (map b_p (filter (fun b => st_eqb (b_up_state b) F_) brs)) = 0%Qc ->
    (0 < qsum (map b_p (filter open_branch brs)))%Qc ->
    answers phi sys_fun xs -> (cov_t < 1)%Qc -> (forall x, In x xs -> phi x = true) ->
    mcs_unknown_simple brs sys_fun cov_t (map Ok xs) = Ok None.
Proof.
  intros phi sys_fun brs cov_t xs Hl Hu Ha Hc Hs.
  apply (loop_goes_on phi sys_fun (mcs_pf_low brs) (mcs_u_prob brs) cov_t xs [] 0%Qc 1%Qc (linv_start _ _ _) Ha Hc).
  cbn [app]. intros ys zs E L.
  assert (K : failures phi ys = 0%nat).
  { unfold failures. replace (filter (fun x => negb (phi x)) ys) with (@nil (dict Z)); [reflexivity|].
    assert (Hy : forall x, In x ys -> phi x = true) by (intros x Hx; apply Hs; rewrite E; apply in_or_app; auto).
    clear - Hy. induction ys as [|y ys IH]; [reflexivity|]. cbn [filter]. rewrite (Hy y) by (left; auto). apply IH. intros x Hx. apply Hy. right. auto. }
  apply (post_no_failure (mcs_pf_low brs) (mcs_u_prob brs) (List.length ys) (failures phi ys) (failures_le phi ys)); auto.
  unfold mcs_pf_low. rewrite Hl. discriminate.
Qed.
Print Assumptions C60_no_failure_endless.

(** A system that does not fail: from the unfinished search no sequence of samples
    ends the loop. *)
Definition ssys : sysfun := fun _ => (0%Qc, S_, None).
Definition srun : res rstate := run mvaris mprobs ssys (mcfg 1 None) None None.
Lemma s_sys : sys_ok mvaris (fun _ => true) ssys.
Proof. split; [intros x y _ _ _ _; reflexivity|]. intros x Hx. exists 0%Qc, None. split; [reflexivity|]. discriminate. Qed.
Theorem C60_endless_refuted :
  exists varis probs phi sys_fun g s b,
    wf_varis varis /\ wf_probs varis probs /\ binary varis /\ sys_ok varis phi sys_fun /\ unlimited varis (g_max_nb g) /\
    run varis probs sys_fun g None None = Ok s /\ s_brs s = Some b /\ (0 < prob_event varis probs (open_region b))%Qc /\
    forall cov_t xs, (cov_t < 1)%Qc -> mcs_unknown_simple b sys_fun cov_t (map Ok xs) = Ok None.
Proof.
  destruct m_varis as [W B]. assert (P := m_probs).
  destruct (C16_run_total mvaris mprobs (fun _ => true) ssys (mcfg 1 None) None None W P s_sys (none_start _ _ _) (or_introl eq_refl)) as (s & E).
  destruct (C16_resume mvaris mprobs (fun _ => true) ssys (mcfg 1 None) None None s W P s_sys (none_start _ _ _) eq_refl E) as (b & Eb & _).
  assert (X : brs_of srun = b). { unfold srun. rewrite E. cbn [brs_of]. rewrite Eb. reflexivity. }
  exists mvaris, mprobs, (fun _ => true), ssys, (mcfg 1 None), s, b.
  split; [exact W|]. split; [exact P|]. split; [exact B|]. split; [exact s_sys|]. split; [left; reflexivity|].
  split; [exact E|]. split; [exact Eb|]. rewrite <- X. split; [vm_compute; reflexivity|].
  intros cov_t xs Hc. apply (C60_no_failure_endless (fun _ => true)).
  - apply Qc_is_canon. vm_compute. reflexivity.
  - vm_compute. reflexivity.
  - intros x _. reflexivity.
  - exact Hc.
  - reflexivity.
Qed.
Print Assumptions C60_endless_refuted.

(** After a finished search there is nothing to draw from: the draw is a ValueError. *)
Definition frun : res rstate := run mvaris mprobs msys (mcfg 100 None) (Some mrules) None.
Theorem C60_finished_refuted :
  exists varis probs phi sys_fun g rules s b,
    wf_varis varis /\ wf_probs varis probs /\ binary varis /\ sys_ok varis phi sys_fun /\ start_ok varis probs phi rules None /\
    unlimited varis (g_max_nb g) /\ 0 < g_max_sf g /\
    run varis probs sys_fun g rules None = Ok s /\ s_brs s = Some b /\
    mcs_pf_low b = p_fail varis probs phi /\
    map snd (draw_sample b probs) = [Err ValueError] /\
    forall cov_t ds, (cov_t < 1)%Qc -> mcs_unknown_simple b sys_fun cov_t (Err ValueError :: ds) = Err ValueError.
Proof.
  destruct m_varis as [W B]. assert (P := m_probs).
  destruct (C16_run_total mvaris mprobs mphi msys (mcfg 100 None) (Some mrules) None W P m_sys m_start (or_introl eq_refl)) as (s & E).
  destruct (C16_resume mvaris mprobs mphi msys (mcfg 100 None) (Some mrules) None s W P m_sys m_start eq_refl E) as (b & Eb & _).
  assert (X : brs_of frun = b). { unfold frun. rewrite E. cbn [brs_of]. rewrite Eb. reflexivity. }
  exists mvaris, mprobs, mphi, msys, (mcfg 100 None), (Some mrules), s, b.
  split; [exact W|]. split; [exact P|]. split; [exact B|]. split; [exact m_sys|]. split; [exact m_start|].
  split; [left; reflexivity|]. split; [reflexivity|].
  split; [exact E|]. split; [exact Eb|]. rewrite <- X. split; [apply Qc_is_canon; vm_compute; reflexivity|].
  split; [vm_compute; reflexivity|].
  intros cov_t ds Hc. unfold mcs_unknown_simple. cbn [mcs_loop]. rewrite above_one by exact Hc. reflexivity.
Qed.
Print Assumptions C60_finished_refuted.

(** A threshold of 1 or more: the loop is not entered, and the result is unbound. *)
Theorem C60_threshold_refuted :
  forall brs sys_fun cov_t draws, (1 <= cov_t)%Qc -> mcs_unknown_simple brs sys_fun cov_t draws = Err UnboundLocalError.
Proof.
  intros brs sys_fun cov_t draws Hc. unfold mcs_unknown_simple. destruct draws; cbn [mcs_loop]; rewrite above_one_ge by exact Hc; reflexivity.
Qed.
Print Assumptions C60_threshold_refuted.

(** * C61: the samples stored in the CPMs *)
Theorem C61_samples :
  forall varis probs phi sys_fun brs cov_t cpms sys v0 vs xs e,
    wf_varis varis -> wf_probs varis probs -> (forall x, In x xs -> In x (space (comps_of varis))) -> answers phi sys_fun xs ->
    cpms_fit varis probs cpms sys v0 vs ->
    mcs_unknown_simple brs sys_fun cov_t (map Ok xs) = Ok (Some e) ->
    let samples := firstn (Z.to_nat (e_nsamp e)) xs in
    let numbers := map Z.of_nat (seq 0 (List.length samples)) in
    exists cpms', mcs_unknown_using_cpms brs probs sys_fun cpms sys cov_t (map Ok xs) = Ok (Some (cpms', e)) /\
      keys cpms' = keys cpms /\
      (exists M, dfind cpms' sys = Some M /\ sc_vars M = v0 :: vs /\
         sc_Cs M = map (fun x => (if phi x then 1 else 0) :: map (fun v => coord x (v_name v)) vs) samples /\
         sc_q M = map (fun _ => 1%Qc) samples /\ sc_idx M = numbers) /\
      (forall v, In v vs -> exists M, dfind cpms' (v_name v) = Some M /\ sc_vars M = [v] /\
         sc_Cs M = map (fun x => [coord x (v_name v)]) samples /\
         sc_q M = map (fun x => pr probs (v_name v) (coord x (v_name v))) samples /\ sc_idx M = numbers) /\
      (forall k, k <> sys -> ~ In k (map v_name vs) -> dfind cpms' k = dfind cpms k).
Proof.
  intros varis probs phi sys_fun brs cov_t cpms sys v0 vs xs e Hw Hp Hx Ha Hf H samples numbers.
  destruct (using_cpms_ok varis probs brs sys_fun cov_t cpms sys v0 vs xs e Hw Hp Hx Hf H) as (c & E1 & E2 & E3 & E4 & E5).
  fold samples in E3, E4. exists c. split; [exact E1|]. split; [exact E2|]. split; [|split; [|exact E5]].
  - exists (sys_cpm samples sys_fun v0 vs). split; [exact E3|]. split; [reflexivity|]. split; [|split; reflexivity].
    cbn [sys_cpm sc_Cs]. apply map_ext_in. intros x Hs. f_equal. unfold sys_state. rewrite Ha.
    + destruct (phi x); reflexivity.
    + unfold samples in Hs. rewrite <- (firstn_skipn (Z.to_nat (e_nsamp e)) xs). apply in_or_app. auto.
  - intros v Hv. exists (comp_cpm probs samples v). split; [apply E4; exact Hv|]. repeat split; reflexivity.
Qed.
Print Assumptions C61_samples.

(** the weights that a sample gets in the CPMs multiply to the probability of the vector *)
Theorem C61_weights :
  forall varis probs phi sys_fun brs cov_t cpms sys v0 vs xs e,
    wf_varis varis -> wf_probs varis probs -> (forall x, In x xs -> In x (space (comps_of varis))) -> answers phi sys_fun xs ->
    cpms_fit varis probs cpms sys v0 vs -> Permutation (map v_name vs) (keys varis) ->
    mcs_unknown_simple brs sys_fun cov_t (map Ok xs) = Ok (Some e) ->
    exists cpms', mcs_unknown_using_cpms brs probs sys_fun cpms sys cov_t (map Ok xs) = Ok (Some (cpms', e)) /\
      forall i x, (i < Z.to_nat (e_nsamp e))%nat -> nth_error xs i = Some x ->
        qprod (map (fun k => match dfind cpms' k with Some M => nth i (sc_q M) 0%Qc | None => 0%Qc end) (map v_name vs)) = prob_of probs x.
Proof.
  intros varis probs phi sys_fun brs cov_t cpms sys v0 vs xs e Hw Hp Hx Ha Hf Hpm H.
  destruct (C61_samples varis probs phi sys_fun brs cov_t cpms sys v0 vs xs e Hw Hp Hx Ha Hf H) as (c & E1 & _ & _ & E4 & _).
  exists c. split; [exact E1|]. intros i x Hi Hn.
  destruct Hf as (_ & _ & _ & Nd & _).
  rewrite <- (q_product varis probs vs x (proj1 Hw) Nd Hpm) by (apply Hx; eapply nth_error_In; eauto).
  f_equal. rewrite map_map. apply map_ext_in. intros v Hv. destruct (E4 v Hv) as (M & -> & _ & _ & -> & _).
  apply nth_error_nth. rewrite nth_error_map.
  assert (F : forall (l : list (dict Z)) n i, (i < n)%nat -> nth_error (firstn n l) i = nth_error l i).
  { induction l as [|a l IH]; intros n j L; [rewrite firstn_nil; reflexivity|]. destruct n; [lia|]. destruct j; [reflexivity|]. cbn. apply IH. lia. }
  rewrite F, Hn by exact Hi. reflexivity.
Qed.
Print Assumptions C61_weights.

Definition sysv : variable := mk_variable "sys" [VStr "f"; VStr "s"; VStr "u"] None.
Definition mcpms : dict scpm :=
  map (fun kv => (fst kv, mkScpm [snd kv] [] [] [])) mvaris ++ [("sys", mkScpm (sysv :: map snd mvaris) [] [] [])].
Definition cpms_view (r : res (option (dict scpm * estimate))) : list (string * list (list Z) * list Q * list Z) :=
  match r with Ok (Some (c, _)) => map (fun kM => (fst kM, sc_Cs (snd kM), map this (sc_q (snd kM)), sc_idx (snd kM))) c | _ => [] end.
Example C61_samples_ex :
  cpms_fit mvaris mprobs mcpms "sys" sysv (map snd mvaris) /\ (forall x, In x mxs -> In x (space (comps_of mvaris))) /\
  answers mphi msys mxs /\ Permutation (map v_name (map snd mvaris)) (keys mvaris) /\
  e_view (mcs_unknown_simple mbrs msys (Q2Qc (9 # 20)) (map Ok mxs)) = Ok (Some ((4351 # 85504)%Q, (1811261250 # 10431091751)%Q, 10)) /\
  let v := cpms_view (mcs_unknown_using_cpms mbrs mprobs msys mcpms "sys" (Q2Qc (9 # 20)) (map Ok mxs)) in
  map (fun r => fst (fst (fst r))) v = ["x"; "y"; "z"; "w"; "sys"] /\
  nth 0 v ("", [], [], []) = ("x", [[1]; [1]; [1]; [0]; [0]; [1]; [0]; [0]; [1]; [1]],
    [3 # 4; 3 # 4; 3 # 4; 1 # 4; 1 # 4; 3 # 4; 1 # 4; 1 # 4; 3 # 4; 3 # 4]%Q, [0; 1; 2; 3; 4; 5; 6; 7; 8; 9]) /\
  nth 4 v ("", [], [], []) = ("sys", [[1; 1; 0; 1; 0]; [1; 1; 0; 0; 1]; [0; 1; 0; 0; 0]; [1; 0; 1; 1; 0]; [1; 0; 1; 1; 0];
                                      [1; 1; 0; 1; 0]; [1; 0; 1; 0; 1]; [0; 0; 0; 1; 0]; [1; 1; 0; 1; 0]; [1; 1; 0; 0; 1]],
    repeat 1%Q 10, [0; 1; 2; 3; 4; 5; 6; 7; 8; 9]).
Proof.
  split.
  { split; [eexists; split; reflexivity|]. split; [vm_compute; discriminate|]. split; [cbn; intuition discriminate|].
    split; [repeat constructor; cbn; intuition discriminate|]. split; [reflexivity|].
    intros v Hv. cbn in Hv. destruct Hv as [Hv|[Hv|[Hv|[Hv|[]]]]]; subst v; (split; [reflexivity|]); eexists; split; reflexivity. }
  split; [intros x Hx; cbn [mxs In] in Hx; repeat (destruct Hx as [Hx|Hx]; [subst x; vm_compute; tauto|]); contradiction|].
  split; [exact m_answers|]. split; [apply Permutation_refl|]. split; [vm_compute; reflexivity|]. vm_compute. repeat split; reflexivity.
Qed.

(** * C62: crude Monte Carlo *)
Theorem C62_distribution :
  forall varis probs,
    wf_varis varis -> wf_probs varis probs -> full_dicts varis probs ->
    (forall o, In o (draw_indep probs) -> (0 < fst o)%Qc /\ exists x, snd o = Ok x /\ In x (space (comps_of varis))) /\
    (forall f, mean (draw_indep probs) (on_ok f) = qsum (map (fun x => (prob_of probs x * f x)%Qc) (space (comps_of varis)))) /\
    (forall phi, mean (draw_indep probs) (on_ok (fails phi)) = p_fail varis probs phi).
Proof.
  intros varis probs Hw Hp Hf. destruct (draw_indep_ok varis probs Hw Hp Hf) as (D & E & P & M).
  assert (M' : forall f, mean (draw_indep probs) (on_ok f) = qsum (map (fun x => (prob_of probs x * f x)%Qc) (space (comps_of varis)))).
  { intros f. rewrite E, mean_okp. apply M. }
  split; [|split; [exact M'|]].
  - intros o Ho. rewrite E in Ho. apply in_map_iff in Ho as (o' & <- & Ho). destruct (P o' Ho) as (P1 & P2). split; [exact P1|].
    exists (snd o'). auto.
  - intros phi. rewrite M'. unfold p_fail, prob_event. clear. induction (space (comps_of varis)) as [|x l IH]; [reflexivity|].
    cbn [map filter qsum]. unfold fails at 1. destruct (phi x); cbn [negb map qsum]; rewrite IH; ring.
Qed.
Print Assumptions C62_distribution.

Lemma qc_pos_neq (x : Qc) : (0 < x)%Qc -> x <> 0%Qc.
Proof. intros H E. rewrite E in H. discriminate. Qed.
Theorem C62_estimate :
  forall phi sys_fun cov_t xs e,
    answers phi sys_fun xs -> (cov_t < 1)%Qc -> run_MCS_indep_comps sys_fun cov_t (map Ok xs) = Ok (Some e) ->
    exists n, e_nsamp e = Z.of_nat n /\ (n <= List.length xs)%nat /\
      let k := failures phi (firstn n xs) in
      (6 <= k)%nat /\ e_pf e = (qz (Z.of_nat k) / qz (Z.of_nat n))%Qc /\
      e_cov2 e = ((1 - e_pf e) / (qz (Z.of_nat n) * e_pf e))%Qc /\ (0 <= cov_t)%Qc /\ (e_cov2 e <= cov_t * cov_t)%Qc /\
      exists x, nth_error xs (n - 1) = Some x /\ phi x = false.
Proof.
  intros phi sys_fun cov_t xs e Ha Hc H.
  assert (I : iinv phi cov_t [] None 1%Qc).
  { split; [reflexivity|]. split; [reflexivity|]. cbn. lia. }
  pose proof (indep_spec phi sys_fun cov_t Hc xs [] None 1%Qc I Ha) as S.
  change (run_MCS_indep_comps sys_fun cov_t (map Ok xs)) with
    (indep_loop sys_fun cov_t (Z.of_nat (List.length (@nil (dict Z)))) (Z.of_nat (failures phi [])) None 1%Qc (map Ok xs)) in H.
  rewrite H in S. destruct S as (ys & zs & E & En & L & (p0 & x & Ex & Hx) & P & A). cbn [app] in *.
  assert (Fn : firstn (List.length ys) xs = ys) by (rewrite E, firstn_app, firstn_all, Nat.sub_diag; apply app_nil_r).
  exists (List.length ys). split; [exact En|]. split; [rewrite E, app_length; lia|]. rewrite Fn. cbv zeta. split; [lia|].
  unfold iest in P. rewrite En in P. injection P as P1 P2. split; [exact P1|].
  apply orb_false_iff in A as [A1 A2]. apply qc_ltb_ge in A1, A2.
  split; [|split; [exact A1|split; [exact A2|]]].
  - rewrite P2, <- P1.
    assert (K1 : (qz (Z.of_nat (List.length ys)) <> 0)%Qc).
    { apply (qc_pos_neq (qz (Z.of_nat (List.length ys)))). apply qz_pos. assert (Y := failures_le phi ys). lia. }
    assert (K3 : (qz (Z.of_nat (failures phi ys)) <> 0)%Qc) by (apply qc_pos_neq, qz_pos; lia).
    assert (K2 : e_pf e <> 0%Qc).
    { intros X. apply K3. replace (qz (Z.of_nat (failures phi ys))) with (e_pf e * qz (Z.of_nat (List.length ys)))%Qc; [rewrite X; ring|].
      rewrite P1. field. exact K1. }
    field. auto.
  - exists x. split; [|exact Hx]. rewrite E, Ex. rewrite app_length, nth_error_app1 by (rewrite app_length; cbn; lia).
    cbn [List.length]. rewrite nth_error_app2 by lia. replace (_ - _ - _)%nat with 0%nat by lia. reflexivity.
Qed.
Print Assumptions C62_estimate.


(** the only exception on samples is an unbound result, and it needs 20000 samples
    without a failure *)
Theorem C62_exception :
  forall phi sys_fun cov_t xs x,
    answers phi sys_fun xs -> (cov_t < 1)%Qc -> run_MCS_indep_comps sys_fun cov_t (map Ok xs) = Err x ->
    x = UnboundLocalError /\ exists ys zs, xs = ys ++ zs /\ failures phi ys = 0%nat /\ 20000 <= Z.of_nat (List.length ys).
Proof.
  intros phi sys_fun cov_t xs x Ha Hc H.
  assert (I : iinv phi cov_t [] None 1%Qc).
  { split; [reflexivity|]. split; [reflexivity|]. cbn. lia. }
  pose proof (indep_spec phi sys_fun cov_t Hc xs [] None 1%Qc I Ha) as S.
  change (run_MCS_indep_comps sys_fun cov_t (map Ok xs)) with
    (indep_loop sys_fun cov_t (Z.of_nat (List.length (@nil (dict Z)))) (Z.of_nat (failures phi [])) None 1%Qc (map Ok xs)) in H.
  rewrite H in S. exact S.
Qed.
Print Assumptions C62_exception.

(** seven failures among nine samples *)
Definition mys : list (dict Z) :=
  [mv 0 0 0 0; mv 1 1 0 1; mv 0 0 0 1; mv 0 1 0 0; mv 1 1 1 1; mv 0 0 1 0; mv 1 0 0 0; mv 0 0 0 0; mv 0 0 0 0; mv 1 1 1 0].
Example C62_estimate_ex :
  wf_varis mvaris /\ wf_probs mvaris mprobs /\ full_dicts mvaris mprobs /\ answers mphi msys mys /\
  List.length (draw_indep mprobs) = 16%nat /\
  nth 1 (map (fun o => (this (fst o), snd o)) (draw_indep mprobs)) (0%Q, Err KeyError) = ((3 # 256)%Q, Ok (mv 0 0 0 1)) /\
  e_view (run_MCS_indep_comps msys (Q2Qc (1 # 4)) (map Ok mys)) = Ok (Some ((3 # 4)%Q, (1 # 24)%Q, 8)) /\
  e_view (run_MCS_indep_comps msys (Q2Qc (1 # 5)) (map Ok mys)) = Ok (Some ((7 # 9)%Q, (2 # 63)%Q, 9)).
Proof.
  split; [exact (proj1 m_varis)|]. split; [exact m_probs|]. split.
  { repeat (constructor; [split; [reflexivity|eexists; split; [reflexivity|apply Permutation_refl]]|]). constructor. }
  split; [intros x _; reflexivity|]. vm_compute. repeat split; reflexivity.
Qed.

(** 20000 samples without a failure end in an exception, although failures are possible *)
Theorem C62_unbound_refuted :
  exists varis probs phi sys_fun x,
    wf_varis varis /\ wf_probs varis probs /\ full_dicts varis probs /\ sys_ok varis phi sys_fun /\ (0 < p_fail varis probs phi)%Qc /\
    In (Ok x) (map snd (draw_indep probs)) /\
    forall cov_t n, (cov_t < 1)%Qc -> 20000 <= Z.of_nat n ->
      run_MCS_indep_comps sys_fun cov_t (map Ok (repeat x n)) = Err UnboundLocalError.
Proof.
  exists mvaris, mprobs, mphi, msys, (mv 1 1 1 1).
  split; [exact (proj1 m_varis)|]. split; [exact m_probs|]. split; [apply C62_estimate_ex|]. split; [exact m_sys|]. split; [reflexivity|].
  split.
  { assert (X : nth 15 (map snd (draw_indep mprobs)) (Err KeyError) = Ok (mv 1 1 1 1)) by (vm_compute; reflexivity).
    rewrite <- X. apply nth_In. vm_compute. lia. }
  intros cov_t n Hc Hn.
  apply (indep_unbound mphi msys cov_t Hc (repeat (mv 1 1 1 1) n) []).
  - intros x _. reflexivity.
  - intros x Hx. apply repeat_spec in Hx. subst x. reflexivity.
  - cbn. lia.
  - cbn [app]. rewrite repeat_length. exact Hn.
Qed.
Print Assumptions C62_unbound_refuted.

Theorem C62_threshold_refuted :
  forall sys_fun cov_t draws, (1 <= cov_t)%Qc -> run_MCS_indep_comps sys_fun cov_t draws = Err UnboundLocalError.
Proof.
  intros sys_fun cov_t draws Hc. unfold run_MCS_indep_comps. destruct draws; cbn [indep_loop]; rewrite above_one_ge by exact Hc; reflexivity.
Qed.
Print Assumptions C62_threshold_refuted.

(** the search accepts distributions as lists, this function does not *)
Theorem C62_lists_refuted :
  exists varis probs, wf_varis varis /\ wf_probs varis probs /\ draw_indep probs = [(1%Qc, Err AttributeError)].
Proof.
  exists t3varis, t3probs. split; [|split; [|reflexivity]].
  - split; [repeat constructor; cbn; intuition|]. intros k v [H|[]]. injection H as <- <-. cbn. lia.
  - exact t3_probs.
Qed.
Print Assumptions C62_lists_refuted.
