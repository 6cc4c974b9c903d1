(** Final theorems C99: the bounds of [brc.run] (brc.py 17-120) are the best that the
    known rules allow: some coherent system that agrees with all rules has the
    lower bound as failure probability, another one the upper bound. *)
From Coq Require Import ZArith List String Bool Arith Lia QArith Qcanon.
From Verif Require Import Py Num Vari Brc SpecBrc PyFacts BrcFacts BrcProb BrcDecomp BrcRun BrcMain PropBrc PropBrc2.
Import ListNotations.
Open Scope string_scope.
Open Scope Z_scope.
Open Scope list_scope.

(** [phi] could be the system *)
Definition agrees (varis : dict variable) (rs : ruleset) (phi : dict Z -> bool) : Prop :=
  coherent varis phi /\ sound_rules varis phi rs.
(** [low] and [up] are the least and greatest failure probability of the systems
    that agree with the rules *)
Definition best_bounds (varis : dict variable) (probs : prob_dict) (rs : ruleset) (low up : Qc) : Prop :=
  (exists phi, agrees varis rs phi /\ p_fail varis probs phi = low) /\
  (exists phi, agrees varis rs phi /\ p_fail varis probs phi = up) /\
  forall phi, agrees varis rs phi -> (low <= p_fail varis probs phi /\ p_fail varis probs phi <= up)%Qc.

Lemma agrees_low varis rs phi : wf_rules varis rs -> sound_rules varis phi rs -> agrees varis rs (fun x => negb (match_f rs x)).
Proof.
  intros Hr Hs. assert (Hc := sound_consistent varis phi rs Hs). split; [|split].
  - intros x y Hx Hy L H. apply negb_true_iff in H. apply negb_true_iff. destruct (match_f rs y) eqn:E; auto.
    rewrite (match_f_anti varis rs x y Hr L E) in H. discriminate.
  - intros r x Hi Hx Hm. destruct (match_f rs x) eqn:E; auto. exfalso. apply match_f_spec in E as (r' & Hi' & Hm').
    assert (A := proj1 Hs r x Hi Hx Hm). assert (B := proj2 Hs r' x Hi' Hx Hm'). congruence.
  - intros r x Hi Hx Hm. apply negb_false_iff. apply match_f_spec. eauto.
Qed.

Lemma agrees_up varis rs phi : wf_rules varis rs -> sound_rules varis phi rs -> agrees varis rs (match_s rs).
Proof.
  intros Hr Hs. split; [|split].
  - intros x y Hx Hy L H. eapply match_s_mono; eauto.
  - intros r x Hi Hx Hm. apply match_s_spec. eauto.
  - intros r x Hi Hx Hm. destruct (match_s rs x) eqn:E; auto. exfalso. apply match_s_spec in E as (r' & Hi' & Hm').
    assert (A := proj1 Hs r' x Hi' Hx Hm'). assert (B := proj2 Hs r x Hi Hx Hm). congruence.
Qed.

Lemma rules_best varis probs rs phi : wf_varis varis -> wf_probs varis probs -> wf_rules varis rs -> sound_rules varis phi rs ->
  best_bounds varis probs rs (prob_event varis probs (match_f rs)) (1 - prob_event varis probs (match_s rs))%Qc.
Proof.
  intros Hw Hp Hr Hs. split; [|split].
  - eexists. split; [eapply agrees_low; eauto|]. unfold p_fail. apply prob_event_ext; auto. intros x _. apply negb_involutive.
  - eexists. split; [eapply agrees_up; eauto|]. unfold p_fail. assert (C := prob_event_compl varis probs Hp (match_s rs)). rewrite <- C. ring.
  - intros psi [Hc [S1 S2]]. unfold p_fail. split.
    + apply prob_event_mono; auto. intros x Hx H. apply match_f_spec in H as (r & Hi & Hm). rewrite (S2 r x Hi Hx Hm). auto.
    + assert (C := prob_event_compl varis probs Hp psi).
      assert (L : (prob_event varis probs (match_s rs) <= prob_event varis probs psi)%Qc).
      { apply prob_event_mono; auto. intros x Hx H. apply match_s_spec in H as (r & Hi & Hm). eauto. }
      revert L C. generalize (prob_event varis probs (match_s rs)) as a, (prob_event varis probs psi) as b, (prob_event varis probs (fun x => negb (psi x))) as c.
      intros a b c L C. assert (E : c = (1 - b)%Qc) by (rewrite <- C; ring). rewrite E. qc_lra.
Qed.

(** the bounds that a full decomposition yields *)
Theorem C99_decomposition :
  forall varis probs phi rs max_nb brs out,
    wf_varis varis -> wf_probs varis probs -> wf_rules varis rs -> sound_rules varis phi rs ->
    valid_brs varis probs rs brs -> unlimited varis max_nb ->
    decomp_depth_first varis rs probs max_nb brs = Ok out ->
    best_bounds varis probs rs
      (qsum (map b_p (filter (fun b => st_eqb (b_up_state b) F_) out)))
      (1 - qsum (map b_p (filter (fun b => st_eqb (b_down_state b) S_) out)))%Qc.
Proof.
  intros varis probs phi rs max_nb brs out H1 H2 H3 H4 H5 Hu H6.
  destruct (C17_exact_cover varis probs phi rs max_nb brs out H1 H2 H3 H4 H5 Hu H6) as (_ & -> & ->). eapply rules_best; eauto.
Qed.
Print Assumptions C99_decomposition.

(** A vector in no decided branch is undecided: the rules leave both states of
    the system possible, so no classification is missed. *)
Theorem C99_undecided :
  forall varis probs phi rs max_nb brs out,
    wf_varis varis -> wf_probs varis probs -> wf_rules varis rs -> sound_rules varis phi rs ->
    valid_brs varis probs rs brs -> unlimited varis max_nb ->
    decomp_depth_first varis rs probs max_nb brs = Ok out ->
    forall x, In x (space (comps_of varis)) ->
      ((exists b, In b out /\ (b_up_state b = F_ \/ b_down_state b = S_) /\ in_branch b x = true) <->
       (forall phi1 phi2, agrees varis rs phi1 -> agrees varis rs phi2 -> phi1 x = phi2 x)).
Proof.
  intros varis probs phi rs max_nb brs out H1 H2 H3 H4 H5 Hu H6 x Hx.
  destruct (C17_exact_cover varis probs phi rs max_nb brs out H1 H2 H3 H4 H5 Hu H6) as (X & _). destruct (X x Hx) as [XF XS].
  split.
  - intros (b & Hb & [L|L] & Hin) phi1 phi2 [_ [A1 A2]] [_ [B1 B2]].
    + assert (M : match_f rs x = true) by (apply XF; eauto). apply match_f_spec in M as (r & Hi & Hm). rewrite (A2 r x), (B2 r x); auto.
    + assert (M : match_s rs x = true) by (apply XS; eauto). apply match_s_spec in M as (r & Hi & Hm). rewrite (A1 r x), (B1 r x); auto.
  - intros H. specialize (H _ _ (agrees_low varis rs phi H3 H4) (agrees_up varis rs phi H3 H4)). cbv beta in H.
    destruct (match_f rs x) eqn:E.
    + destruct (proj2 XF eq_refl) as (b & A & B & C). eauto.
    + cbn in H. symmetry in H. apply XS in H as (b & A & B & C). eauto.
Qed.
Print Assumptions C99_undecided.

(** Whatever stops the search, except the number of system runs, its last bounds
    are the best that its rules allow. *)
Theorem C99_run_best :
  forall varis probs phi sys_fun g rules brs s,
    wf_varis varis -> wf_probs varis probs -> sys_ok varis phi sys_fun -> start_ok varis probs phi rules brs ->
    unlimited varis (g_max_nb g) -> 0 < g_max_sf g ->
    run varis probs sys_fun g rules brs = Ok s -> m_out_flag (s_mon s) <> Some O_max_sf ->
    best_bounds varis probs (s_rules s) (last (m_pf_low (s_mon s)) 0%Qc) (last (m_pf_up (s_mon s)) 0%Qc).
Proof.
  intros varis probs phi sys_fun g rules brs s H1 H2 H3 (S1 & S2 & S3) Hu Hm E Hf.
  pose proof (run_final varis probs phi sys_fun g rules brs H1 H2 H3 S1 S2 S3 Hm) as R. rewrite E in R.
  destruct R as (h0 & b & u & R). cbv zeta in R.
  destruct R as (Eb & Hwr & Hsr & He & _ & _ & (M1 & M2 & _) & _ & _ & _ & _ & (f & Ef & _ & _ & _ & Hu')).
  assert (Eu : u = s_rules s) by (apply Hu'; congruence). subst u.
  rewrite Forall_forall in He. destruct (He (b, s_rules s, s_rules s)) as (_ & _ & V & F & _); [apply in_or_app; right; left; auto|].
  unfold e_used, e_brs in V, F. cbn [fst snd] in V, F.
  assert (Hn : no_cut varis (g_max_nb g)) by (destruct Hu as [->|(m & -> & Hm')]; cbn; auto).
  destruct (full_bounds varis probs H1 (s_rules s) b Hwr (sound_consistent varis phi _ Hsr) V (F (or_introl Hn))) as [B1 B2].
  rewrite M1, M2, !map_app. cbn [map e_brs fst]. rewrite !last_last, B1, B2. eapply rules_best; eauto.
Qed.
Print Assumptions C99_run_best.

(** Stopped by the number of system runs the search does not use its last rule:
    after one run the bounds are still 0 and 1 although the rule found leaves no
    system with a failure probability above 2/5. *)
Definition one_g : config := mkCfg 1 None 0 None true true.
Definition one_run : rstate :=
  match run ex_varis ex_probs ex_sys one_g None None with Ok s => s | Err _ => mkSt None (mkRules [] []) [] (fst init_monitor) (snd init_monitor) end.
Theorem C99_last_rule_refuted :
  exists varis probs phi sys_fun g s,
    wf_varis varis /\ wf_probs varis probs /\ sys_ok varis phi sys_fun /\ unlimited varis (g_max_nb g) /\
    run varis probs sys_fun g None None = Ok s /\ m_out_flag (s_mon s) = Some O_max_sf /\
    forall psi, agrees varis (s_rules s) psi -> (p_fail varis probs psi < last (m_pf_up (s_mon s)) 0)%Qc.
Proof.
  exists ex_varis, ex_probs, ex_phi, ex_sys, one_g, one_run. split; [exact ex_wf_varis|]. split; [exact ex_wf_probs|]. split; [exact ex_sys_ok|].
  split; [left; reflexivity|]. split; [vm_compute; reflexivity|]. split; [vm_compute; reflexivity|].
  intros psi A. assert (Er : s_rules one_run = mkRules [[("x1", 2)]] []) by (vm_compute; reflexivity). rewrite Er in A.
  destruct (rules_best ex_varis ex_probs (mkRules [[("x1", 2)]] []) psi ex_wf_varis ex_wf_probs) as (_ & _ & B).
  - split; [intros r [<-|[]]; apply (proj1 ex_wf_rules); left; auto|intros r []].
  - apply A.
  - destruct (B psi A) as [_ B2]. eapply Qcle_lt_trans; [exact B2|]. vm_compute. reflexivity.
Qed.
Print Assumptions C99_last_rule_refuted.

(** a search that is stopped when it has three rules: systems that agree with them
    fail with probability 2/25 to 4/25 *)
Definition three_g : config := mkCfg 9 None 0 (Some 3) false true.
Definition three_run : rstate :=
  match run ex_varis ex_probs ex_sys three_g None None with Ok s => s | Err _ => mkSt None (mkRules [] []) [] (fst init_monitor) (snd init_monitor) end.
Example C99_ex :
  wf_varis ex_varis /\ wf_probs ex_varis ex_probs /\ sys_ok ex_varis ex_phi ex_sys /\ start_ok ex_varis ex_probs ex_phi None None /\
  unlimited ex_varis (g_max_nb three_g) /\ run ex_varis ex_probs ex_sys three_g None None = Ok three_run /\
  m_out_flag (s_mon three_run) = Some O_max_rules /\
  s_rules three_run = mkRules [[("x1", 2)]; [("x1", 1); ("x2", 1)]] [[("x1", 1); ("x2", 0)]] /\
  map this (m_pf_low (s_mon three_run)) = [0; 0; 0; 0; 2 # 25]%Q /\ map this (m_pf_up (s_mon three_run)) = [1; 2 # 5; 11 # 50; 4 # 25; 4 # 25]%Q.
Proof.
  split; [exact ex_wf_varis|]. split; [exact ex_wf_probs|]. split; [exact ex_sys_ok|].
  split; [split; [split; intros r []|split; [split; intros r x []|discriminate]]|]. split; [left; reflexivity|].
  do 4 (split; [vm_compute; reflexivity|]). vm_compute. reflexivity.
Qed.
