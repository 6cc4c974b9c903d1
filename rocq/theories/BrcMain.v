(** Proofs of the final statements about brc.py, from the lemmas of the other files. *)
From Coq Require Import ZArith List String Bool Lia Arith QArith Qcanon Permutation.
From Verif Require Import Py Num Vari Brc PyFacts SpecBrc VariFacts BrcFacts BrcProb BrcDecomp BrcRules BrcRun BrcMisc.
Import ListNotations.
Open Scope string_scope.
Open Scope Z_scope.
Open Scope list_scope.

(** C06 *)
Lemma main_get_state varis phi rs x :
  wf_rules varis rs -> sound_rules varis phi rs -> In x (space (comps_of varis)) ->
  exists s, get_state x rs = Ok s /\
    (s = U_ <-> (match_s rs x = false /\ match_f rs x = false)) /\
    (s = S_ -> phi x = true) /\ (s = F_ -> phi x = false).
Proof.
  intros Hr [H1 H2] Hx. rewrite (get_state_ok varis) by (auto; apply sp_keys; auto).
  exists (gstate x rs). split; auto. split; [apply gstate_U|]. split; intros E.
  - apply gstate_S in E. apply match_s_spec in E as (r & Hin & E). eapply H1; eauto.
  - apply gstate_F in E. apply match_f_spec in E as (r & Hin & E). eapply H2; eauto.
Qed.

(** C08 *)
Lemma main_updates rs ns rs' :
  foldM (fun rs n => update_rule_set rs (fst n) (snd n)) ns rs = Ok rs' ->
  (forall r, In r (r_s rs ++ r_f rs) -> NoDup (keys r)) ->
  (forall n, In n ns -> NoDup (keys (fst n))) ->
  antichain covers_s (r_s rs) -> antichain covers_f (r_f rs) ->
  antichain covers_s (r_s rs') /\ antichain covers_f (r_f rs').
Proof.
  revert rs; induction ns as [|n ns IH]; intros rs H Hd Hn Hs Hf; cbn [foldM] in H; [injection H as <-; auto|].
  destruct (update_rule_set rs (fst n) (snd n)) as [rs1|] eqn:E; cbn [bind] in H; [|congruence].
  destruct (update_minimal rs (fst n) (snd n) rs1 E Hd Hs Hf) as [A B].
  apply (IH rs1 H); auto.
  - assert (Hu : snd n <> U_) by (intros X; rewrite X in E; cbn in E; congruence).
    destruct (update_spec rs (fst n) (snd n) Hu) as (rs2 & E2 & _ & _ & U1 & U2).
    rewrite E in E2. injection E2 as <-. intros r Hin. apply in_app_or in Hin as [Hin|Hin].
    + destruct (U1 r Hin) as [|[_ ->]]; [apply Hd; apply in_or_app; auto|apply Hn; left; auto].
    + destruct (U2 r Hin) as [|[_ ->]]; [apply Hd; apply in_or_app; auto|apply Hn; left; auto].
  - intros m Hm. apply Hn. right; auto.
Qed.

(** C09 *)
Lemma main_run_sys_fn varis phi sys_fun x :
  wf_varis varis -> sys_ok varis phi sys_fun -> In x (space (comps_of varis)) ->
  exists rule s r, run_sys_fn x sys_fun varis = Ok (rule, s, r) /\
    s = (if phi x then S_ else F_) /\ wf_rule varis rule /\
    (phi x = true -> sat_s rule x = true /\
       forall y, In y (space (comps_of varis)) -> sat_s rule y = true -> phi y = true) /\
    (phi x = false -> sat_f rule x = true /\
       forall y, In y (space (comps_of varis)) -> sat_f rule y = true -> phi y = false).
Proof.
  intros Hw Hs Hx. destruct (run_sys_fn_ok varis phi sys_fun x Hw Hs Hx) as (val & m & rule & s & _ & E & A & B & C & D).
  exists rule, s, (val, x, m). auto.
Qed.

(** C10 *)
Lemma prob_event_split varis probs E E1 E2 :
  (forall x, In x (sp varis) -> E x = false -> E1 x = false /\ E2 x = false) ->
  (forall x, In x (sp varis) -> E x = true -> E1 x = negb (E2 x)) ->
  (prob_event varis probs E1 + prob_event varis probs E2 = prob_event varis probs E)%Qc.
Proof.
  intros H0 H1. unfold prob_event. rewrite !qsum_filter, <- qsum_map_plus. apply qsum_map_ext.
  intros x Hx. destruct (E x) eqn:Ex.
  - rewrite (H1 x Hx Ex). destruct (E2 x); cbn; ring.
  - destruct (H0 x Hx Ex) as [-> ->]. ring.
Qed.

Lemma main_split varis probs rs b xd s :
  wf_varis varis -> wf_probs varis probs -> wf_rules varis rs -> boxes varis [b] ->
  In xd (keys varis) -> coord (b_down b) xd < s <= coord (b_up b) xd ->
  exists b1 b2, get_new_branch b rs probs xd s true = Ok b1 /\ get_new_branch b rs probs xd s false = Ok b2 /\
    boxes varis [b1; b2] /\ exact_probs varis probs [b1; b2] /\
    (forall x, In x (space (comps_of varis)) ->
       (in_branch b x = false -> in_branch b1 x = false /\ in_branch b2 x = false) /\
       (in_branch b x = true -> in_branch b1 x = negb (in_branch b2 x))) /\
    (b_p b1 + b_p b2 = prob_event varis probs (in_branch b))%Qc.
Proof.
  intros Hw Hp Hr Hb Hk Hs. assert (Hb' : wf_br varis b) by (apply Hb; left; auto).
  assert (Hps : proper_split varis b xd s) by (split; auto).
  exists (child_up varis probs rs b xd s), (child_down varis probs rs b xd s).
  split; [apply get_new_branch_up; auto|]. split; [apply get_new_branch_down; auto|].
  split. { intros b' [<-|[<-|[]]]; [apply child_up_wf|apply child_down_wf]; auto. }
  split. { intros b' [<-|[<-|[]]]; auto. }
  split. { intros x Hx. apply child_cover; auto. }
  cbn [b_p child_up child_down].
  apply prob_event_split; intros x Hx; apply (child_cover varis probs rs Hw b xd s x Hb' Hps Hx).
Qed.

(** C11 *)
Lemma main_choice varis probs rs b c :
  wf_varis varis -> wf_probs varis probs -> wf_rules varis rs -> boxes varis [b] ->
  get_compat_rules b rs = Ok c -> r_s c <> [] \/ r_f c <> [] ->
  exists xd s, get_decomp_comp b c probs = Ok (Some (xd, s)) /\
    In xd (keys varis) /\ coord (b_down b) xd < s <= coord (b_up b) xd.
Proof.
  intros Hw Hp Hr Hb Hc Hn. assert (Hb' : wf_br varis b) by (apply Hb; left; auto).
  rewrite (get_compat_rules_ok varis) in Hc; [|apply (sp_keys varis); apply Hb'|apply (sp_keys varis); apply Hb'|auto].
  injection Hc as <-. apply no_rules_false in Hn.
  destruct (get_decomp_ok varis probs rs Hw Hp Hr b Hb' Hn) as (xd & s & E & Hk & Hs). exists xd, s. auto.
Qed.
Lemma main_compat_total varis rs b :
  wf_rules varis rs -> boxes varis [b] -> exists c, get_compat_rules b rs = Ok c.
Proof.
  intros Hr Hb. assert (Hb' : wf_br varis b) by (apply Hb; left; auto). eexists.
  apply (get_compat_rules_ok varis); auto; apply (sp_keys varis); apply Hb'.
Qed.

(** C12-C15, C17, C19 *)
Lemma valid_br_ok varis probs rs brs : valid_brs varis probs rs brs ->
  Forall (br_ok varis probs rs) brs /\ (forall x, In x (sp varis) -> brs <> [] -> bcover x brs = 1%nat).
Proof.
  intros (H1 & H2 & H3 & H4). split.
  - apply Forall_forall. intros b Hb. destruct (H3 b Hb) as (A & B & C & D).
    split; [exact (H1 b Hb)|]. split; [exact (H2 b Hb)|]. split; split; auto.
  - intros x Hx Hn. apply (H4 Hn x Hx).
Qed.
Lemma vbrs_valid varis probs rs brs : vbrs varis probs rs brs -> valid_brs varis probs rs brs.
Proof.
  intros [H1 H2]. rewrite Forall_forall in H1. split; [|split; [|split]].
  - intros b Hb. apply (H1 b Hb).
  - intros b Hb. apply (H1 b Hb).
  - intros b Hb. destruct (H1 b Hb) as (_ & _ & [[A B] [C D]]). auto.
  - intros _. exact H2.
Qed.

Lemma main_decomp varis probs phi rs max_nb brs :
  wf_varis varis -> wf_probs varis probs -> wf_rules varis rs -> sound_rules varis phi rs ->
  valid_brs varis probs rs brs ->
  exists out, decomp_depth_first varis rs probs max_nb brs = Ok out /\
    valid_brs varis probs rs out /\ partition varis out /\
    qsum (map b_p out) = 1%Qc /\ sound_labels varis phi out /\
    (max_nb = None \/ (exists m, max_nb = Some m /\ 2 * Z.of_nat (List.length (space (comps_of varis))) <= m) ->
       (forall x, In x (space (comps_of varis)) ->
          ((exists b, In b out /\ b_up_state b = F_ /\ in_branch b x = true) <-> match_f rs x = true) /\
          ((exists b, In b out /\ b_down_state b = S_ /\ in_branch b x = true) <-> match_s rs x = true)) /\
       qsum (map b_p (filter (fun b => st_eqb (b_up_state b) F_) out)) = prob_event varis probs (match_f rs) /\
       qsum (map b_p (filter (fun b => st_eqb (b_down_state b) S_) out)) = prob_event varis probs (match_s rs)) /\
    (forall m, max_nb = Some m -> 2 <= m -> Z.of_nat (List.length brs) <= m - 1 -> Z.of_nat (List.length out) <= m).
Proof.
  intros Hw Hp Hr Hs Hv. assert (Hc := sound_consistent varis phi rs Hs).
  destruct (valid_br_ok _ _ _ _ Hv) as [V1 V2].
  destruct (decomp_spec varis probs rs Hw Hp Hr Hc max_nb brs V1 V2) as (out & E & O1 & O2 & O3 & O4 & O5).
  assert (V : vbrs varis probs rs out) by (split; auto).
  exists out. split; auto. split; [apply vbrs_valid; auto|]. split; [exact O2|].
  assert (Hex := vbrs_exact varis probs rs out V).
  split.
  { rewrite (qsum_disjoint_event varis probs out (fun _ => true)); auto.
    - apply prob_total; auto.
    - intros x Hx _. apply O2; auto.
    - congruence. }
  split; [apply (vbrs_labels varis probs Hw phi rs); auto|]. split; auto.
  intros Hn. assert (Hnc : no_cut varis max_nb) by (destruct Hn as [->|(m & -> & Hm)]; cbn; auto).
  assert (F : fullhom rs out) by (apply O3; left; auto).
  destruct (full_bounds varis probs Hw rs out Hr Hc V F) as [B1 B2].
  split; [|split; auto]. intros x Hx.
  assert (V0 := V). destruct V0 as [VV _]. unfold fullhom in F. rewrite Forall_forall in VV, F.
  split; split.
  - intros (b & Hb & Hl & Hin). apply (in_branch_spec varis Hw b x Hx) in Hin as [I1 I2].
    apply (match_f_anti varis rs x (b_up b)); auto. apply (VV b Hb). auto.
  - intros Hm. destruct (cover_one varis probs rs out x V Hx) as (b & Hb & Hin). exists b. split; auto. split; auto.
    destruct (VV b Hb) as ((D & U & L) & _ & [LD LU]). destruct (F b Hb) as [[FD FU] [Hh1 Hh2]].
    apply (in_branch_spec varis Hw b x Hx) in Hin as [I1 I2].
    assert (MU := Hh2 (match_f_anti varis rs _ x Hr I1 Hm)). destruct (b_up_state b) eqn:Ee; auto; exfalso.
    + apply (Hc (b_up b)); auto. apply LU; auto.
    + destruct FU as [_ FU]. destruct (FU eq_refl). congruence.
  - intros (b & Hb & Hl & Hin). apply (in_branch_spec varis Hw b x Hx) in Hin as [I1 I2].
    apply (match_s_mono varis rs (b_down b) x); auto. apply (VV b Hb). auto.
  - intros Hm. destruct (cover_one varis probs rs out x V Hx) as (b & Hb & Hin). exists b. split; auto. split; auto.
    destruct (VV b Hb) as ((D & U & L) & _ & [LD LU]). destruct (F b Hb) as [[FD FU] [Hh1 Hh2]].
    apply (in_branch_spec varis Hw b x Hx) in Hin as [I1 I2].
    assert (MD := Hh1 (match_s_mono varis rs x _ Hr I2 Hm)). destruct (b_down_state b) eqn:Ee; auto; exfalso.
    + apply (Hc (b_down b)); auto. apply LD; auto.
    + destruct FD as [_ FD]. destruct (FD eq_refl). congruence.
Qed.

(** * [run] *)
Lemma nth_map_inv {A B} (f : A -> B) l i y : nth_error (map f l) i = Some y -> exists a, nth_error l i = Some a /\ y = f a.
Proof. rewrite nth_error_map. destruct (nth_error l i); cbn; intros H; [injection H as <-; eauto|congruence]. Qed.
Lemma some_eq {A} (o : option A) a b : o = Some a -> o = Some b -> b = a.
Proof. congruence. Qed.

Section MainRun.
Context (varis : dict variable) (probs : prob_dict) (phi : dict Z -> bool) (sys_fun : sysfun) (g : config).
Context (rules : option ruleset) (brs : option (list branch)).
Context (Hw : wf_varis varis) (Hp : wf_probs varis probs) (Hs : sys_ok varis phi sys_fun).
Notation rs0 := (rules_arg rules).
Context (Hr : wf_rules varis rs0) (Hsr : sound_rules varis phi rs0).
Context (Hb : forall b, brs = Some b -> valid_brs varis probs rs0 b).

Lemma run_final : 0 < g_max_sf g ->
  match run varis probs sys_fun g rules brs with
  | Ok s' => final_ok varis probs phi sys_fun g rs0 s'
  | Err e => g_surv_first g = false /\ e = UnboundLocalError /\
      exists brs b rs, entry_ok varis probs phi g (brs, rs, rs) /\ In b brs /\ b_down_state b = U_ /\ b_up_state b <> U_
  end.
Proof. intros Hm. apply run_spec; auto. intros b E. apply valid_br_ok. auto. Qed.

Lemma run_zero : g_max_sf g <= 0 ->
  run varis probs sys_fun g rules brs = Ok (mkSt brs rs0 [] (fst init_monitor) (snd init_monitor)).
Proof.
  intros Hm. unfold run. cbn [init_monitor fst snd].
  replace (Z.to_nat (g_max_sf g)) with O by lia. cbn [run_loop s_ctrl c_no_sf].
  assert (E : (0 <? g_max_sf g) = false) by (apply Z.ltb_ge; auto). rewrite E. cbn [bind]. auto.
Qed.

(** C16 *)
Lemma main_bounds s : run varis probs sys_fun g rules brs = Ok s ->
  forall i low up bu, nth_error (m_pf_low (s_mon s)) i = Some low -> nth_error (m_pf_up (s_mon s)) i = Some up ->
    nth_error (m_pr_bu (s_mon s)) i = Some bu ->
    (0 <= low)%Qc /\ (low <= p_fail varis probs phi)%Qc /\ (p_fail varis probs phi <= up)%Qc /\ (up <= 1)%Qc /\
    bu = (up - low)%Qc /\ (0 <= bu)%Qc.
Proof.
  intros H i low up bu E1 E2 E3. destruct (Z_lt_le_dec 0 (g_max_sf g)) as [L|L].
  - pose proof (run_final L) as R. rewrite H in R. destruct R as (h0 & b & u & R). cbv zeta in R.
    set (h := h0 ++ _) in R. destruct R as (_ & _ & _ & He & _ & _ & (M1 & M2 & M3 & _) & _).
    rewrite M1 in E1. rewrite M2 in E2. rewrite M3 in E3.
    apply nth_map_inv in E1 as (e & Ee & ->). apply nth_map_inv in E2 as (e2 & Ee2 & ->). apply nth_map_inv in E3 as (e3 & Ee3 & ->).
    rewrite (some_eq _ _ _ Ee Ee2), (some_eq _ _ _ Ee Ee3). clear e2 Ee2 e3 Ee3.
    apply nth_error_In in Ee. rewrite Forall_forall in He. destruct (He e Ee) as (A1 & A2 & A3 & _).
    destruct (bounds_valid varis probs Hw Hp phi (e_brs e)) as (B0 & B1 & B2 & B3).
    + eapply vbrs_exact; eauto.
    + eapply vbrs_partition; eauto.
    + eapply vbrs_labels; eauto.
    + repeat split; auto; qc_lra.
  - rewrite run_zero in H by auto. injection H as <-. destruct i; cbn in E1; congruence.
Qed.

Lemma main_total : g_surv_first g = true \/ g_max_nb g = None ->
  exists s, run varis probs sys_fun g rules brs = Ok s.
Proof.
  intros Hm. destruct (Z_lt_le_dec 0 (g_max_sf g)) as [L|L]; [|rewrite run_zero by auto; eauto].
  pose proof (run_final L) as R. destruct (run varis probs sys_fun g rules brs) as [s|e]; [eauto|exfalso].
  destruct R as (R1 & R2 & bs & b & rs & (E1 & E2 & E3 & E4 & _) & Hin & Hd & Hu).
  destruct Hm as [Hm|Hm]; [congruence|]. rewrite Hm in E4. specialize (E4 (or_introl I)).
  unfold fullhom in E4. rewrite Forall_forall in E4. destruct (E4 b Hin) as [[[_ FD] [[LS LF] _]] [H1 H2]].
  destruct (FD Hd) as [N1 N2]. destruct E3 as [V _]. rewrite Forall_forall in V. destruct (V b Hin) as ((D & U & L') & _).
  destruct (b_up_state b) eqn:Eu; [| |congruence].
  - specialize (LS eq_refl). specialize (H1 LS). cbn in *. congruence.
  - specialize (LF eq_refl). assert (X := match_f_anti varis rs (b_down b) (b_up b) E1 L' LF). cbn in *. congruence.
Qed.

(** results can be handed to another call *)
Lemma main_resume s : 0 < g_max_sf g -> run varis probs sys_fun g rules brs = Ok s ->
  wf_rules varis (s_rules s) /\ sound_rules varis phi (s_rules s) /\
  exists b, s_brs s = Some b /\ valid_brs varis probs (s_rules s) b /\ partition varis b /\
    m_no_br (s_mon s) <> [] /\
    last (m_pf_low (s_mon s)) 0%Qc = qsum (map b_p (filter (fun b => st_eqb (b_up_state b) F_) b)) /\
    last (m_pf_up (s_mon s)) 0%Qc = (1 - qsum (map b_p (filter (fun b => st_eqb (b_down_state b) S_) b)))%Qc.
Proof.
  intros L H. pose proof (run_final L) as R. rewrite H in R. destruct R as (h0 & b & u & R). cbv zeta in R.
  destruct R as (Eb & Hwr & Hsr' & He & _ & _ & (M1 & M2 & _ & M4 & _) & _).
  split; auto. split; auto. exists b. split; auto.
  rewrite Forall_forall in He. destruct (He (b, u, s_rules s)) as (_ & _ & V & _ & _ & _ & G); [apply in_or_app; right; left; auto|].
  assert (V' : vbrs varis probs (s_rules s) b) by (eapply vbrs_grows; eauto).
  split; [apply vbrs_valid; auto|]. split; [eapply vbrs_partition; eauto|].
  rewrite M1, M2, M4, !map_app. cbn [map e_brs fst]. rewrite !last_last. split; [|split; auto].
  destruct h0; cbn; congruence.
Qed.

(** C17: bounds never get worse *)
Lemma main_monotone s : g_max_nb g = None \/ (exists m, g_max_nb g = Some m /\ 2 * Z.of_nat (List.length (space (comps_of varis))) <= m) ->
  run varis probs sys_fun g rules brs = Ok s ->
  forall i j l l' u u', (i <= j)%nat ->
    nth_error (m_pf_low (s_mon s)) i = Some l -> nth_error (m_pf_low (s_mon s)) j = Some l' ->
    nth_error (m_pf_up (s_mon s)) i = Some u -> nth_error (m_pf_up (s_mon s)) j = Some u' ->
    (l <= l')%Qc /\ (u' <= u)%Qc.
Proof.
  intros Hn H i j l l' u u' Hij E1 E2 E3 E4.
  assert (Hnc : no_cut varis (g_max_nb g)) by (destruct Hn as [->|(m & -> & Hm)]; cbn; auto).
  destruct (Z_lt_le_dec 0 (g_max_sf g)) as [L|L].
  - pose proof (run_final L) as R. rewrite H in R. destruct R as (h0 & b & u0 & R). cbv zeta in R.
    set (h := h0 ++ _) in R. destruct R as (_ & _ & _ & He & Hch & _ & (M1 & M2 & _) & _).
    rewrite M1 in E1, E2. rewrite M2 in E3, E4.
    apply nth_map_inv in E1 as (e & Ei & ->). apply nth_map_inv in E2 as (e' & Ej & ->).
    apply nth_map_inv in E3 as (e3 & E3 & ->). apply nth_map_inv in E4 as (e4 & E4 & ->).
    rewrite (some_eq _ _ _ Ei E3), (some_eq _ _ _ Ej E4). clear e3 E3 e4 E4.
    assert (G := Hch i j e e' Hij Ei Ej).
    apply nth_error_In in Ei, Ej. rewrite Forall_forall in He.
    destruct (He e Ei) as (A1 & A2 & A3 & A4 & _). destruct (He e' Ej) as (B1 & B2 & B3 & B4 & _).
    destruct (full_bounds varis probs Hw _ _ A1 (sound_consistent _ _ _ A2) A3 (A4 (or_introl Hnc))) as [-> ->].
    destruct (full_bounds varis probs Hw _ _ B1 (sound_consistent _ _ _ B2) B3 (B4 (or_introl Hnc))) as [-> ->].
    assert (X1 := prob_event_mono varis probs Hw Hp (match_f (e_used e)) (match_f (e_used e')) (fun x _ => proj2 (G x))).
    assert (X2 := prob_event_mono varis probs Hw Hp (match_s (e_used e)) (match_s (e_used e')) (fun x _ => proj1 (G x))).
    split; qc_lra.
  - rewrite run_zero in H by auto. injection H as <-. destruct i; cbn in E1; congruence.
Qed.

(** C18 *)
Lemma main_complete_room s b : s_brs s = Some b -> no_cut varis (g_max_nb g) \/ roomy (g_max_nb g) (List.length b) ->
  run varis probs sys_fun g rules brs = Ok s -> m_out_flag (s_mon s) = Some O_complete ->
  last (m_pf_low (s_mon s)) 0%Qc = p_fail varis probs phi /\
  last (m_pf_up (s_mon s)) 0%Qc = p_fail varis probs phi /\
  (forall x, In x (space (comps_of varis)) -> match_s (s_rules s) x = phi x /\ match_f (s_rules s) x = negb (phi x)).
Proof.
  intros Eb Hnc H Hf.
  destruct (Z_lt_le_dec 0 (g_max_sf g)) as [L|L].
  - pose proof (run_final L) as R. rewrite H in R. destruct R as (h0 & b' & u0 & R). cbv zeta in R.
    destruct R as (Eb' & _ & _ & He & _ & _ & (M1 & M2 & _) & _ & _ & _ & _ & (f & Ef & F1 & _)).
    rewrite Eb in Eb'. injection Eb' as <-.
    rewrite Ef in Hf. injection Hf as ->. destruct (F1 eq_refl) as [-> K].
    rewrite Forall_forall in He. destruct (He (b, s_rules s, s_rules s)) as (A1 & A2 & A3 & A4 & _); [apply in_or_app; right; left; auto|].
    cbn [e_used e_brs fst snd] in *.
    destruct (known_bounds varis probs Hw Hp phi _ _ A1 A2 A3 (A4 Hnc) K) as [B1 B2].
    rewrite M1, M2, !map_app. cbn [map e_brs fst]. rewrite !last_last. split; auto. split; auto.
    intros x Hx. destruct (known_exact varis probs Hw phi _ _ A1 A2 A3 (A4 Hnc) K x Hx). auto.
  - rewrite run_zero in H by auto. injection H as <-. cbn in Hf. congruence.
Qed.

Lemma main_complete s : g_max_nb g = None \/ (exists m, g_max_nb g = Some m /\ 2 * Z.of_nat (List.length (space (comps_of varis))) <= m) ->
  run varis probs sys_fun g rules brs = Ok s -> m_out_flag (s_mon s) = Some O_complete ->
  last (m_pf_low (s_mon s)) 0%Qc = p_fail varis probs phi /\
  last (m_pf_up (s_mon s)) 0%Qc = p_fail varis probs phi /\
  (forall x, In x (space (comps_of varis)) -> match_s (s_rules s) x = phi x /\ match_f (s_rules s) x = negb (phi x)).
Proof.
  intros Hn H Hf.
  assert (Hnc : no_cut varis (g_max_nb g)) by (destruct Hn as [->|(m & -> & Hm)]; cbn; auto).
  destruct (Z_lt_le_dec 0 (g_max_sf g)) as [L|L].
  - pose proof (run_final L) as R. rewrite H in R. destruct R as (h0 & b & u0 & R). cbv zeta in R.
    destruct R as (Eb & _). apply (main_complete_room s b Eb); auto.
  - rewrite run_zero in H by auto. injection H as <-. cbn in Hf. congruence.
Qed.

(** C20 *)
Lemma main_calls s : g_active g = true \/ g_max_nb g = None ->
  run varis probs sys_fun g rules brs = Ok s ->
  let vs := map (fun r : sysres => snd (fst r)) (s_sys s) in
  NoDup vs /\ (forall x, In x vs -> In x (space (comps_of varis))) /\
  (List.length (s_sys s) <= List.length (space (comps_of varis)))%nat /\
  Z.of_nat (List.length (s_sys s)) <= Z.max 0 (g_max_sf g) /\
  (forall r, In r (s_sys s) -> exists st, sys_fun (snd (fst r)) = (fst (fst r), st, snd r)) /\
  (forall x, In x vs -> match_s (s_rules s) x = true \/ match_f (s_rules s) x = true).
Proof.
  intros Hm H vs. destruct (Z_lt_le_dec 0 (g_max_sf g)) as [L|L].
  - pose proof (run_final L) as R. rewrite H in R. destruct R as (h0 & b & u0 & R). cbv zeta in R.
    destruct R as (_ & _ & _ & _ & _ & _ & _ & _ & _ & Hle & [P1 P2] & _).
    assert (ND : NoDup vs). { apply P2. destruct Hm as [Hm|Hm]; [left; auto|right; rewrite Hm; cbn; auto]. }
    assert (Hsp : forall x, In x vs -> In x (space (comps_of varis))).
    { intros x Hx. apply in_map_iff in Hx as (r & <- & Hin). apply (P1 r Hin). }
    split; auto. split; auto. split.
    { rewrite <- (map_length (fun r : sysres => snd (fst r))). apply NoDup_incl_length; auto. }
    split; [unfold len in Hle; lia|]. split.
    + intros r Hin. apply (P1 r Hin).
    + intros x Hx. apply in_map_iff in Hx as (r & <- & Hin). apply (P1 r Hin).
  - rewrite run_zero in H by auto. injection H as <-. cbn in *. subst vs. cbn.
    split; [constructor|]. split; [tauto|]. split; [lia|]. split; [lia|]. split; tauto.
Qed.

(** C21 *)
Lemma main_aligned s : 0 < g_max_sf g -> run varis probs sys_fun g rules brs = Ok s ->
  let m := s_mon s in let n := List.length (s_sys s) in
  m_no_sf m = zrange 0 (Z.of_nat n + 1) /\ last (m_no_sf m) 0 = Z.of_nat n /\
  map (@List.length _) [m_pf_low m; m_pf_up m; m_pr_bu m; m_avg_len_rf m] = [S n; S n; S n; S n] /\
  map (@List.length _) [m_no_br m; m_no_bs m; m_no_bf m; m_no_bu m; m_no_rs m; m_no_rf m; m_no_ra m; m_no_sf m; m_min_len_rf m]
    = [S n; S n; S n; S n; S n; S n; S n; S n; S n] /\
  last (m_no_br m) 0 = match s_brs s with Some b => len b | None => 0 end /\
  last (m_no_rs m) 0 = len (r_s (s_rules s)) /\ last (m_no_rf m) 0 = len (r_f (s_rules s)).
Proof.
  intros L H m n. pose proof (run_final L) as R. rewrite H in R. destruct R as (h0 & b & u0 & R). cbv zeta in R.
  set (h := h0 ++ [(b, u0, s_rules s)]) in R.
  destruct R as (Eb & _ & _ & _ & _ & _ & (M1 & M2 & M3 & M4 & M5 & M6 & M7 & M8 & M9 & M10 & M11 & M12) & Hsf & Hl & _).
  assert (Hln : List.length h = S n) by (unfold len in Hl; unfold n; lia).
  fold m in M1, M2, M3, M4, M5, M6, M7, M8, M9, M10, M11, M12, Hsf.
  assert (Esf : m_no_sf m = zrange 0 (Z.of_nat n + 1)).
  { rewrite Hsf. f_equal. unfold len. rewrite Hln. lia. }
  split; auto. split.
  { rewrite Esf, <- zrange_snoc, last_last by lia. auto. }
  cbn [map]. rewrite M1, M2, M3, M4, M5, M6, M7, M8, M9, M10, M11, M12, !map_length.
  unfold entry in *. rewrite ?Hln.
  split; auto. split.
  { rewrite Esf. unfold zrange. rewrite map_length, seq_length. do 7 f_equal. f_equal. lia. }
  rewrite Eb. unfold h. rewrite !map_app. cbn [map]. rewrite !last_last. auto.
Qed.
End MainRun.

(** C20: the vector evaluated by an iteration is not classified by the current rules *)
Lemma main_fresh varis probs phi sys_fun g s s' :
  wf_varis varis -> wf_probs varis probs -> wf_rules varis (s_rules s) -> sound_rules varis phi (s_rules s) ->
  g_active g = true -> run_body varis probs sys_fun g s = Ok (inr s') ->
  exists r, s_sys s' = s_sys s ++ [r] /\ In (snd (fst r)) (space (comps_of varis)) /\
    match_s (s_rules s) (snd (fst r)) = false /\ match_f (s_rules s) (snd (fst r)) = false.
Proof.
  intros Hw Hp Hr Hs Ha H. assert (Hc := sound_consistent varis phi _ Hs).
  unfold run_body in H. rewrite Ha in H.
  destruct (decomp_spec varis probs (s_rules s) Hw Hp Hr Hc (g_max_nb g) []) as (out & E & O1 & O2 & O3 & O4 & O5);
    [constructor|intros; congruence|]. specialize (O4 _ (fun b _ X => X) (Forall_nil _)).
  rewrite E in H. cbn [bind] in H.
  assert (W : Forall (fun b => wf_br varis b) out).
  { rewrite Forall_forall in *. intros b Hb. apply (O1 b Hb). }
  pose proof (get_comp_st_any varis probs Hw Hp out (g_surv_first g) W) as G.
  destruct (get_comp_st out (g_surv_first g) varis probs) as [[x|]|e]; cbn [bind] in H; [|congruence|congruence].
  destruct (ge_bound (len out) (g_max_nb g)); [congruence|].
  destruct (qc_ltb _ _); [congruence|]. destruct (ge_bound _ (g_max_rules g)); [congruence|].
  destruct (run_sys_fn x sys_fun varis) as [[[rule sst] r]|] eqn:Er; cbn [bind] in H; [|congruence].
  destruct (update_rule_set (s_rules s) rule sst) as [rs'|]; cbn [bind] in H; [|congruence].
  destruct (update_monitor _ out rs') as [mon ctl]. injection H as <-. cbn [s_sys]. exists r. split; auto.
  assert (Ex : snd (fst r) = x).
  { unfold run_sys_fn in Er. destruct (sys_fun x) as [[val st0] m].
    destruct m as [[|p m]|]; [|injection Er as _ _ <-; auto|];
      (destruct st0; [injection Er as _ _ <-; auto| |];
       (destruct (filterM _ x) as [l|]; cbn [bind] in Er; [injection Er as _ _ <-; auto|congruence])). }
  rewrite Ex. destruct G as (b & Hb & Hg). rewrite Forall_forall in O4, W. destruct (O4 b Hb) as [[_ FD] [_ FU]].
  destruct (W b Hb) as (D & U & _).
  destruct Hg as [[Hu ->]|[Hu ->]]; split; auto.
Qed.

(** C22 *)
Lemma main_next_surv varis probs brs :
  (get_comp_st brs true varis probs = Ok None <-> (forall b, In b brs -> b_up_state b <> U_ /\ b_down_state b <> U_)) /\
  exists o, get_comp_st brs true varis probs = Ok o /\
    forall x, o = Some x -> exists b, In b brs /\
       ((b_up_state b = U_ /\ x = b_up b) \/ (b_down_state b = U_ /\ x = b_down b)).
Proof.
  destruct (get_comp_st_surv varis probs brs) as (o & E & H1 & H2). rewrite E. split; [|eauto].
  split.
  - intros X. injection X as ->. apply H1. auto.
  - intros K. destruct o as [x|]; auto. destruct (H2 x eq_refl) as (b & Hb & [[A _]|[A _]]); destruct (K b Hb); congruence.
Qed.

Lemma main_next_fail varis probs brs :
  wf_varis varis -> wf_probs varis probs -> boxes varis brs ->
  (forall b, In b brs -> b_down_state b = U_ -> b_up_state b = U_) ->
  exists o, get_comp_st brs false varis probs = Ok o /\
    (o = None <-> (forall b, In b brs -> b_up_state b <> U_ /\ b_down_state b <> U_)) /\
    forall x, o = Some x -> exists b, In b brs /\ b_up_state b = U_ /\ x = b_up b.
Proof.
  intros Hw Hp Hb Hu. assert (W : Forall (fun b => wf_br varis b) brs) by (apply Forall_forall; exact Hb).
  pose proof (get_comp_st_fail_first varis probs Hw Hp brs W) as G.
  destruct (get_comp_st brs false varis probs) as [o|e].
  - exists o. split; auto. destruct o as [x|].
    + split; [split; [congruence|]|].
      * intros K. destruct G as (b & Hin & A & _). destruct (K b Hin); congruence.
      * intros y E. injection E as <-. auto.
    + split; [split; auto|congruence].
  - destruct G as (_ & b & Hin & A & B). exfalso. apply B. auto.
Qed.

(** C24 *)
Lemma main_csys varis conv brs :
  wf_varis varis -> (forall k v, In (k, v) varis -> basic_table v) -> brs <> [] -> boxes varis brs ->
  exists rows varis', get_csys brs varis (fun s => Ok (conv s)) = Ok (rows, varis') /\ tables_extend varis varis' /\
    Forall2 (fun b row => exists cs,
        row = conv (if st_eqb (b_down_state b) (b_up_state b) then b_down_state b else U_) :: cs /\
        List.length cs = List.length varis /\
        forall x, In x (space (comps_of varis)) ->
          (in_branch b x = true <-> Forall2 (fun k c => coded varis' k c (coord x k)) (keys varis) cs)) brs rows.
Proof.
  intros Hw Ht Hn Hb.
  assert (Ht' : tables varis) by (intros k v Hv; apply (Ht k v); apply dfind_In; auto).
  destruct (get_csys_ok varis Hw Ht' conv brs Hn Hb) as (rows & varis' & E & E2 & F).
  exists rows, varis'. split; auto. split; auto. clear E.
  assert (Hb' : forall b, In b brs -> wf_br varis b) by exact Hb. clear Hb Hn. induction F as [|b row brs rows R F IH]; constructor.
  - destruct R as (cs & -> & F'). exists cs. split; auto. split.
    + rewrite <- (Forall2_length _ _ _ F'). unfold keys. apply map_length.
    + intros x Hx. destruct (row_ok_in_branch varis Hw conv varis' b (conv (br_label b) :: cs) x) as (c & cs' & E & _ & _ & G); auto.
      * apply Hb'. left; auto.
      * exists cs. auto.
      * injection E as <- <-. exact G.
  - apply IH. intros b' Hin. apply Hb'. right; auto.
Qed.
