(** Further theorems about [brc.run]: what the monitor reports at the end (C21)
    and why the search stopped (C52); which variables store their table (C53). *)
From Coq Require Import ZArith List String Bool Arith Lia QArith Qcanon.
From Verif Require Import Py Num Vari Brc SpecBrc VariFacts BrcFacts BrcProb BrcDecomp BrcMain BrcRun BrcStop PropBrc.
Import ListNotations.
Open Scope string_scope.
Open Scope Z_scope.
Open Scope list_scope.

(** * C21: the last entries describe the returned branches and rules *)
Theorem C21_last_values :
  forall varis probs sys_fun g rules brs s,
    0 < g_max_sf g -> run varis probs sys_fun g rules brs = Ok s ->
    exists bs, s_brs s = Some bs /\ let m := s_mon s in let n l := Z.of_nat (@List.length branch l) in
      let fails b := st_eqb (b_up_state b) F_ in let survives b := st_eqb (b_down_state b) S_ in
      let lens := map (fun r : dict Z => Z.of_nat (List.length r)) (r_f (s_rules s)) in
      last (m_no_br m) 0 = n bs /\ last (m_no_bf m) 0 = n (filter fails bs) /\
      last (m_no_bs m) 0 = n (filter survives bs) /\
      last (m_no_bu m) 0 = n bs - n (filter fails bs) - n (filter survives bs) /\
      last (m_no_ra m) 0 = Z.of_nat (List.length (r_s (s_rules s)) + List.length (r_f (s_rules s))) /\
      last (m_pf_low m) 0%Qc = qsum (map b_p (filter fails bs)) /\
      last (m_pf_up m) 0%Qc = (1 - qsum (map b_p (filter survives bs)))%Qc /\
      last (m_pr_bu m) 0%Qc = (last (m_pf_up m) 0 - last (m_pf_low m) 0)%Qc /\
      (lens = [] -> last (m_min_len_rf m) 0 = 0 /\ last (m_avg_len_rf m) 0%Qc = 0%Qc) /\
      (lens <> [] -> In (last (m_min_len_rf m) 0) lens /\ (forall x, In x lens -> last (m_min_len_rf m) 0 <= x) /\
         (last (m_avg_len_rf m) 0 * qz (Z.of_nat (List.length lens)) = qz (fold_right Z.add 0%Z lens))%Qc).
Proof. exact main_last_values. Qed.
Print Assumptions C21_last_values.

Example C21_last_values_ex :
  let m := s_mon (ex_run ex_cfg) in
  (last (m_no_br m) 0, last (m_no_bf m) 0, last (m_no_bs m) 0, last (m_no_bu m) 0, last (m_no_ra m) 0, last (m_min_len_rf m) 0)
    = (6, 3, 3, 0, 5, 2) /\ this (last (m_avg_len_rf m) 0%Qc) = 2%Q /\
  this (last (m_pf_low m) 0%Qc) = this (last (m_pf_up m) 0%Qc).
Proof. vm_compute. auto. Qed.

(** * C18: searches with a limit on the branches *)
(** Room for twice the branches that were returned is enough for 'complete' to
    mean exact.  Missing: less room, for which the claim is false (below). *)
Theorem C18_room_partial :
  forall varis probs phi sys_fun g rules brs s bs m,
    wf_varis varis -> wf_probs varis probs -> sys_ok varis phi sys_fun -> start_ok varis probs phi rules brs ->
    run varis probs sys_fun g rules brs = Ok s -> m_out_flag (s_mon s) = Some O_complete ->
    s_brs s = Some bs -> g_max_nb g = Some m -> 2 * Z.of_nat (List.length bs) <= m ->
    last (m_pf_low (s_mon s)) 0%Qc = p_fail varis probs phi /\
    last (m_pf_up (s_mon s)) 0%Qc = p_fail varis probs phi /\
    (forall x, In x (space (comps_of varis)) -> match_s (s_rules s) x = phi x /\ match_f (s_rules s) x = negb (phi x)).
Proof.
  intros varis probs phi sys_fun g rules brs s bs m H1 H2 H3 (H4 & H5 & H6) Run Fl Eb Em Hm.
  apply (main_complete_room varis probs phi sys_fun g rules brs H1 H2 H3 H4 H5 H6 s bs); auto.
  right. rewrite Em. exact Hm.
Qed.
Print Assumptions C18_room_partial.

(** Whatever the limit, after 'complete' the bounds differ by the probability of
    the branches with a failing lower and a surviving upper end. *)
Theorem C18_gap :
  forall varis probs phi sys_fun g rules brs s,
    wf_varis varis -> wf_probs varis probs -> sys_ok varis phi sys_fun -> start_ok varis probs phi rules brs ->
    run varis probs sys_fun g rules brs = Ok s -> m_out_flag (s_mon s) = Some O_complete ->
    exists bs, s_brs s = Some bs /\
      (forall b, In b bs -> b_down_state b <> U_ /\ b_up_state b <> U_) /\
      (last (m_pf_up (s_mon s)) 0 - last (m_pf_low (s_mon s)) 0 =
       qsum (map b_p (filter (fun b => st_eqb (b_down_state b) F_ && st_eqb (b_up_state b) S_) bs)))%Qc.
Proof.
  intros varis probs phi sys_fun g rules brs s H1 H2 H3 (H4 & H5 & H6) Run Fl.
  destruct (Z_lt_le_dec 0 (g_max_sf g)) as [L|L].
  2:{ rewrite (run_zero varis probs sys_fun g rules brs L) in Run. injection Run as <-. discriminate Fl. }
  pose proof (run_final varis probs phi sys_fun g rules brs H1 H2 H3 H4 H5 H6 L) as R. rewrite Run in R.
  destruct R as (h0 & b & u0 & R). cbv zeta in R.
  destruct R as (Eb & _ & _ & He & _ & _ & (M1 & M2 & _) & _ & _ & _ & _ & (f & Ef & F1 & _)).
  rewrite Ef in Fl. injection Fl as ->. destruct (F1 eq_refl) as [-> K].
  rewrite Forall_forall in He. destruct (He (b, s_rules s, s_rules s)) as (A1 & A2 & A3 & _); [apply in_or_app; right; left; auto|].
  cbn [e_used e_brs fst snd] in *. exists b. split; [exact Eb|]. split; [intros c Hc; destruct (K c Hc); auto|].
  rewrite M1, M2, !map_app. cbn [map e_brs fst]. rewrite !last_last.
  assert (T : qsum (map b_p b) = 1%Qc).
  { rewrite (qsum_disjoint_event varis probs b (fun _ => true)); auto.
    - apply prob_total; auto.
    - apply (vbrs_exact varis probs _ _ A3).
    - intros x Hx _. apply A3; auto.
    - congruence. }
  assert (N : forall c, In c b -> ~ (b_down_state c = S_ /\ b_up_state c = F_)).
  { intros c Hc [X Y]. pose proof (vbrs_labels varis probs H1 phi _ _ A1 A2 A3) as SL.
    destruct A3 as [A3 _]. rewrite Forall_forall in A3. destruct (A3 c Hc) as ((D & U & Le) & _).
    destruct (SL c (b_down c) Hc D) as [S1 S2].
    - apply (in_branch_spec varis H1 c _ D). split; [apply le_vec_refl|exact Le].
    - specialize (S1 Y). specialize (S2 X). congruence. }
  rewrite <- T. unfold pr_bf, pr_bs. clear - K N. induction b as [|c b IH]; [cbn; ring|].
  assert (IH' := IH (fun c Hc => K c (or_intror Hc)) (fun c Hc => N c (or_intror Hc))).
  specialize (K c (or_introl eq_refl)). specialize (N c (or_introl eq_refl)). cbn [filter map qsum].
  destruct (b_down_state c), (b_up_state c); cbn [st_eqb andb map qsum] in *; try (destruct K; congruence); try (exfalso; apply N; split; reflexivity); rewrite <- IH'; ring.
Qed.
Print Assumptions C18_gap.

(** three branches are returned where four are allowed; one of them is undecided *)
Definition ser_cfg : config := mkCfg 100 (Some 4) 0%Qc None true true.
Definition ser_run : rstate :=
  match run ser_varis ser_probs ser_sys ser_cfg None None with Ok s => s | Err _ => ex_run ex_cfg end.
Theorem C18_room_refuted :
  exists varis probs phi sys_fun g s bs m,
    wf_varis varis /\ wf_probs varis probs /\ sys_ok varis phi sys_fun /\ start_ok varis probs phi None None /\
    run varis probs sys_fun g None None = Ok s /\ m_out_flag (s_mon s) = Some O_complete /\
    s_brs s = Some bs /\ g_max_nb g = Some m /\ Z.of_nat (List.length bs) < m /\
    (last (m_pf_low (s_mon s)) 0 < last (m_pf_up (s_mon s)) 0)%Qc.
Proof.
  exists ser_varis, ser_probs, ser_phi, ser_sys, ser_cfg, ser_run, (match s_brs ser_run with Some b => b | None => [] end), 4.
  split; [exact ser_wf_varis|]. split; [exact ser_wf_probs|]. split; [exact ser_sys_ok|]. split; [apply none_start|].
  do 5 (split; [vm_compute; reflexivity|]). vm_compute; reflexivity.
Qed.
Print Assumptions C18_room_refuted.

(** enough room: six branches and max_nb = 12; the gap of the run above *)
Example C18_room_partial_ex :
  let g := mkCfg 100 (Some 12) 0%Qc None true true in
  m_out_flag (s_mon (ex_run g)) = Some O_complete /\
  match s_brs (ex_run g) with Some b => List.length b | None => O end = 6%nat /\
  this (last (m_pf_low (s_mon (ex_run g))) 0%Qc) = (1#10)%Q.
Proof. vm_compute. auto. Qed.
Example C18_gap_ex :
  m_out_flag (s_mon ser_run) = Some O_complete /\
  map (fun b => (b_down_state b, b_up_state b, this (b_p b))) (match s_brs ser_run with Some b => b | None => [] end) =
    [(F_, F_, (1#2)%Q); (F_, F_, (1#4)%Q); (F_, S_, (1#4)%Q)].
Proof. vm_compute. auto. Qed.

(** * C52 *)
Theorem C52_stop_reason :
  forall varis probs sys_fun g rules brs s,
    0 < g_max_sf g -> run varis probs sys_fun g rules brs = Ok s ->
    exists bs f, s_brs s = Some bs /\ m_out_flag (s_mon s) = Some f /\
      match f with
      | O_complete => True          (* see C18 *)
      | O_max_nb => exists m, g_max_nb g = Some m /\ m <= Z.of_nat (List.length bs)
      | O_pf_bnd => (last (removelast (m_pr_bu (s_mon s))) 1 < last (removelast (m_pf_low (s_mon s))) 0 * g_pf_bnd_wr g)%Qc
      | O_max_rules => exists m, g_max_rules g = Some m /\
          m <= Z.of_nat (List.length (r_s (s_rules s))) + Z.of_nat (List.length (r_f (s_rules s)))
      | O_max_sf => Z.of_nat (List.length (s_sys s)) = g_max_sf g
      end.
Proof. exact main_stop. Qed.
Print Assumptions C52_stop_reason.

(** With an unlimited number of branches, stopping for the width of the bounds
    means that the returned bounds are that narrow. *)
Theorem C52_width_reached :
  forall varis probs phi sys_fun g rules brs s,
    wf_varis varis -> wf_probs varis probs -> sys_ok varis phi sys_fun -> start_ok varis probs phi rules brs ->
    unlimited varis (g_max_nb g) -> 0 < g_max_sf g -> (0 <= g_pf_bnd_wr g)%Qc ->
    run varis probs sys_fun g rules brs = Ok s -> m_out_flag (s_mon s) = Some O_pf_bnd ->
    (last (m_pf_up (s_mon s)) 1 - last (m_pf_low (s_mon s)) 0 < last (m_pf_low (s_mon s)) 0 * g_pf_bnd_wr g)%Qc.
Proof.
  intros varis probs phi sys_fun g rules brs s H1 H2 H3 H4 H5 H6 H7 H8 H9.
  pose proof (C17_bounds_monotone varis probs phi sys_fun g rules brs s H1 H2 H3 H4 H5 H8) as Mono.
  destruct (C52_stop_reason _ _ _ _ _ _ _ H6 H8) as (bs & f & _ & Ef & Hf). rewrite H9 in Ef. injection Ef as <-.
  destruct H4 as (S1 & S2 & S3).
  pose proof (run_final varis probs phi sys_fun g rules brs H1 H2 H3 S1 S2 S3 H6) as R. rewrite H8 in R.
  destruct R as (h0 & b & u0 & R). cbv zeta in R. destruct R as (_ & _ & _ & _ & _ & _ & (M1 & M2 & M3 & _) & _).
  rewrite M1, M3 in Hf. rewrite M1, M2 in *. rewrite !map_app in *. cbn [map] in *. rewrite !removelast_snoc in Hf. rewrite !last_last.
  destruct h0 as [|e0 h0] using rev_ind.
  - cbn [map last] in Hf. qc_lra.
  - clear IHh0. rewrite !map_app in *. cbn [map] in *. rewrite !last_last in Hf.
    set (l := pr_bf (e_brs e0)) in *. set (u := (1 - pr_bs (e_brs e0))%Qc) in *.
    set (l' := pr_bf (e_brs (b, u0, s_rules s))) in *. set (u' := (1 - pr_bs (e_brs (b, u0, s_rules s)))%Qc) in *.
    assert (X : (l <= l')%Qc /\ (u' <= u)%Qc).
    { apply (Mono (List.length h0) (S (List.length h0)) l l' u u'); [lia| | | |].
      - rewrite <- app_assoc, nth_error_app2; rewrite map_length; [|lia]. rewrite Nat.sub_diag. reflexivity.
      - rewrite <- app_assoc, nth_error_app2; rewrite map_length; [|lia]. replace (S (List.length h0) - List.length h0)%nat with 1%nat by lia. reflexivity.
      - rewrite <- app_assoc, nth_error_app2; rewrite map_length; [|lia]. rewrite Nat.sub_diag. reflexivity.
      - rewrite <- app_assoc, nth_error_app2; rewrite map_length; [|lia]. replace (S (List.length h0) - List.length h0)%nat with 1%nat by lia. reflexivity. }
    destruct X as [X1 X2].
    assert (Y : (l * g_pf_bnd_wr g <= l' * g_pf_bnd_wr g)%Qc) by (apply Qcmult_le_compat_r; auto).
    assert (Z : (1 - l - pr_bs (e_brs e0) = u - l)%Qc) by (unfold u; ring).
    rewrite Z in Hf. apply Qcle_lt_trans with (u - l)%Qc; [qc_lra|]. eapply Qclt_le_trans; eauto.
Qed.
Print Assumptions C52_width_reached.

(** the series system stopped by the width of its bounds; the example system
    stopped by the rule limit, the branch limit and the call limit *)
Example C52_stop_reason_ex :
  match run ser_varis ser_probs ser_sys (mkCfg 100 None (Q2Qc 1) None true true) None None with
  | Ok s => m_out_flag (s_mon s) = Some O_pf_bnd /\
      map this (m_pf_low (s_mon s)) = [0; 0; (1#2); (3#4)]%Q /\ map this (m_pf_up (s_mon s)) = [1; (7#8); (7#8); (7#8)]%Q
  | Err _ => False
  end /\
  m_out_flag (s_mon (ex_run (mkCfg 100 None 0%Qc (Some 2) true true))) = Some O_max_rules /\
  m_out_flag (s_mon (ex_run (mkCfg 100 (Some 3) 0%Qc None true true))) = Some O_max_nb /\
  m_out_flag (s_mon (ex_run (mkCfg 2 None 0%Qc None true true))) = Some O_max_sf.
Proof. vm_compute. auto 10. Qed.

(** * C53: B_flag None stores the table up to six states, 'store' always, 'fly' never *)
Theorem C53_storage :
  forall name values flag,
    (exists B, v_B (mk_variable name values flag) = Some B) <->
    (values <> [] /\ flag <> Some FFly /\ ((List.length values <= 6)%nat \/ flag = Some FStore)).
Proof.
  intros name values flag. unfold mk_variable. cbn [v_B]. unfold stores_B.
  assert (E : (0 <? List.length values)%nat = true <-> values <> []).
  { rewrite Nat.ltb_lt. destruct values; cbn; split; try congruence; lia. }
  destruct (0 <? List.length values)%nat; cbn [andb].
  - assert (values <> []) by (apply E; auto).
    destruct (List.length values <=? 6)%nat eqn:L; [apply Nat.leb_le in L|apply Nat.leb_gt in L];
      destruct flag as [[| ]|]; cbn [negb orb andb]; 
        (split; [intros [B HB]; try congruence; (split; [auto|split; [congruence|solve [left; lia|right; congruence]]])
                |intros (_ & F1 & [F2|F2]); try congruence; try lia; eexists; reflexivity]).
  - assert (~ values <> []) by (intros X; apply E in X; congruence). split; [intros [B X]; congruence|tauto].
Qed.
Print Assumptions C53_storage.

Definition nums (n : nat) : list value := map (fun i => VNum (qz (Z.of_nat i))) (seq 0 n).
Example C53_storage_ex :
  v_B (mk_variable "x" (nums 7) None) = None /\ v_B (mk_variable "x" (nums 2) None) = Some [[0]; [1]; [0; 1]] /\
  v_B (mk_variable "x" (nums 6) None) <> None /\ v_B (mk_variable "x" (nums 7) (Some FStore)) <> None /\
  v_B (mk_variable "x" (nums 2) (Some FFly)) = None.
Proof. vm_compute. repeat split; congruence. Qed.
