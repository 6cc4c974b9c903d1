(** Why [run] stops, and what the last entries of the monitor are. *)
From Coq Require Import ZArith List String Bool Arith Lia QArith Qcanon.
From Verif Require Import Py Num Vari Brc SpecBrc.
Import ListNotations.
Open Scope string_scope.
Open Scope Z_scope.
Open Scope list_scope.

(** the meaning of each value of out_flag, from the monitor before the last
    entry was appended and the returned branches and rules *)
Definition stop_meaning (g : config) (ncalls : nat) (bu low : list Qc) (brs : list branch) (rs : ruleset) (f : oflag) : Prop :=
  match f with
  | O_complete => True
  | O_max_nb => exists m, g_max_nb g = Some m /\ m <= Z.of_nat (List.length brs)
  | O_pf_bnd => (last bu 1 < last low 0 * g_pf_bnd_wr g)%Qc
  | O_max_rules => exists m, g_max_rules g = Some m /\
                     m <= Z.of_nat (List.length (r_s rs)) + Z.of_nat (List.length (r_f rs))
  | O_max_sf => Z.of_nat ncalls = g_max_sf g
  end.

Definition linv (g : config) (s : rstate) : Prop :=
  c_no_sf (s_ctrl s) = Z.of_nat (List.length (s_sys s)) /\
  c_pr_bu (s_ctrl s) = last (m_pr_bu (s_mon s)) 1%Qc /\
  c_pf_low (s_ctrl s) = last (m_pf_low (s_mon s)) 0%Qc /\
  (m_out_flag (s_mon s) = None \/
   m_out_flag (s_mon s) = Some O_max_sf /\ Z.of_nat (List.length (s_sys s)) = g_max_sf g) /\
  (Z.of_nat (List.length (s_sys s)) = g_max_sf g -> 0 < g_max_sf g -> m_out_flag (s_mon s) = Some O_max_sf) /\
  Z.of_nat (List.length (s_sys s)) <= Z.max 0 (g_max_sf g) /\
  (s_brs s = None -> s_sys s = []).

Definition sstop (g : config) (s' : rstate) : Prop :=
  exists brs f, s_brs s' = Some brs /\ m_out_flag (s_mon s') = Some f /\
    stop_meaning g (List.length (s_sys s')) (m_pr_bu (s_mon s')) (m_pf_low (s_mon s')) brs (s_rules s') f.

Lemma qc_ltb_true a b : qc_ltb a b = true -> (a < b)%Qc.
Proof. intros H. apply qc_ltb_lt. exact H. Qed.

Lemma body_stop varis probs sf g s : linv g s -> c_no_sf (s_ctrl s) < g_max_sf g ->
  match run_body varis probs sf g s with
  | Ok (inl s') => sstop g s'
  | Ok (inr s') => linv g s'
  | Err _ => True
  end.
Proof.
  intros (L1 & L2 & L3 & L4 & L5 & L6 & L7) Hlt. unfold run_body.
  destruct (if g_active g then _ else _) as [brs|]; cbn [bind]; auto.
  destruct (get_comp_st _ _ _ _) as [[x|]|]; cbn [bind]; auto.
  2:{ exists brs, O_complete. cbn. auto. }
  destruct (ge_bound (len brs) (g_max_nb g)) eqn:B1.
  { exists brs, O_max_nb. cbn. repeat (split; auto). unfold ge_bound in B1. destruct (g_max_nb g) as [m|]; [|congruence].
    exists m. split; auto. unfold len in B1. apply Z.leb_le in B1. exact B1. }
  destruct (qc_ltb _ _) eqn:B2.
  { exists brs, O_pf_bnd. cbn. repeat (split; auto). rewrite <- L2, <- L3. apply qc_ltb_true; auto. }
  destruct (ge_bound _ (g_max_rules g)) eqn:B3.
  { exists brs, O_max_rules. cbn. repeat (split; auto). unfold ge_bound in B3. destruct (g_max_rules g) as [m|]; [|congruence].
    exists m. split; auto. unfold len in B3. rewrite app_length in B3. apply Z.leb_le in B3. lia. }
  destruct (run_sys_fn x sf varis) as [[[rule sst] sres]|]; cbn [bind]; auto.
  destruct (update_rule_set (s_rules s) rule sst) as [rs'|]; cbn [bind]; auto.
  unfold update_monitor. cbn [c_no_sf push_no_sf m_no_sf]. rewrite last_last.
  rewrite L1 in *. unfold linv. cbn [s_ctrl s_sys s_mon s_brs c_no_sf c_pr_bu c_pf_low].
  rewrite app_length. cbn [List.length].
  destruct (Z.of_nat (List.length (s_sys s)) + 1 =? g_max_sf g) eqn:B4;
    cbn [set_flag m_pr_bu m_pf_low m_out_flag push_no_sf]; rewrite ?last_last.
  - apply Z.eqb_eq in B4. repeat (split; auto; try lia; try congruence). right. split; auto. lia.
  - apply Z.eqb_neq in B4. repeat (split; auto; try lia; try congruence).
    destruct L4 as [|[? ?]]; auto. lia.
Qed.

Lemma loop_stop varis probs sf g fuel : forall s, linv g s -> 0 < g_max_sf g ->
  forall s', run_loop fuel varis probs sf g s = Ok s' -> sstop g s'.
Proof.
  induction fuel as [|fuel IH]; intros s L Hpos s' H; cbn [run_loop] in H; [congruence|].
  destruct (c_no_sf (s_ctrl s) <? g_max_sf g) eqn:E.
  - apply Z.ltb_lt in E. pose proof (body_stop varis probs sf g s L E) as B.
    destruct (run_body varis probs sf g s) as [[s1|s1]|]; cbn [bind] in H; [| |congruence].
    + injection H as <-. auto.
    + eapply IH; eauto.
  - apply Z.ltb_ge in E. injection H as <-. destruct L as (L1 & L2 & L3 & L4 & L5 & L6 & L7).
    assert (Z.of_nat (List.length (s_sys s)) = g_max_sf g) by lia.
    destruct (s_brs s) as [brs|] eqn:Eb.
    + exists brs, O_max_sf. split; auto.
    + rewrite L7 in H; auto. cbn in H. lia.
Qed.

Lemma removelast_snoc {A} (l : list A) x : removelast (l ++ [x]) = l.
Proof. rewrite removelast_app by congruence. cbn. apply app_nil_r. Qed.

Lemma main_stop varis probs sf g rules brs s :
  0 < g_max_sf g -> run varis probs sf g rules brs = Ok s ->
  exists bs f, s_brs s = Some bs /\ m_out_flag (s_mon s) = Some f /\
    stop_meaning g (List.length (s_sys s)) (removelast (m_pr_bu (s_mon s))) (removelast (m_pf_low (s_mon s))) bs (s_rules s) f.
Proof.
  intros Hpos H. unfold run in H. cbn [init_monitor] in H.
  destruct (run_loop _ _ _ _ _ _) as [s1|] eqn:E; cbn [bind] in H; [|congruence].
  apply loop_stop in E; auto.
  - destruct E as (bs & f & E1 & E2 & E3). destruct (0 <? g_max_sf g) eqn:G; [|apply Z.ltb_ge in G; lia].
    rewrite E1 in H. unfold update_monitor in H. injection H as <-. exists bs, f.
    cbn [s_brs s_mon m_out_flag s_sys m_pr_bu m_pf_low s_rules]. rewrite !removelast_snoc. auto.
  - unfold linv. cbn. repeat (split; auto; try lia).
Qed.

(** last entries of all series *)
Definition isF (b : branch) : bool := st_eqb (b_up_state b) F_.
Definition isS (b : branch) : bool := st_eqb (b_down_state b) S_.
Lemma main_last_values varis probs sf g rules brs s :
  0 < g_max_sf g -> run varis probs sf g rules brs = Ok s ->
  exists bs, s_brs s = Some bs /\ let m := s_mon s in let n l := Z.of_nat (@List.length branch l) in
    let lens := map (fun r : dict Z => Z.of_nat (List.length r)) (r_f (s_rules s)) in
    last (m_no_br m) 0 = n bs /\ last (m_no_bf m) 0 = n (filter isF bs) /\ last (m_no_bs m) 0 = n (filter isS bs) /\
    last (m_no_bu m) 0 = n bs - n (filter isF bs) - n (filter isS bs) /\
    last (m_no_ra m) 0 = Z.of_nat (List.length (r_s (s_rules s)) + List.length (r_f (s_rules s))) /\
    last (m_pf_low m) 0%Qc = qsum (map b_p (filter isF bs)) /\
    last (m_pf_up m) 0%Qc = (1 - qsum (map b_p (filter isS bs)))%Qc /\
    last (m_pr_bu m) 0%Qc = (last (m_pf_up m) 0 - last (m_pf_low m) 0)%Qc /\
    (lens = [] -> last (m_min_len_rf m) 0 = 0 /\ last (m_avg_len_rf m) 0%Qc = 0%Qc) /\
    (lens <> [] -> In (last (m_min_len_rf m) 0) lens /\ (forall x, In x lens -> last (m_min_len_rf m) 0 <= x) /\
       (last (m_avg_len_rf m) 0 * qz (Z.of_nat (List.length lens)) = qz (zsum lens))%Qc).
Proof.
  intros Hpos H. unfold run in H. cbn [init_monitor] in H.
  destruct (run_loop _ _ _ _ _ _) as [s1|] eqn:E; cbn [bind] in H; [|congruence].
  destruct (0 <? g_max_sf g) eqn:G; [|apply Z.ltb_ge in G; lia].
  destruct (s_brs s1) as [bs|]; [|congruence]. unfold update_monitor in H. injection H as <-. exists bs.
  cbn [s_brs s_mon s_rules m_no_br m_no_bf m_no_bs m_no_bu m_no_ra m_pf_low m_pf_up m_pr_bu m_min_len_rf m_avg_len_rf].
  rewrite !last_last. unfold len, pr_bf, pr_bs.
  change (fun b : branch => st_eqb (b_up_state b) F_) with isF.
  change (fun b : branch => st_eqb (b_down_state b) S_) with isS.
  split; auto. cbv zeta. do 4 (split; auto). split; [lia|]. do 2 (split; auto). split; [ring|].
  set (lens := map _ _). split.
  - intros ->. auto.
  - intros Hne. assert (Hl : List.length lens = List.length (r_f (s_rules s1))) by apply map_length.
    destruct lens as [|x xs]; [congruence|].
    assert (M : forall l a, In (fold_left Z.min l a) (a :: l) /\ (forall y, In y (a :: l) -> fold_left Z.min l a <= y)).
    { induction l as [|c l IHl]; intros a; cbn [fold_left].
      - split; [left; auto|]. intros y [->|[]]. lia.
      - destruct (IHl (Z.min a c)) as [I1 I2]. split.
        + destruct I1 as [I1|I1]; [|right; right; auto]. rewrite <- I1. destruct (Z.min_spec a c) as [[? ->]|[? ->]]; cbn; auto.
        + intros y [<-|[<-|Hy]]; [| |apply I2; right; auto];
            (etransitivity; [apply I2; left; reflexivity|lia]). }
    destruct (M xs x) as [M1 M2]. split; auto. split; auto. rewrite <- Hl.
    assert (N : qz (Z.of_nat (List.length (x :: xs))) <> 0%Qc).
    { intros Z0. apply (f_equal (fun q => this q)) in Z0. unfold qz, Q2Qc in Z0. cbn [this] in Z0.
      assert (Z1 : Qeq (inject_Z (Z.of_nat (List.length (x :: xs)))) 0%Q).
      { rewrite <- (Qred_correct (inject_Z _)), Z0. reflexivity. }
      unfold Qeq in Z1. cbn [inject_Z Qnum Qden] in Z1. cbn [List.length] in Z1. lia. }
    field. exact N.
Qed.
