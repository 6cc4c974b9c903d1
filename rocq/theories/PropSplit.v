(** Final theorems C101: a search of brc.py made in several runs.  The
    vocabulary is in SpecSplit.v. *)
From Coq Require Import ZArith List String Bool Arith Lia QArith Qcanon.
From Verif Require Import Py Num Vari Brc SpecBrc BrcFacts BrcMain BrcRun BrcStop PropBrc PropBrc2 SpecExact ExactFacts PropExact SpecSplit SplitFacts.
Import ListNotations.
Open Scope string_scope.
Open Scope Z_scope.
Open Scope list_scope.

(** * C101 *)
(** A run of [a + b] calls is a run of [a] calls followed by a run of [b] calls
    that is given the rules of the first (and its branches, if branches are kept
    from one iteration to the next): the same branches, rules, table of results
    and monitor, and an error in one if and only if in the other.  Nothing is
    assumed about the variables, the probabilities, the rules or the system
    function. *)
Theorem C101_split :
  forall varis probs sys_fun g a b rules brs s1 bs,
    0 < a -> 0 < b ->
    run varis probs sys_fun (with_calls g a) rules brs = Ok s1 -> m_out_flag (s_mon s1) = Some O_max_sf ->
    ~ close_enough (g_pf_bnd_wr g) s1 ->
    g_active g = true \/ bs = s_brs s1 ->
    run varis probs sys_fun (with_calls g (a + b)) rules brs =
    match run varis probs sys_fun (with_calls g b) (Some (s_rules s1)) bs with
    | Ok s2 => Ok (joined a s1 s2)
    | Err e => Err e
    end.
Proof. intros. apply run_split; auto. Qed.
Print Assumptions C101_split.

(** Without a tolerance no pair of bounds counts as close. *)
Theorem C101_no_tolerance :
  forall varis probs phi sys_fun g rules brs s,
    wf_varis varis -> wf_probs varis probs -> sys_ok varis phi sys_fun -> start_ok varis probs phi rules brs ->
    0 < g_max_sf g -> (g_pf_bnd_wr g <= 0)%Qc ->
    run varis probs sys_fun g rules brs = Ok s -> ~ close_enough (g_pf_bnd_wr g) s.
Proof.
  intros varis probs phi sys_fun g rules brs s H1 H2 H3 H4 Hm L4 Run Hf.
  pose proof (C16_bounds varis probs phi sys_fun g rules brs s H1 H2 H3 H4 Run) as B.
  destruct H4 as (S1 & S2 & S3).
  pose proof (run_final varis probs phi sys_fun g rules brs H1 H2 H3 S1 S2 S3 Hm) as R. rewrite Run in R.
  destruct R as (h0 & b & u0 & R). cbv zeta in R. destruct R as (_ & _ & _ & _ & _ & _ & (M1 & M2 & M3 & _) & _).
  unfold close_enough in Hf. rewrite M1, M3 in Hf. rewrite M1, M2, M3 in B. rewrite !map_app in *. cbn [map] in *. rewrite !last_last in Hf.
  assert (NE : forall A (f : entry -> A) e, nth_error (map f h0 ++ [f e]) (List.length h0) = Some (f e)).
  { intros A f e. rewrite nth_error_app2 by (rewrite map_length; apply Nat.le_refl). rewrite map_length, Nat.sub_diag. reflexivity. }
  destruct (B (List.length h0) _ _ _ (NE _ _ _) (NE _ _ _) (NE _ _ _)) as (B1 & _ & _ & _ & _ & B2).
  apply (Qclt_not_le _ _ Hf). apply Qcle_trans with 0%Qc; [|exact B2].
  match goal with |- (?x * _ <= 0)%Qc => set (y := x) in * end.
  assert (X : (0 <= - g_pf_bnd_wr g)%Qc) by qc_lra.
  pose proof (Qcmult_le_compat_r 0 (- g_pf_bnd_wr g) _ X B1) as Y.
  replace (0 * y)%Qc with 0%Qc in Y by ring.
  replace (- g_pf_bnd_wr g * y)%Qc with (- (y * g_pf_bnd_wr g))%Qc in Y by ring. qc_lra.
Qed.
Print Assumptions C101_no_tolerance.

(** A larger limit on the calls changes nothing if the run fails or stops for
    another reason. *)
Theorem C101_larger_limit :
  forall varis probs sys_fun g a c rules brs,
    0 < a -> a < c ->
    (forall e, run varis probs sys_fun (with_calls g a) rules brs = Err e ->
               run varis probs sys_fun (with_calls g c) rules brs = Err e) /\
    (forall s, run varis probs sys_fun (with_calls g a) rules brs = Ok s -> m_out_flag (s_mon s) <> Some O_max_sf ->
               run varis probs sys_fun (with_calls g c) rules brs = Ok s).
Proof.
  intros varis probs sys_fun g a c rules brs Ha Hc. split.
  - intros e. apply run_more_err; auto.
  - intros s. apply run_more_stop; auto.
Qed.
Print Assumptions C101_larger_limit.

(** A search that ended with 'complete', 'max_nb' or 'max_rules', started again
    from its rules, ends at once with the same branches, rules and reason. *)
Theorem C101_again :
  forall varis probs sys_fun g rules brs s n bs,
    0 < g_max_sf g -> 0 < n -> g_active g = true ->
    run varis probs sys_fun g rules brs = Ok s ->
    m_out_flag (s_mon s) <> Some O_max_sf -> m_out_flag (s_mon s) <> Some O_pf_bnd ->
    exists s2, run varis probs sys_fun (with_calls g n) (Some (s_rules s)) bs = Ok s2 /\
      s_brs s2 = s_brs s /\ s_rules s2 = s_rules s /\ s_sys s2 = [] /\
      m_out_flag (s_mon s2) = m_out_flag (s_mon s).
Proof.
  intros varis probs sys_fun g rules brs s n bs Hm Hn Act Run Fl1 Fl2.
  destruct (run_inl _ _ _ _ _ _ _ Hm Run Fl1) as (u & s' & B & F).
  destruct (body_inl _ _ _ _ _ _ B) as (b & f & D & -> & Hf). rewrite Act in D.
  unfold finish in F. cbn [s_brs] in F. injection F as <-. cbn [s_rules s_brs s_sys s_mon update_monitor fst set_flag m_out_flag] in *.
  rewrite run_first by lia.
  assert (X : run_body varis probs sys_fun (with_calls g n) (start0 (Some (s_rules u)) bs) =
    Ok (inl (mkSt (Some b) (s_rules u) [] (set_flag (fst init_monitor) f) (snd init_monitor)))).
  { unfold run_body. cbn [with_calls g_max_sf g_max_nb g_pf_bnd_wr g_max_rules g_surv_first g_active].
    rewrite Act. unfold start0. cbn [s_rules s_sys s_mon s_ctrl]. rewrite D. cbn [bind].
    pose proof (start_tol g (s_rules u) bs) as T. unfold tol in T. cbn [start0 s_ctrl] in T.
    destruct f; try congruence.
    - rewrite Hf. reflexivity.
    - destruct Hf as ((x & ->) & ->). reflexivity.
    - destruct Hf as ((x & ->) & -> & _ & Hr). cbn [bind]. rewrite T, Hr. reflexivity. }
  rewrite X. cbn [bind]. unfold finish. cbn [s_brs]. eexists. split; [reflexivity|].
  cbn. auto.
Qed.
Print Assumptions C101_again.

(** A search that ended with 'pf_bnd', started again from its rules, makes a
    call at least: the test of the tolerance is not made before the first call. *)
Theorem C101_tolerance_again :
  forall varis probs sys_fun g rules brs s n bs s2,
    0 < g_max_sf g -> 0 < n -> g_active g = true -> g_max_rules g = None ->
    run varis probs sys_fun g rules brs = Ok s -> m_out_flag (s_mon s) = Some O_pf_bnd ->
    run varis probs sys_fun (with_calls g n) (Some (s_rules s)) bs = Ok s2 ->
    s_sys s2 <> [].
Proof.
  intros varis probs sys_fun g rules brs s n bs s2 Hm Hn Act Hr Run Fl Run2.
  destruct (run_inl _ _ _ _ _ _ _ Hm Run ltac:(congruence)) as (u & s' & B & F).
  destruct (body_inl _ _ _ _ _ _ B) as (b & f & D & -> & Hf). rewrite Act in D.
  unfold finish in F. cbn [s_brs] in F. injection F as <-. cbn [s_rules s_brs s_sys s_mon update_monitor fst set_flag m_out_flag] in *.
  injection Fl as ->. destruct Hf as ((x & G) & Nb & _).
  rewrite run_first in Run2 by lia.
  destruct (run_body varis probs sys_fun (with_calls g n) (start0 (Some (s_rules u)) bs)) as [[t|t]|] eqn:E; cbn [bind] in Run2; [| |discriminate].
  - exfalso. destruct (body_inl _ _ _ _ _ _ E) as (b2 & f2 & D2 & -> & Hf2).
    cbn [with_calls g_max_sf g_max_nb g_pf_bnd_wr g_max_rules g_surv_first g_active start0 s_rules] in D2, Hf2.
    rewrite Act, D in D2. injection D2 as <-. destruct f2.
    + congruence.
    + destruct Hf2 as (_ & Y). congruence.
    + destruct Hf2 as (_ & _ & Y). pose proof (start_tol (with_calls g n) (s_rules u) bs) as T.
      unfold start0 in *. congruence.
    + destruct Hf2 as (_ & _ & _ & Y). rewrite Hr in Y. discriminate.
    + exact Hf2.
  - destruct (run_loop _ _ _ _ _ _) as [w|] eqn:El; cbn [bind] in Run2; [|discriminate].
    unfold finish in Run2. destruct (s_brs w); [|discriminate]. injection Run2 as <-. cbn [s_sys].
    eapply loop_sys; [|exact El]. eapply body_sys; eauto.
Qed.
Print Assumptions C101_tolerance_again.

(** If the bounds are close at the end of the first run, a run with more calls
    stops there. *)
Theorem C101_seam_close :
  forall varis probs sys_fun g a b rules brs s1 s,
    0 < a -> 0 < b ->
    run varis probs sys_fun (with_calls g a) rules brs = Ok s1 -> m_out_flag (s_mon s1) = Some O_max_sf ->
    close_enough (g_pf_bnd_wr g) s1 ->
    run varis probs sys_fun (with_calls g (a + b)) rules brs = Ok s ->
    s_rules s = s_rules s1 /\ s_sys s = s_sys s1 /\
    In (m_out_flag (s_mon s)) [Some O_complete; Some O_max_nb; Some O_pf_bnd].
Proof.
  intros varis probs sys_fun g a b rules brs s1 s Ha Hb H1 Fl Tol.
  destruct (run_seam varis probs sys_fun g rules brs a (a + b) s1 Ha ltac:(lia) H1 Fl) as (u & Fu & Nu & Flu & (V1 & _) & Cu & Fr & X).
  rewrite (X (S (Z.to_nat b)) ltac:(lia)). clear X. cbn [run_loop].
  cbn [with_calls g_max_sf]. replace (c_no_sf (s_ctrl (unflag u)) <? a + b) with true
    by (symmetry; apply Z.ltb_lt; cbn [unflag s_ctrl]; lia).
  assert (E1 : s_rules s1 = s_rules u /\ s_sys s1 = s_sys u /\ tol g (unflag u) = true).
  { unfold finish in Fu. destruct (s_brs u) as [bu|] eqn:Eb; [|discriminate]. injection Fu as <-.
    repeat (split; [reflexivity|]).
    destruct Fr as [Fr|(b' & Y1 & Y2 & Y3)]; [rewrite Fr in V1; cbn in V1; lia|].
    rewrite Eb in Y1. injection Y1 as <-.
    unfold close_enough in Tol. cbn [s_mon update_monitor fst m_pr_bu m_pf_low] in Tol. rewrite !last_last in Tol.
    unfold tol, unflag. cbn [s_ctrl]. rewrite Y2, Y3. apply qc_ltb_lt. exact Tol. }
  destruct E1 as (E1 & E2 & E3). rewrite E1, E2.
  destruct (run_body varis probs sys_fun (with_calls g (a + b)) (unflag u)) as [[t|t]|] eqn:E; cbn [bind]; [| |discriminate].
  - intros F. destruct (body_inl _ _ _ _ _ _ E) as (b2 & f2 & _ & -> & Hf2).
    unfold finish in F. cbn [s_brs] in F. injection F as <-. cbn.
    repeat (split; [reflexivity|]). destruct f2; auto.
    destruct Hf2 as (_ & _ & Y & _). unfold tol in *. cbn [with_calls g_pf_bnd_wr] in Y. congruence.
  - exfalso. clear -E E3. revert E. unfold run_body. unfold tol in E3. cbn [with_calls g_max_sf g_max_nb g_pf_bnd_wr g_max_rules g_surv_first g_active].
    rewrite E3. destruct (if g_active _ then _ else _) as [bs|]; cbn [bind]; [|discriminate].
    destruct (get_comp_st _ _ _ _) as [[x|]|]; cbn [bind]; try discriminate.
    destruct (ge_bound _ _); discriminate.
Qed.
Print Assumptions C101_seam_close.

(** * Examples *)
Definition ex_split (n : Z) (r : option ruleset) : rstate :=
  match run ex_varis ex_probs ex_sys (with_calls ex_cfg n) r None with Ok s => s | Err _ => ex_run ex_cfg end.
Definition ex_two : rstate := ex_split 2 None.
Definition ex_four : rstate := ex_split 4 (Some (s_rules ex_two)).

(** six calls, and two followed by four *)
Example C101_split_ex :
  run ex_varis ex_probs ex_sys (with_calls ex_cfg 2) None None = Ok ex_two /\
  m_out_flag (s_mon ex_two) = Some O_max_sf /\
  run ex_varis ex_probs ex_sys (with_calls ex_cfg 4) (Some (s_rules ex_two)) None = Ok ex_four /\
  List.length (s_sys ex_two) = 2%nat /\ List.length (s_sys ex_four) = 4%nat /\
  m_no_sf (s_mon (joined 2 ex_two ex_four)) = [0; 1; 2; 3; 4; 5; 6] /\
  map this (m_pf_up (s_mon (joined 2 ex_two ex_four))) = [1; (2#5); (11#50); (4#25); (1#10); (1#10); (1#10)]%Q /\
  map this (m_pf_up (s_mon ex_two)) = [1; (2#5); (2#5)]%Q.
Proof. do 7 (split; [vm_compute; reflexivity|]). vm_compute; reflexivity. Qed.

Example C101_split_ex2 :
  run ex_varis ex_probs ex_sys (with_calls ex_cfg (2 + 4)) None None = Ok (joined 2 ex_two ex_four).
Proof.
  assert (H1 : run ex_varis ex_probs ex_sys (with_calls ex_cfg 2) None None = Ok ex_two) by (vm_compute; reflexivity).
  assert (H2 : run ex_varis ex_probs ex_sys (with_calls ex_cfg 4) (Some (s_rules ex_two)) None = Ok ex_four) by (vm_compute; reflexivity).
  rewrite (C101_split ex_varis ex_probs ex_sys ex_cfg 2 4 None None ex_two None).
  - rewrite H2. reflexivity.
  - lia.
  - lia.
  - exact H1.
  - vm_compute. reflexivity.
  - vm_compute. discriminate.
  - left. reflexivity.
Qed.

(** With a tolerance of 2 the search ends after five calls and 'pf_bnd';
    started again from its rules it makes the call that is left. *)
Definition ex_wide : config := mkCfg 100 None (Q2Qc (2#1)) None false true.
Definition ex_first : rstate :=
  match run ex_varis ex_probs ex_sys ex_wide None None with Ok s => s | Err _ => ex_run ex_cfg end.
Definition ex_second : rstate :=
  match run ex_varis ex_probs ex_sys ex_wide (Some (s_rules ex_first)) None with Ok s => s | Err _ => ex_run ex_cfg end.
Example C101_tolerance_again_ex :
  run ex_varis ex_probs ex_sys ex_wide None None = Ok ex_first /\
  run ex_varis ex_probs ex_sys ex_wide (Some (s_rules ex_first)) None = Ok ex_second /\
  (m_out_flag (s_mon ex_first), List.length (s_sys ex_first)) = (Some O_pf_bnd, 5%nat) /\
  (m_out_flag (s_mon ex_second), List.length (s_sys ex_second)) = (Some O_complete, 1%nat).
Proof. do 3 (split; [vm_compute; reflexivity|]). vm_compute; reflexivity. Qed.

(** the search with a limit of five calls, and with a larger limit *)
Definition ex_five : rstate :=
  match run ex_varis ex_probs ex_sys (with_calls ex_wide 5) None None with Ok s => s | Err _ => ex_run ex_cfg end.
Example C101_seam_close_ex :
  run ex_varis ex_probs ex_sys (with_calls ex_wide 5) None None = Ok ex_five /\
  m_out_flag (s_mon ex_five) = Some O_max_sf /\
  close_enough (g_pf_bnd_wr ex_wide) ex_five /\
  run ex_varis ex_probs ex_sys (with_calls ex_wide (5 + 95)) None None = Ok ex_first.
Proof. do 3 (split; [vm_compute; reflexivity|]). vm_compute; reflexivity. Qed.

(** the complete search again *)
Example C101_again_ex :
  m_out_flag (s_mon (ex_run ex_cfg)) = Some O_complete /\
  match run ex_varis ex_probs ex_sys (with_calls ex_cfg 7) (Some (s_rules (ex_run ex_cfg))) None with
  | Ok s => (List.length (s_sys s), m_out_flag (s_mon s), m_no_br (s_mon s))
  | Err _ => (9%nat, None, [])
  end = (0%nat, Some O_complete, [6]).
Proof. split; vm_compute; reflexivity. Qed.

Example C101_larger_limit_ex :
  run ex_varis ex_probs ex_sys (with_calls ex_cfg 7) None None = Ok (ex_run ex_cfg) /\
  run ex_varis ex_probs ex_sys (with_calls ex_cfg 1000) None None = Ok (ex_run ex_cfg).
Proof. split; vm_compute; reflexivity. Qed.

Example C101_no_tolerance_ex :
  this (last (m_pr_bu (s_mon ex_two)) 1%Qc) = (2#5)%Q /\ ~ close_enough 0%Qc ex_two.
Proof. split; vm_compute; [reflexivity|discriminate]. Qed.
