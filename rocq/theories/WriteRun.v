(** Proofs about the analysis of delays of the EMA demo. *)
From Coq Require Import ZArith List String Bool Arith QArith Qcanon Lia.
From Verif Require Import Py PyFacts Num Vari VariFacts Brc SpecBrc BrcFacts BrcMain BrcProper Cpm SpecCpm Model ModelFacts Bnb SpecBnb Trans SpecTrans TransFacts NetSys.
From Verif Require Import Config SpecConfig ConfigFacts ConfigSetup PfMap SpecMap PfMapGeom PfMapRun WriteNet SpecWrite WriteFacts PropBrc PropBrc2 PropModel PropTrans.
Import ListNotations.
Open Scope string_scope.
Open Scope Z_scope.
Open Scope list_scope.

(** * Classes *)
Definition trip_of (c : Z) : Qc * Qc * Qc := (nth 0 (class_probs c) 0%Qc, nth 1 (class_probs c) 0%Qc, nth 2 (class_probs c) 0%Qc).
Definition class_of (K : list string) (pk : list Z) : dict (Qc * Qc * Qc) := map (fun kc => (fst kc, trip_of (snd kc))) (combine K pk).
Definition class_dist (K : list string) (pk : list Z) : prob_dict :=
  map (fun kp => (fst kp, let '(a, b, c) := snd kp in PDict [(0, a); (1, b); (2, c)])) (class_of K pk).

Lemma probs_set_ok c : 0 <= c < 3 -> probs_set c = Ok (trip_of c).
Proof. intros H. assert (c = 0 \/ c = 1 \/ c = 2) as [-> | [-> | ->]] by lia; reflexivity. Qed.
Lemma class_sum c : (nth 0 (class_probs c) 0 + nth 1 (class_probs c) 0 + nth 2 (class_probs c) 0 = 1)%Qc.
Proof. unfold class_probs. destruct (c =? 0); [|destruct (c =? 1)]; apply Qc_is_canon; reflexivity. Qed.
Lemma class_nonneg c i : (0 <= nth i (class_probs c) 0)%Qc.
Proof. unfold class_probs. destruct (c =? 0); [|destruct (c =? 1)]; destruct i as [|[|[|[|i]]]]; discriminate. Qed.
Lemma pr_ok K pk : (forall c, In c pk -> 0 <= c < 3) -> mapM (fun kc : string * Z => p <- probs_set (snd kc) ;; Ok (fst kc, p)) (combine K pk) = Ok (class_of K pk).
Proof.
  intros H. unfold class_of. apply mapM_ok. intros [k c] I. cbn [fst snd]. rewrite probs_set_ok; auto. apply H. apply in_combine_r in I. auto.
Qed.
Lemma class_find K : forall pk k, NoDup K -> List.length pk = List.length K -> In k K -> exists c, In c pk /\
  dfind (class_of K pk) k = Some (trip_of c) /\
  dfind (class_dist K pk) k = Some (PDict [(0, nth 0 (class_probs c) 0%Qc); (1, nth 1 (class_probs c) 0%Qc); (2, nth 2 (class_probs c) 0%Qc)]) /\
  dfind (class_scen K pk) k = Some (class_probs c).
Proof.
  unfold class_dist, class_of, class_scen. induction K as [|k0 K IH]; intros [|c pk] k N Hl I; try discriminate; [destruct I|]. cbn [combine map dfind fst snd trip_of].
  destruct (String.eqb_spec k k0) as [->|Ne].
  - exists c. split; [left; auto|]. auto.
  - inversion N; subst. destruct I as [->|I]; [contradiction|]. destruct (IH pk k) as (c' & I' & X); auto. exists c'. split; [right; auto|]. exact X.
Qed.

Lemma body_stop varis probs sf g s s' : run_body varis probs sf g s = Ok (inl s') -> s_sys s' = s_sys s.
Proof.
  unfold run_body. destruct (if g_active g then _ else _) as [b|]; [cbn [bind]|discriminate]. destruct (get_comp_st _ _ _ _) as [[x|]|]; [| |discriminate]; cbn [bind].
  2: { intros E. injection E as <-. auto. }
  destruct (ge_bound _ _); [intros E; injection E as <-; auto|]. destruct (qc_ltb _ _); [intros E; injection E as <-; auto|].
  destruct (ge_bound _ _); [intros E; injection E as <-; auto|]. destruct (run_sys_fn _ _ _) as [[[rl ss] sr]|]; [cbn [bind]|discriminate].
  destruct (update_rule_set _ _ _); [cbn [bind]|discriminate]. destruct (update_monitor _ _ _). discriminate.
Qed.

Lemma nth_last (l : list Qc) : l <> [] -> nth_error l (List.length l - 1) = Some (last l 0%Qc).
Proof.
  induction l as [|a l IH]; [contradiction|]. intros _. destruct l as [|b l]; [reflexivity|].
  change (last (a :: b :: l) 0%Qc) with (last (b :: l) 0%Qc). rewrite <- IH by discriminate. cbn [List.length]. replace (S (S (List.length l)) - 1)%nat with (S (S (List.length l) - 1))%nat by lia. reflexivity.
Qed.

Section Ema.
Variables (nx_path : graph -> string -> string -> option (list string)) (nx_wpath : graph -> string -> string -> res (list string)) (nx_wlen : graph -> string -> string -> res value).
Hypothesis Hn : nx_wpath_ok nx_wpath nx_wlen.
Variable f : netfile.
Let L := node_conn_df f.
Hypothesis Hk : NoDup (keys L).
Hypothesis Hnp : no_parallel false L.
Hypothesis Hw : forall k en, In (k, en) L -> (0 < weight en)%Qc.
Hypothesis Hne : L <> [].
Let G := file_graph f false false.
Let V := delay_varis L.
Let K := keys L.
Variables (o d : string).
Hypothesis Hod : o <> d.
Hypothesis Hconn : exists t, reach false L (fun _ => True) o d t.
Variable pk : list Z.
Hypothesis Hpl : List.length pk = List.length K.
Hypothesis Hpr : forall c, In c pk -> 0 <= c < 3.
Let probs := class_dist K pk.

Lemma ema_sp : space (comps_of V) = delay_states K.
Proof. exact (dV_space f). Qed.
Lemma ema_keys : keys V = K.
Proof. exact (dV_keys f). Qed.

Lemma ema_wf_probs : wf_probs V probs.
Proof.
  intros k v H. apply dV_in in H as (en & I & ->). destruct (class_find K pk k Hk Hpl (In_keys _ _ _ I)) as (c & Ic & _ & E & _). fold probs in E. split.
  - eexists. split; [exact E|]. intros x Hx. change (nvals (mk_variable k (delay_values (weight en)) None)) with 3 in Hx.
    assert (x = 0 \/ x = 1 \/ x = 2) as [-> | [-> | ->]] by lia; eexists; (split; [reflexivity|apply class_nonneg]).
  - match goal with |- context [nvals ?w] => change (nvals w) with 3 end. change (zrange 0 3) with [0; 1; 2]. unfold pr. rewrite E.
    cbn [map pget]. etransitivity; [|apply (class_sum c)]. unfold qsum. cbn -[class_probs]. ring.
Qed.
Lemma ema_prob E : prob_event V probs E = delay_prob K (class_scen K pk) E.
Proof.
  unfold prob_event, delay_prob. rewrite ema_sp. f_equal. apply map_ext_in. intros x Hx. apply filter_In in Hx as [Hx _].
  unfold prob_of, arc_prob. f_equal. apply map_ext_in. intros [k z] I. cbn [fst snd].
  assert (Hx' : In x (space (comps_of V))) by (rewrite ema_sp; auto). destruct (space_states V x (dV_wf f Hk) Hx') as [[N _] Kx].
  assert (Ik : In k K). { rewrite ema_keys in Kx. rewrite <- Kx. apply (In_keys _ _ _ I). }
  destruct (state_3 f Hk x k Hx Ik) as (s & Es & R). assert (Ez : dfind x k = Some z) by (apply In_dfind; auto; rewrite Kx; auto). rewrite Ez in Es. injection Es as <-.
  destruct (class_find K pk k Hk Hpl Ik) as (c & Ic & _ & E1 & E2). unfold pr. fold probs in E1. rewrite E1, E2.
  assert (z = 0 \/ z = 1 \/ z = 2) as [-> | [-> | ->]] by lia; reflexivity.
Qed.
Lemma ema_space : Z.of_nat (List.length (space (comps_of V))) = 3 ^ Z.of_nat (List.length L).
Proof.
  rewrite ema_sp. unfold delay_states, K. rewrite <- (map_length fst L). change (map fst L) with (keys L). clear. induction (keys L) as [|k l IH]; [reflexivity|].
  cbn [map List.length]. rewrite Nat2Z.inj_succ, Z.pow_succ_r by lia. rewrite <- IH. set (r := map _ l). change (space ((k, 3) :: r)) with
    (map (cons (k, 0)) (space r) ++ map (cons (k, 1)) (space r) ++ map (cons (k, 2)) (space r) ++ []). rewrite app_nil_r, !app_length, !map_length. clear IH. clearbody r. unfold dict. lia.
Qed.

Variable sc : scenfile value.
Variable s1 : dict (list value).
Hypothesis Hs1 : dfind (snd sc) "s1" = Some s1.
Hypothesis Hsv : forall k en, In (k, en) L -> dfind s1 k = Some (delay_values (weight en)).

Definition vc_row (k : string) : res (string * (variable * cpm)) :=
  s1 <- dget (snd sc) "s1" ;;
  vs <- dget s1 k ;;
  let v := mk_variable k vs None in
  p <- dget (class_of K pk) k ;;
  let '(a, b, c) := p in
  M <- mk_cpm [v] 1 [[0]; [1]; [2]] [a; b; c] ;;
  Ok (k, (v, M)).
Lemma vc_row_ok k en M : In (k, en) L -> component_cpm probs k (mk_variable k (delay_values (weight en)) None) = Ok M ->
  vc_row k = Ok (k, (mk_variable k (delay_values (weight en)) None, M)).
Proof.
  intros Ik E. destruct (class_find K pk k Hk Hpl (In_keys _ _ _ Ik)) as (c & Ic & E1 & E2 & _). fold probs in E2.
  unfold vc_row. rewrite (proj2 (dget_ok _ _ _) Hs1). cbn [bind]. rewrite (proj2 (dget_ok _ _ _) (Hsv k en Ik)). cbn [bind]. rewrite (proj2 (dget_ok _ _ _) E1). cbn [bind trip_of].
  set (v := mk_variable k (delay_values (weight en)) None) in *.
  assert (C : component_cpm probs k v = mk_cpm [v] 1 [[0]; [1]; [2]] [nth 0 (class_probs c) 0%Qc; nth 1 (class_probs c) 0%Qc; nth 2 (class_probs c) 0%Qc]).
  { unfold component_cpm. rewrite (proj2 (dget_ok _ _ _) E2). cbn [bind]. reflexivity. }
  rewrite C in E. rewrite E. reflexivity.
Qed.
Lemma vc_ok cs : mapM (fun kv => M <- component_cpm probs (fst kv) (snd kv) ;; Ok (fst kv, M)) V = Ok cs ->
  exists vc, mapM vc_row K = Ok vc /\ map (fun e => (fst e, fst (snd e))) vc = V /\ map (fun e => (fst e, snd (snd e))) vc = cs.
Proof.
  assert (X : forall l, incl l L -> forall cs, mapM (fun kv => M <- component_cpm probs (fst kv) (snd kv) ;; Ok (fst kv, M)) (delay_varis l) = Ok cs ->
    exists vc, mapM vc_row (keys l) = Ok vc /\ map (fun e => (fst e, fst (snd e))) vc = delay_varis l /\ map (fun e => (fst e, snd (snd e))) vc = cs).
  { induction l as [|[k en] l IH]; intros I cs' E; [exists []; cbn in E; injection E as <-; auto|].
    cbn [delay_varis map mapM keys fst snd] in *.
    assert (Ik : In (k, en) L) by (apply I; left; auto).
    destruct (component_cpm probs k _) as [M|] eqn:C in E; [|discriminate]. cbn [bind] in E. rewrite (vc_row_ok k en M Ik C). cbn [bind].
    match type of E with (bind ?m _ = _) => destruct m as [cs2|] eqn:E3; [|discriminate] end. cbn [bind] in E. injection E as <-.
    destruct (IH (fun x H => I x (or_intror H)) cs2 E3) as (vc & F1 & F2 & F3). unfold keys in F1. rewrite F1. cbn [bind].
    eexists. split; [reflexivity|]. cbn [map fst snd]. rewrite F2, F3. split; reflexivity. }
  intros E. apply (X L); auto. intros x Hx. auto.
Qed.

Variables (key : string) (max_sf : Z).
Hypothesis Hkind : kind_of (graph_type f) false false.
Hypothesis Hkey : dfind (sysout_setup f) key = Some (o, d).
Hypothesis Hsf : 1 <= max_sf.
Hypothesis Hsys : ~ In "sys" K.
Notation main := (ema_main nx_path nx_wpath nx_wlen f sc key pk max_sf).
Definition sys_var : variable := mk_variable "sys" [VStr "f"; VStr "s"; VStr "u"] None.

Lemma ema_ok : exists out fa fb n1 n2 low up M,
  main = Ok out /\ em_varis out = V ++ [("sys", sys_var)] /\ snd (em_mon out) = String.append (flag_name fa) (flag_name fb) /\
  last_item (m_pf_low (fst (em_mon out))) = Ok low /\ last_item (m_pf_up (fst (em_mon out))) = Ok up /\
  (forall slowb, (forall x, In x (delay_states K) -> (slowb x = true <-> slow L o d x)) ->
     forall i l u, nth_error (m_pf_low (fst (em_mon out))) i = Some l -> nth_error (m_pf_up (fst (em_mon out))) i = Some u ->
       (0 <= l)%Qc /\ (l <= delay_prob K (class_scen K pk) slowb)%Qc /\ (delay_prob K (class_scen K pk) slowb <= u)%Qc /\ (u <= 1)%Qc) /\
  (let q z := compute_prob (em_cpms out) (em_varis out) K "sys" (SI z) true in
     q 0 = Ok (low, M) /\ q 1 = Ok ((1 - up)%Qc, M) /\ q 2 = Ok ((up - low)%Qc, M)) /\
  m_no_sf (fst (em_mon out)) = zrange 0 (Z.of_nat n1 + 1) ++ zrange 0 (Z.of_nat n2 + 1) /\ Z.of_nat n1 <= max_sf /\ Z.of_nat n2 <= max_sf /\
  List.length (m_pf_low (fst (em_mon out))) = (S n1 + S n2)%nat /\ List.length (m_pf_up (fst (em_mon out))) = (S n1 + S n2)%nat /\
  (2 * 3 ^ Z.of_nat (List.length L) <= 10000 -> 3 ^ Z.of_nat (List.length L) < max_sf -> fa = O_complete /\ fb = O_complete /\ n2 = 0%nat) /\
  (2 * 3 ^ Z.of_nat (List.length L) <= 50000 -> fb = O_complete ->
     forall slowb, (forall x, In x (delay_states K) -> (slowb x = true <-> slow L o d x)) ->
       low = delay_prob K (class_scen K pk) slowb /\ up = delay_prob K (class_scen K pk) slowb /\
       forall x, In x (delay_states K) -> match_s (em_rules out) x = negb (slowb x) /\ match_f (em_rules out) x = slowb x).
Proof.
  destruct (slow_dec f Hk Hnp Hw Hne o d Hod Hconn nx_wpath nx_wlen Hn) as (slowb0 & Hl0).
  destruct (t0_ex f Hk Hnp Hw Hne o d Hod Hconn nx_wpath nx_wlen Hn) as (t0 & p0 & es0 & E0 & T0 & P0).
  set (sys := delay_sys f o d nx_path nx_wpath nx_wlen t0).
  assert (So : forall slowb, (forall x, In x (delay_states K) -> (slowb x = true <-> slow L o d x)) -> sys_ok V (fun x => negb (slowb x)) sys).
  { intros slowb Hl. apply (delay_sys_ok f Hk Hnp Hw Hne o d Hod Hconn nx_path nx_wpath nx_wlen Hn t0 slowb T0 P0 Hl). }
  pose proof (So slowb0 Hl0) as So0. set (phi0 := fun x => negb (slowb0 x)) in *.
  pose proof (dV_wf f Hk) as Wv. fold L in Wv. fold V in Wv. pose proof ema_wf_probs as Wp.
  assert (St1 := none_start V probs phi0).
  set (g1 := mkCfg max_sf (Some 10000) 0%Qc None true true). set (g2 := mkCfg max_sf (Some 50000) 0%Qc None true true).
  destruct (C16_run_total V probs phi0 sys g1 None None Wv Wp So0 St1 (or_introl eq_refl)) as [r1 Er1].
  destruct (C16_resume V probs phi0 sys g1 None None r1 Wv Wp So0 St1) as (b1 & Eb1 & St1' & Pb1 & _); [cbn; lia|auto|].
  assert (StP : forall phi, sys_ok V phi sys -> start_ok V probs phi (Some (s_rules r1)) None).
  { intros phi Sp. destruct (C16_resume V probs phi sys g1 None None r1 Wv Wp Sp (none_start V probs phi)) as (b1' & _ & (X1 & X2 & _) & _); [cbn; lia|auto|].
    split; [exact X1|]. split; [exact X2|]. discriminate. }
  assert (St2 := StP phi0 So0).
  destruct (C16_run_total V probs phi0 sys g2 (Some (s_rules r1)) None Wv Wp So0 St2 (or_introl eq_refl)) as [r2 Er2].
  destruct (C16_resume V probs phi0 sys g2 (Some (s_rules r1)) None r2 Wv Wp So0 St2) as (b2 & Eb2 & St2' & Pb2 & Nl2 & _); [cbn; lia|auto|].
  destruct (C21_aligned V probs phi0 sys g1 None None r1 Wv Wp So0 St1) as (A1 & _ & A2 & _); [cbn; lia|auto|].
  destruct (C21_aligned V probs phi0 sys g2 (Some (s_rules r1)) None r2 Wv Wp So0 St2) as (B1 & _ & B2 & _); [cbn; lia|auto|].
  cbn [map] in A2, B2. injection A2 as A2 A3 A4 _. injection B2 as B2 B3 B4 _.
  destruct (C52_stop_reason V probs sys g1 None None r1) as (bs1 & fa & Ebs1 & Efa & Hfa); [cbn; lia|auto|]. rewrite Eb1 in Ebs1. injection Ebs1 as <-.
  destruct (C52_stop_reason V probs sys g2 (Some (s_rules r1)) None r2) as (bs2 & fb & Ebs2 & Efb & Hfb); [cbn; lia|auto|]. rewrite Eb2 in Ebs2. injection Ebs2 as <-.
  destruct (C20_calls_distinct V probs phi0 sys g1 None None r1 Wv Wp So0 St1 (or_introl eq_refl) Er1) as (_ & _ & Nc1 & Nm1 & _).
  destruct (C20_calls_distinct V probs phi0 sys g2 (Some (s_rules r1)) None r2 Wv Wp So0 St2 (or_introl eq_refl) Er2) as (ND2 & In2 & Nc2 & Nm2 & _).
  set (low := last (m_pf_low (s_mon r2)) 0%Qc). set (up := last (m_pf_up (s_mon r2)) 0%Qc).
  set (conv := fun l => match l with F_ => 0 | S_ => 1 | U_ => 2 end).
  destruct (C25_system_event_partial V probs phi0 sys g2 (Some (s_rules r1)) None r2 sys_var conv Wv Wp So0 St2) as (brs' & rows & cp & M & Eb' & Pl & Ec & Bc & Q); auto.
  { discriminate. } { cbn; lia. }
  { intros k v H. apply dV_in in H as (en & _ & ->). eexists _, _. split; [reflexivity|discriminate]. }
  { rewrite ema_keys. exact Hsys. }
  { apply stored_basic. reflexivity. } { apply stored_ok; [cbn; lia|reflexivity]. }
  { intros []; cbn; lia. } { intros [] []; cbn; congruence. }
  rewrite Eb2 in Eb'. injection Eb' as <-. cbv zeta in Q. fold low up in Q.
  unfold build_cpms in Bc.
  match type of Bc with (bind ?m _ = _) => destruct m as [cs|] eqn:Ecs; [|discriminate] end. cbn [bind] in Bc.
  destruct (system_cpm sys_var V rows) as [Ms|] eqn:Es; [|discriminate]. cbn [bind] in Bc. injection Bc as <-.
  destruct (vc_ok cs Ecs) as (vc & F1 & F2 & F3).
  assert (Kc : keys cs = K).
  { apply mapM_inv in Ecs. rewrite <- ema_keys. clear - Ecs. clearbody V.
    induction Ecs as [|[k v] [k' M'] l l' E F IH]; [reflexivity|]. cbn [fst snd] in E. destruct (component_cpm probs k v) as [X|]; [|discriminate]. cbn [bind] in E. injection E as <- <-.
    cbn [keys map fst]. f_equal. exact IH. }
  assert (KV : keys V = K) by apply ema_keys.
  set (mon := mkMon (m_pf_up (s_mon r1) ++ m_pf_up (s_mon r2)) (m_pf_low (s_mon r1) ++ m_pf_low (s_mon r2)) (m_pr_bu (s_mon r1) ++ m_pr_bu (s_mon r2))
                (m_no_br (s_mon r1) ++ m_no_br (s_mon r2)) (m_no_bs (s_mon r1) ++ m_no_bs (s_mon r2)) (m_no_bf (s_mon r1) ++ m_no_bf (s_mon r2)) (m_no_bu (s_mon r1) ++ m_no_bu (s_mon r2))
                (m_no_rs (s_mon r1) ++ m_no_rs (s_mon r2)) (m_no_rf (s_mon r1) ++ m_no_rf (s_mon r2)) (m_no_ra (s_mon r1) ++ m_no_ra (s_mon r2)) (m_no_sf (s_mon r1) ++ m_no_sf (s_mon r2))
                (m_min_len_rf (s_mon r1) ++ m_min_len_rf (s_mon r2)) (m_avg_len_rf (s_mon r1) ++ m_avg_len_rf (s_mon r2)) None).
  assert (Ej : join_monitors (s_mon r1) (s_mon r2) = Ok (mon, String.append (flag_name fa) (flag_name fb))).
  { unfold join_monitors. rewrite Efa, Efb. reflexivity. }
  exists (mkEma b2 (cs ++ [("sys", Ms)]) (V ++ [("sys", sys_var)]) (s_rules r2) (mon, String.append (flag_name fa) (flag_name fb))), fa, fb,
    (List.length (s_sys r1)), (List.length (s_sys r2)), low, up, M.
  cbn [em_brs em_cpms em_varis em_rules em_mon fst snd].
  split.
  { unfold ema_main. rewrite (read_ok f false false Hkind). cbn [bind fst snd]. fold L K G. rewrite (proj2 (dget_ok _ _ _) Hkey). cbn [bind fst snd].
    rewrite (pr_ok K pk Hpr). cbn [bind]. match goal with |- context [mapM ?g K] => change (mapM g K) with (mapM vc_row K) end. rewrite F1. cbn [bind]. rewrite F2, F3.
    fold G L V in E0. rewrite E0. cbn [bind fst t_double].
    match goal with |- context [run V ?p _ _ None None] => change p with probs end.
    match goal with |- context [as_sysfun ?h] => change (as_sysfun h) with sys end.
    fold g1 g2. rewrite Er1. cbn [bind]. rewrite Er2. cbn [bind]. rewrite Eb2.
    unfold st_br_to_cs. change (fun s0 : st => Ok match s0 with F_ => 0 | S_ => 1 | U_ => 2 end) with (fun l => Ok (conv l)). rewrite Ec. cbn [bind fst snd].
    fold sys_var. rewrite (dset_new V "sys") by (rewrite KV; exact Hsys).
    assert (Em : mapM (dget (V ++ [("sys", sys_var)])) K = Ok (map snd V)).
    { rewrite <- mapM_snd by apply Wv. rewrite KV. apply mapM_ext_in. intros k Ik. rewrite <- KV in Ik. apply dfind_keys in Ik as [v Ev].
      rewrite (proj2 (dget_ok _ _ _) Ev). apply dget_ok. clear - Ev. induction V as [|[k' v'] l IH]; [discriminate|]. cbn in *. destruct (String.eqb k k'); auto. }
    rewrite Em. cbn [bind]. unfold system_cpm in Es. rewrite Es. cbn [bind]. rewrite Ej. cbn [bind]. rewrite dset_new by (rewrite Kc; exact Hsys). reflexivity. }
  split; auto. split; auto.
  assert (Nu2 : m_pf_up (s_mon r2) <> []) by (intros X; rewrite X in B3; discriminate).
  assert (LastApp : forall (l l' : list Qc), l' <> [] -> last (l ++ l') 0%Qc = last l' 0%Qc).
  { clear. intros l l' N. destruct (exists_last N) as (m & z & ->). rewrite app_assoc, !last_last. auto. }
  split. { apply last_item_ok. cbn [mon m_pf_low]. split; [intros X; apply app_eq_nil in X as [_ X]; auto|]. rewrite LastApp; auto. }
  split. { apply last_item_ok. cbn [mon m_pf_up]. split; [intros X; apply app_eq_nil in X as [_ X]; auto|]. rewrite LastApp; auto. }
  assert (Pf : forall slowb, p_fail V probs (fun x => negb (slowb x)) = delay_prob K (class_scen K pk) slowb).
  { intros slowb. unfold p_fail. rewrite ema_prob. unfold delay_prob. do 2 f_equal. apply filter_ext. intros x. apply negb_involutive. }
  split.
  { intros slowb Hl i l u. cbn [mon m_pf_low m_pf_up]. rewrite <- Pf.
    assert (Gen : forall g rules r, start_ok V probs (fun x => negb (slowb x)) rules None -> run V probs sys g rules None = Ok r -> List.length (m_pf_low (s_mon r)) = List.length (m_pr_bu (s_mon r)) ->
      forall j, nth_error (m_pf_low (s_mon r)) j = Some l -> nth_error (m_pf_up (s_mon r)) j = Some u ->
      (0 <= l)%Qc /\ (l <= p_fail V probs (fun x => negb (slowb x)))%Qc /\ (p_fail V probs (fun x => negb (slowb x)) <= u)%Qc /\ (u <= 1)%Qc).
    { intros g rules r St Er Len j Ejl Eju. destruct (nth_error (m_pr_bu (s_mon r)) j) as [bu|] eqn:Ebu.
      - destruct (C16_bounds V probs _ sys g rules None r Wv Wp (So slowb Hl) St Er j l u bu Ejl Eju Ebu) as (X1 & X2 & X3 & X4 & _). auto.
      - apply nth_error_None in Ebu. assert (nth_error (m_pf_low (s_mon r)) j <> None) by congruence. apply nth_error_Some in H. lia. }
    destruct (Nat.ltb_spec i (List.length (m_pf_low (s_mon r1)))) as [Lt|Ge].
    - rewrite !nth_error_app1 by lia. apply (Gen g1 None r1); auto; [apply none_start|lia].
    - rewrite !nth_error_app2 by lia. rewrite A2, A3. apply (Gen g2 (Some (s_rules r1)) r2); auto; lia. }
  split.
  { cbv zeta. change (v_name sys_var) with "sys" in Q. rewrite KV in Q. destruct Q as (Q1 & Q2 & Q3). cbn [conv] in *. auto. }
  split; [cbn [mon m_no_sf]; rewrite A1, B1; reflexivity|].
  split; [cbn [g1 g_max_sf] in Nm1; lia|]. split; [cbn [g2 g_max_sf] in Nm2; lia|].
  split; [cbn [mon m_pf_low]; rewrite app_length; lia|]. split; [cbn [mon m_pf_up]; rewrite app_length; lia|].
  assert (Un1 : 2 * 3 ^ Z.of_nat (List.length L) <= 10000 -> unlimited V (Some 10000)) by (intros X; right; exists 10000; split; auto; rewrite ema_space; auto).
  assert (Un2 : 2 * 3 ^ Z.of_nat (List.length L) <= 50000 -> unlimited V (Some 50000)) by (intros X; right; exists 50000; split; auto; rewrite ema_space; auto).
  assert (Ps : 0 < 3 ^ Z.of_nat (List.length L)) by (apply Z.pow_pos_nonneg; lia). pose proof ema_space as Esp.
  split.
  { intros S1 S2.
    assert (Gen : forall g rules r bs fl, g_max_sf g = max_sf -> g_max_rules g = None -> g_pf_bnd_wr g = 0%Qc -> unlimited V (g_max_nb g) ->
       start_ok V probs phi0 rules None -> run V probs sys g rules None = Ok r -> s_brs r = Some bs -> partition V bs -> boxes V bs ->
       (List.length (s_sys r) <= List.length (space (comps_of V)))%nat -> m_out_flag (s_mon r) = Some fl ->
       match fl with
      | O_complete => True
      | O_max_nb => exists m, g_max_nb g = Some m /\ m <= Z.of_nat (List.length bs)
      | O_pf_bnd => (last (removelast (m_pr_bu (s_mon r))) 1 < last (removelast (m_pf_low (s_mon r))) 0 * g_pf_bnd_wr g)%Qc
      | O_max_rules => exists m, g_max_rules g = Some m /\
          m <= Z.of_nat (List.length (r_s (s_rules r))) + Z.of_nat (List.length (r_f (s_rules r)))
      | O_max_sf => Z.of_nat (List.length (s_sys r)) = g_max_sf g
      end -> fl = O_complete).
    { intros g rules r bs fl G1 G2 G3 Un St Er Eb Pb Bx Nc Ef Hf. pose proof (branch_number V bs Wv Bx Pb) as Nb. destruct fl; auto; exfalso.
      - destruct Hf as (m & Em & Lm). destruct Un as [Un|(m' & Em' & Lm')]; [congruence|]. rewrite Em in Em'. injection Em' as <-. lia.
      - pose proof (C52_width_reached V probs phi0 sys g rules None r Wv Wp So0 St Un) as X. rewrite G1, G3 in X. specialize (X ltac:(lia) (Qcle_refl _) Er Ef).
        destruct (C16_resume V probs phi0 sys g rules None r Wv Wp So0 St) as (bb & _ & _ & _ & Nlr & _); [rewrite G1; lia|auto|].
        destruct (C21_aligned V probs phi0 sys g rules None r Wv Wp So0 St) as (_ & _ & R2 & _); [rewrite G1; lia|auto|]. cbn [map] in R2. injection R2 as R2 R3 R4 _.
        assert (Nur : m_pf_up (s_mon r) <> []) by (intros Y; rewrite Y in R3; discriminate).
        assert (Nbr : m_pr_bu (s_mon r) <> []) by (intros Y; rewrite Y in R4; discriminate).
        destruct (C16_bounds V probs phi0 sys g rules None r Wv Wp So0 St Er (List.length (m_pf_low (s_mon r)) - 1)
          (last (m_pf_low (s_mon r)) 0%Qc) (last (m_pf_up (s_mon r)) 0%Qc) (last (m_pr_bu (s_mon r)) 0%Qc)) as (_ & Y1 & Y2 & _); try (apply nth_last; auto);
          try (rewrite R2, <- R3; apply nth_last; auto); try (rewrite R2, <- R4; apply nth_last; auto).
        assert (Eu : last (m_pf_up (s_mon r)) 1%Qc = last (m_pf_up (s_mon r)) 0%Qc).
        { destruct (exists_last Nur) as (m & z & ->). rewrite !last_last. auto. }
        rewrite Eu in X. replace (last (m_pf_low (s_mon r)) 0 * 0)%Qc with 0%Qc in X by ring.
        assert (Z : (last (m_pf_low (s_mon r)) 0 <= last (m_pf_up (s_mon r)) 0)%Qc) by (eapply Qcle_trans; eauto).
        revert X Z. generalize (last (m_pf_low (s_mon r)) 0%Qc) (last (m_pf_up (s_mon r)) 0%Qc). clear. intros a b X Z. qc_lra.
      - destruct Hf as (m & Em & _). congruence.
      - rewrite G1 in Hf. lia. }
    assert (Bx1 : boxes V b1). { destruct St1' as (_ & _ & Vb). destruct (Vb b1 eq_refl) as (X & _). exact X. }
    assert (Bx2 : boxes V b2). { destruct St2' as (_ & _ & Vb). destruct (Vb b2 eq_refl) as (X & _). exact X. }
    assert (Fa : fa = O_complete) by (apply (Gen g1 None r1 b1 fa); auto).
    assert (Fb : fb = O_complete). { apply (Gen g2 (Some (s_rules r1)) r2 b2 fb); auto. apply Un2. lia. }
    split; auto. split; auto. subst fa. clear Gen.
    destruct (s_sys r2) as [|e es] eqn:Ee; [reflexivity|exfalso].
    destruct (C18_complete_exact_partial V probs phi0 sys g1 None None r1 Wv Wp So0 St1 (Un1 S1) Er1 Efa) as (_ & _ & X3).
    unfold run in Er2. destruct init_monitor as [m0 c0] eqn:Ei. injection Ei as _ Ec0.
    destruct St2 as (Wr2 & Sr2 & _).
    cbn [run_loop] in Er2. rewrite <- Ec0 in Er2 at 1. cbn [s_ctrl c_no_sf] in Er2. destruct (0 <? g_max_sf g2) eqn:Lt; [|apply Z.ltb_ge in Lt; cbn in Lt; lia].
    destruct (run_body V probs sys g2 _) as [[s'|s']|] eqn:Eb; [| |discriminate]; cbn [bind] in Er2.
    - apply body_stop in Eb. cbn [s_sys] in Eb. destruct (s_brs s'); [|discriminate]. destruct (update_monitor _ _ _). injection Er2 as <-. cbn [s_sys] in Ee. congruence.
    - match type of Eb with run_body _ _ _ _ ?s = _ => pose proof (C20_call_unclassified V probs phi0 sys g2 s s' Wv Wp Wr2 Sr2 eq_refl Eb) as C end. destruct C as (r & Es' & Ir & M1 & M2). cbn [s_rules] in M1, M2.
      destruct (X3 _ Ir) as [Y1 Y2]. rewrite Y1 in M1. rewrite Y2 in M2. destruct (phi0 _); discriminate. }
  intros S1 -> slowb Hl.
  destruct (C18_complete_exact_partial V probs (fun x => negb (slowb x)) sys g2 (Some (s_rules r1)) None r2 Wv Wp (So slowb Hl) (StP _ (So slowb Hl)) (Un2 S1) Er2 Efb) as (X1 & X2 & X3).
  unfold low, up. rewrite X1, X2, Pf. split; auto. split; auto. intros x Hx. rewrite ema_sp in X3. destruct (X3 x Hx) as [Y1 Y2].
  rewrite Y1, Y2, negb_involutive. auto.
Qed.
End Ema.
