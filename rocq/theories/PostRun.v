(** The evaluations that follow the failure map: what the map has stored. *)
From Coq Require Import ZArith List String Bool Arith QArith Qcanon Lia Permutation.
From Verif Require Import Py PyFacts Num Vari VariFacts Brc SpecBrc BrcFacts BrcDecomp BrcProb BrcRun BrcMisc BrcMain BrcProper.
From Verif Require Import Cpm SpecCpm CpmFacts CpmMarg CpmSum CpmCond CpmElim CpmProb Model ModelFacts SysEvent SysJoint MsysProd SpecProd PropProd SysProd.
From Verif Require Import Bnb SpecBnb Trans SpecTrans TransFacts NetSys Config SpecConfig ConfigFacts ConfigSetup.
From Verif Require Import PfMap SpecMap PfMapGeom PfMapFacts PfMapMain PfMapRun PfMapTable PropBrc PropBrc2 PropModel PropTrans PostMap TwoNet.
Import ListNotations.
Open Scope string_scope.
Open Scope Z_scope.
Open Scope list_scope.

Section Run.
Variables (np_sqrt np_log : Qc -> Qc) (norm_cdf : Qc -> Qc -> Qc -> Qc) (gm_ln_sa : Qc -> Qc -> Qc) (gm_std_al : Qc -> Qc) (gm_std_ep : Qc -> Qc -> Qc).
Variable nx_multi : graph -> list string -> string -> res (value * list string).
Hypothesis Hnx : nx_multi_ok nx_multi.
Hypothesis Hroot : forall a, (0 < a)%Qc -> (0 < np_sqrt a)%Qc.
Hypothesis Hcdf : forall x m s, (0 < s)%Qc -> (0 <= norm_cdf x m s)%Qc /\ (norm_cdf x m s <= 1)%Qc.
Hypothesis Hal : forall m, gm_std_al m <> 0%Qc.
Notation edge_dist := (cal_edge_dist np_sqrt np_log norm_cdf gm_ln_sa gm_std_al gm_std_ep).
Notation main := (pm_main np_sqrt np_log norm_cdf gm_ln_sa gm_std_al gm_std_ep nx_multi).
Variable f : mapfile.
Hypothesis Hf : map_ok f.
Notation L := (timed_roads np_sqrt f).
Notation K := (keys (pm_roads f)).
Notation V := (map_varis np_sqrt f).
Notation ds := (pm_origins f).

(** what the branches of a node say *)
Definition told (n : string) (brs : list branch) (rows : list (list Z)) : Prop :=
  brs <> [] /\ boxes V brs /\ partition V brs /\ Forall2 (row_ok V conv3 V) brs rows /\
  (forall b x, In b brs -> In x (arc_states K) -> in_branch b x = true ->
     (br_label b = F_ -> late L (pm_thres f) ds n x) /\ (br_label b = S_ -> ~ late L (pm_thres f) ds n x)).

Lemma V_st k v : In (k, v) V -> v_name v = k /\ stored v.
Proof. intros H. apply PfMapMain.V_in in H as (r & _ & ->). split; reflexivity. Qed.
Lemma V_two k v : In (k, v) V -> nvals v = 2.
Proof. intros H. apply PfMapMain.V_in in H as (r & _ & ->). reflexivity. Qed.
Lemma nv_new n : In n (keys (pm_nodes f)) -> ~ In (v_name (node_var n)) (keys V).
Proof. rewrite PfMapMain.V_keys. cbn. destruct Hf as (_ & _ & _ & _ & _ & _ & _ & _ & Nk). apply Nk. Qed.
Lemma nv_basic n : basic_table (node_var n).
Proof. apply stored_basic. reflexivity. Qed.
Lemma nv_ok n : var_ok (node_var n).
Proof. apply stored_ok; [cbn; lia|reflexivity]. Qed.
Lemma nv_range n l : 0 <= conv3 l < nvals (node_var n).
Proof. destruct l; cbn; lia. Qed.

Section Node.
Variables (name : string) (pf mean : dict Qc) (cov : list (list Qc)).
Hypothesis Hed : edge_dist f name = Ok (pf, mean, cov).
Variable g : config.
Hypothesis Hg : g_surv_first g = true /\ g_active g = true /\ 1 <= g_max_sf g /\ g_max_rules g = None.
Variable cpms : dict cpm.
Hypothesis Hcp : comp_cpms np_sqrt f pf = Ok cpms.
Notation probs := (pm_probs pf).
Notation G := (file_graph (pm_net f) false false).
Notation pn := (process_node nx_multi G ds (pm_thres f) g (intact np_sqrt f) K V probs cpms).

Lemma cpms_are : cpms = map (fun kv => (fst kv, comp_M probs kv)) V.
Proof.
  assert (E : comp_cpms np_sqrt f pf = Ok (map (fun kv => (fst kv, comp_M probs kv)) V)).
  { unfold comp_cpms. apply mapM_ok. intros kv I. rewrite (comp_M_make V (pm_probs pf)); [reflexivity|..]; auto.
    - apply (PfMapMain.V_wf np_sqrt f Hf).
    - apply (probs_wf np_sqrt np_log norm_cdf gm_ln_sa gm_std_al gm_std_ep Hroot Hcdf Hal f Hf name pf mean cov Hed).
    - apply V_st. }
  rewrite Hcp in E. injection E as ->. reflexivity.
Qed.

Lemma node_told n r : In n (keys (pm_nodes f)) -> ~ In n ds -> pn n = Ok r ->
  exists brs rows, told n brs rows /\ n_cpms r = cpms ++ [(n, sys_M V (node_var n) rows)].
Proof.
  intros Hn Hno Hr. destruct Hg as (Gs & Ga & Gm & Gr).
  pose proof (ends_ok np_sqrt np_log norm_cdf gm_ln_sa gm_std_al gm_std_ep f Hf name pf mean cov Hed) as He.
  destruct (time_ex np_sqrt nx_multi Hnx Hroot f Hf He n Hn (intact np_sqrt f) (intact_in np_sqrt f)) as (T0 & p0 & es0 & E0 & N0).
  apply (proj1 (nearest_intact np_sqrt f Hf n T0)) in N0.
  destruct (late_dec np_sqrt np_log norm_cdf gm_ln_sa gm_std_al gm_std_ep nx_multi Hnx Hroot f Hf name pf mean cov Hed n T0 Hn Hno N0) as (lateb & Hl).
  set (sys := node_sys np_sqrt nx_multi f n T0).
  assert (So : sys_ok V (fun x => negb (lateb x)) sys) by apply (node_ok np_sqrt nx_multi Hnx Hroot f Hf He n Hn Hno T0 lateb N0 Hl).
  set (phi := fun x => negb (lateb x)) in *.
  pose proof (PfMapMain.V_wf np_sqrt f Hf) as Wv. pose proof (probs_wf np_sqrt np_log norm_cdf gm_ln_sa gm_std_al gm_std_ep Hroot Hcdf Hal f Hf name pf mean cov Hed) as Wp.
  pose proof (none_start V probs phi) as St.
  destruct (net_bounds V probs phi sys g Wv Wp So Gs Gm) as (s & Er & _).
  assert (Mx : 0 < g_max_sf g) by lia.
  destruct (C16_resume V probs phi sys g None None s Wv Wp So St Mx Er) as (brs & Eb & St' & Pb & _).
  destruct St' as (Wr' & Sr' & Vb). destruct (Vb brs eq_refl) as (V1 & V2 & V3 & V4).
  assert (Pr : proper_labels brs).
  { assert (P := run_proper V probs Wv Wp phi sys So g None None (proj1 St) (proj1 (proj2 St)) (proj2 (proj2 St)) s).
    assert (P0 : proper_o None) by (intros b0 X0; discriminate). specialize (P P0 Er brs Eb). rewrite Forall_forall in P. exact P. }
  assert (Nb : brs <> []). { intros X. rewrite X in Pb. specialize (Pb (worst_of V) (worst_sp V Wv)). cbn in Pb. congruence. }
  assert (Wb : forall b, In b brs -> wf_br V b) by (intros b Hb; apply V1; auto).
  destruct (get_csys_ok V Wv (stored_tables V (fun k v H => proj2 (V_st k v H))) conv3 brs Nb Wb) as (rows & V' & Ec & _ & Fr).
  assert (V' = V) as -> by (apply (get_csys_same V Wv (fun k v H => proj2 (V_st k v H)) (fun l => Ok (conv3 l)) brs rows V' Wb Ec)).
  assert (Sl : sound_labels V phi brs).
  { destruct Sr' as [Hs1 Hs2]. intros b x Hb Hx Hin. destruct (V1 b Hb) as (D & U & Le). destruct (V3 b Hb) as (L1 & _ & _ & L4).
    apply (in_branch_spec V Wv b x Hx) in Hin as [I1 I2]. split; intros E.
    - assert (M := L4 E). apply (match_f_anti V (s_rules s) x (b_up b)) in M; auto. apply match_f_spec in M as (r0 & Hr' & M). eapply Hs2; eauto.
    - assert (M := L1 E). apply (match_s_mono V (s_rules s) (b_down b) x) in M; auto. apply match_s_spec in M as (r0 & Hr' & M). eapply Hs1; eauto. }
  exists brs, rows. split.
  { split; auto. split; auto. split; auto. split; auto. intros b x Hb Hx Hin. assert (Hx' := Hx). rewrite <- (PfMapMain.V_space np_sqrt f) in Hx'. destruct (Sl b x Hb Hx' Hin) as [Y1 Y2]. split; intros Lb.
    - apply (Hl x Hx). apply negb_false_iff. apply Y1. apply (label_F b (proj1 (Pr b Hb))). auto.
    - rewrite <- (Hl x Hx). apply not_true_iff_false, negb_true_iff. apply Y2. apply (label_S b (proj2 (Pr b Hb))). auto. }
  revert Hr. unfold process_node. assert (Mn : mem_str n ds = false) by (destruct (mem_str n ds) eqn:X; auto; apply mem_str_In in X; contradiction). rewrite Mn.
  rewrite E0. cbn [bind fst].
  change (as_sysfun (fun x => sf_min_path_multi nx_multi x G n ds V (Some (t_times (pm_thres f) T0)))) with sys.
  assert (KV : K = keys V) by (symmetry; apply PfMapMain.V_keys). rewrite KV. rewrite mapM_self by apply Wv. cbn [bind]. rewrite Er. cbn [bind]. rewrite Eb.
  rewrite conv3_eq, Ec. cbn [bind snd fst]. rewrite mapM_snd by apply Wv. cbn [bind]. fold (node_var n).
  rewrite (se_make V Wv V_st (node_var n) (nv_new n Hn) (nv_ok n) rows (sp_code V Wv (node_var n) conv3 (nv_basic n) (nv_range n) brs rows Fr)). cbn [bind].
  destruct (last_item (m_pf_up (s_mon s))) as [u|]; [|discriminate]. cbn [bind]. destruct (last_item (m_pf_low (s_mon s))) as [l|]; [|discriminate]. cbn [bind].
  intros Hr. assert (E : n_cpms r = dset cpms n (sys_M V (node_var n) rows)).
  { unfold mcs_unknown in Hr. destruct (m_out_flag (s_mon s)) as [[]|]; try (destruct (filter _ brs); discriminate); injection Hr as <-; reflexivity. }
  rewrite E. apply dset_new. rewrite cpms_are. unfold keys. rewrite map_map. cbn [fst]. change (~ In n (keys V)). apply (nv_new n Hn).
Qed.
End Node.

(** all nodes *)
Lemma saved_told name max_sf max_nb wr done lines saved : match max_sf with Some m => 1 <= m | None => True end -> Permutation done (keys (pm_nodes f)) ->
  main f name max_sf max_nb wr done = Ok (lines, saved) ->
  forall n, In n (keys (pm_nodes f)) -> ~ In n ds -> exists brs rows pf mean cov, edge_dist f name = Ok (pf, mean, cov) /\ told n brs rows /\
    dfind saved n = Some (map (fun kv => (fst kv, comp_M (pm_probs pf) kv)) V ++ [(n, sys_M V (node_var n) rows)]).
Proof.
  intros Hmx Hdone Hm n Hn Hno. assert (Hed : exists pf mean cov, edge_dist f name = Ok (pf, mean, cov)).
  { unfold pm_main in Hm. destruct Hf as (Hk & _). rewrite (read_ok (pm_net f) false false Hk) in Hm. cbn [bind fst] in Hm. destruct (edge_dist f name) as [[[pf mean] cov]|]; [eauto|discriminate]. }
  destruct Hed as (pf & mean & cov & Hed).
  rewrite (main_eq np_sqrt np_log norm_cdf gm_ln_sa gm_std_al gm_std_ep nx_multi Hroot Hcdf Hal f Hf name max_sf max_nb wr done pf mean cov Hed) in Hm.
  destruct (comp_total np_sqrt np_log norm_cdf gm_ln_sa gm_std_al gm_std_ep Hroot Hcdf Hal f Hf name pf mean cov Hed) as (cpms & Hcp). rewrite Hcp in Hm. cbn [bind] in Hm.
  match type of Hm with bind ?m _ = _ => destruct m as [rs|] eqn:Er; [|discriminate] end. cbn [bind] in Hm.
  assert (Hg := g_ok f max_sf max_nb wr Hmx).
  assert (R : Forall2 (fun n nr => fst nr = n /\ pnode np_sqrt nx_multi f max_sf max_nb wr pf cpms n = Ok (snd nr)) done rs).
  { apply mapM_inv in Er. eapply Forall2_impl; [|exact Er]. intros n0 [n1 r1] E. cbn [fst snd]. destruct (pnode np_sqrt nx_multi f max_sf max_nb wr pf cpms n0) as [r'|]; [|discriminate]. cbn [bind] in E.
    injection E as <- <-. auto. }
  assert (Nd : In n done) by (apply (Permutation_in _ (Permutation_sym Hdone)); auto).
  destruct (Forall2_in_l _ _ _ _ R Nd) as ([n1 r] & Ir & En & Ep). cbn [fst snd] in En, Ep. subst n1.
  destruct (node_told name pf mean cov Hed (pm_cfg f max_sf max_nb wr) Hg cpms Hcp n r Hn Hno Ep) as (brs & rows & T & Ec).
  exists brs, rows, pf, mean, cov. split; auto. split; auto. rewrite <- (cpms_are name pf mean cov Hed cpms Hcp), <- Ec.
  assert (Es : saved = map (fun nr => (fst nr, n_cpms (snd nr))) (filter (fun nr => match n_vari (snd nr) with Some _ => true | None => false end) rs)).
  { unfold table in Hm. cbv zeta in Hm. match type of Hm with bind ?m _ = _ => destruct m; [|discriminate] end. cbn [bind] in Hm.
    match type of Hm with bind ?m _ = _ => destruct m; [|discriminate] end. cbn [bind] in Hm. injection Hm as _ <-. reflexivity. }
  apply In_dfind.
  - rewrite Es. unfold keys. rewrite map_map. cbn [fst]. assert (ND : NoDup (map fst rs)).
    { replace (map fst rs) with done; [eapply Permutation_NoDup; [apply Permutation_sym; exact Hdone|apply Hf]|].
      clear - R. induction R as [|a [b c] l l' [E _] R IH]; [reflexivity|]. cbn in *. congruence. }
    clear - ND. induction rs as [|[a r] rs IH]; [constructor|]. cbn [map fst] in ND. inversion_clear ND as [|? ? N1 N2]. cbn [filter].
    destruct (match n_vari (snd (a, r)) with Some _ => true | None => false end); auto. cbn [map fst]. constructor; auto.
    intros H. apply N1. apply in_map_iff in H as (x & E & I). apply filter_In in I as [I _]. apply in_map_iff. eauto.
  - rewrite Es. apply in_map_iff. exists (n, r). split; auto. apply filter_In. split; auto. cbn [snd].
    unfold pnode, process_node in Ep. assert (Mn : mem_str n ds = false) by (destruct (mem_str n ds) eqn:X; auto; apply mem_str_In in X; contradiction). rewrite Mn in Ep.
    repeat match type of Ep with bind ?m _ = _ => destruct m; [|discriminate]; cbn [bind] in Ep end.
    destruct (s_brs _); [|discriminate]. repeat match type of Ep with bind ?m _ = _ => destruct m; [|discriminate]; cbn [bind] in Ep end.
    unfold mcs_unknown in Ep. destruct (m_out_flag _) as [[]|]; try (destruct (filter _ _); discriminate); injection Ep as <-; reflexivity.
Qed.
End Run.
