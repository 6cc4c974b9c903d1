(** Proofs about the failure map: the table of results. *)
From Coq Require Import ZArith List String Bool Arith QArith Qcanon Lia Permutation.
From Verif Require Import Py PyFacts Num Vari VariFacts Brc SpecBrc BrcFacts Cpm SpecCpm Model ModelFacts Bnb SpecBnb Trans SpecTrans TransFacts NetSys.
From Verif Require Import Config SpecConfig ConfigFacts ConfigSetup PfMap SpecMap PfMapGeom PfMapFacts PfMapMain PfMapRun PropBrc PropBrc2 PropModel PropTrans.
Import ListNotations.
Open Scope string_scope.
Open Scope Z_scope.
Open Scope list_scope.

Section Table.
Variables (np_sqrt np_log : Qc -> Qc) (norm_cdf : Qc -> Qc -> Qc -> Qc) (gm_ln_sa : Qc -> Qc -> Qc) (gm_std_al : Qc -> Qc) (gm_std_ep : Qc -> Qc -> Qc).
Variable nx_multi : graph -> list string -> string -> res (value * list string).
Hypothesis Hnx : nx_multi_ok nx_multi.
Hypothesis Hroot : forall a, (0 < a)%Qc -> (0 < np_sqrt a)%Qc.
Hypothesis Hcdf : forall x m s, (0 < s)%Qc -> (0 <= norm_cdf x m s)%Qc /\ (norm_cdf x m s <= 1)%Qc.
Hypothesis Hal : forall m, gm_std_al m <> 0%Qc.
Notation edge_dist := (cal_edge_dist np_sqrt np_log norm_cdf gm_ln_sa gm_std_al gm_std_ep).
Notation main := (pm_main np_sqrt np_log norm_cdf gm_ln_sa gm_std_al gm_std_ep nx_multi).

Variable f : mapfile.
Hypothesis Hf : map_ok f.
Variable name : string.

Lemma edge_dist_total : map_full f name -> exists pf mean cov, edge_dist f name = Ok (pf, mean, cov).
Proof.
  intros (Hr & e & Ee & M1 & M2). unfold cal_edge_dist. rewrite (proj2 (dget_ok _ _ _) Ee). cbn [bind].
  assert (X : forall l, incl l (pm_roads f) -> exists rr, mapM (fun kr => a <- dget (pm_nodes f) (r_from (snd kr)) ;; b <- dget (pm_nodes f) (r_to (snd kr)) ;;
     d <- shortest_distance np_sqrt a b (epicentre e) ;; Ok (fst kr, d)) l = Ok rr /\ keys rr = keys l).
  { induction l as [|[k r] l IH]; intros I; [exists []; auto|]. destruct IH as (rr & E & Kr); [intros x Hx; apply I; right; auto|].
    destruct (Hr k r) as ((a & b & A & B & N) & _); [apply I; left; auto|]. cbn [mapM fst snd]. rewrite (proj2 (dget_ok _ _ _) A). cbn [bind]. rewrite (proj2 (dget_ok _ _ _) B). cbn [bind].
    assert (S : exists d, shortest_distance np_sqrt a b (epicentre e) = Ok d).
    { destruct a as [x1 y1], b as [x2 y2], (epicentre e) as [x0 y0]. unfold shortest_distance. destruct (qc_eqb _ 0%Qc) eqn:Z; [|destruct (qc_ltb _ _); [eauto|destruct (qc_ltb _ _); eauto]].
      exfalso. apply N. apply qc_eqb_eq in Z. unfold sqr in Z. apply qc_sum_sq in Z as [Z1 Z2]. f_equal.
      - replace x1 with (x2 - (x2 - x1))%Qc by ring. rewrite Z1. ring.
      - replace y1 with (y2 - (y2 - y1))%Qc by ring. rewrite Z2. ring. }
    destruct S as (d & S). rewrite S. cbn [bind]. rewrite E. cbn [bind]. eexists. split; [reflexivity|]. cbn. unfold keys in Kr. rewrite Kr. reflexivity. }
  destruct (X (pm_roads f)) as (rr & E & Kr); [intros x Hx; auto|]. unfold rrup. rewrite E. cbn [bind].
  assert (Mo : mw_ok (mw e) = true). { unfold mw_ok. apply andb_true_iff. split; apply qc_leb_le; auto. }
  rewrite Mo. match goal with |- context [mapM ?h (pm_roads f)] => set (h0 := h) end.
  assert (Y : forall l, incl l (pm_roads f) -> exists es, mapM h0 l = Ok es).
  { induction l as [|[k r] l IH]; intros I; [exists []; auto|]. destruct IH as (es & Ees); [intros x Hx; apply I; right; auto|].
    destruct (Hr k r) as (_ & fr & Fr & L3); [apply I; left; auto|]. cbn [mapM]. assert (Z : exists v, h0 (k, r) = Ok v).
    { unfold h0. cbn [fst snd]. rewrite (proj2 (dget_ok _ _ _) Fr). cbn [bind]. destruct (sa_g fr) as [|q1 [|q2 [|q3 q]]] eqn:Q; cbn in L3; try lia.
      rewrite (proj2 (py_index2 (q1 :: q2 :: q3 :: q) q3) eq_refl). cbn [bind].
      assert (In k (keys rr)) as Ik by (rewrite Kr; apply (In_keys _ k r); apply I; left; auto).
      apply dfind_keys in Ik as [d Ed]. rewrite (proj2 (dget_ok _ _ _) Ed). cbn [bind]. eauto. }
    destruct Z as (v & Z). rewrite Z. cbn [bind]. rewrite Ees. cbn [bind]. eauto. }
  destruct (Y (pm_roads f)) as (es & Ees); [intros x Hx; auto|]. rewrite Ees. cbn [bind]. eauto.
Qed.

Variables (max_sf : option Z) (max_nb : Z) (wr : Qc) (done : list string).
Hypothesis Hmx : match max_sf with Some m => 1 <= m | None => True end.
Hypothesis Hdone : Permutation done (keys (pm_nodes f)).

Let g := pm_cfg f max_sf max_nb wr.
Lemma g_ok : g_surv_first g = true /\ g_active g = true /\ 1 <= g_max_sf g /\ g_max_rules g = None.
Proof. clear - Hmx. cbn. repeat split. destruct max_sf; auto. assert (0 <= 2 ^ Z.of_nat (List.length (pm_roads f))) by (apply Z.pow_nonneg; lia). lia. Qed.
Definition pnode (pf : dict Qc) (cpms : dict cpm) (n : string) : res nres :=
  process_node nx_multi (file_graph (pm_net f) false false) (pm_origins f) (pm_thres f) (pm_cfg f max_sf max_nb wr) (intact np_sqrt f) (keys (pm_roads f)) (map_varis np_sqrt f) (pm_probs pf) cpms n.
Definition table (rs : list (string * nres)) : res (list line * dict (dict cpm)) :=
  let has := filter (fun nr => match n_vari (snd nr) with Some _ => true | None => false end) rs in
  bounds <- mapM (fun nr : string * nres =>
    match n_mon (snd nr) with
    | Some m => l <- last_item (m_pf_low m) ;; u <- last_item (m_pf_up m) ;; Ok (fst nr, (l, u, n_nsamp (snd nr), 0%Qc))
    | None => Err TypeError
    end) has ;;
  lines <- mapM (fun n => b <- dget bounds n ;; Ok (n, b))
    (filter (fun n => negb (String.eqb n "epi") && negb (mem_str n (pm_origins f))) (keys (pm_nodes f))) ;;
  Ok (lines, map (fun nr => (fst nr, n_cpms (snd nr))) has).

Lemma main_eq pf mean cov : edge_dist f name = Ok (pf, mean, cov) ->
  main f name max_sf max_nb wr done =
    (cpms <- comp_cpms np_sqrt f pf ;; rs <- mapM (fun n => r <- pnode pf cpms n ;; Ok (n, r)) done ;; table rs).
Proof.
  intros Hed. unfold pm_main. destruct Hf as (Hk & _). rewrite (read_ok (pm_net f) false false Hk). cbn [bind fst]. rewrite Hed. cbn [bind fst].
  destruct (lens_ok np_sqrt np_log norm_cdf gm_ln_sa gm_std_al gm_std_ep f Hf name pf mean cov Hed) as (lens & El & Ev). rewrite El. cbn [bind]. cbv zeta. rewrite Ev.
  rewrite (cpms_eq np_sqrt np_log norm_cdf gm_ln_sa gm_std_al gm_std_ep Hroot Hcdf Hal f Hf name pf mean cov Hed).
  unfold pnode, table. replace (keys (pm_arcs f)) with (keys (pm_roads f)) by (unfold pm_arcs, keys; rewrite map_map; reflexivity). reflexivity.
Qed.
Lemma comp_total pf mean cov : edge_dist f name = Ok (pf, mean, cov) -> exists cpms, comp_cpms np_sqrt f pf = Ok cpms.
Proof.
  intros Hed. exists (map (fun kv => (fst kv, comp_M (pm_probs pf) kv)) (map_varis np_sqrt f)). unfold comp_cpms. apply mapM_ok. intros kv I.
  rewrite (comp_M_make (map_varis np_sqrt f) (pm_probs pf)); [reflexivity|..]; auto.
  - apply (V_wf np_sqrt f Hf).
  - apply (probs_wf np_sqrt np_log norm_cdf gm_ln_sa gm_std_al gm_std_ep Hroot Hcdf Hal f Hf name pf mean cov Hed).
  - intros k v H. apply V_in in H as (r & _ & ->). split; reflexivity.
Qed.

Lemma table_inv pf cpms rs lines saved : mapM (fun n => r <- pnode pf cpms n ;; Ok (n, r)) done = Ok rs -> table rs = Ok (lines, saved) ->
  map fst lines = filter (fun n => negb (String.eqb n "epi") && negb (mem_str n (pm_origins f))) (keys (pm_nodes f)) /\
  (forall n b, In (n, b) lines -> exists r m l u, pnode pf cpms n = Ok r /\ n_mon r = Some m /\ last_item (m_pf_low m) = Ok l /\ last_item (m_pf_up m) = Ok u /\ b = (l, u, n_nsamp r, 0%Qc)) /\
  (forall n d, In (n, d) saved -> In n done /\ exists r v, pnode pf cpms n = Ok r /\ n_vari r = Some v /\ d = n_cpms r).
Proof.
  intros Er Et. apply mapM_inv in Er. assert (R : forall n r, In (n, r) rs -> In n done /\ pnode pf cpms n = Ok r).
  { intros n r I. destruct (Forall2_in_r _ _ _ _ Er I) as (n' & I' & E). destruct (pnode pf cpms n') as [r'|] eqn:P; [|discriminate]. cbn [bind] in E. injection E as -> ->. auto. }
  unfold table in Et. cbv zeta in Et. match type of Et with bind ?m _ = _ => destruct m as [bounds|] eqn:Eb; [|discriminate] end. cbn [bind] in Et.
  match type of Et with bind ?m _ = _ => destruct m as [ls|] eqn:El; [|discriminate] end. cbn [bind] in Et. injection Et as <- <-.
  apply mapM_inv in Eb. apply mapM_inv in El. split.
  { clear - El. induction El as [|n [n' b] ns ls E F IH]; [reflexivity|]. cbn. destruct (dget bounds n); [|discriminate]. cbn [bind] in E. injection E as <- <-. rewrite IH. reflexivity. }
  split.
  - intros n b I. destruct (Forall2_in_r _ _ _ _ El I) as (n' & _ & E). destruct (dget bounds n') as [b'|] eqn:D; [|discriminate]. cbn [bind] in E. injection E as -> ->.
    apply dget_ok, dfind_In in D. destruct (Forall2_in_r _ _ _ _ Eb D) as ([n2 r] & I2 & E2). cbn [fst snd] in E2. destruct (n_mon r) as [m|] eqn:Em; [|discriminate].
    destruct (last_item (m_pf_low m)) as [l|] eqn:E3; [|discriminate]. cbn [bind] in E2. destruct (last_item (m_pf_up m)) as [u|] eqn:E4; [|discriminate]. cbn [bind] in E2. injection E2 as -> <-.
    apply filter_In in I2 as [I2 _]. apply R in I2 as [_ P]. exists r, m, l, u. auto.
  - intros n d I. apply in_map_iff in I as ([n' r] & E & I). cbn in E. injection E as -> <-. apply filter_In in I as [I Hv]. cbn [snd] in Hv. apply R in I as [I P]. split; auto.
    destruct (n_vari r) as [v|] eqn:Ev; [|discriminate]. exists r, v. auto.
Qed.
Lemma table_total pf cpms : (forall n, In n done -> ~ In n (pm_origins f) -> exists saved u m l u', pnode pf cpms n = Ok (mkNres (Some (node_var n)) saved u 0 (Some m)) /\
    last_item (m_pf_low m) = Ok l /\ last_item (m_pf_up m) = Ok u') ->
  exists rs lines saved, mapM (fun n => r <- pnode pf cpms n ;; Ok (n, r)) done = Ok rs /\ table rs = Ok (lines, saved).
Proof.
  intros H. assert (X : forall l, incl l done -> exists rs, mapM (fun n => r <- pnode pf cpms n ;; Ok (n, r)) l = Ok rs /\
    Forall2 (fun n nr => fst nr = n /\ (In n (pm_origins f) -> n_vari (snd nr) = None) /\ (~ In n (pm_origins f) -> exists v m a u, n_vari (snd nr) = Some v /\ n_mon (snd nr) = Some m /\
       last_item (m_pf_low m) = Ok a /\ last_item (m_pf_up m) = Ok u)) l rs).
  { induction l as [|n l IH]; intros I; [exists []; split; [reflexivity|constructor]|]. destruct IH as (rs & E & F); [intros x Hx; apply I; right; auto|]. cbn [mapM].
    destruct (mem_str n (pm_origins f)) eqn:Mo.
    - assert (P : pnode pf cpms n = Ok (mkNres None [] 0%Qc 0 None)) by (unfold pnode, process_node; rewrite Mo; reflexivity). rewrite P. cbn [bind]. rewrite E. cbn [bind].
      eexists. split; [reflexivity|]. constructor; auto. cbn. split; auto. split; auto. intros N. destruct N. apply mem_str_In. auto.
    - assert (No : ~ In n (pm_origins f)) by (intros C; apply mem_str_In in C; congruence). destruct (H n (I n (or_introl eq_refl)) No) as (saved & u & m & a & u' & P & E1 & E2).
      rewrite P. cbn [bind]. rewrite E. cbn [bind]. eexists. split; [reflexivity|]. constructor; auto. cbn. split; auto. split; [contradiction|]. intros _. exists (node_var n), m, a, u'. auto. }
  destruct (X done) as (rs & E & F); [intros x Hx; auto|]. exists rs. unfold table. cbv zeta. set (has := filter _ rs).
  assert (B : forall l, incl l has -> exists bs, mapM (fun nr : string * nres =>
    match n_mon (snd nr) with
    | Some m => a <- last_item (m_pf_low m) ;; u <- last_item (m_pf_up m) ;; Ok (fst nr, (a, u, n_nsamp (snd nr), 0%Qc))
    | None => Err TypeError
    end) l = Ok bs /\ keys bs = map fst l).
  { induction l as [|nr l IH]; intros I; [exists []; auto|]. destruct IH as (bs & Eb & Kb); [intros x Hx; apply I; right; auto|]. cbn [mapM].
    assert (I1 : In nr has) by (apply I; left; auto). apply filter_In in I1 as [I1 Hv]. destruct (Forall2_in_r _ _ _ _ F I1) as (n & _ & (En & O1 & O2)).
    destruct (in_dec string_dec n (pm_origins f)) as [Io|No]; [rewrite (O1 Io) in Hv; discriminate|]. destruct (O2 No) as (v & m & a & u & _ & Em & E1 & E2).
    rewrite Em, E1. cbn [bind]. rewrite E2. cbn [bind]. rewrite Eb. cbn [bind]. eexists. split; [reflexivity|]. cbn. unfold keys in Kb. rewrite Kb. reflexivity. }
  destruct (B has) as (bs & Eb & Kb); [intros x Hx; auto|]. rewrite Eb. cbn [bind].
  assert (C : forall l, (forall n, In n l -> In n (keys bs)) -> exists ls, mapM (fun n => b <- dget bs n ;; Ok (n, b)) l = Ok ls).
  { induction l as [|n l IH]; intros I; [exists []; auto|]. destruct IH as (ls & El); [intros x Hx; apply I; right; auto|]. cbn [mapM].
    destruct (dfind_keys bs n) as [D _]. destruct D as [b D]; [apply I; left; auto|]. rewrite (proj2 (dget_ok _ _ _) D). cbn [bind]. rewrite El. cbn [bind]. eauto. }
  destruct (C (filter (fun n => negb (String.eqb n "epi") && negb (mem_str n (pm_origins f))) (keys (pm_nodes f)))) as (ls & El).
  { intros n Hn. apply filter_In in Hn as [Hn Hb]. apply andb_true_iff in Hb as [_ Hb]. apply negb_true_iff in Hb. rewrite Kb.
    assert (Nd : In n done) by (apply (Permutation_in _ (Permutation_sym Hdone)); auto). destruct (Forall2_in_l _ _ _ _ F Nd) as (nr & Ir & (En & _ & O2)).
    destruct O2 as (v & m & a & u & Ev & _); [intros Io; apply mem_str_In in Io; congruence|]. apply in_map_iff. exists nr. split; auto. apply filter_In. split; auto. rewrite Ev. auto. }
  rewrite El. cbn [bind]. eauto.
Qed.

(** * The map *)
Notation L := (timed_roads np_sqrt f).
Notation K := (keys (pm_roads f)).
Notation V := (map_varis np_sqrt f).
Lemma map_enclosed lines saved : main f name max_sf max_nb wr done = Ok (lines, saved) ->
  exists pf mean cov, edge_dist f name = Ok (pf, mean, cov) /\
    map fst lines = filter (fun n => negb (String.eqb n "epi") && negb (mem_str n (pm_origins f))) (keys (pm_nodes f)) /\
    forall n low up ns cv, In (n, (low, up, ns, cv)) lines ->
      ns = 0 /\ cv = 0%Qc /\ (0 <= low)%Qc /\ (up <= 1)%Qc /\
      (forall lateb, (forall x, In x (arc_states K) -> (lateb x = true <-> late L (pm_thres f) (pm_origins f) n x)) ->
         (low <= event_prob K (road_scen pf) lateb)%Qc /\ (event_prob K (road_scen pf) lateb <= up)%Qc) /\
      (forall d, In (n, d) saved -> exists M, let q z := compute_prob d (V ++ [(n, node_var n)]) K n (SI z) true in
         q 0 = Ok (low, M) /\ q 1 = Ok ((1 - up)%Qc, M) /\ q 2 = Ok ((up - low)%Qc, M)) /\
      (2 * 2 ^ Z.of_nat (List.length (pm_roads f)) <= max_nb -> match max_sf with Some m => 2 ^ Z.of_nat (List.length (pm_roads f)) < m | None => True end ->
         (0 <= wr)%Qc -> low = up \/ (up - low < low * wr)%Qc).
Proof.
  intros Hm. assert (Hed : exists pf mean cov, edge_dist f name = Ok (pf, mean, cov)).
  { unfold pm_main in Hm. destruct Hf as (Hk & _). rewrite (read_ok (pm_net f) false false Hk) in Hm. cbn [bind fst] in Hm. destruct (edge_dist f name) as [[[pf mean] cov]|]; [eauto|discriminate]. }
  destruct Hed as (pf & mean & cov & Hed). exists pf, mean, cov. split; auto. rewrite (main_eq pf mean cov Hed) in Hm.
  destruct (comp_total pf mean cov Hed) as (cpms & Hcp). rewrite Hcp in Hm. cbn [bind] in Hm.
  destruct (mapM (fun n => r <- pnode pf cpms n ;; Ok (n, r)) done) as [rs|] eqn:Er; [|discriminate]. cbn [bind] in Hm.
  destruct (table_inv pf cpms rs lines saved Er Hm) as (Hl & H1 & H2). split; auto.
  intros n low up ns cv I. assert (In_n : In n (keys (pm_nodes f)) /\ ~ In n (pm_origins f)).
  { assert (X : In n (map fst lines)) by (apply in_map_iff; eexists; split; [|exact I]; reflexivity). rewrite Hl in X. apply filter_In in X as [X Y]. split; auto.
    apply andb_true_iff in Y as [_ Y]. apply negb_true_iff in Y. intros C. apply mem_str_In in C. congruence. }
  destruct In_n as [Hn Hno].
  destruct (node_main np_sqrt np_log norm_cdf gm_ln_sa gm_std_al gm_std_ep nx_multi Hnx Hroot Hcdf Hal f Hf name pf mean cov Hed g g_ok cpms Hcp n Hn Hno) as
    (s & lo & u & sv & M & Ep & El & Eu & P0 & P1 & Pb & Pq & Px).
  destruct (H1 n _ I) as (r & m & l' & u' & Er' & Em & El' & Eu' & Eb). unfold pnode in Er'. unfold g in Ep. rewrite Ep in Er'.
  destruct (stopped s) eqn:Es; [discriminate|]. injection Er' as <-. cbn [n_mon n_nsamp] in Em, Eb. injection Em as <-. rewrite El in El'. injection El' as <-. rewrite Eu in Eu'. injection Eu' as <-.
  injection Eb as -> -> -> ->. split; auto. split; auto. split; auto. split; auto. split; auto. split.
  - intros d Id. destruct (H2 n d Id) as (_ & r & v & Er' & _ & ->). unfold pnode in Er'. rewrite Ep in Er'. injection Er' as <-. cbn [n_cpms]. exists M. exact Pq.
  - intros Hnb Hsf Hwr. pose proof (space_size np_sqrt f) as Sz. destruct Px as (_ & Px); auto.
    + right. exists max_nb. split; auto. unfold comps_of in *. lia.
    + rewrite Sz. cbn. destruct max_sf; auto. lia.
Qed.
Lemma map_total : map_full f name -> 2 * 2 ^ Z.of_nat (List.length (pm_roads f)) <= max_nb -> match max_sf with Some m => 2 ^ Z.of_nat (List.length (pm_roads f)) < m | None => True end -> (0 <= wr)%Qc ->
  exists lines saved, main f name max_sf max_nb wr done = Ok (lines, saved).
Proof.
  intros Hful Hnb Hsf Hwr. destruct (edge_dist_total Hful) as (pf & mean & cov & Hed). rewrite (main_eq pf mean cov Hed).
  destruct (comp_total pf mean cov Hed) as (cpms & Hcp). rewrite Hcp. cbn [bind]. destruct (table_total pf cpms) as (rs & lines & saved & Er & Et).
  - intros n Hd Hno. assert (Hn : In n (keys (pm_nodes f))) by (apply (Permutation_in _ Hdone); auto).
    destruct (node_main np_sqrt np_log norm_cdf gm_ln_sa gm_std_al gm_std_ep nx_multi Hnx Hroot Hcdf Hal f Hf name pf mean cov Hed g g_ok cpms Hcp n Hn Hno) as
      (s & lo & u & sv & M & Ep & El & Eu & _ & _ & _ & _ & Px).
    pose proof (space_size np_sqrt f) as Sz. destruct Px as (Es & _); auto.
    + right. exists max_nb. split; auto. unfold comps_of in *. lia.
    + rewrite Sz. cbn. destruct max_sf; auto. lia.
    + rewrite Es in Ep. exists sv, u, (s_mon s), lo, u. split; auto.
  - rewrite Er. cbn [bind]. eauto.
Qed.
Lemma map_late_ex n : (exists pf mean cov, edge_dist f name = Ok (pf, mean, cov)) -> In n (keys (pm_nodes f)) -> ~ In n (pm_origins f) ->
  exists lateb, forall x, In x (arc_states K) -> (lateb x = true <-> late L (pm_thres f) (pm_origins f) n x).
Proof.
  intros (pf & mean & cov & Hed) Hn Hno. pose proof (ends_ok np_sqrt np_log norm_cdf gm_ln_sa gm_std_al gm_std_ep f Hf name pf mean cov Hed) as He.
  destruct (time_ex np_sqrt nx_multi Hnx Hroot f Hf He n Hn (intact np_sqrt f) (intact_in np_sqrt f)) as (T0 & p0 & es0 & E0 & N0).
  apply (proj1 (nearest_intact np_sqrt f Hf n T0)) in N0.
  apply (late_dec np_sqrt np_log norm_cdf gm_ln_sa gm_std_al gm_std_ep nx_multi Hnx Hroot f Hf name pf mean cov Hed n T0 Hn Hno N0).
Qed.
End Table.
