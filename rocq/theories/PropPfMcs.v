(** C121: Monte Carlo simulation of the failure map, for one node. *)
From Coq Require Import ZArith List String Bool Arith Lia QArith Qcanon Permutation.
From Verif Require Import Py PyFacts Num Vari VariFacts Brc SpecBrc BrcFacts Cpm SpecCpm Bnb SpecBnb Trans SpecTrans TransFacts NetSys Config SpecConfig ConfigFacts ConfigSetup.
From Verif Require Import PfMap SpecMap PfMapGeom PfMapFacts PfMapMain PfMapRun PfMapTable PropTrans NxPaths PropPfMap Mcs SpecMcs McsFacts PropMcs PfMcs.
Import ListNotations.
Open Scope string_scope.
Open Scope Z_scope.
Open Scope list_scope.

(** more variables change nothing *)
Definition extends (W V : dict variable) : Prop := forall k v, dfind V k = Some v -> dfind W k = Some v.
Lemma dget_ext V W k v : extends W V -> dget V k = Ok v -> dget W k = Ok v.
Proof. intros E H. apply dget_ok. apply E. apply dget_ok. exact H. Qed.
Lemma mapM_mono {A B} (f g : A -> res B) l bs : (forall a b, f a = Ok b -> g a = Ok b) -> mapM f l = Ok bs -> mapM g l = Ok bs.
Proof.
  intros H. revert bs. induction l as [|a l IH]; intros bs E; cbn in *; auto. destruct (f a) as [b|] eqn:Ea; [|discriminate]. rewrite (H a b Ea). cbn [bind] in *.
  destruct (mapM f l) as [bl|]; [|discriminate]. rewrite (IH bl eq_refl). exact E.
Qed.
Lemma allM_mono {A} (f g : A -> res bool) l : (forall a b, f a = Ok b -> g a = Ok b) -> forall b, allM f l = Ok b -> allM g l = Ok b.
Proof.
  intros H b. unfold allM. destruct (mapM f l) as [bs|] eqn:E; [|discriminate]. rewrite (mapM_mono f g l bs H E). auto.
Qed.
Lemma time_ext nx_multi x G n ds V W r : extends W V -> V <> [] ->
  get_time_and_path_multi_dest nx_multi x G n ds V = Ok r -> get_time_and_path_multi_dest nx_multi x G n ds W = Ok r.
Proof.
  intros E Nv H. assert (Nw : W <> []).
  { destruct V as [|[k v] V]; [contradiction|]. intros ->. specialize (E k v). cbn in E. rewrite String.eqb_refl in E. discriminate (E eq_refl). }
  unfold get_time_and_path_multi_dest in *.
  destruct (allM (fun kv => v <- dget V (fst kv) ;; Ok (snd kv <? nvals v)) x) as [ok|] eqn:A; [|discriminate].
  rewrite (allM_mono (fun kv => v <- dget V (fst kv) ;; Ok (snd kv <? nvals v)) (fun kv => v <- dget W (fst kv) ;; Ok (snd kv <? nvals v)) x) with (b := ok); [|intros [k s] b Hb; cbn [fst snd] in *; destruct (dget V k) as [v|] eqn:Ev; [|discriminate]; rewrite (dget_ext V W k v E Ev); exact Hb|exact A].
  cbn [bind] in *. destruct ok; [|discriminate]. destruct (g_dir G); [discriminate|].
  destruct (update_G G x V) as [H0|] eqn:U; [|discriminate].
  assert (U' : update_G G x W = Ok H0).
  { unfold update_G in *. destruct V as [|kv V]; [contradiction|]. destruct W as [|kw W]; [contradiction|]. set (V0 := kv :: V) in *. set (W0 := kw :: W) in *. unfold update_weights in *.
    destruct (mapM (fun e => w <- edge_weight V0 x e ;; Ok (e_src e, e_dst e, w)) (g_edges G)) as [ws|] eqn:M; [|discriminate].
    rewrite (mapM_mono (fun e => w <- edge_weight V0 x e ;; Ok (e_src e, e_dst e, w)) (fun e => w <- edge_weight W0 x e ;; Ok (e_src e, e_dst e, w)) (g_edges G) ws) in *; [exact U| |exact M].
    intros e b Hb. unfold edge_weight in *. destruct (e_label e) as [l|]; [|discriminate]. cbn [bind] in *. destruct (dget V0 l) as [v|] eqn:Ev; [|discriminate].
    rewrite (dget_ext V0 W0 l v E Ev). exact Hb. }
  rewrite U'. exact H.
Qed.

Section Sim.
Variables (np_sqrt np_log : Qc -> Qc) (norm_cdf : Qc -> Qc -> Qc -> Qc) (gm_ln_sa : Qc -> Qc -> Qc) (gm_std_al : Qc -> Qc) (gm_std_ep : Qc -> Qc -> Qc).
Variable nx_multi : graph -> list string -> string -> res (value * list string).
Hypothesis Hnx : nx_multi_ok nx_multi.
Hypothesis Hroot : forall a, (0 < a)%Qc -> (0 < np_sqrt a)%Qc.
Variable f : mapfile.
Hypothesis Hf : map_ok f.
Variables (name : string) (pf mean : dict Qc) (cov : list (list Qc)).
Hypothesis Hed : cal_edge_dist np_sqrt np_log norm_cdf gm_ln_sa gm_std_al gm_std_ep f name = Ok (pf, mean, cov).
Variables (done : list string) (n : string).
Hypothesis Hdone : Permutation done (keys (pm_nodes f)).
Hypothesis Hn : In n (keys (pm_nodes f)).
Hypothesis Hno : ~ In n (pm_origins f).
Let V := map_varis np_sqrt f.
Let W := fold_left (fun vs n => if mem_str n (pm_origins f) then vs else dset vs n (mk_variable n [VStr "f"; VStr "s"; VStr "u"] None)) done V.

Lemma saved_ext : extends W V.
Proof.
  assert (X : forall l Z, (forall m, In m l -> ~ In m (keys V)) -> extends Z V ->
    extends (fold_left (fun vs n => if mem_str n (pm_origins f) then vs else dset vs n (mk_variable n [VStr "f"; VStr "s"; VStr "u"] None)) l Z) V).
  { induction l as [|m l IH]; intros Z Hl HZ; cbn [fold_left]; auto. apply IH; [intros m' I; apply Hl; right; auto|]. destruct (mem_str m (pm_origins f)); auto.
    intros k v H. rewrite dfind_dset. destruct (String.eqb_spec k m) as [->|]; [|auto]. destruct (Hl m (or_introl eq_refl)). apply dfind_keys. eauto. }
  apply X; [|intros k v H; exact H]. intros m I. unfold V. rewrite V_keys. destruct Hf as (_ & _ & _ & _ & _ & _ & _ & _ & Nk). apply Nk. apply (Permutation_in _ Hdone). exact I.
Qed.

Lemma mcs_eq lateb cov_t xs :
  (forall x, In x (arc_states (keys (pm_roads f))) -> (lateb x = true <-> late (timed_roads np_sqrt f) (pm_thres f) (pm_origins f) n x)) ->
  (forall x, In x xs -> In x (arc_states (keys (pm_roads f)))) ->
  exists sys, answers (fun x => negb (lateb x)) sys xs /\
    pm_mcs np_sqrt np_log norm_cdf gm_ln_sa gm_std_al gm_std_ep nx_multi f name done n cov_t (map Ok xs) = run_MCS_indep_comps sys cov_t (map Ok xs).
Proof.
  intros Hl Hx. pose proof (ends_ok np_sqrt np_log norm_cdf gm_ln_sa gm_std_al gm_std_ep f Hf name pf mean cov Hed) as He.
  pose proof (V_ne np_sqrt f Hf He) as Nv.
  unfold pm_mcs. rewrite (read_ok (pm_net f) false false (proj1 Hf)). cbn [bind fst].
  destruct (lens_ok np_sqrt np_log norm_cdf gm_ln_sa gm_std_al gm_std_ep f Hf name pf mean cov Hed) as (lens & E1 & E2). rewrite E1. cbn [bind].
  unfold pm_saved_varis. rewrite E2. fold V. fold W.
  replace (map (fun k => (k, 1)) (keys (pm_arcs f))) with (intact np_sqrt f) by (unfold intact, map_varis, pm_arcs, keys; rewrite !map_map; reflexivity).
  destruct (time_ex np_sqrt nx_multi Hnx Hroot f Hf He n Hn (intact np_sqrt f) (intact_in np_sqrt f)) as (T0 & p0 & es0 & E0 & N0).
  apply nearest_intact in N0; auto. rewrite (time_ext _ _ _ _ _ V W _ saved_ext Nv E0). cbn [bind fst]. rewrite Hed. cbn [bind].
  eexists. split; [|reflexivity]. intros x Ix. specialize (Hx x Ix).
  destruct (node_ok np_sqrt nx_multi Hnx Hroot f Hf He n Hn Hno T0 lateb N0 Hl) as (_ & Hs). destruct (Hs x) as (val & m & Es & _); [rewrite V_space; exact Hx|].
  replace (snd (fst (as_sysfun (fun x => sf_min_path_multi nx_multi x (file_graph (pm_net f) false false) n (pm_origins f) W (Some (t_times (pm_thres f) T0))) x)))
    with (snd (fst (node_sys np_sqrt nx_multi f n T0 x))); [rewrite Es; reflexivity|].
  unfold node_sys, as_sysfun, sf_min_path_multi. fold V.
  destruct (time_ex np_sqrt nx_multi Hnx Hroot f Hf He n Hn x Hx) as (T & p & es & Et & _). fold V in Et. rewrite Et, (time_ext _ _ _ _ _ V W _ saved_ext Nv Et). reflexivity.
Qed.

Hypothesis Hcdf : forall x m s, (0 < s)%Qc -> (0 <= norm_cdf x m s)%Qc /\ (norm_cdf x m s <= 1)%Qc.
Hypothesis Hal : forall m, gm_std_al m <> 0%Qc.
Lemma road_dicts : full_dicts V (pm_probs pf).
Proof.
  pose proof (pf_keys np_sqrt np_log norm_cdf gm_ln_sa gm_std_al gm_std_ep f Hf name pf mean cov Hed) as K.
  unfold full_dicts, V, map_varis, pm_probs. clear - K. unfold keys in K. revert pf K. induction (pm_roads f) as [|[k r] l IH]; intros [|[k' p] pf] K; cbn in *; try discriminate; [constructor|].
  injection K as -> K. constructor; [|apply IH; auto]. cbn [fst snd]. split; auto. eexists. split; [reflexivity|]. apply Permutation_refl.
Qed.
Lemma sample_ok :
  (forall o, In o (draw_indep (pm_probs pf)) -> (0 < fst o)%Qc /\ exists x, snd o = Ok x /\ In x (arc_states (keys (pm_roads f)))) /\
  forall E, SpecMcs.mean (draw_indep (pm_probs pf)) (on_ok (fails (fun x => negb (E x)))) = event_prob (keys (pm_roads f)) (road_scen pf) E.
Proof.
  destruct (C62_distribution V (pm_probs pf) (V_wf np_sqrt f Hf) (probs_wf np_sqrt np_log norm_cdf gm_ln_sa gm_std_al gm_std_ep Hroot Hcdf Hal f Hf name pf mean cov Hed) road_dicts) as (A & _ & C).
  unfold V in A. rewrite V_space in A. split; auto. intros E. rewrite C. unfold V.
  rewrite (fail_prob np_sqrt np_log norm_cdf gm_ln_sa gm_std_al gm_std_ep Hroot Hcdf Hal f Hf name pf mean cov Hed).
  unfold event_prob. do 2 f_equal. apply filter_ext. intros x. apply negb_involutive.
Qed.
End Sim.

(** the setting of C81 *)
Definition map_setting (np_sqrt np_log : Qc -> Qc) (norm_cdf : Qc -> Qc -> Qc -> Qc) (gm_ln_sa : Qc -> Qc -> Qc) (gm_std_al : Qc -> Qc) (gm_std_ep : Qc -> Qc -> Qc)
    (nx_multi : graph -> list string -> string -> res (value * list string)) (f : mapfile) (name : string) (pf : dict Qc) (done : list string) : Prop :=
  nx_multi_ok nx_multi /\ (forall a, (0 < a)%Qc -> (0 < np_sqrt a)%Qc) /\
  (forall x m s, (0 < s)%Qc -> (0 <= norm_cdf x m s)%Qc /\ (norm_cdf x m s <= 1)%Qc) /\ (forall m, gm_std_al m <> 0%Qc) /\
  map_ok f /\ Permutation done (keys (pm_nodes f)) /\
  exists me cov, cal_edge_dist np_sqrt np_log norm_cdf gm_ln_sa gm_std_al gm_std_ep f name = Ok (pf, me, cov).
(** [lateb] decides whether the node is late *)
Definition decides_late (np_sqrt : Qc -> Qc) (f : mapfile) (n : string) (lateb : dict Z -> bool) : Prop :=
  forall x, In x (arc_states (keys (pm_roads f))) -> (lateb x = true <-> late (timed_roads np_sqrt f) (pm_thres f) (pm_origins f) n x).

(** What is saved: a variable with the states f, s, u for every node that is not an origin, and the variables of the roads. *)
Theorem C121_varis : forall f times done k,
  dfind (pm_saved_varis f times done) k =
    if mem_str k done && negb (mem_str k (pm_origins f)) then Some (mk_variable k [VStr "f"; VStr "s"; VStr "u"] None)
    else match dfind times k with Some t => Some (mk_variable k [VInf; VNum t] None) | None => None end.
Proof.
  intros f times done k. unfold pm_saved_varis.
  assert (B : match dfind times k with Some t => Some (mk_variable k [VInf; VNum t] None) | None => None end = dfind (pm_varis times) k).
  { unfold pm_varis. induction times as [|[k' t] l IH]; cbn; auto. destruct (String.eqb_spec k k') as [->|]; auto. }
  rewrite B. generalize (pm_varis times). clear B. induction done as [|n l IH]; intros Z; cbn [fold_left]; auto. rewrite IH. clear IH. cbn [mem_str existsb].
  fold (mem_str k l). destruct (mem_str n (pm_origins f)) eqn:M.
  - destruct (String.eqb_spec k n) as [->|]; cbn [orb]; auto. rewrite M, !andb_false_r. reflexivity.
  - rewrite dfind_dset. destruct (String.eqb_spec k n) as [->|]; cbn [orb]; auto. rewrite M. cbn [negb]. rewrite andb_true_r. destruct (mem_str n l); reflexivity.
Qed.
Print Assumptions C121_varis.
(** A sample is a vector of states of the roads, and the chance of any event is its probability in the scenario. *)
Theorem C121_sample : forall np_sqrt np_log norm_cdf gm_ln_sa gm_std_al gm_std_ep nx_multi f name pf done,
  map_setting np_sqrt np_log norm_cdf gm_ln_sa gm_std_al gm_std_ep nx_multi f name pf done ->
  (forall o, In o (draw_indep (pm_probs pf)) -> (0 < fst o)%Qc /\ exists x, snd o = Ok x /\ In x (arc_states (keys (pm_roads f)))) /\
  forall E, mean (draw_indep (pm_probs pf)) (on_ok (fails (fun x => negb (E x)))) = event_prob (keys (pm_roads f)) (road_scen pf) E.
Proof.
  intros rt lg cdf ls al ep nxm f name pf done (Hnx & Hroot & Hcdf & Hal & Hf & Hd & me & cov & Hed).
  apply (sample_ok rt lg cdf ls al ep Hroot f Hf name pf me cov Hed Hcdf Hal).
Qed.
Print Assumptions C121_sample.
(** The estimate is the share of the first m samples in which the node is late, six of them at least; the square of its
    coefficient of variation is not above that of the threshold. *)
Theorem C121_estimate : forall np_sqrt np_log norm_cdf gm_ln_sa gm_std_al gm_std_ep nx_multi f name pf done n lateb cov_t xs e,
  map_setting np_sqrt np_log norm_cdf gm_ln_sa gm_std_al gm_std_ep nx_multi f name pf done ->
  In n (keys (pm_nodes f)) -> ~ In n (pm_origins f) -> decides_late np_sqrt f n lateb -> (cov_t < 1)%Qc ->
  (forall x, In x xs -> In x (arc_states (keys (pm_roads f)))) ->
  pm_mcs np_sqrt np_log norm_cdf gm_ln_sa gm_std_al gm_std_ep nx_multi f name done n cov_t (map Ok xs) = Ok (Some e) ->
  exists m, e_nsamp e = Z.of_nat m /\ (m <= List.length xs)%nat /\
    let k := List.length (filter lateb (firstn m xs)) in
    (6 <= k)%nat /\ e_pf e = (qz (Z.of_nat k) / qz (Z.of_nat m))%Qc /\
    e_cov2 e = ((1 - e_pf e) / (qz (Z.of_nat m) * e_pf e))%Qc /\ (e_cov2 e <= cov_t * cov_t)%Qc.
Proof.
  intros rt lg cdf ls al ep nxm f name pf done n lateb cov_t xs e (Hnx & Hroot & Hcdf & Hal & Hf & Hd & me & cov & Hed) Hn Hno Hl Hc Hx E.
  destruct (mcs_eq rt lg cdf ls al ep nxm Hnx Hroot f Hf name pf me cov Hed done n Hd Hn Hno lateb cov_t xs Hl Hx) as (sys & A & Eq). rewrite Eq in E.
  destruct (C62_estimate _ sys cov_t xs e A Hc E) as (m & E1 & E2 & E3). exists m. cbv zeta in *. unfold failures in E3.
  replace (filter (fun x => negb (negb (lateb x))) (firstn m xs)) with (filter lateb (firstn m xs)) in E3 by (apply filter_ext; intros; rewrite negb_involutive; auto).
  destruct E3 as (B & C & D & _ & F & _). auto 8.
Qed.
Print Assumptions C121_estimate.
(** The only exception is UnboundLocalError, after 20000 samples in which the node is in time. *)
Theorem C121_exception : forall np_sqrt np_log norm_cdf gm_ln_sa gm_std_al gm_std_ep nx_multi f name pf done n lateb cov_t xs e,
  map_setting np_sqrt np_log norm_cdf gm_ln_sa gm_std_al gm_std_ep nx_multi f name pf done ->
  In n (keys (pm_nodes f)) -> ~ In n (pm_origins f) -> decides_late np_sqrt f n lateb -> (cov_t < 1)%Qc ->
  (forall x, In x xs -> In x (arc_states (keys (pm_roads f)))) ->
  pm_mcs np_sqrt np_log norm_cdf gm_ln_sa gm_std_al gm_std_ep nx_multi f name done n cov_t (map Ok xs) = Err e ->
  e = UnboundLocalError /\ 20000 <= Z.of_nat (List.length xs) /\ forall x, In x (firstn (Z.to_nat 20000) xs) -> lateb x = false.
Proof.
  intros rt lg cdf ls al ep nxm f name pf done n lateb cov_t xs e (Hnx & Hroot & Hcdf & Hal & Hf & Hd & me & cov & Hed) Hn Hno Hl Hc Hx E.
  destruct (mcs_eq rt lg cdf ls al ep nxm Hnx Hroot f Hf name pf me cov Hed done n Hd Hn Hno lateb cov_t xs Hl Hx) as (sys & A & Eq). rewrite Eq in E.
  destruct (C62_exception _ sys cov_t xs e A Hc E) as (-> & ys & zs & -> & F & L). split; auto. rewrite app_length. split; [lia|].
  intros x Ix. rewrite firstn_app in Ix. replace (Z.to_nat 20000 - List.length ys)%nat with 0%nat in Ix by lia.
  cbn [firstn] in Ix. rewrite app_nil_r in Ix. assert (Iy : In x ys) by (rewrite <- (firstn_skipn (Z.to_nat 20000) ys); apply in_or_app; auto).
  destruct (lateb x) eqn:M; auto. exfalso. unfold failures in F. assert (I : In x (filter (fun x => negb (negb (lateb x))) ys)) by (apply filter_In; rewrite M; auto).
  destruct (filter (fun x => negb (negb (lateb x))) ys); [destruct I|discriminate].
Qed.
Print Assumptions C121_exception.
(** The line of the node in the table that [main] writes encloses what the simulation estimates. *)
Theorem C121_search : forall np_sqrt np_log norm_cdf gm_ln_sa gm_std_al gm_std_ep nx_multi f name pf done n lateb max_sf max_nb wr lines saved low up ns cv,
  map_setting np_sqrt np_log norm_cdf gm_ln_sa gm_std_al gm_std_ep nx_multi f name pf done -> decides_late np_sqrt f n lateb ->
  match max_sf with Some m => 1 <= m | None => True end ->
  pm_main np_sqrt np_log norm_cdf gm_ln_sa gm_std_al gm_std_ep nx_multi f name max_sf max_nb wr done = Ok (lines, saved) -> In (n, (low, up, ns, cv)) lines ->
  (low <= mean (draw_indep (pm_probs pf)) (on_ok (fails (fun x => negb (lateb x)))) <= up)%Qc.
Proof.
  intros rt lg cdf ls al ep nxm f name pf done n lateb max_sf max_nb wr lines saved low up ns cv S Hl Hmx E I.
  destruct (C121_sample _ _ _ _ _ _ _ _ _ _ _ S) as (_ & ->). destruct S as (Hnx & Hroot & Hcdf & Hal & Hf & Hd & me & cov & Hed).
  destruct (C81_enclosed rt lg cdf ls al ep nxm f name max_sf max_nb wr done lines saved Hnx Hroot Hcdf Hal Hf Hmx Hd E) as (pf' & me' & cov' & Hed' & _ & _ & B).
  rewrite Hed in Hed'. injection Hed' as <- _ _. apply (B n low up ns cv I). exact Hl.
Qed.
Print Assumptions C121_search.

(** the file of C81: six of the first eight samples make [n2] late *)
Definition pst (a b c : Z) : dict Z := [("e12", a); ("e13", b); ("e32", c)].
Definition pxs : list (dict Z) := [pst 0 0 0; pst 0 1 0; pst 1 0 0; pst 0 0 1; pst 0 0 0; pst 1 1 1; pst 0 1 0; pst 0 0 1; pst 0 1 1; pst 1 0 1].
Notation mmcs := (pm_mcs (ref_root 10) ref_log ref_cdf ref_ln_sa ref_al ref_ep bf_multi mfile "s1" ["n3"; "n1"; "epi"; "n4"; "n2"]).
Example C121_ex :
  (exists pf, map_setting (ref_root 10) ref_log ref_cdf ref_ln_sa ref_al ref_ep bf_multi mfile "s1" pf ["n3"; "n1"; "epi"; "n4"; "n2"]) /\
  In "n2" (keys (pm_nodes mfile)) /\ ~ In "n2" (pm_origins mfile) /\ (exists lateb, decides_late (ref_root 10) mfile "n2" lateb) /\ (forall x, In x pxs -> In x (arc_states (keys (pm_roads mfile)))) /\
  e_view (mmcs "n2" (Q2Qc (1 # 4)) (map Ok pxs)) = Ok (Some ((3 # 4)%Q, (1 # 24)%Q, 8)) /\
  e_view (mmcs "n2" (Q2Qc (1 # 100)) (map Ok pxs)) = Ok None /\
  keys (pm_saved_varis mfile [("e12", 1%Qc); ("e13", 1%Qc)] ["n3"; "n1"; "epi"; "n4"; "n2"]) = ["e12"; "e13"; "n3"; "epi"; "n4"; "n2"].
Proof.
  split.
  { destruct (C80_total (ref_root 10) ref_log ref_cdf ref_ln_sa ref_al ref_ep mfile "s1" mfile_full) as (pf & me & cov & E). exists pf.
    split; [exact bf_multi_ok|]. split; [intros a Ha; apply ref_root_pos; auto; lia|]. split; [exact ref_cdf_range|]. split; [exact ref_al_ne|]. split; [exact mfile_ok|].
    split; [|eauto]. apply NoDup_Permutation; [repeat constructor; cbn; intuition discriminate|apply mfile_ok|]. intros x. cbn. tauto. }
  assert (In2 : In "n2" (keys (pm_nodes mfile))) by (cbn; auto). assert (No2 : ~ In "n2" (pm_origins mfile)) by (intros [H|[]]; discriminate).
  split; [exact In2|]. split; [exact No2|].
  split. { apply (map_late_ex (ref_root 10) ref_log ref_cdf ref_ln_sa ref_al ref_ep bf_multi bf_multi_ok (fun a Ha => ref_root_pos 10 a ltac:(lia) Ha) mfile mfile_ok "s1"); auto.
    apply C80_total. exact mfile_full. }
  split. { intros x Hx. cbn [pxs In] in Hx. repeat (destruct Hx as [Hx|Hx]; [subst x; vm_compute; tauto|]). contradiction. }
  split; [vm_compute; reflexivity|]. split; vm_compute; reflexivity.
Qed.
