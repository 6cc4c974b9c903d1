(** C123: the failure map demo for one node. *)
From Coq Require Import ZArith List String Bool Arith Lia QArith Qcanon Permutation.
From Verif Require Import Py PyFacts Num Vari VariFacts Brc SpecBrc BrcFacts Cpm SpecCpm Model Bnb SpecBnb Trans SpecTrans TransFacts NetSys Config SpecConfig ConfigFacts ConfigSetup.
From Verif Require Import PfMap SpecMap PfMapGeom PfMapFacts PfMapMain PfMapRun PfMapTable PropTrans NxPaths PropPfMap PfSingle.
Import ListNotations.
Open Scope string_scope.
Open Scope Z_scope.
Open Scope list_scope.

(** what C81 asks of the functions and of the file *)
Definition map_oracles (np_sqrt : Qc -> Qc) (norm_cdf : Qc -> Qc -> Qc -> Qc) (gm_std_al : Qc -> Qc) (nx_multi : graph -> list string -> string -> res (value * list string)) (f : mapfile) : Prop :=
  nx_multi_ok nx_multi /\ (forall a, (0 < a)%Qc -> (0 < np_sqrt a)%Qc) /\
  (forall x m s, (0 < s)%Qc -> (0 <= norm_cdf x m s)%Qc /\ (norm_cdf x m s <= 1)%Qc) /\ (forall m, gm_std_al m <> 0%Qc) /\ map_ok f.

Lemma single_eq np_sqrt np_log norm_cdf gm_ln_sa gm_std_al gm_std_ep nx_multi f name pf mean cov max_sf max_nb wr n :
  map_oracles np_sqrt norm_cdf gm_std_al nx_multi f ->
  cal_edge_dist np_sqrt np_log norm_cdf gm_ln_sa gm_std_al gm_std_ep f name = Ok (pf, mean, cov) ->
  pm_single np_sqrt np_log norm_cdf gm_ln_sa gm_std_al gm_std_ep nx_multi f name max_sf max_nb wr n =
    (cpms <- comp_cpms np_sqrt f pf ;; pnode np_sqrt nx_multi f max_sf max_nb wr pf cpms n).
Proof.
  intros (_ & Hroot & Hcdf & Hal & Hf) Hed. unfold pm_single. destruct (Hf) as (Hk & _). rewrite (read_ok (pm_net f) false false Hk). cbn [bind fst]. rewrite Hed. cbn [bind fst].
  destruct (lens_ok np_sqrt np_log norm_cdf gm_ln_sa gm_std_al gm_std_ep f Hf name pf mean cov Hed) as (lens & El & Ev). rewrite El. cbn [bind]. cbv zeta. rewrite Ev.
  rewrite (cpms_eq np_sqrt np_log norm_cdf gm_ln_sa gm_std_al gm_std_ep Hroot Hcdf Hal f Hf name pf mean cov Hed).
  unfold pnode. replace (keys (pm_arcs f)) with (keys (pm_roads f)) by (unfold pm_arcs, keys; rewrite map_map; reflexivity). reflexivity.
Qed.

(** For a node that is not an origin the run gives bounds of the probability that the node is late, or it stops at a
    limit and then fails with TypeError when the unknown branches are sampled. *)
Theorem C123_bounds : forall np_sqrt np_log norm_cdf gm_ln_sa gm_std_al gm_std_ep nx_multi f name pf mean cov max_sf max_nb wr n,
  map_oracles np_sqrt norm_cdf gm_std_al nx_multi f ->
  cal_edge_dist np_sqrt np_log norm_cdf gm_ln_sa gm_std_al gm_std_ep f name = Ok (pf, mean, cov) ->
  match max_sf with Some m => 1 <= m | None => True end -> In n (keys (pm_nodes f)) -> ~ In n (pm_origins f) ->
  (pm_single np_sqrt np_log norm_cdf gm_ln_sa gm_std_al gm_std_ep nx_multi f name max_sf max_nb wr n = Err TypeError /\
     ~ (2 * 2 ^ Z.of_nat (List.length (pm_roads f)) <= max_nb /\ match max_sf with Some m => 2 ^ Z.of_nat (List.length (pm_roads f)) < m | None => True end /\ (0 <= wr)%Qc)) \/
  exists r m low up, pm_single np_sqrt np_log norm_cdf gm_ln_sa gm_std_al gm_std_ep nx_multi f name max_sf max_nb wr n = Ok r /\
    n_mon r = Some m /\ last_item (m_pf_low m) = Ok low /\ last_item (m_pf_up m) = Ok up /\ n_pf r = up /\ n_nsamp r = 0 /\ (0 <= low)%Qc /\ (up <= 1)%Qc /\
    forall lateb, (forall x, In x (arc_states (keys (pm_roads f))) -> (lateb x = true <-> late (timed_roads np_sqrt f) (pm_thres f) (pm_origins f) n x)) ->
      (low <= event_prob (keys (pm_roads f)) (road_scen pf) lateb)%Qc /\ (event_prob (keys (pm_roads f)) (road_scen pf) lateb <= up)%Qc.
Proof.
  intros rt lg cdf ls al ep nxm f name pf me cov max_sf max_nb wr n Ho Hed Hmx Hn Hno. rewrite (single_eq rt lg cdf ls al ep nxm f name pf me cov max_sf max_nb wr n Ho Hed).
  destruct Ho as (Hnx & Hroot & Hcdf & Hal & Hf). destruct (comp_total rt lg cdf ls al ep Hroot Hcdf Hal f Hf name pf me cov Hed) as (cpms & Hcp). rewrite Hcp. cbn [bind].
  destruct (node_main rt lg cdf ls al ep nxm Hnx Hroot Hcdf Hal f Hf name pf me cov Hed (pm_cfg f max_sf max_nb wr) (g_ok f max_sf max_nb wr Hmx) cpms Hcp n Hn Hno) as
    (s & lo & u & sv & M & Ep & El & Eu & P0 & P1 & Pb & Pq & Px).
  unfold pnode. rewrite Ep. destruct (stopped s) eqn:Es.
  - left. split; auto. intros (Hnb & Hsf & Hwr). pose proof (space_size rt f) as Sz. destruct Px as (E & _); [|rewrite Sz; cbn; destruct max_sf; auto; lia|auto|congruence].
    right. exists max_nb. split; auto. unfold comps_of in *. lia.
  - right. eexists _, (s_mon s), lo, u. split; [reflexivity|]. auto 10.
Qed.
Print Assumptions C123_bounds.
(** For an origin there is nothing to analyse. *)
Theorem C123_origin : forall np_sqrt np_log norm_cdf gm_ln_sa gm_std_al gm_std_ep nx_multi f name pf mean cov max_sf max_nb wr n,
  map_oracles np_sqrt norm_cdf gm_std_al nx_multi f ->
  cal_edge_dist np_sqrt np_log norm_cdf gm_ln_sa gm_std_al gm_std_ep f name = Ok (pf, mean, cov) -> In n (pm_origins f) ->
  pm_single np_sqrt np_log norm_cdf gm_ln_sa gm_std_al gm_std_ep nx_multi f name max_sf max_nb wr n = Ok (mkNres None [] 0%Qc 0 None).
Proof.
  intros rt lg cdf ls al ep nxm f name pf me cov max_sf max_nb wr n Ho Hed I. rewrite (single_eq rt lg cdf ls al ep nxm f name pf me cov max_sf max_nb wr n Ho Hed).
  destruct Ho as (Hnx & Hroot & Hcdf & Hal & Hf). destruct (comp_total rt lg cdf ls al ep Hroot Hcdf Hal f Hf name pf me cov Hed) as (cpms & Hcp). rewrite Hcp. cbn [bind].
  unfold pnode, process_node. rewrite (proj2 (mem_str_In _ _) I). reflexivity.
Qed.
Print Assumptions C123_origin.
(** When [main] writes its table, the run for one node ends with the bounds of its line. *)
Theorem C123_line : forall np_sqrt np_log norm_cdf gm_ln_sa gm_std_al gm_std_ep nx_multi f name max_sf max_nb wr done lines saved n low up ns cv,
  map_oracles np_sqrt norm_cdf gm_std_al nx_multi f ->
  pm_main np_sqrt np_log norm_cdf gm_ln_sa gm_std_al gm_std_ep nx_multi f name max_sf max_nb wr done = Ok (lines, saved) -> In (n, (low, up, ns, cv)) lines ->
  exists r m, pm_single np_sqrt np_log norm_cdf gm_ln_sa gm_std_al gm_std_ep nx_multi f name max_sf max_nb wr n = Ok r /\
    n_mon r = Some m /\ last_item (m_pf_low m) = Ok low /\ last_item (m_pf_up m) = Ok up /\ n_nsamp r = ns.
Proof.
  intros rt lg cdf ls al ep nxm f name max_sf max_nb wr done lines saved n low up ns cv Ho Hm I.
  assert (Hed : exists pf mean cov, cal_edge_dist rt lg cdf ls al ep f name = Ok (pf, mean, cov)).
  { unfold pm_main in Hm. destruct Ho as (_ & _ & _ & _ & Hf). rewrite (read_ok (pm_net f) false false (proj1 Hf)) in Hm. cbn [bind fst] in Hm. destruct (cal_edge_dist rt lg cdf ls al ep f name) as [[[pf mean] cov]|]; [eauto|discriminate]. }
  destruct Hed as (pf & me & cov & Hed). rewrite (single_eq rt lg cdf ls al ep nxm f name pf me cov max_sf max_nb wr n Ho Hed).
  destruct Ho as (Hnx & Hroot & Hcdf & Hal & Hf). rewrite (main_eq rt lg cdf ls al ep nxm Hroot Hcdf Hal f Hf name max_sf max_nb wr done pf me cov Hed) in Hm.
  destruct (comp_cpms rt f pf) as [cpms|]; [|discriminate]. cbn [bind] in *.
  destruct (mapM (fun n => r <- pnode rt nxm f max_sf max_nb wr pf cpms n ;; Ok (n, r)) done) as [rs|] eqn:Er; [|discriminate]. cbn [bind] in Hm.
  destruct (table_inv rt nxm f max_sf max_nb wr done pf cpms rs lines saved Er Hm) as (_ & H1 & _). destruct (H1 n _ I) as (r & m & l & u & Ep & Em & El & Eu & Eb).
  injection Eb as -> -> -> _. exists r, m. auto.
Qed.
Print Assumptions C123_line.

Notation msingle := (pm_single (ref_root 10) ref_log ref_cdf ref_ln_sa ref_al ref_ep bf_multi mfile "s1").
Definition r_view (r : res nres) : res (option (Q * Q) * Q) :=
  match r with
  | Ok r => Ok (match n_mon r with Some m => match last_item (m_pf_low m), last_item (m_pf_up m) with Ok l, Ok u => Some (this l, this u) | _, _ => None end | None => None end, this (n_pf r))
  | Err e => Err e
  end.
Example C123_ex : map_oracles (ref_root 10) ref_cdf ref_al bf_multi mfile /\
  (exists pf me cov, cal_edge_dist (ref_root 10) ref_log ref_cdf ref_ln_sa ref_al ref_ep mfile "s1" = Ok (pf, me, cov)) /\
  In "n3" (keys (pm_nodes mfile)) /\ ~ In "n3" (pm_origins mfile) /\
  r_view (msingle None 16 0%Qc "n3") = Ok (Some (6869 # 95658, 6869 # 95658)%Q, (6869 # 95658)%Q) /\
  r_view (msingle None 16 0%Qc "n1") = Ok (None, 0%Q) /\
  r_view (pm_debug (ref_root 10) ref_log ref_cdf ref_ln_sa ref_al ref_ep bf_multi mfile None 0%Qc) = Ok (None, 0%Q).
Proof.
  assert (O : map_oracles (ref_root 10) ref_cdf ref_al bf_multi mfile).
  { split; [exact bf_multi_ok|]. split; [intros a Ha; apply ref_root_pos; auto; lia|]. split; [exact ref_cdf_range|]. split; [exact ref_al_ne|exact mfile_ok]. }
  destruct (C80_total (ref_root 10) ref_log ref_cdf ref_ln_sa ref_al ref_ep mfile "s1" mfile_full) as (pf & me & cov & E).
  split; [exact O|]. split; [eauto|]. split; [cbn; auto|]. split; [intros [H|[]]; discriminate|]. split; [vm_compute; reflexivity|].
  unfold pm_debug. split; rewrite (C123_origin _ _ _ _ _ _ _ _ _ pf me cov _ _ _ _ O E) by (left; reflexivity); reflexivity.
Qed.
