(** C120: Monte Carlo simulation in the flow networks of the demo, and the search on the same network. *)
From Coq Require Import ZArith List String Bool Arith Lia QArith Qcanon Permutation.
From Verif Require Import Py PyFacts Num Vari VariFacts Brc SpecBrc BrcFacts NetSys Flow SpecFlow Lp FlowFacts FlowRef MaxFlow SpecMaxFlow MaxFlowFacts MaxFlowRef PropTrans PropFlow PropMaxFlow.
From Verif Require Import Mcs SpecMcs McsFacts PropMcs FlowMcs.
Import ListNotations.
Open Scope string_scope.
Open Scope Z_scope.
Open Scope list_scope.

Lemma link_dicts bi ls : links_ok bi ls -> full_dicts (init_varis ls) (init_probs ls).
Proof.
  intros (_ & L & _). unfold full_dicts, init_varis, init_probs.
  assert (X : forall l, incl l ls -> Forall2 (fun (kv : string * variable) kd => fst kd = fst kv /\ exists l, snd kd = PDict l /\ Permutation (map fst l) (zrange 0 (nvals (snd kv))))
    (map (fun kl => (fst kl, mk_variable (fst kl) (map VNum (l_caps (snd kl))) None)) l)
    (map (fun kl => (fst kl, PDict (combine (zrange 0 (Z.of_nat (List.length (l_prob (snd kl))))) (l_prob (snd kl))))) l)).
  { induction l as [|[k lk] l IH]; intros I; cbn [map]; [constructor|]. constructor; [|apply IH; intros y Hy; apply I; right; auto].
    cbn [fst snd]. split; auto. eexists. split; [reflexivity|]. destruct (L k lk (I _ (or_introl eq_refl))) as (_ & _ & _ & E & _).
    assert (F : forall (a : list Z) (b : list Qc), List.length a = List.length b -> map fst (combine a b) = a) by (induction a as [|z a IHa]; intros [|q b] H; cbn in *; try discriminate; auto; f_equal; auto).
    rewrite F. - unfold nvals. cbn [v_values mk_variable]. rewrite map_length, E. auto.
    - unfold zrange. rewrite map_length, seq_length. lia. }
  apply X, incl_refl.
Qed.

(** the setting of C79_main *)
Definition flow_setting (nx_flow : bool -> Flow.cgraph -> string -> string -> res (Qc * (string -> string -> Qc))) (bi : bool) (ls : dict link) (o d : string) (target : Qc) (meets : dict Z -> bool) : Prop :=
  nx_flow2_ok nx_flow /\ links_ok bi ls /\ (exists k l, In (k, l) ls /\ (l_from l = o \/ l_to l = o)) /\ o <> d /\ d <> "t_new" /\ (0 <= target)%Qc /\
  (forall x, In x (link_space ls) -> (meets x = true <-> exists phi v, sends2 bi (link_net ls x) phi o d v /\ (target <= v)%Qc)).
Lemma flow_sys nx_flow bi ls o d target meets : flow_setting nx_flow bi ls o d target meets ->
  sys_ok (init_varis ls) meets (mf_sysfun nx_flow o d (init_edges ls) (init_varis ls) target bi).
Proof.
  intros (Hn & Hl & Ho & Hod & Hd & Ht & Hm).
  apply (mf_sys_ok bi (init_edges ls) (init_varis ls) o d target nx_flow (init_edges_ok bi ls Hl) (init_caps_ok bi ls Hl) (init_wf bi ls Hl) Hn); auto.
  - destruct Ho as (k & l & I & E). exists k, (l_from l), (l_to l). split; auto. apply in_map_iff. exists (k, l). auto.
  - intros x Hx. rewrite init_comps in Hx. rewrite (init_net bi ls Hl) by exact Hx. apply Hm. exact Hx.
Qed.

(** A sample is a vector of states of the edges, each with its probability, and the chance that the network in the
    sampled states cannot carry the target is the probability that C79 is about. *)
Theorem C120_sample : forall bi ls meets, links_ok bi ls ->
  (forall o, In o (draw_indep (init_probs ls)) -> (0 < fst o)%Qc /\ exists x, snd o = Ok x /\ In x (link_space ls)) /\
  (forall f, mean (draw_indep (init_probs ls)) (on_ok f) = qsum (map (fun x => (link_pr ls x * f x)%Qc) (link_space ls))) /\
  mean (draw_indep (init_probs ls)) (on_ok (fails meets)) = p_short ls meets.
Proof.
  intros bi ls meets H. destruct (C62_distribution _ _ (init_wf bi ls H) (init_wf_probs bi ls H) (link_dicts bi ls H)) as (A & B & C).
  rewrite init_comps in A, B. fold (link_space ls) in A, B. split; auto. split.
  - intros f. rewrite B. f_equal. apply map_ext_in. intros x Hx. rewrite (init_prob bi ls H x Hx). auto.
  - rewrite C. apply (init_fail bi ls H).
Qed.
Print Assumptions C120_sample.

(** The estimate is the share of the first n samples in which the target cannot be carried, six of them at least;
    the square of its coefficient of variation is below that of the threshold. *)
Theorem C120_estimate : forall nx_flow bi ls o d target meets cov_t xs e, flow_setting nx_flow bi ls o d target meets -> (cov_t < 1)%Qc ->
  (forall x, In x xs -> In x (link_space ls)) -> mf_mcs nx_flow ls o d target bi cov_t (map Ok xs) = Ok (Some e) ->
  exists n, e_nsamp e = Z.of_nat n /\ (n <= List.length xs)%nat /\
    let short := filter (fun x => negb (meets x)) (firstn n xs) in
    (6 <= List.length short)%nat /\ e_pf e = (qz (Z.of_nat (List.length short)) / qz (Z.of_nat n))%Qc /\
    e_cov2 e = ((1 - e_pf e) / (qz (Z.of_nat n) * e_pf e))%Qc /\ (e_cov2 e <= cov_t * cov_t)%Qc.
Proof.
  intros nxf bi ls o d target meets cov_t xs e H Hc Hx E. destruct (flow_sys _ _ _ _ _ _ _ H) as (_ & Hs).
  destruct (C62_estimate meets (mf_sysfun nxf o d (init_edges ls) (init_varis ls) target bi) cov_t xs e) as (n & E1 & E2 & E3); [|exact Hc|exact E|].
  - intros x Ix. rewrite init_comps in Hs. destruct (Hs x (Hx x Ix)) as (val & m & -> & _). reflexivity.
  - exists n. cbv zeta in E3. unfold failures in E3. destruct E3 as (A & B & C & _ & D & _). auto 8.
Qed.
Print Assumptions C120_estimate.
(** The only exception is UnboundLocalError, after 20000 samples which all carry the target. *)
Theorem C120_exception : forall nx_flow bi ls o d target meets cov_t xs e, flow_setting nx_flow bi ls o d target meets -> (cov_t < 1)%Qc ->
  (forall x, In x xs -> In x (link_space ls)) -> mf_mcs nx_flow ls o d target bi cov_t (map Ok xs) = Err e ->
  e = UnboundLocalError /\ 20000 <= Z.of_nat (List.length xs) /\ forall x, In x (firstn (Z.to_nat 20000) xs) -> meets x = true.
Proof.
  intros nxf bi ls o d target meets cov_t xs e H Hc Hx E. destruct (flow_sys _ _ _ _ _ _ _ H) as (_ & Hs).
  destruct (C62_exception meets (mf_sysfun nxf o d (init_edges ls) (init_varis ls) target bi) cov_t xs e) as (-> & ys & zs & -> & F & L); [|exact Hc|exact E|].
  - intros x Ix. rewrite init_comps in Hs. destruct (Hs x (Hx x Ix)) as (val & m & -> & _). reflexivity.
  - split; auto. rewrite app_length. split; [lia|]. intros x Ix. rewrite firstn_app in Ix. replace (Z.to_nat 20000 - List.length ys)%nat with 0%nat in Ix by lia.
    cbn [firstn] in Ix. rewrite app_nil_r in Ix. assert (Iy : In x ys) by (rewrite <- (firstn_skipn (Z.to_nat 20000) ys); apply in_or_app; auto).
    destruct (meets x) eqn:M; auto. exfalso. unfold failures in F. assert (In x (filter (fun x => negb (meets x)) ys)) by (apply filter_In; rewrite M; auto).
    destruct (filter (fun x => negb (meets x)) ys); [destruct H0|discriminate].
Qed.
Print Assumptions C120_exception.
(** The bounds of [main] on the same network enclose what the simulation estimates. *)
Theorem C120_search : forall nx_flow bi ls o d target meets g, flow_setting nx_flow bi ls o d target meets -> g_surv_first g = true -> 1 <= g_max_sf g ->
  exists s, mf_main nx_flow ls o d target bi g = Ok s /\
    (last (m_pf_low (s_mon s)) 0 <= mean (draw_indep (init_probs ls)) (on_ok (fails meets)) <= last (m_pf_up (s_mon s)) 0)%Qc.
Proof.
  intros nxf bi ls o d target meets g (Hn & Hl & Ho & Hod & Hd & Ht & Hm) Sf Mx. destruct (C120_sample bi ls meets Hl) as (_ & _ & ->).
  destruct (C79_main nxf bi ls o d target meets g Hn Hl Ho Hod Hd Ht Hm Sf Mx) as (s & E & A & B & _). eauto.
Qed.
Print Assumptions C120_search.

(** That the result is saved is wrong: whatever the samples, the run as a whole returns no estimate, and once there is
    one it fails with NameError. *)
Theorem C120_saved_refuted : forall nx_flow ls o d target bi cov_t draws,
  (forall e, mf_run_mcs nx_flow ls o d target bi cov_t draws <> Ok (Some e)) /\
  (forall e, mf_mcs nx_flow ls o d target bi cov_t draws = Ok (Some e) -> mf_run_mcs nx_flow ls o d target bi cov_t draws = Err NameError) /\
  (mf_mcs nx_flow ls o d target bi cov_t draws = Ok None -> mf_run_mcs nx_flow ls o d target bi cov_t draws = Ok None).
Proof.
  intros nxf ls o d target bi cov_t draws. unfold mf_run_mcs. split; [|split].
  - intros e. destruct (mf_mcs nxf ls o d target bi cov_t draws) as [[e'|]|x]; discriminate.
  - intros e ->. reflexivity.
  - intros ->. reflexivity.
Qed.
Print Assumptions C120_saved_refuted.

(** ten samples of the network of C79: six of the first seven do not carry two units *)
Definition fxs : list (dict Z) := [dst 0 0 0 0; dst 2 1 0 1; dst 1 0 0 1; dst 0 1 1 1; dst 2 0 1 1; dst 1 1 0 0; dst 0 1 0 0; dst 2 1 1 2; dst 0 0 0 0; dst 0 0 1 1].
Example C120_ex :
  flow_setting nx_lp2 false dls "n1" "n3" (Q2Qc 2) dmeets /\ (forall x, In x fxs -> In x (link_space dls)) /\
  e_view (mf_mcs nx_lp2 dls "n1" "n3" (Q2Qc 2) false (Q2Qc (1 # 6)) (map Ok fxs)) = Ok (Some ((6 # 7)%Q, (1 # 42)%Q, 7)) /\
  e_view (mf_mcs nx_lp2 dls "n1" "n3" (Q2Qc 2) false (Q2Qc (1 # 100)) (map Ok fxs)) = Ok None /\
  mf_run_mcs nx_lp2 dls "n1" "n3" (Q2Qc 2) false (Q2Qc (1 # 6)) (map Ok fxs) = Err NameError /\
  this (mean (draw_indep (init_probs dls)) (on_ok (fails dmeets))) = (6 # 25)%Q.
Proof.
  split. { split; [exact nx_lp2_ok|]. split; [exact dls_ok|]. split. { exists "e1", (mk_link "n1" "n2" [0%Qc; Q2Qc 1; Q2Qc 2] [Q2Qc (1#10); Q2Qc (3#10); Q2Qc (6#10)]). split; [left; reflexivity|left; reflexivity]. }
    split; [discriminate|]. split; [discriminate|]. split; [vm_compute; discriminate|]. exact dmeets_ok. }
  split. { intros x Hx. cbn [fxs In] in Hx. repeat (destruct Hx as [Hx|Hx]; [subst x; vm_compute; tauto|]). contradiction. }
  split; [vm_compute; reflexivity|]. split; [vm_compute; reflexivity|]. split; [vm_compute; reflexivity|].
  destruct (C120_sample false dls dmeets dls_ok) as (_ & _ & ->). vm_compute. reflexivity.
Qed.
