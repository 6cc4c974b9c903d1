(** Proofs about the failure map: the search of a node and the table of results. *)
From Coq Require Import ZArith List String Bool Arith QArith Qcanon Lia Permutation.
From Verif Require Import Py PyFacts Num Vari VariFacts Brc SpecBrc BrcFacts BrcMain BrcProper Cpm SpecCpm Model ModelFacts Bnb SpecBnb Trans SpecTrans TransFacts NetSys.
From Verif Require Import Config SpecConfig ConfigFacts ConfigSetup PfMap SpecMap PfMapGeom PfMapFacts PfMapMain PropBrc PropBrc2 PropModel PropTrans.
Import ListNotations.
Open Scope string_scope.
Open Scope Z_scope.
Open Scope list_scope.

(** * Lists *)
Lemma mapM_self {A} (d : dict A) : NoDup (keys d) -> mapM (fun k => v <- dget d k ;; Ok (k, v)) (keys d) = Ok d.
Proof.
  intros N. assert (X : forall l, incl l d -> mapM (fun k => v <- dget d k ;; Ok (k, v)) (keys l) = Ok l).
  { induction l as [|[k a] l IH]; intros I; [reflexivity|]. cbn [keys map fst mapM].
    assert (E : dget d k = Ok a) by (apply dget_ok, In_dfind; auto; apply I; left; auto). rewrite E. cbn [bind].
    fold (@keys A l). rewrite IH; [reflexivity|intros x Hx; apply I; right; auto]. }
  apply X. intros x Hx. auto.
Qed.
Lemma mapM_snd {A} (d : dict A) : NoDup (keys d) -> mapM (dget d) (keys d) = Ok (map snd d).
Proof.
  intros N. assert (X : forall l, incl l d -> mapM (dget d) (keys l) = Ok (map snd l)).
  { induction l as [|[k a] l IH]; intros I; [reflexivity|]. cbn [keys map fst mapM snd].
    assert (E : dget d k = Ok a) by (apply dget_ok, In_dfind; auto; apply I; left; auto). rewrite E. cbn [bind].
    fold (@keys A l). rewrite IH; [reflexivity|intros x Hx; apply I; right; auto]. }
  apply X. intros x Hx. auto.
Qed.
Lemma mapM_ext_in {A B} (f g : A -> res B) l : (forall a, In a l -> f a = g a) -> mapM f l = mapM g l.
Proof. induction l as [|a l IH]; intros H; cbn; auto. rewrite H by (left; auto). rewrite IH; auto. intros x Hx. apply H. right. auto. Qed.
Lemma last_item_ok l x : last_item l = Ok x <-> l <> [] /\ last l 0%Qc = x.
Proof.
  unfold last_item. destruct l as [|a l] using rev_ind; [split; [discriminate|intros [N _]; contradiction]|].
  rewrite rev_app_distr, last_last. cbn. split; [intros [= ->]; split; auto; destruct l; discriminate|intros [_ ->]; auto].
Qed.
Lemma dset_new {A} (d : dict A) k a : ~ In k (keys d) -> dset d k a = d ++ [(k, a)].
Proof.
  induction d as [|[k' a'] d IH]; intros N; [reflexivity|]. cbn [dset app]. destruct (String.eqb_spec k k') as [->|Ne]; [destruct N; left; auto|].
  rewrite IH; auto. intros H. apply N. right. auto.
Qed.

(** * Number of branches *)
Lemma self_in varis b : In (b_down b) (space (comps_of varis)) -> le_vec varis (b_down b) (b_up b) -> wf_varis varis -> in_branch b (b_down b) = true.
Proof.
  intros H L W. unfold in_branch. apply forallb_forall. intros [k z] I. cbn [fst snd]. destruct (space_states varis _ W H) as [[N _] Kx].
  assert (E : coord (b_down b) k = z). { unfold coord. rewrite (In_dfind (b_down b) k z); auto. rewrite Kx. auto. }
  rewrite E, Z.leb_refl. cbn. apply Z.leb_le. rewrite <- E. apply L. rewrite <- Kx. apply (In_keys _ _ _ I).
Qed.
Lemma branch_number varis brs : wf_varis varis -> boxes varis brs -> partition varis brs -> (List.length brs <= List.length (space (comps_of varis)))%nat.
Proof.
  intros W B P. rewrite <- (map_length b_down brs). apply NoDup_incl_length.
  - assert (X : forall pre l, brs = pre ++ l -> NoDup (map b_down l)).
    { intros pre l. revert pre. induction l as [|b l IH]; intros pre E; cbn; [constructor|]. constructor.
      - intros H. apply in_map_iff in H as (b' & E' & I'). apply in_split in I' as (l1 & l2 & ->).
        assert (Ib : In b brs) by (rewrite E; apply in_or_app; right; left; auto).
        assert (Ib' : In b' brs) by (rewrite E; apply in_or_app; right; right; apply in_or_app; right; left; auto).
        destruct (B b Ib) as (D1 & _ & L1). destruct (B b' Ib') as (D2 & _ & L2).
        pose proof (self_in varis b D1 L1 W) as S1. pose proof (self_in varis b' D2 L2 W) as S2. rewrite E' in S2.
        specialize (P _ D1). rewrite E, filter_app in P. cbn [filter] in P. rewrite S1 in P. rewrite filter_app in P. cbn [filter] in P. rewrite S2 in P.
        rewrite app_length in P. cbn [List.length] in P. rewrite app_length in P. cbn [List.length] in P. lia.
      - apply (IH (pre ++ [b])). rewrite <- app_assoc. auto. }
    apply (X [] brs). auto.
  - intros x Hx. apply in_map_iff in Hx as (b & <- & I). apply (B b I).
Qed.

Section Run.
Variables (np_sqrt np_log : Qc -> Qc) (norm_cdf : Qc -> Qc -> Qc -> Qc) (gm_ln_sa : Qc -> Qc -> Qc) (gm_std_al : Qc -> Qc) (gm_std_ep : Qc -> Qc -> Qc).
Variable nx_multi : graph -> list string -> string -> res (value * list string).
Hypothesis Hnx : nx_multi_ok nx_multi.
Hypothesis Hroot : forall a, (0 < a)%Qc -> (0 < np_sqrt a)%Qc.
Hypothesis Hcdf : forall x m s, (0 < s)%Qc -> (0 <= norm_cdf x m s)%Qc /\ (norm_cdf x m s <= 1)%Qc.
Hypothesis Hal : forall m, gm_std_al m <> 0%Qc.
Notation edge_dist := (cal_edge_dist np_sqrt np_log norm_cdf gm_ln_sa gm_std_al gm_std_ep).
Notation main := (pm_main np_sqrt np_log norm_cdf gm_ln_sa gm_std_al gm_std_ep nx_multi).

Variable f : mapfile.
Hypothesis Hf : map_ok f.
Variables (name : string) (pf mean : dict Qc) (cov : list (list Qc)).
Hypothesis Hed : edge_dist f name = Ok (pf, mean, cov).

Let L := timed_roads np_sqrt f.
Let G := file_graph (pm_net f) false false.
Let V := map_varis np_sqrt f.
Let K := keys (pm_roads f).
Let ds := pm_origins f.
Let probs := pm_probs pf.

Lemma ends_ok k r : In (k, r) (pm_roads f) ->
  exists a b, dfind (pm_nodes f) (r_from r) = Some a /\ dfind (pm_nodes f) (r_to r) = Some b /\ a <> b.
Proof.
  intros H. destruct (edge_dist_inv _ _ _ _ _ _ f name pf mean cov (K_nodup f Hf) Hed) as (e & es & _ & _ & F & _).
  destruct (Forall2_in_l _ _ _ _ F H) as (en & _ & (_ & a & b & fr & med & R & A & B & _ & _ & S & _)). exists a, b. split; auto. split; auto.
  intros ->. rewrite shortest_same in S. discriminate.
Qed.
Lemma pf_keys : keys pf = K.
Proof.
  destruct (edge_dist_inv _ _ _ _ _ _ f name pf mean cov (K_nodup f Hf) Hed) as (e & es & _ & _ & F & -> & _). unfold K, keys. rewrite map_map. cbn [fst].
  clear - F. induction F as [|kr en l es (E & _) F IH]; cbn; auto. rewrite IH, E. reflexivity.
Qed.
Lemma pf_range k p : In (k, p) pf -> (0 <= p)%Qc /\ (p <= 1)%Qc.
Proof.
  destruct (edge_dist_inv _ _ _ _ _ _ f name pf mean cov (K_nodup f Hf) Hed) as (e & es & _ & _ & F & -> & _). intros H. apply in_map_iff in H as (en & E & I).
  injection E as _ <-. destruct (Forall2_in_r _ _ _ _ F I) as (kr & _ & (_ & a & b & fr & med & R & _ & _ & _ & _ & _ & Ev & _ & ->)).
  apply Hcdf. apply Hroot. rewrite Ev. set (c := gm_std_al (mw e)). assert (P : (0 < c * c)%Qc).
  { apply qc_pos_ne; [apply qc_sq_pos|]. intros E. destruct (Qcmult_integral _ _ E) as [E0|E0]; apply (Hal (mw e)); exact E0. }
  pose proof (qc_sq_pos (gm_std_ep (mw e) R)) as P1. pose proof (qc_sq_pos (sa_g_dispersion fr)) as P2.
  set (c2 := (c * c)%Qc) in *. set (c3 := (gm_std_ep (mw e) R * gm_std_ep (mw e) R)%Qc) in *. set (c4 := (sa_g_dispersion fr * sa_g_dispersion fr)%Qc) in *.
  clear - P P1 P2. clearbody c2 c3 c4. qc_lra.
Qed.
Lemma pf_find k : In k K -> exists p, dfind pf k = Some p /\ (0 <= p)%Qc /\ (p <= 1)%Qc.
Proof.
  rewrite <- pf_keys. intros H. apply dfind_keys in H as [p E]. exists p. split; auto. apply (pf_range k). apply dfind_In. auto.
Qed.
Lemma probs_find k p : dfind pf k = Some p -> dfind probs k = Some (PDict [(0, p); (1, (1 - p)%Qc)]).
Proof.
  unfold probs, pm_probs. clear. intros H. induction pf as [|[k' q] l IH]; [discriminate|]. cbn in *. destruct (String.eqb k k'); [congruence|auto].
Qed.
Lemma scen_find k p : dfind pf k = Some p -> dfind (road_scen pf) k = Some [p; (1 - p)%Qc].
Proof.
  unfold road_scen. clear. intros H. induction pf as [|[k' q] l IH]; [discriminate|]. cbn in *. destruct (String.eqb k k'); [congruence|auto].
Qed.
Lemma probs_wf : wf_probs V probs.
Proof.
  intros k v H. apply V_in in H as (r & I & ->). destruct (pf_find k (In_keys _ _ _ I)) as (p & E & P0 & P1). apply probs_find in E. split.
  - eexists. split; [exact E|]. intros x Hx. cbn in Hx. assert (x = 0 \/ x = 1) as [-> | ->] by lia; eexists; (split; [reflexivity|auto]). qc_lra.
  - match goal with |- context [nvals ?w] => change (nvals w) with 2 end. change (zrange 0 2) with [0; 1]. unfold pr. rewrite E. cbn. ring.
Qed.
Lemma fail_prob phi : p_fail V probs phi = event_prob K (road_scen pf) (fun x => negb (phi x)).
Proof.
  unfold p_fail, prob_event, event_prob. unfold V. rewrite (V_space np_sqrt f). fold K. f_equal. apply map_ext_in. intros x Hx. apply filter_In in Hx as [Hx _].
  unfold prob_of, arc_prob. f_equal. apply map_ext_in. intros [k z] I. cbn [fst snd].
  assert (Hx' : In x (space (comps_of V))) by (unfold V; rewrite V_space; auto). destruct (space_states V x (V_wf np_sqrt f Hf) Hx') as [[N _] Kx].
  assert (Ik : In k K). { unfold V in Kx; rewrite (V_keys np_sqrt f) in Kx. fold K in Kx. rewrite <- Kx. apply (In_keys _ _ _ I). }
  assert (Z01 : z = 0 \/ z = 1).
  { assert (E : dfind x k = Some z) by (apply In_dfind; auto; rewrite Kx; auto). destruct (state_01 np_sqrt f Hf x k Hx Ik); [left|right]; congruence. }
  destruct (pf_find k Ik) as (p & E & _). unfold pr. rewrite (probs_find k p E), (scen_find k p E). destruct Z01 as [-> | ->]; reflexivity.
Qed.
Lemma space_size : Z.of_nat (List.length (space (comps_of V))) = 2 ^ Z.of_nat (List.length (pm_roads f)).
Proof.
  unfold V. rewrite V_comps. rewrite <- (map_length fst (pm_roads f)). fold (keys (pm_roads f)). clear. induction (keys (pm_roads f)) as [|k l IH]; [reflexivity|].
  cbn [map List.length]. rewrite Nat2Z.inj_succ, Z.pow_succ_r by lia. rewrite <- IH. set (r := map _ l). change (space ((k, 2) :: r)) with
    (map (fun y => (k, 0) :: y) (space r) ++ map (fun y => (k, 1) :: y) (space r) ++ []). rewrite app_nil_r, app_length, !map_length. rewrite Nat2Z.inj_add, <- Z.add_diag. reflexivity.
Qed.

(** * What is made before the search *)
Lemma lens_ok : exists lens, get_arcs_length np_sqrt (pm_arcs f) (pm_nodes f) = Ok lens /\ pm_varis (map (fun kl => (fst kl, (snd kl / qz 100)%Qc)) lens) = V.
Proof.
  pose proof ends_ok as He. unfold V, map_varis, get_arcs_length, pm_arcs, pm_varis.
  assert (X : forall l, incl l (pm_roads f) -> exists lens,
    mapM (fun ka : string * (string * string) => a <- dget (pm_nodes f) (fst (snd ka)) ;; b <- dget (pm_nodes f) (snd (snd ka)) ;;
      Ok (fst ka, np_sqrt (sqr (fst a - fst b) + sqr (snd a - snd b))%Qc)) (map (fun kr => (fst kr, (r_from (snd kr), r_to (snd kr)))) l) = Ok lens /\
    map (fun kl => (fst kl, (snd kl / qz 100)%Qc)) lens = map (fun kr => (fst kr, road_time np_sqrt f (snd kr))) l).
  { induction l as [|[k r] l IH]; intros I; [exists []; auto|]. destruct IH as (lens & E1 & E2); [intros x Hx; apply I; right; auto|].
    destruct (He k r) as (a & b & Ea & Eb & _); [apply I; left; auto|]. cbn [map mapM fst snd].
    assert (Ga : dget (pm_nodes f) (r_from r) = Ok a) by (apply dget_ok; auto). assert (Gb : dget (pm_nodes f) (r_to r) = Ok b) by (apply dget_ok; auto).
    rewrite Ga. cbn [bind]. rewrite Gb. cbn [bind]. rewrite E1. cbn [bind]. eexists. split; [reflexivity|]. cbn [map fst snd]. rewrite E2. f_equal. f_equal.
    unfold road_time. rewrite Ea, Eb. reflexivity. }
  destruct (X (pm_roads f)) as (lens & E1 & E2); [intros x Hx; auto|]. exists lens. split; auto. rewrite E2, map_map. reflexivity.
Qed.
Definition comp_cpms : res (dict cpm) := mapM (fun kv => M <- component_cpm probs (fst kv) (snd kv) ;; Ok (fst kv, M)) V.
Lemma cpms_eq : mapM (fun kv => p <- dget pf (fst kv) ;; M <- mk_cpm [snd kv] 1 [[0]; [1]] [p; (1 - p)%Qc] ;; Ok (fst kv, M)) V = comp_cpms.
Proof.
  apply mapM_ext_in. intros [k v] H. cbn [fst snd]. apply V_in in H as (r & I & ->). destruct (pf_find k (In_keys _ _ _ I)) as (p & E & _).
  unfold component_cpm. assert (E1 : dget pf k = Ok p) by (apply dget_ok; auto). assert (E2 : dget probs k = Ok (PDict [(0, p); (1, (1 - p)%Qc)])) by (apply dget_ok, probs_find; auto).
  rewrite E1, E2. cbn [bind]. reflexivity.
Qed.

(** * One node *)
Variable g : config.
Hypothesis Hg : g_surv_first g = true /\ g_active g = true /\ 1 <= g_max_sf g /\ g_max_rules g = None.
Variable cpms : dict cpm.
Hypothesis Hcp : comp_cpms = Ok cpms.

Definition node_var (n : string) : variable := mk_variable n [VStr "f"; VStr "s"; VStr "u"] None.
Definition stopped (s : rstate) : bool := match m_out_flag (s_mon s) with Some O_max_sf | Some O_max_nb => true | _ => false end.
Notation pn := (process_node nx_multi G ds (pm_thres f) g (intact np_sqrt f) K V probs cpms).

Lemma late_dec n T0 : In n (keys (pm_nodes f)) -> ~ In n ds -> nearest L (fun _ => True) n ds T0 ->
  exists lateb, forall x, In x (arc_states K) -> (lateb x = true <-> late L (pm_thres f) ds n x).
Proof.
  intros Hn Hno N0.
  exists (fun x => match T0, get_time_and_path_multi_dest nx_multi x G n ds V with VNum t0, Ok (T, _, _) => t_ltb (VNum (pm_thres f * t0)%Qc) T | _, _ => false end).
  intros x Hx. destruct (time_ex np_sqrt nx_multi Hnx Hroot f Hf ends_ok n Hn x Hx) as (T & p & es & E & N).
  fold G ds V in E. rewrite E. destruct T0 as [t0| |]; [| |destruct N0].
  - split.
    + intros Lt. exists t0. split; auto. intros v Hv. rewrite (nearest_fun np_sqrt f n _ _ _ Hv N). destruct T as [t| |]; cbn in *; auto.
      apply qc_ltb_lt in Lt. apply Qclt_not_le. auto.
    + intros (t0' & N0' & H). assert (E0 := nearest_fun np_sqrt f n _ _ _ N0 N0'). injection E0 as <-. specialize (H T N). destruct T as [t| |]; cbn in *; auto.
      apply qc_ltb_lt. apply Qcnot_le_lt. auto.
  - split; [discriminate|]. intros (t0 & N0' & _). assert (E0 := nearest_fun np_sqrt f n _ _ _ N0 N0'). discriminate.
Qed.

Lemma node_main n : In n (keys (pm_nodes f)) -> ~ In n ds ->
  exists s low up saved M,
    pn n = (if stopped s then Err TypeError else Ok (mkNres (Some (node_var n)) saved up 0 (Some (s_mon s)))) /\
    last_item (m_pf_low (s_mon s)) = Ok low /\ last_item (m_pf_up (s_mon s)) = Ok up /\
    (0 <= low)%Qc /\ (up <= 1)%Qc /\
    (forall lateb, (forall x, In x (arc_states K) -> (lateb x = true <-> late L (pm_thres f) ds n x)) ->
       (low <= event_prob K (road_scen pf) lateb)%Qc /\ (event_prob K (road_scen pf) lateb <= up)%Qc) /\
    (let q z := compute_prob saved (V ++ [(n, node_var n)]) K n (SI z) true in
       q 0 = Ok (low, M) /\ q 1 = Ok ((1 - up)%Qc, M) /\ q 2 = Ok ((up - low)%Qc, M)) /\
    (unlimited V (g_max_nb g) -> Z.of_nat (List.length (space (comps_of V))) < g_max_sf g -> (0 <= g_pf_bnd_wr g)%Qc ->
       stopped s = false /\ (low = up \/ (up - low < low * g_pf_bnd_wr g)%Qc)).
Proof.
  intros Hn Hno. destruct Hg as (Gs & Ga & Gm & Gr).
  destruct (time_ex np_sqrt nx_multi Hnx Hroot f Hf ends_ok n Hn (intact np_sqrt f) (intact_in np_sqrt f)) as (T0 & p0 & es0 & E0 & N0).
  apply (proj1 (nearest_intact np_sqrt f Hf n T0)) in N0.
  destruct (late_dec n T0 Hn Hno N0) as (lateb0 & Hl0).
  set (sys := node_sys np_sqrt nx_multi f n T0).
  assert (So : forall lateb, (forall x, In x (arc_states K) -> (lateb x = true <-> late L (pm_thres f) ds n x)) -> sys_ok V (fun x => negb (lateb x)) sys).
  { intros lateb Hl. apply (node_ok np_sqrt nx_multi Hnx Hroot f Hf ends_ok n Hn Hno T0 lateb N0 Hl). }
  pose proof (So lateb0 Hl0) as So0. set (phi0 := fun x => negb (lateb0 x)) in *.
  pose proof (V_wf np_sqrt f Hf) as Wv. fold V in Wv. pose proof probs_wf as Wp. pose proof (none_start V probs phi0) as St.
  destruct (net_bounds V probs phi0 sys g Wv Wp So0 Gs Gm) as (s & Er & B1 & B2 & _).
  destruct (C16_resume V probs phi0 sys g None None s Wv Wp So0 St) as (brs & Eb & (_ & _ & Vb) & Pb & Nl & _ & _); [lia|auto|].
  destruct (C21_aligned V probs phi0 sys g None None s Wv Wp So0 St) as (_ & _ & L1 & _); [lia|auto|].
  cbn [map] in L1. injection L1 as L1 L2 L3 _.
  assert (Nu : m_pf_up (s_mon s) <> []) by (intros X; rewrite X in L2; discriminate).
  set (low := last (m_pf_low (s_mon s)) 0%Qc). set (up := last (m_pf_up (s_mon s)) 0%Qc).
  assert (El : last_item (m_pf_low (s_mon s)) = Ok low) by (apply last_item_ok; auto).
  assert (Eu : last_item (m_pf_up (s_mon s)) = Ok up) by (apply last_item_ok; auto).
  assert (Nk : ~ In (v_name (node_var n)) (keys V)).
  { unfold V. rewrite V_keys. cbn. destruct Hf as (_ & _ & _ & _ & _ & _ & _ & _ & Nk). apply Nk. auto. }
  set (conv := fun l => match l with F_ => 0 | S_ => 1 | U_ => 2 end).
  assert (Sv : stored (node_var n)) by reflexivity.
  destruct (C25_system_event_partial V probs phi0 sys g None None s (node_var n) conv Wv Wp So0 St) as (brs' & rows & cp & M & Eb' & Pl & Ec & Bc & Q); auto.
  { discriminate. } { lia. }
  { intros k v H. apply V_in in H as (r & _ & ->). eexists _, _. split; [reflexivity|discriminate]. }
  { apply stored_basic. auto. } { apply stored_ok; auto. cbn. lia. }
  { intros []; cbn; lia. } { intros [] []; cbn; congruence. }
  rewrite Eb in Eb'. injection Eb' as <-. cbv zeta in Q. fold low up in Q.
  unfold build_cpms in Bc. fold comp_cpms in Bc. rewrite Hcp in Bc. cbn [bind] in Bc.
  destruct (system_cpm (node_var n) V rows) as [Ms|] eqn:Es; [|discriminate]. cbn [bind] in Bc. injection Bc as <-.
  exists s, low, up, (cpms ++ [(n, Ms)]), M.
  assert (Kc : keys cpms = K).
  { unfold comp_cpms in Hcp. apply mapM_inv in Hcp. clear - Hcp. unfold K. rewrite <- (V_keys np_sqrt f). fold V. clearbody V.
    induction Hcp as [|[k v] [k' M'] l l' E F IH]; [reflexivity|]. cbn [fst snd] in E. destruct (component_cpm probs k v) as [X|]; [|discriminate]. cbn [bind] in E. injection E as <- <-.
    cbn [keys map fst]. f_equal. exact (IH F). }
  split.
  { unfold process_node. assert (Mn : mem_str n ds = false) by (destruct (mem_str n ds) eqn:X; auto; apply mem_str_In in X; contradiction). rewrite Mn.
    fold G ds V in E0. rewrite E0. cbn [bind fst]. fold (node_sys np_sqrt nx_multi f n T0).
    change (as_sysfun (fun x => sf_min_path_multi nx_multi x G n ds V (Some (t_times (pm_thres f) T0)))) with sys.
    assert (KV : K = keys V) by (symmetry; apply V_keys). rewrite KV. rewrite mapM_self by apply Wv. cbn [bind]. rewrite Er. cbn [bind]. rewrite Eb.
    unfold st_br_to_cs. change (fun s0 : st => Ok match s0 with F_ => 0 | S_ => 1 | U_ => 2 end) with (fun l => Ok (conv l)). rewrite Ec. cbn [bind snd fst].
    rewrite mapM_snd by apply Wv. cbn [bind]. unfold system_cpm in Es. fold (node_var n). rewrite Es. cbn [bind]. rewrite Eu. cbn [bind]. rewrite El. cbn [bind].
    rewrite dset_new by (rewrite Kc, KV; exact Nk). unfold stopped, mcs_unknown. destruct (m_out_flag (s_mon s)) as [[]|]; auto.
    all: destruct (filter _ brs); auto. }
  split; auto. split; auto.
  assert (BB : forall lateb, (forall x, In x (arc_states K) -> (lateb x = true <-> late L (pm_thres f) ds n x)) ->
       (low <= event_prob K (road_scen pf) lateb)%Qc /\ (event_prob K (road_scen pf) lateb <= up)%Qc).
  { intros lateb Hl. destruct (net_bounds V probs _ sys g Wv Wp (So lateb Hl) Gs Gm) as (s' & Er' & B1' & B2' & _).
    rewrite Er in Er'. injection Er' as <-. rewrite fail_prob in B1', B2'.
    replace (event_prob K (road_scen pf) lateb) with (event_prob K (road_scen pf) (fun x => negb (negb (lateb x)))); auto.
    unfold event_prob. do 2 f_equal. apply filter_ext. intros x. apply negb_involutive. }
  assert (N : forall (l : list Qc), l <> [] -> nth_error l (List.length l - 1) = Some (last l 0%Qc)).
  { clear. intros l. induction l as [|a l IH]; [contradiction|]. intros _. destruct l as [|b l]; [reflexivity|].
    change (last (a :: b :: l) 0%Qc) with (last (b :: l) 0%Qc). rewrite <- IH by discriminate. cbn [List.length]. replace (S (S (List.length l)) - 1)%nat with (S (S (List.length l) - 1))%nat by lia. reflexivity. }
  assert (R01 : (0 <= low)%Qc /\ (up <= 1)%Qc).
  { assert (B := C16_bounds V probs phi0 sys g None None s Wv Wp So0 St Er (List.length (s_sys s)) low up (last (m_pr_bu (s_mon s)) 0%Qc)).
    replace (List.length (s_sys s)) with (List.length (m_pf_low (s_mon s)) - 1)%nat in B by lia.
    destruct B as (B0 & _ & _ & B3 & _); auto.
    - apply N. auto.
    - replace (List.length (m_pf_low (s_mon s)) - 1)%nat with (List.length (m_pf_up (s_mon s)) - 1)%nat by lia. apply N. auto.
    - replace (List.length (m_pf_low (s_mon s)) - 1)%nat with (List.length (m_pr_bu (s_mon s)) - 1)%nat by lia. apply N. intros X. rewrite X in L3. discriminate. }
  split; [apply R01|]. split; [apply R01|]. split; [exact BB|]. split.
  { cbv zeta. cbn [node_var v_name mk_variable] in Q. change (v_name (node_var n)) with n in Q. unfold V in Q at 2 4 6. rewrite V_keys in Q. fold K V in Q.
    destruct Q as (Q1 & Q2 & Q3). cbn [conv] in *. auto. }
  intros Un Mx Wr. destruct (C52_stop_reason V probs sys g None None s) as (bs & fl & Ebs & Efl & Hfl); [lia|auto|]. rewrite Eb in Ebs. injection Ebs as <-.
  assert (Bx : boxes V brs) by (destruct (Vb brs eq_refl) as (Bx & _); exact Bx).
  pose proof (branch_number V brs Wv Bx Pb) as Nb.
  destruct (C20_calls_distinct V probs phi0 sys g None None s Wv Wp So0 St (or_introl Ga) Er) as (_ & _ & Nc & _).
  unfold stopped. rewrite Efl. destruct fl.
  - split; auto. left. destruct (C18_complete_exact_partial V probs phi0 sys g None None s Wv Wp So0 St Un Er Efl) as (X1 & X2 & _).
    unfold low, up. rewrite X1, X2. reflexivity.
  - exfalso. destruct Hfl as (m & Em & Lm). destruct Un as [Un|(m' & Em' & Lm')]; [congruence|]. rewrite Em in Em'. injection Em' as <-.
    assert (P : (1 <= List.length (space (comps_of V)))%nat). { pose proof space_size as Z. assert (0 < 2 ^ Z.of_nat (List.length (pm_roads f))) by (apply Z.pow_pos_nonneg; lia). lia. }
    lia.
  - split; auto. right. pose proof (C52_width_reached V probs phi0 sys g None None s Wv Wp So0 St Un) as X.
    assert (X' : (last (m_pf_up (s_mon s)) 1 - last (m_pf_low (s_mon s)) 0 < last (m_pf_low (s_mon s)) 0 * g_pf_bnd_wr g)%Qc) by (apply X; auto; lia).
    fold low in X'. replace (last (m_pf_up (s_mon s)) 1%Qc) with up in X'; auto. unfold up.
    pose proof Nu as Nu'. destruct (m_pf_up (s_mon s)) as [|a l] using rev_ind; [contradiction|]. rewrite !last_last. reflexivity.
  - destruct Hfl as (m & Em & _). congruence.
  - exfalso. lia.
Qed.
End Run.
