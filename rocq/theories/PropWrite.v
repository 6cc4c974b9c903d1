(** C82, C83: network files written for the demos, and the analysis of delays made with them. *)
From Coq Require Import ZArith List String Bool Arith QArith Qcanon Lia.
From Verif Require Import Py PyFacts Num Vari VariFacts Brc SpecBrc BrcFacts Cpm SpecCpm Model Bnb SpecBnb Trans SpecTrans TransFacts NetSys NxPaths.
From Verif Require Import Config SpecConfig ConfigFacts ConfigSetup PfMap SpecMap PfMapGeom PfMapRun WriteNet SpecWrite WriteFacts WriteRun PropBrc PropBrc2 PropModel PropTrans PropConfig PropPfMap.
Import ListNotations.
Open Scope string_scope.
Open Scope Z_scope.
Open Scope list_scope.

(** ** C82: written network files *)
(** the table has one entry for each arc, with its ends and its length divided by its speed *)
Theorem C82_written :
  forall np_sqrt arcs coords speeds L, NoDup (keys arcs) -> (forall k v, In k (keys arcs) -> dfind speeds k = Some v -> v <> 0%Qc) ->
    (get_node_conn_df np_sqrt arcs coords speeds = Ok L <-> timed np_sqrt arcs coords speeds L).
Proof.
  intros sq arcs coords speeds L N Hs. destruct (table_cases sq arcs coords speeds N Hs) as [(L' & E & T & _)|(E & k & a & I & M)]; rewrite E; split; try discriminate.
  - intros X. injection X as <-. auto.
  - intros T'. rewrite (timed_unique sq arcs coords speeds L L'); auto.
  - intros T. destruct (Forall2_in_l _ _ _ _ T I) as (ke & _ & (_ & _ & _ & p & q & v & E1 & E2 & E3 & _)). unfold point in *. cbn [fst snd] in *. destruct M as [M|[M|M]]; congruence.
Qed.
Print Assumptions C82_written.
(** an arc without coordinates of its ends or without speed is a KeyError, and nothing else is *)
Theorem C82_missing :
  forall np_sqrt arcs coords speeds ODs e, NoDup (keys arcs) -> (forall k v, In k (keys arcs) -> dfind speeds k = Some v -> v <> 0%Qc) ->
    (create_model_trans np_sqrt arcs coords speeds ODs = Err e <->
     e = KeyError /\ exists k a, In (k, a) arcs /\ (dfind coords (fst a) = None \/ dfind coords (snd a) = None \/ dfind speeds k = None)).
Proof.
  intros sq arcs coords speeds ODs e N Hs. unfold create_model_trans. destruct (table_cases sq arcs coords speeds N Hs) as [(L' & E & T & M)|(E & M)]; rewrite E; cbn [bind]; split; try discriminate.
  - intros (_ & X). contradiction.
  - intros X. injection X as <-. auto.
  - intros (-> & _). auto.
Qed.
Print Assumptions C82_missing.
(** reading a written file back: the nodes with coordinates, the pairs, and one edge for each
    arc with its time as weight *)
Theorem C82_read :
  forall np_sqrt arcs coords speeds ODs f, NoDup (keys arcs) -> (forall k v, In k (keys arcs) -> dfind speeds k = Some v -> v <> 0%Qc) ->
    (forall k a k' a', In (k, a) arcs -> In (k', a') arcs -> a' = a \/ a' = (snd a, fst a) -> k' = k) ->
    create_model_trans np_sqrt arcs coords speeds ODs = Ok f ->
    exists G L, read_model f = Ok (G, L, ODs) /\ keys L = keys arcs /\ g_dir G = false /\ g_multi G = false /\
      (forall n, In n (g_nodes G) <-> In n (keys coords)) /\
      Forall2 (fun ka e => e_src e = fst (snd ka) /\ e_dst e = snd (snd ka) /\ e_label e = Some (fst ka) /\
                 exists w, e_weight e = Some (VNum w) /\ takes np_sqrt coords speeds (fst ka) (snd ka) w) arcs (g_edges G).
Proof.
  intros sq arcs coords speeds ODs f N Hs Np E. unfold create_model_trans in E. destruct (get_node_conn_df sq arcs coords speeds) as [L|] eqn:EL; [|discriminate]. cbn [bind] in E. injection E as <-.
  apply C82_written in EL; auto. pose proof (timed_keys sq arcs coords speeds L EL) as KL. set (f := mkNetfile (keys coords) L ODs None).
  assert (Kd : kind_of (graph_type f) false false) by (left; auto).
  assert (NL : NoDup (keys (node_conn_df f))) by (cbn [f node_conn_df]; rewrite KL; auto).
  assert (NpL : no_parallel false (node_conn_df f)).
  { cbn [f node_conn_df]. intros k en k' en' H H' En. destruct (timed_in sq arcs coords speeds L k en EL H) as (I & _). destruct (timed_in sq arcs coords speeds L k' en' EL H') as (I' & _).
    apply (Np k (origin en, destination en) k' (origin en', destination en')); auto. destruct En as [[-> ->]|(_ & -> & ->)]; auto. }
  destruct (C74_graph f false false Kd NL) as (G & E1 & D & Mu & _ & _ & _ & _ & Hn). destruct (C74_edges f false false Kd NL (or_intror NpL)) as (G' & E2 & F). rewrite E1 in E2. injection E2 as <-.
  exists G, L. split; auto. split; auto. split; auto. split; auto. split.
  - intros n. rewrite Hn. cbn [f component_list node_conn_df]. split; auto. intros [H|(k & en & H & X)]; auto.
    destruct (timed_in sq arcs coords speeds L k en EL H) as (_ & p & q & v & E3 & E4 & _). cbn [fst snd] in *. destruct X as [-> | ->]; apply dfind_keys; eauto.
  - cbn [f node_conn_df] in F. clear - EL F. unfold timed in EL. revert F. generalize (g_edges G). induction EL as [|ka ke l L (X1 & X2 & X3 & X4) EL IH]; intros es F; inversion F as [|? e ? es' (Y1 & Y2 & Y3 & _ & Y5) F']; subst; constructor; auto.
    split; [congruence|]. split; [congruence|]. split; [congruence|]. eauto.
Qed.
Print Assumptions C82_read.
(** arcs without speeds: every edge has weight 1 *)
Theorem C82_graph :
  forall arcs coords ODs, NoDup (keys arcs) -> (forall k a, In (k, a) arcs -> In (fst a) (keys coords) /\ In (snd a) (keys coords)) ->
    (forall k a k' a', In (k, a) arcs -> In (k', a') arcs -> a' = a \/ a' = (snd a, fst a) -> k' = k) ->
    exists G L, read_model (create_model_graph arcs coords ODs) = Ok (G, L, ODs) /\ keys L = keys arcs /\
      (forall n, In n (g_nodes G) <-> In n (keys coords)) /\
      Forall2 (fun ka e => e_src e = fst (snd ka) /\ e_dst e = snd (snd ka) /\ e_label e = Some (fst ka) /\ e_weight e = Some (VNum 1%Qc)) arcs (g_edges G).
Proof.
  intros arcs coords ODs N Hc Np. set (f := create_model_graph arcs coords ODs).
  assert (KL : keys (node_conn_df f) = keys arcs) by (cbn [f create_model_graph node_conn_df]; unfold keys; rewrite map_map; reflexivity).
  assert (Il : forall k en, In (k, en) (node_conn_df f) -> In (k, (origin en, destination en)) arcs).
  { intros k en H. cbn [f create_model_graph node_conn_df] in H. apply in_map_iff in H as ([k' [o d]] & E & I). injection E as <- <-. auto. }
  assert (Kd : kind_of (graph_type f) false false) by (left; auto). assert (NL : NoDup (keys (node_conn_df f))) by (rewrite KL; auto).
  assert (NpL : no_parallel false (node_conn_df f)).
  { intros k en k' en' H H' En. apply (Np k (origin en, destination en) k' (origin en', destination en')); auto. destruct En as [[-> ->]|(_ & -> & ->)]; auto. }
  destruct (C74_graph f false false Kd NL) as (G & E1 & D & Mu & _ & _ & _ & _ & Hn). destruct (C74_edges f false false Kd NL (or_intror NpL)) as (G' & E2 & F). rewrite E1 in E2. injection E2 as <-.
  exists G, (node_conn_df f). split; auto. split; auto. split.
  - intros n. rewrite Hn. split; auto. intros [H|(k & en & H & X)]; auto. destruct (Hc _ _ (Il k en H)) as [A B]. cbn [fst snd] in *. destruct X as [-> | ->]; auto.
  - cbn [f create_model_graph node_conn_df] in F. clear - F. revert F. generalize (g_edges G). induction arcs as [|ka l IH]; intros es F; inversion F as [|? e ? es' (Y1 & Y2 & Y3 & _ & Y5) F']; subst; constructor; auto.
Qed.
Print Assumptions C82_graph.
(** No type of graph is written, so that the file is read as an undirected simple graph: of two
    arcs that join the same nodes, like the two directions of a road, only the last is kept. *)
Theorem C82_lost_refuted :
  exists arcs coords speeds f G L, NoDup (keys arcs) /\ create_model_trans (ref_root 10) arcs coords speeds [("od1", ("a", "b"))] = Ok f /\
    read_model f = Ok (G, L, [("od1", ("a", "b"))]) /\ keys L = ["e1"; "e2"] /\ map e_label (g_edges G) = [Some "e2"].
Proof.
  exists [("e1", ("a", "b")); ("e2", ("b", "a"))], [("a", (qz 0, qz 0)); ("b", (qz 3, qz 4))], [("e1", qz 1); ("e2", qz 2)]. do 3 eexists.
  split; [apply nd_keys_ok; reflexivity|]. split; [vm_compute; reflexivity|]. split; [reflexivity|]. split; reflexivity.
Qed.
Print Assumptions C82_lost_refuted.
(** the scenario made from fragilities: the probabilities of failure and of survival of each arc *)
Theorem C82_frag :
  forall cdf ds arcs ty fr obs, NoDup (keys arcs) -> (forall x s m, 0 <= cdf x s m /\ cdf x s m <= 1)%Qc ->
    match create_scenario_frag cdf ds arcs ty fr obs with
    | Ok sc => exists s1, sc = (ds, [("s1", s1)]) /\ keys s1 = keys arcs /\
        (forall k a, In (k, a) arcs -> exists t x m, dfind ty k = Some t /\ dfind obs k = Some x /\ dfind fr t = Some m /\
           dfind s1 k = Some [cdf x (fst m) (snd m); (1 - cdf x (fst m) (snd m))%Qc]) /\
        forall k p, In (k, p) s1 -> List.length p = 2%nat /\ (forall q, In q p -> 0 <= q)%Qc /\ qsum p = 1%Qc
    | Err e => e = KeyError /\ exists k a, In (k, a) arcs /\
        (dfind ty k = None \/ dfind obs k = None \/ exists t, dfind ty k = Some t /\ dfind fr t = None)
    end.
Proof.
  intros cdf ds arcs ty fr obs N Hc. unfold create_scenario_frag.
  match goal with |- context [mapM ?g arcs] => set (g0 := g); destruct (mapM g0 arcs) as [s1|e] eqn:E end; cbn [bind].
  - apply mapM_inv in E.
    assert (F : Forall2 (fun ka kp => fst kp = fst ka /\ exists t x m, dfind ty (fst ka) = Some t /\ dfind obs (fst ka) = Some x /\ dfind fr t = Some m /\
           snd kp = [cdf x (fst m) (snd m); (1 - cdf x (fst m) (snd m))%Qc]) arcs s1).
    { clear - E. induction E as [|ka kp l l' E F IH]; constructor; auto. unfold g0 in E.
      destruct (dget ty (fst ka)) as [t|] eqn:E1; [cbn [bind] in E|discriminate]. destruct (dget obs (fst ka)) as [x|] eqn:E2; [cbn [bind] in E|discriminate].
      destruct (dget fr t) as [m|] eqn:E3; [cbn [bind] in E|discriminate]. injection E as <-. apply dget_ok in E1, E2, E3. cbn [fst snd]. split; auto. exists t, x, m. auto. }
    clear E g0. assert (Ks : keys s1 = keys arcs). { clear - F. unfold keys. induction F as [|ka kp l l' (E & _) F IH]; cbn; auto. rewrite E, IH. auto. }
    exists s1. split; auto. split; auto. split.
    + intros k a I. destruct (Forall2_in_l _ _ _ _ F I) as ([k' p] & I' & (E & t & x & m & E1 & E2 & E3 & E4)). cbn [fst snd] in *. subst k'. exists t, x, m. split; auto. split; auto. split; auto.
      rewrite <- E4. apply In_dfind; auto. rewrite Ks. auto.
    + intros k p I. destruct (Forall2_in_r _ _ _ _ F I) as ([k' a] & I' & (E & t & x & m & E1 & E2 & E3 & E4)). cbn [fst snd] in *. subst p. destruct (Hc x (fst m) (snd m)) as [P1 P2].
      split; auto. split.
      * intros q [<-|[<-|[]]]; auto. revert P2. generalize (cdf x (fst m) (snd m)). clear. intros q P2. qc_lra.
      * unfold qsum. cbn. ring.
  - clear - E. induction arcs as [|[k a] l IH]; [discriminate|]. cbn [mapM] in E.
    assert (X : g0 (k, a) = Err e \/ mapM g0 l = Err e). { destruct (g0 (k, a)); [|left; injection E as ->; auto]. cbn [bind] in E. destruct (mapM g0 l); [discriminate|right; injection E as ->; auto]. }
    destruct X as [X|X].
    + unfold g0 in X. cbn [fst] in X. assert (In (k, a) ((k, a) :: l)) by (left; auto).
      destruct (dfind ty k) as [t|] eqn:E1; [rewrite (proj2 (dget_ok ty k t) E1) in X|rewrite (proj2 (dget_none ty k) E1) in X]; cbn [bind] in X; [|injection X as <-; split; auto; exists k, a; auto].
      destruct (dfind obs k) as [x|] eqn:E2; [rewrite (proj2 (dget_ok obs k x) E2) in X|rewrite (proj2 (dget_none obs k) E2) in X]; cbn [bind] in X; [|injection X as <-; split; auto; exists k, a; auto].
      destruct (dfind fr t) as [m|] eqn:E3; [rewrite (proj2 (dget_ok fr t m) E3) in X|rewrite (proj2 (dget_none fr t) E3) in X]; cbn [bind] in X; [discriminate|injection X as <-; split; auto; exists k, a; split; auto; right; right; exists t; auto].
    + destruct (IH X) as (-> & k' & a' & I & M). split; auto. exists k', a'. split; auto. right. auto.
Qed.
Print Assumptions C82_frag.

Lemma dist2_pos p q : p <> q -> (0 < dist2 p q)%Qc.
Proof.
  intros Ne. destruct p as [a b], q as [c d]. unfold dist2. cbn [fst snd].
  assert (Sq : forall z : Qc, (0 <= z * z)%Qc /\ (z <> 0%Qc -> 0 < z * z)%Qc).
  { intros z. destruct (Qclt_le_dec z 0) as [L|L].
    - assert (P : (0 < (-z))%Qc) by (revert L; clear; intros; qc_lra). replace (z * z)%Qc with ((-z) * (-z))%Qc by ring. pose proof (qc_mult_pos _ _ P P) as Q. split; auto. apply Qclt_le_weak; auto.
    - split; [|intros Hz].
      + replace 0%Qc with (0 * z)%Qc by ring. apply qc_le_mul; auto.
      + assert (P : (0 < z)%Qc) by (destruct (Qcle_lt_or_eq _ _ L); auto; congruence). apply qc_mult_pos; auto. }
  destruct (Sq (a - c)%Qc) as [P1 P2]. destruct (Sq (b - d)%Qc) as [P3 P4]. set (u := ((a - c) * (a - c))%Qc) in *. set (w := ((b - d) * (b - d))%Qc) in *. clearbody u w.
  destruct (Qc_eq_dec (a - c) 0) as [E|E].
  - destruct (Qc_eq_dec (b - d) 0) as [E'|E'].
    + destruct Ne. f_equal; [replace a with (a - c + c)%Qc by ring; rewrite E; ring|replace b with (b - d + d)%Qc by ring; rewrite E'; ring].
    + specialize (P4 E'). clear - P1 P4. qc_lra.
  - specialize (P2 E). clear - P2 P3. qc_lra.
Qed.
(** complete data are written *)
Lemma create_facts np_sqrt arcs coords speeds ODs : (forall q, 0 < q -> 0 < np_sqrt q)%Qc -> data_ok arcs coords speeds ->
  exists L s1, create_model np_sqrt arcs coords speeds ODs = Ok (mkNetfile (keys coords) L ODs None, ([VStr "ds1"; VStr "ds2"; VStr "ds3"], [("s1", s1)])) /\
    timed np_sqrt arcs coords speeds L /\ keys L = keys arcs /\ no_parallel false L /\ L <> [] /\ (forall k en, In (k, en) L -> (0 < weight en)%Qc) /\
    keys s1 = keys arcs /\ forall k en, In (k, en) L -> dfind s1 k = Some (delay_values (weight en)).
Proof.
  intros Hq (Ne & N & Hd & Np).
  assert (Hs : forall k v, In k (keys arcs) -> dfind speeds k = Some v -> v <> 0%Qc).
  { intros k v I Ev. apply in_map_iff in I as ([k' a] & <- & I). cbn [fst] in *. destruct (Hd _ _ I) as (_ & _ & v' & _ & _ & _ & E & P). rewrite Ev in E. injection E as <-. apply qc_pos_ne'. auto. }
  destruct (table_cases np_sqrt arcs coords speeds N Hs) as [(L & E & T & _)|(_ & k & a & I & M)].
  2: { exfalso. destruct (Hd k a I) as (p & q & v & E1 & E2 & _ & E3 & _). unfold point in *. destruct M as [M|[M|M]]; congruence. }
  pose proof (timed_keys _ _ _ _ _ T) as KL.
  set (s1 := map (fun ke : string * entry => (fst ke, delay_values (weight (snd ke)))) L).
  exists L, s1. split.
  { unfold create_model, create_model_trans. rewrite E. cbn [bind node_conn_df].
    match goal with |- context [mapM ?g arcs] => assert (Em : mapM g arcs = Ok s1) end; [|rewrite Em; reflexivity].
    assert (NL : NoDup (keys L)) by (rewrite KL; auto). unfold timed in T. unfold s1.
    assert (Y : forall l l', incl l' L -> Forall2 (fun ka ke => fst ke = fst ka /\ origin (snd ke) = fst (snd ka) /\ destination (snd ke) = snd (snd ka) /\
                        takes np_sqrt coords speeds (fst ka) (snd ka) (weight (snd ke))) l l' ->
       mapM (fun ka : string * (string * string) => en <- dget L (fst ka) ;; Ok (fst ka, map (fun x => VNum (x * weight en)%Qc) delay_rate)) l =
       Ok (map (fun ke : string * entry => (fst ke, delay_values (weight (snd ke)))) l')).
    { intros l l' I F. induction F as [|ka [k en] l l' (X & _) F IH]; [reflexivity|]. cbn [mapM fst snd] in *. subst k.
      rewrite (proj2 (dget_ok L (fst ka) en)) by (apply In_dfind; auto; apply I; left; auto). cbn [bind]. rewrite IH by (intros z Hz; apply I; right; auto). reflexivity. }
    apply Y; auto. intros z; auto. }
  split; auto. split; auto. split.
  { intros k en k' en' H H' En. destruct (timed_in np_sqrt arcs coords speeds L k en T H) as (I & _). destruct (timed_in np_sqrt arcs coords speeds L k' en' T H') as (I' & _).
    apply (Np k (origin en, destination en) k' (origin en', destination en')); auto. destruct En as [[-> ->]|(_ & -> & ->)]; auto. }
  split. { intros ->. cbn in KL. destruct arcs; [contradiction|discriminate]. }
  split.
  { intros k en H. destruct (timed_in np_sqrt arcs coords speeds L k en T H) as (I & p & q & v & E1 & E2 & E3 & ->). destruct (Hd _ _ I) as (p' & q' & v' & X1 & X2 & Npq & X3 & P).
    unfold point in *. rewrite E1 in X1. rewrite E2 in X2. rewrite E3 in X3. injection X1 as <-. injection X2 as <-. injection X3 as <-.
    apply qcdiv_pos; auto. apply Hq. apply dist2_pos. auto. }
  split. { unfold s1, keys. rewrite map_map. cbn [fst]. exact KL. }
  intros k en H. apply In_dfind; [unfold s1, keys; rewrite map_map; cbn [fst]; change (NoDup (keys L)); rewrite KL; auto|]. unfold s1. apply in_map_iff. exists (k, en). auto.
Qed.
(** complete data are written, with the three travel times of each arc as scenario *)
Theorem C82_create :
  forall np_sqrt arcs coords speeds ODs, (forall q, 0 < q -> 0 < np_sqrt q)%Qc -> data_ok arcs coords speeds ->
    exists f sc s1, create_model np_sqrt arcs coords speeds ODs = Ok (f, sc) /\ sysout_setup f = ODs /\ component_list f = keys coords /\ graph_type f = None /\
      timed np_sqrt arcs coords speeds (node_conn_df f) /\ dfind (snd sc) "s1" = Some s1 /\ keys s1 = keys arcs /\
      forall k en, In (k, en) (node_conn_df f) -> dfind s1 k = Some (map (fun s => VNum (rate s * weight en)%Qc) [0; 1; 2]).
Proof.
  intros sq arcs coords speeds ODs Hq Hd. destruct (create_facts sq arcs coords speeds ODs Hq Hd) as (L & s1 & E & T & _ & _ & _ & _ & Ks & Hs).
  do 2 eexists. exists s1. split; [exact E|]. repeat (split; auto).
Qed.
Print Assumptions C82_create.
Lemma mapM_build {A B} (f : A -> res B) (P : A -> B -> Prop) l : (forall x, In x l -> exists y, f x = Ok y /\ P x y) -> exists ys, mapM f l = Ok ys /\ Forall2 P l ys.
Proof.
  induction l as [|x l IH]; intros H; [exists []; auto|]. destruct (H x (or_introl eq_refl)) as (y & E & Y). destruct IH as (ys & E' & F); [intros; apply H; right; auto|].
  exists (y :: ys). cbn [mapM]. rewrite E. cbn [bind]. rewrite E'. auto.
Qed.
Lemma road_one nx_path nx_wpath nx_wlen f s1 o d mx : nx_wpath_ok nx_wpath nx_wlen -> NoDup (keys (node_conn_df f)) -> no_parallel false (node_conn_df f) ->
  (forall k en, In (k, en) (node_conn_df f) -> (0 < weight en)%Qc) -> node_conn_df f <> [] -> o <> d -> (exists t, reach false (node_conn_df f) (fun _ => True) o d t) ->
  (forall k en, In (k, en) (node_conn_df f) -> dfind s1 k = Some (delay_values (weight en))) -> 1 <= mx ->
  exists r, get_branches_by_od nx_path nx_wpath nx_wlen (file_graph f false false) (keys (node_conn_df f)) s1 o d mx = Ok r /\
    forall x, In x (delay_states (keys (node_conn_df f))) -> exists i s cs, nth_error (fst r) i = Some (s :: cs) /\
          Forall2 (fun k c => coded (snd r) k c (coord x k)) (keys (node_conn_df f)) cs /\
          (forall j s' cs', nth_error (fst r) j = Some (s' :: cs') -> Forall2 (fun k c => coded (snd r) k c (coord x k)) (keys (node_conn_df f)) cs' -> j = i) /\
          (s = 1 -> ~ slow (node_conn_df f) o d x) /\ (s = 0 -> slow (node_conn_df f) o d x).
Proof.
  intros Hn Hk Hnp Hw Hne Hod Hc Hs Mx. set (L := node_conn_df f) in *. set (G := file_graph f false false). set (V := delay_varis L).
  destruct (t0_ex f Hk Hnp Hw Hne o d Hod Hc nx_wpath nx_wlen Hn) as (t0 & _ & _ & _ & T0 & P0). fold L in T0.
  assert (KV : keys V = keys L) by exact (dV_keys f). assert (SV : space (comps_of V) = delay_states (keys L)) by exact (dV_space f).
  assert (Bi : In (best_of V) (delay_states (keys L))) by exact (best_in f). assert (Bs : delayed L (best_of V) = L) by exact (best_same f Hk).
  assert (Ho : In o (g_nodes G)) by exact (o_node f o d Hod Hc).
  destruct (C58_event_matrix nx_path nx_wpath nx_wlen G (keys L) s1 o d mx t0 V (best_of V)) as (rows & V' & E & _ & H); auto.
  - exact (dG_wf f Hk).
  - intros X. apply Hne. destruct L; [auto|discriminate].
  - assert (X : forall l, incl l L -> Forall2 (fun k kv => exists vs, dfind s1 k = Some vs /\ (1 <= List.length vs <= 6)%nat /\ kv = (k, mk_variable k vs None)) (keys l) (delay_varis l)).
    { induction l as [|[k en] l IH]; intros I; cbn [keys delay_varis map]; constructor; [|apply IH; intros z Hz; apply I; right; auto].
      exists (delay_values (weight en)). split; [apply Hs; apply I; left; auto|]. split; [cbn; lia|auto]. }
    apply X. intros z; auto.
  - exact (dV_times f Hk Hw).
  - rewrite SV. auto.
  - intros k v I. apply dV_in in I as (en & I & ->). change (nvals _) with 3. exact (best_2 f Hk k en I).
  - apply (d_reach f Hk Hnp (best_of V) o d t0 Bi Ho). fold L V. rewrite Bs. apply T0.
  - intros T W. apply (d_within f Hk (best_of V) o d T Bi) in W as (t & -> & R). fold L V in R. rewrite Bs in R. apply T0. auto.
  - exists (rows, V'). split; auto. intros x Hx. cbn [fst snd]. rewrite <- SV in Hx. destruct (H x Hx) as (i & row & s & Er & (cs & -> & F) & U & H1 & H0). rewrite SV in Hx. rewrite KV in F.
    exists i, s, cs. split; auto. split; auto. split.
    { intros j s' cs' Ej F'. apply (U j (s' :: cs') s'); auto. exists cs'. rewrite KV. auto. }
    split; intros Es.
    + intros (t0' & t & T0' & Tx & Lt). apply (tt_fun o d L _ _ T0) in T0'. injection T0' as <-. destruct (H1 Es) as (T & W & Le). apply (d_within f Hk x o d T Hx) in W as (t1 & -> & R). fold L in R.
      destruct Tx as [_ M]. specialize (M t1 R). cbn in Le. rewrite two_t in Lt. clear - M Le Lt. qc_lra.
    + destruct (d_time_ex f Hk Hnp Hw Hne o d Hod Hc nx_wpath nx_wlen Hn x Hx) as (t & _ & _ & _ & Tx). fold L in Tx. exists t0, t. split; auto. split; auto. rewrite two_t.
      destruct (Qclt_le_dec (t0 + t0) t) as [|Le]; auto. destruct (H0 Es). exists (VNum t). split; auto. apply (d_reach f Hk Hnp x o d t Hx Ho). apply Tx.
Qed.
(** The matrices of the road demo: for each pair every vector of states of the arcs is coded by
    exactly one row; in rows of state 1 the trip takes at most twice the time without damage,
    in rows of state 0 longer. *)
Theorem C82_road :
  forall nx_path nx_wpath nx_wlen np_sqrt arcs coords speeds ODs f sc mx,
    nx_wpath_ok nx_wpath nx_wlen -> (forall q, 0 < q -> 0 < np_sqrt q)%Qc -> data_ok arcs coords speeds ->
    create_model np_sqrt arcs coords speeds ODs = Ok (f, sc) ->
    (forall key o d, In (key, (o, d)) ODs -> o <> d /\ exists t, reach false (node_conn_df f) (fun _ => True) o d t) -> 1 <= mx ->
    exists rs, road_main nx_path nx_wpath nx_wlen f sc mx = Ok rs /\
      Forall2 (fun (kod : string * (string * string)) r => fst r = fst kod /\
        forall x, In x (delay_states (keys arcs)) -> exists i s cs, nth_error (fst (snd r)) i = Some (s :: cs) /\
          Forall2 (fun k c => coded (snd (snd r)) k c (coord x k)) (keys arcs) cs /\
          (forall j s' cs', nth_error (fst (snd r)) j = Some (s' :: cs') -> Forall2 (fun k c => coded (snd (snd r)) k c (coord x k)) (keys arcs) cs' -> j = i) /\
          (s = 1 -> ~ slow (node_conn_df f) (fst (snd kod)) (snd (snd kod)) x) /\
          (s = 0 -> slow (node_conn_df f) (fst (snd kod)) (snd (snd kod)) x)) ODs rs.
Proof.
  intros nx_path nx_wpath nx_wlen sq arcs coords speeds ODs f sc mx Hn Hq Hd E Ho Mx.
  destruct (create_facts sq arcs coords speeds ODs Hq Hd) as (L & s1 & E' & T & KL & Np & Ne & Hw & Ks & Hs). rewrite E in E'. injection E' as -> ->. cbn [node_conn_df] in *.
  set (f := mkNetfile (keys coords) L ODs None) in *.
  assert (Hk : NoDup (keys L)) by (rewrite KL; apply Hd).
  unfold road_main. rewrite (read_ok f false false) by (left; auto). cbn [bind fst snd]. cbn [f sysout_setup node_conn_df]. fold f. set (G := file_graph f false false).
  change (dget [("s1", s1)] "s1") with (Ok s1 : res (dict (list value))). cbn [bind]. cbn [f sysout_setup] in Ho |- *. fold f.
  apply mapM_build. intros [key [o d]] I. cbn [fst snd]. destruct (Ho key o d I) as [No Hc].
  destruct (road_one nx_path nx_wpath nx_wlen f s1 o d mx Hn Hk Np Hw Ne No Hc Hs Mx) as (r & Er & Hr). cbn [f node_conn_df] in Er, Hr. fold f G in Er. rewrite KL in Er at 1.
  exists (key, r). rewrite KL. rewrite Er. cbn [bind fst snd]. split; auto. split; auto. rewrite KL in Hr. exact Hr.
Qed.
Print Assumptions C82_road.

(** ** C83: the analysis of delays of the EMA demo *)
Section Ema.
Variables (nx_path : graph -> string -> string -> option (list string)) (nx_wpath : graph -> string -> string -> res (list string)) (nx_wlen : graph -> string -> string -> res value).
Variables (np_sqrt : Qc -> Qc) (arcs : dict (string * string)) (coords : dict (Qc * Qc)) (speeds : dict Qc) (ODs : dict (string * string)) (f : netfile) (sc : scenfile value).
Variables (key o d : string) (pk : list Z) (max_sf : Z).
Definition ema_setting : Prop :=
  nx_wpath_ok nx_wpath nx_wlen /\ (forall q, 0 < q -> 0 < np_sqrt q)%Qc /\ data_ok arcs coords speeds /\ create_model np_sqrt arcs coords speeds ODs = Ok (f, sc) /\
  ~ In "sys" (keys arcs) /\ dfind ODs key = Some (o, d) /\ o <> d /\ (exists t, reach false (node_conn_df f) (fun _ => True) o d t) /\
  List.length pk = List.length arcs /\ (forall c, In c pk -> 0 <= c < 3) /\ 1 <= max_sf.
Lemma ema_use : ema_setting ->
  exists out fa fb n1 n2 low up M,
  ema_main nx_path nx_wpath nx_wlen f sc key pk max_sf = Ok out /\ em_varis out = delay_varis (node_conn_df f) ++ [("sys", sys_var)] /\ snd (em_mon out) = String.append (flag_name fa) (flag_name fb) /\
  last_item (m_pf_low (fst (em_mon out))) = Ok low /\ last_item (m_pf_up (fst (em_mon out))) = Ok up /\
  (forall slowb, (forall x, In x (delay_states (keys arcs)) -> (slowb x = true <-> slow (node_conn_df f) o d x)) ->
     forall i l u, nth_error (m_pf_low (fst (em_mon out))) i = Some l -> nth_error (m_pf_up (fst (em_mon out))) i = Some u ->
       (0 <= l)%Qc /\ (l <= delay_prob (keys arcs) (class_scen (keys arcs) pk) slowb)%Qc /\ (delay_prob (keys arcs) (class_scen (keys arcs) pk) slowb <= u)%Qc /\ (u <= 1)%Qc) /\
  (let q z := compute_prob (em_cpms out) (em_varis out) (keys arcs) "sys" (SI z) true in
     q 0 = Ok (low, M) /\ q 1 = Ok ((1 - up)%Qc, M) /\ q 2 = Ok ((up - low)%Qc, M)) /\
  m_no_sf (fst (em_mon out)) = zrange 0 (Z.of_nat n1 + 1) ++ zrange 0 (Z.of_nat n2 + 1) /\ Z.of_nat n1 <= max_sf /\ Z.of_nat n2 <= max_sf /\
  List.length (m_pf_low (fst (em_mon out))) = (S n1 + S n2)%nat /\ List.length (m_pf_up (fst (em_mon out))) = (S n1 + S n2)%nat /\
  (2 * 3 ^ Z.of_nat (List.length arcs) <= 10000 -> 3 ^ Z.of_nat (List.length arcs) < max_sf -> fa = O_complete /\ fb = O_complete /\ n2 = 0%nat) /\
  (2 * 3 ^ Z.of_nat (List.length arcs) <= 50000 -> fb = O_complete ->
     forall slowb, (forall x, In x (delay_states (keys arcs)) -> (slowb x = true <-> slow (node_conn_df f) o d x)) ->
       low = delay_prob (keys arcs) (class_scen (keys arcs) pk) slowb /\ up = delay_prob (keys arcs) (class_scen (keys arcs) pk) slowb /\
       forall x, In x (delay_states (keys arcs)) -> match_s (em_rules out) x = negb (slowb x) /\ match_f (em_rules out) x = slowb x).
Proof.
  intros (Hn & Hq & Hd & E & Ns & Hkey & Hod & Hc & Hpl & Hpr & Hsf).
  destruct (create_facts np_sqrt arcs coords speeds ODs Hq Hd) as (L & s1 & E' & T & KL & Np & Ne & Hw & Ks & Hs). rewrite E in E'. injection E' as Ef Es.
  assert (EL : node_conn_df f = L) by (rewrite Ef; auto). assert (Eg : graph_type f = None) by (rewrite Ef; auto). assert (Eo : sysout_setup f = ODs) by (rewrite Ef; auto). clear Ef.
  rewrite <- EL in *. clear L EL. assert (Hk : NoDup (keys (node_conn_df f))) by (rewrite KL; apply Hd).
  assert (Ll : List.length (node_conn_df f) = List.length arcs). { rewrite <- (map_length fst arcs), <- (map_length fst (node_conn_df f)). unfold keys in KL. rewrite KL. auto. }
  rewrite <- Ll in *. rewrite <- KL in *.
  destruct (ema_ok nx_path nx_wpath nx_wlen Hn f Hk Np Hw Ne o d Hod Hc pk) with (sc := sc) (s1 := s1) (key := key) (max_sf := max_sf) as (out & fa & fb & n1 & n2 & low & up & M & X); auto.
  - rewrite Hpl. unfold keys. rewrite map_length. auto.
  - rewrite Es. reflexivity.
  - left. auto.
  - rewrite Eo. auto.
  - exists out, fa, fb, n1, n2, low, up, M. exact X.
Qed.

(** With complete data the analysis succeeds; the last bounds of the saved monitor enclose the
    probability that the trip takes more than twice its time, and the saved CPMs give the
    bounds and what is left between them. *)
Theorem C83_bounds :
  forall slowb, ema_setting -> (forall x, In x (delay_states (keys arcs)) -> (slowb x = true <-> slow (node_conn_df f) o d x)) ->
    exists out low up M, ema_main nx_path nx_wpath nx_wlen f sc key pk max_sf = Ok out /\
      last_item (m_pf_low (fst (em_mon out))) = Ok low /\ last_item (m_pf_up (fst (em_mon out))) = Ok up /\
      (0 <= low)%Qc /\ (low <= delay_prob (keys arcs) (class_scen (keys arcs) pk) slowb)%Qc /\
      (delay_prob (keys arcs) (class_scen (keys arcs) pk) slowb <= up)%Qc /\ (up <= 1)%Qc /\
      let q z := compute_prob (em_cpms out) (em_varis out) (keys arcs) "sys" (SI z) true in
      q 0 = Ok (low, M) /\ q 1 = Ok ((1 - up)%Qc, M) /\ q 2 = Ok ((up - low)%Qc, M).
Proof.
  intros slowb Hs Hl. destruct (ema_use Hs) as (out & fa & fb & n1 & n2 & low & up & M & E & _ & _ & El & Eu & B & Q & _ & _ & _ & L1 & L2 & _).
  exists out, low, up, M. split; auto. split; auto. split; auto.
  apply last_item_ok in El as [N1 El]. apply last_item_ok in Eu as [N2 Eu].
  destruct (B slowb Hl (n1 + S n2)%nat low up) as (B1 & B2 & B3 & B4).
  - rewrite <- El. replace (n1 + S n2)%nat with (List.length (m_pf_low (fst (em_mon out))) - 1)%nat by lia. apply nth_last. auto.
  - rewrite <- Eu. replace (n1 + S n2)%nat with (List.length (m_pf_up (fst (em_mon out))) - 1)%nat by lia. apply nth_last. auto.
  - auto 10.
Qed.
(** The joined monitor: all its bounds hold; the numbers of evaluations start again with 0 for
    the second search; the flags are joined to one word. *)
Theorem C83_history :
  forall slowb out, ema_setting -> (forall x, In x (delay_states (keys arcs)) -> (slowb x = true <-> slow (node_conn_df f) o d x)) ->
    ema_main nx_path nx_wpath nx_wlen f sc key pk max_sf = Ok out ->
    let mon := fst (em_mon out) in
    (forall i low up, nth_error (m_pf_low mon) i = Some low -> nth_error (m_pf_up mon) i = Some up ->
       (0 <= low)%Qc /\ (low <= delay_prob (keys arcs) (class_scen (keys arcs) pk) slowb)%Qc /\
       (delay_prob (keys arcs) (class_scen (keys arcs) pk) slowb <= up)%Qc /\ (up <= 1)%Qc) /\
    (exists n1 n2, m_no_sf mon = zrange 0 (Z.of_nat n1 + 1) ++ zrange 0 (Z.of_nat n2 + 1) /\ Z.of_nat n1 <= max_sf /\ Z.of_nat n2 <= max_sf /\
       List.length (m_pf_low mon) = (S n1 + S n2)%nat /\ List.length (m_pf_up mon) = (S n1 + S n2)%nat) /\
    exists a b, snd (em_mon out) = String.append a b /\ In a ["complete"; "max_nb"; "pf_bnd"; "max_rules"; "max_sf"] /\ In b ["complete"; "max_nb"; "pf_bnd"; "max_rules"; "max_sf"].
Proof.
  intros slowb out Hs Hl E. destruct (ema_use Hs) as (out' & fa & fb & n1 & n2 & low & up & M & E' & _ & Ef & _ & _ & B & _ & S1 & S2 & S3 & L1 & L2 & _). rewrite E in E'. injection E' as <-.
  cbv zeta. split; [apply B; auto|]. split; [exists n1, n2; auto|]. exists (flag_name fa), (flag_name fb). split; auto. split; [destruct fa|destruct fb]; cbn; auto 6.
Qed.
(** Networks of up to seven arcs and more evaluations than vectors of states: both searches end
    with "complete", the second evaluates nothing, and the bounds are the probability. *)
Theorem C83_exact :
  forall slowb out, ema_setting -> (forall x, In x (delay_states (keys arcs)) -> (slowb x = true <-> slow (node_conn_df f) o d x)) ->
    ema_main nx_path nx_wpath nx_wlen f sc key pk max_sf = Ok out ->
    2 * 3 ^ Z.of_nat (List.length arcs) <= 10000 -> 3 ^ Z.of_nat (List.length arcs) < max_sf ->
    snd (em_mon out) = "completecomplete" /\ (exists n, m_no_sf (fst (em_mon out)) = zrange 0 (Z.of_nat n + 1) ++ [0]) /\
    last_item (m_pf_low (fst (em_mon out))) = Ok (delay_prob (keys arcs) (class_scen (keys arcs) pk) slowb) /\
    last_item (m_pf_up (fst (em_mon out))) = Ok (delay_prob (keys arcs) (class_scen (keys arcs) pk) slowb) /\
    forall x, In x (delay_states (keys arcs)) -> match_s (em_rules out) x = negb (slowb x) /\ match_f (em_rules out) x = slowb x.
Proof.
  intros slowb out Hs Hl E P1 P2. destruct (ema_use Hs) as (out' & fa & fb & n1 & n2 & low & up & M & E' & _ & Ef & El & Eu & _ & _ & S1 & _ & _ & _ & _ & C1 & C2). rewrite E in E'. injection E' as <-.
  destruct (C1 P1 P2) as (-> & -> & ->). assert (P3 : 2 * 3 ^ Z.of_nat (List.length arcs) <= 50000) by lia. destruct (C2 P3 eq_refl slowb Hl) as (-> & -> & R). split; auto. split; [exists n1; exact S1|]. auto.
Qed.
End Ema.
Print Assumptions C83_bounds.
Print Assumptions C83_history.
Print Assumptions C83_exact.
(** a pair that the file does not have is a KeyError *)
Theorem C83_key :
  forall nx_path nx_wpath nx_wlen f sc key pk max_sf, kind_of (graph_type f) false false -> dfind (sysout_setup f) key = None ->
    ema_main nx_path nx_wpath nx_wlen f sc key pk max_sf = Err KeyError.
Proof.
  intros. unfold ema_main. rewrite (read_ok f false false H). cbn [bind fst snd]. rewrite (proj2 (dget_none _ _) H0). reflexivity.
Qed.
Print Assumptions C83_key.
(** [create_model] of the demo writes the pair 'od1' only, and the default of [main] is 'od2':
    on the file that the demo itself writes, [main] fails unless a pair is given. *)
Theorem C83_default_refuted :
  forall nx_path nx_wpath nx_wlen np_sqrt arcs coords speeds o d f sc pk max_sf, create_model np_sqrt arcs coords speeds [("od1", (o, d))] = Ok (f, sc) ->
    ema_main nx_path nx_wpath nx_wlen f sc "od2" pk max_sf = Err KeyError.
Proof.
  intros until max_sf. unfold create_model, create_model_trans. destruct (get_node_conn_df _ _ _ _) as [L|]; [cbn [bind node_conn_df]|discriminate].
  destruct (mapM _ arcs) as [s1|]; [cbn [bind]|discriminate]. intros E. injection E as <- _. apply C83_key; [left; auto|reflexivity].
Qed.
Print Assumptions C83_default_refuted.

(** ** Examples: a triangle, one side by way of the third node *)
Definition x_arcs : dict (string * string) := [("e1", ("a", "c")); ("e2", ("c", "b")); ("e3", ("a", "b"))].
Definition x_coords : dict (Qc * Qc) := [("a", (qz 0, qz 0)); ("b", (qz 3, qz 4)); ("c", (qz 3, qz 0))].
Definition x_speeds : dict Qc := [("e1", qz 1); ("e2", qz 2); ("e3", qz 1)].
Definition x_ods : dict (string * string) := [("od1", ("a", "b"))].
Definition x_f : netfile := match create_model (ref_root 10) x_arcs x_coords x_speeds x_ods with Ok (f, _) => f | _ => mkNetfile [] [] [] None end.
Definition x_sc : scenfile value := match create_model (ref_root 10) x_arcs x_coords x_speeds x_ods with Ok (_, s) => s | _ => ([], []) end.
Lemma x_data : data_ok x_arcs x_coords x_speeds.
Proof.
  split; [discriminate|]. split; [apply nd_keys_ok; reflexivity|]. split.
  - intros k a H. cbn in H. repeat (destruct H as [H|H]; [injection H as <- <-; do 3 eexists; (split; [reflexivity|]); (split; [reflexivity|]); (split; [discriminate|]); split; reflexivity|]). destruct H.
  - intros k a k' a' H H' E. cbn in H, H'. repeat (destruct H as [H|H]; [injection H as <- <-|]); try destruct H;
      repeat (destruct H' as [H'|H']; [injection H' as <- <-|]); try destruct H'; auto; destruct E as [E|E]; discriminate.
Qed.
Lemma x_root : (forall q, 0 < q -> 0 < ref_root 10 q)%Qc.
Proof. intros q H. apply ref_root_pos; [lia|auto]. Qed.
Lemma x_np : no_parallel false (node_conn_df x_f).
Proof.
  destruct (create_facts (ref_root 10) x_arcs x_coords x_speeds x_ods x_root x_data) as (L & s1 & E & T & KL & Np & _). unfold x_f. rewrite E. exact Np.
Qed.
Lemma x_w : forall k en, In (k, en) (node_conn_df x_f) -> (0 < weight en)%Qc.
Proof.
  destruct (create_facts (ref_root 10) x_arcs x_coords x_speeds x_ods x_root x_data) as (L & s1 & E & T & KL & Np & _ & Hw & _). unfold x_f. rewrite E. exact Hw.
Qed.
Lemma x_keys : NoDup (keys (node_conn_df x_f)).
Proof. apply nd_keys_ok. vm_compute. reflexivity. Qed.
Lemma x_reach : exists t, reach false (node_conn_df x_f) (fun _ => True) "a" "b" t.
Proof.
  destruct (node_conn_df x_f) as [|[k1 e1] [|[k2 e2] [|[k3 e3] [|]]]] eqn:E; vm_compute in E; try discriminate.
  eexists. exists ["a"; "b"], [k3]. split; [|auto]. eapply route_cons; [right; right; left; reflexivity| |constructor]. injection E as <- <- <- <- <- <-. left. auto.
Qed.
(** both ways must be slow: the direct one damaged most, and one arc of the other too *)
Definition x_slow (x : dict Z) : bool := (coord x "e3" =? 0) && ((coord x "e1" =? 0) || (coord x "e2" =? 0)).
Lemma x_slow_ok : forall x, In x (delay_states (keys x_arcs)) -> (x_slow x = true <-> slow (node_conn_df x_f) "a" "b" x).
Proof.
  assert (Ne : node_conn_df x_f <> []) by (vm_compute; discriminate). assert (Nab : "a" <> "b") by discriminate.
  destruct (t0_ex x_f x_keys x_np x_w Ne "a" "b" Nab x_reach bf_wpath bf_wlen bf_wpath_ok) as (t0 & p0 & es0 & E0 & T0 & _).
  assert (This : this t0 = 5%Q) by (vm_compute in E0; injection E0 as <- _ _; reflexivity). clear E0 p0 es0.
  intros x Hx. assert (Hx' : In x (delay_states (keys (node_conn_df x_f)))) by (replace (keys (node_conn_df x_f)) with (keys x_arcs) by (vm_compute; reflexivity); auto).
  destruct (d_time_ex x_f x_keys x_np x_w Ne "a" "b" Nab x_reach bf_wpath bf_wlen bf_wpath_ok x Hx') as (t & p & es & E & T).
  assert (S : slow (node_conn_df x_f) "a" "b" x <-> (t0 + t0 < t)%Qc).
  { split.
    - intros (t0' & t' & T0' & T' & Lt). apply (tt_fun _ _ _ _ _ T0) in T0'. injection T0' as <-. apply (tt_fun _ _ _ _ _ T) in T'. injection T' as <-. rewrite <- two_t. auto.
    - intros Lt. exists t0, t. rewrite two_t. auto. }
  rewrite S. clear S T T0. rewrite <- qc_ltb_lt. assert (E10 : (t0 + t0)%Qc = qz 10) by (apply Qc_is_canon; rewrite qc_this_plus, This; reflexivity); rewrite E10.
  vm_compute in Hx. repeat (destruct Hx as [<-|Hx]; [vm_compute in E; injection E as <- _ _; vm_compute; tauto|]). destruct Hx.
Qed.
Example C82_ex :
  data_ok x_arcs x_coords x_speeds /\ (forall q, 0 < q -> 0 < ref_root 10 q)%Qc /\ NoDup (keys x_arcs) /\
  (exists L, get_node_conn_df (ref_root 10) x_arcs x_coords x_speeds = Ok L /\ timed (ref_root 10) x_arcs x_coords x_speeds L /\
     map (fun ke => (fst ke, origin (snd ke), destination (snd ke), this (weight (snd ke)))) L = [("e1", "a", "c", 3%Q); ("e2", "c", "b", 2%Q); ("e3", "a", "b", 5%Q)]) /\
  create_model (ref_root 10) x_arcs x_coords x_speeds x_ods = Ok (x_f, x_sc) /\
  create_model_trans (ref_root 10) x_arcs x_coords (removelast x_speeds) x_ods = Err KeyError /\
  create_model_trans (ref_root 10) x_arcs (removelast x_coords) x_speeds x_ods = Err KeyError /\
  (forall k a, In (k, a) x_arcs -> In (fst a) (keys x_coords) /\ In (snd a) (keys x_coords)) /\
  (exists G L, read_model (create_model_graph x_arcs x_coords x_ods) = Ok (G, L, x_ods) /\ map (fun e => (e_src e, e_dst e, e_weight e)) (g_edges G) =
     [("a", "c", Some (VNum 1%Qc)); ("c", "b", Some (VNum 1%Qc)); ("a", "b", Some (VNum 1%Qc))]).
Proof.
  split; [apply x_data|]. split; [apply x_root|]. split; [apply x_data|]. split.
  { assert (Hs : forall k v, In k (keys x_arcs) -> dfind x_speeds k = Some v -> v <> 0%Qc).
    { intros k v I E. cbn in I. repeat (destruct I as [<-|I]; [injection E as <-; discriminate|]). destruct I. }
    destruct (table_cases (ref_root 10) x_arcs x_coords x_speeds (proj1 (proj2 x_data)) Hs) as [(L & E & T & _)|(E & _)]; [|vm_compute in E; discriminate].
    exists L. split; auto. split; auto. vm_compute in E. injection E as <-. reflexivity. }
  split. { destruct (create_facts (ref_root 10) x_arcs x_coords x_speeds x_ods x_root x_data) as (L & s1 & E & _). unfold x_f, x_sc. rewrite E. reflexivity. }
  split; [vm_compute; reflexivity|]. split; [vm_compute; reflexivity|]. split.
  { intros k a H. cbn in H. repeat (destruct H as [H|H]; [injection H as <- <-; cbn; auto|]). destruct H. }
  do 2 eexists. split; reflexivity.
Qed.
Definition x_cdf (x s m : Qc) : Qc := if qc_ltb x m then 0%Qc else if qc_ltb (m + s)%Qc x then 1%Qc else Q2Qc (1 # 4).
Example C82_frag_ex :
  (forall x s m, 0 <= x_cdf x s m /\ x_cdf x s m <= 1)%Qc /\
  create_scenario_frag x_cdf [VStr "fail"; VStr "surv"] [("e1", ("a", "c")); ("e2", ("c", "b"))] [("e1", "t1"); ("e2", "t2")] [("t1", (qz 1, qz 3)); ("t2", (qz 1, qz 4))] [("e1", qz 3); ("e2", qz 3)] =
    Ok ([VStr "fail"; VStr "surv"], [("s1", [("e1", [Q2Qc (1 # 4); (1 - Q2Qc (1 # 4))%Qc]); ("e2", [0%Qc; (1 - 0)%Qc])])]) /\
  create_scenario_frag x_cdf [] [("e1", ("a", "c"))] [("e1", "t3")] [("t1", (qz 1, qz 3))] [("e1", qz 3)] = Err KeyError.
Proof.
  split; [|split; reflexivity]. intros x s m. unfold x_cdf. destruct (qc_ltb x m); [split; discriminate|]. destruct (qc_ltb _ _); split; discriminate.
Qed.
Example C82_road_ex :
  nx_wpath_ok bf_wpath bf_wlen /\ create_model (ref_root 10) x_arcs x_coords x_speeds x_ods = Ok (x_f, x_sc) /\
  (forall key o d, In (key, (o, d)) x_ods -> o <> d /\ exists t, reach false (node_conn_df x_f) (fun _ => True) o d t) /\
  (exists rs, road_main bf_path bf_wpath bf_wlen x_f x_sc 1000 = Ok rs /\ map (fun r => (fst r, fst (snd r))) rs = [("od1", [[1; 6; 6; 5]; [0; 5; 0; 0]; [1; 5; 5; 0]; [0; 0; 6; 0]])]).
Proof.
  split; [apply bf_wpath_ok|]. split; [apply C82_ex|]. split.
  { intros key o d [H|[]]. injection H as <- <- <-. split; [discriminate|apply x_reach]. }
  eexists. split; [vm_compute; reflexivity|reflexivity].
Qed.
Example C83_ex :
  ema_setting bf_wpath bf_wlen (ref_root 10) x_arcs x_coords x_speeds x_ods x_f x_sc "od1" "a" "b" [0; 1; 2] 100 /\
  (forall x, In x (delay_states (keys x_arcs)) -> (x_slow x = true <-> slow (node_conn_df x_f) "a" "b" x)) /\
  2 * 3 ^ Z.of_nat (List.length x_arcs) <= 10000 /\ 3 ^ Z.of_nat (List.length x_arcs) < 100 /\
  (exists out, ema_main bf_path bf_wpath bf_wlen x_f x_sc "od1" [0; 1; 2] 100 = Ok out /\
     this (delay_prob (keys x_arcs) (class_scen (keys x_arcs) [0; 1; 2]) x_slow) = (1191 # 500000)%Q /\
     map this (m_pf_low (fst (em_mon out))) = [0; 0; 0; 0; 0; 0; 9 # 5000; 1191 # 500000; 1191 # 500000; 1191 # 500000]%Q /\
     m_no_sf (fst (em_mon out)) = [0; 1; 2; 3; 4; 5; 6; 7; 8; 0] /\ snd (em_mon out) = "completecomplete") /\
  (exists out, ema_main bf_path bf_wpath bf_wlen x_f x_sc "od1" [0; 1; 2] 5 = Ok out /\
     m_no_sf (fst (em_mon out)) = [0; 1; 2; 3; 4; 5; 0; 1; 2; 3] /\ snd (em_mon out) = "max_sfcomplete") /\
  ema_main bf_path bf_wpath bf_wlen x_f x_sc "od2" [0; 1; 2] 100 = Err KeyError.
Proof.
  split. { split; [apply bf_wpath_ok|]. split; [apply x_root|]. split; [apply x_data|]. split; [apply C82_ex|]. split; [cbn; intros H; repeat (destruct H as [H|H]; [discriminate|]); destruct H|].
    split; [reflexivity|]. split; [discriminate|]. split; [apply x_reach|]. split; [reflexivity|]. split; [|lia]. intros c H. cbn in H. lia. }
  split; [apply x_slow_ok|]. split; [vm_compute; discriminate|]. split; [vm_compute; reflexivity|]. split.
  { eexists. split; [vm_compute; reflexivity|]. split; [vm_compute; reflexivity|]. repeat (split; [vm_compute; reflexivity|]). reflexivity. }
  split. { eexists. split; [vm_compute; reflexivity|]. split; vm_compute; reflexivity. }
  vm_compute. reflexivity.
Qed.
