(** Proofs about the failure map. *)
From Coq Require Import ZArith List String Bool Arith QArith Qcanon Lia Permutation.
From Verif Require Import Py PyFacts Num Vari VariFacts Brc SpecBrc BrcFacts BrcMain BrcProper Cpm SpecCpm Model ModelFacts Bnb SpecBnb Trans SpecTrans TransFacts NetSys.
From Verif Require Import Config SpecConfig ConfigFacts ConfigSetup PfMap SpecMap PfMapGeom PfMapFacts PropBrc PropBrc2 PropModel PropTrans.
Import ListNotations.
Open Scope string_scope.
Open Scope Z_scope.
Open Scope list_scope.

Section Map.
Variables (np_sqrt : Qc -> Qc) (nx_multi : graph -> list string -> string -> res (value * list string)).
Hypothesis Hnx : nx_multi_ok nx_multi.
Hypothesis Hroot : forall a, (0 < a)%Qc -> (0 < np_sqrt a)%Qc.
Variable f : mapfile.
Hypothesis Hf : map_ok f.
Hypothesis Hends : forall k r, In (k, r) (pm_roads f) ->
  exists a b, dfind (pm_nodes f) (r_from r) = Some a /\ dfind (pm_nodes f) (r_to r) = Some b /\ a <> b.

Let L := timed_roads np_sqrt f.
Let G := file_graph (pm_net f) false false.
Definition map_varis : dict variable :=
  map (fun kr => (fst kr, mk_variable (fst kr) [VInf; VNum (road_time np_sqrt f (snd kr))] None)) (pm_roads f).
Let V := map_varis.
Let K := keys (pm_roads f).

Lemma net_keys : keys (node_conn_df (pm_net f)) = K.
Proof. unfold pm_net, keys. cbn [node_conn_df]. rewrite map_map. reflexivity. Qed.
Lemma L_keys : keys L = K.
Proof. unfold L, timed_roads, keys. rewrite map_map. reflexivity. Qed.
Lemma V_keys : keys V = K.
Proof. unfold V, map_varis, keys. rewrite map_map. reflexivity. Qed.
Lemma K_nodup : NoDup K.
Proof. apply Hf. Qed.
Lemma net_in k en : In (k, en) (node_conn_df (pm_net f)) -> exists r, In (k, r) (pm_roads f) /\ en = mkEntry (r_from r) (r_to r) (r_weight r).
Proof. cbn [pm_net node_conn_df]. intros H. apply in_map_iff in H as ([k' r] & E & I). injection E as <- <-. eauto. Qed.
Lemma in_net k r : In (k, r) (pm_roads f) -> In (k, mkEntry (r_from r) (r_to r) (r_weight r)) (node_conn_df (pm_net f)).
Proof. intros H. cbn [pm_net node_conn_df]. apply in_map_iff. exists (k, r). auto. Qed.
Lemma L_in k en : In (k, en) L -> exists r, In (k, r) (pm_roads f) /\ en = mkEntry (r_from r) (r_to r) (road_time np_sqrt f r).
Proof. intros H. apply in_map_iff in H as ([k' r] & E & I). injection E as <- <-. eauto. Qed.
Lemma in_L k r : In (k, r) (pm_roads f) -> In (k, mkEntry (r_from r) (r_to r) (road_time np_sqrt f r)) L.
Proof. intros H. apply in_map_iff. exists (k, r). auto. Qed.
Lemma net_np : no_parallel false (node_conn_df (pm_net f)).
Proof.
  intros k en k' en' H H' E. apply net_in in H as (r & I & ->). apply net_in in H' as (r' & I' & ->). cbn [origin destination] in E.
  destruct Hf as (_ & _ & _ & _ & U & _). symmetry. apply (U k r k' r' I I'). destruct E as [[E1 E2]|(_ & E1 & E2)]; cbn [origin destination] in *; auto.
Qed.
Lemma G_wf : wf_graph G.
Proof. apply file_wf. rewrite net_keys. apply K_nodup. Qed.
Lemma G_node n : In n (keys (pm_nodes f)) -> In n (g_nodes G).
Proof. intros H. apply file_nodes. left. exact H. Qed.
Lemma road_pos k r : In (k, r) (pm_roads f) -> (0 < road_time np_sqrt f r)%Qc.
Proof.
  intros H. destruct (Hends k r H) as (a & b & Ea & Eb & N). unfold road_time. rewrite Ea, Eb.
  assert (D : (0 < dist2 a b)%Qc).
  { apply qc_pos_ne; [apply qc_sq2_pos|]. intros E. apply qc_sum_sq in E as [E1 E2]. apply N. destruct a as [a1 a2], b as [b1 b2]. cbn [fst snd] in *.
    f_equal; [replace a1 with (a1 - b1 + b1)%Qc by ring; rewrite E1|replace a2 with (a2 - b2 + b2)%Qc by ring; rewrite E2]; ring. }
  apply Hroot in D. unfold Qcdiv. apply qc_mult_pos; auto. vm_compute. reflexivity.
Qed.
Lemma V_find k r : In (k, r) (pm_roads f) -> dfind V k = Some (mk_variable k [VInf; VNum (road_time np_sqrt f r)] None).
Proof.
  intros H. apply In_dfind; [rewrite V_keys; apply K_nodup|]. unfold V, map_varis. apply in_map_iff. exists (k, r). auto.
Qed.
Lemma V_in k v : In (k, v) V -> exists r, In (k, r) (pm_roads f) /\ v = mk_variable k [VInf; VNum (road_time np_sqrt f r)] None.
Proof. intros H. apply in_map_iff in H as ([k' r] & E & I). injection E as <- <-. eauto. Qed.
Lemma V_wf : wf_varis V.
Proof. split; [rewrite V_keys; apply K_nodup|]. intros k v H. apply V_in in H as (r & _ & ->). cbn. lia. Qed.
Lemma V_ne : V <> [].
Proof. destruct Hf as (_ & _ & _ & N & _). unfold V, map_varis. destruct (pm_roads f); [contradiction|discriminate]. Qed.
Lemma V_comps : comps_of V = map (fun k => (k, 2)) K.
Proof. unfold V, map_varis, comps_of, K, keys. rewrite !map_map. reflexivity. Qed.
Lemma V_space : space (comps_of V) = arc_states K.
Proof. rewrite V_comps. reflexivity. Qed.
Lemma G_edge e a b : In e (g_edges G) -> leads G e a b -> exists k r, e_label e = Some k /\ In (k, r) (pm_roads f) /\
  ends false (mkEntry (r_from r) (r_to r) (road_time np_sqrt f r)) a b.
Proof.
  intros He Hl. destruct (edge_entry (pm_net f) false e a b He Hl) as (k & en & E1 & _ & E3 & E4).
  apply net_in in E3 as (r & I & ->). exists k, r. split; auto.
Qed.
Lemma V_times : times_ok G V.
Proof.
  intros e l He El. destruct (G_edge e (e_src e) (e_dst e) He) as (k & r & E & I & _); [left; auto|]. rewrite E in El. injection El as ->.
  exists (mk_variable l [VInf; VNum (road_time np_sqrt f r)] None). split; [apply V_find; auto|]. pose proof (road_pos l r I) as P. cbn [v_values mk_variable].
  split.
  - intros w [<-|[<-|[]]]; cbn; auto. apply Qclt_le_weak; auto.
  - intros [|[|i]] [|[|j]] wi wj Hij Hi Hj; cbn in Hi, Hj; try (destruct i; discriminate); try (destruct j; discriminate); try lia;
      injection Hi as <-; injection Hj as <-; cbn; auto. apply Qcle_refl.
Qed.

(** * Routes *)
Lemma state_01 x k : In x (arc_states K) -> In k K -> dfind x k = Some 0 \/ dfind x k = Some 1.
Proof.
  intros Hx Hk. rewrite <- V_space in Hx. destruct (space_states V x V_wf Hx) as [[_ S] _]. apply in_map_iff in Hk as ([k' r] & <- & I). cbn [fst].
  destruct (S k' (mk_variable k' [VInf; VNum (road_time np_sqrt f r)] None)) as (s & -> & R); [unfold V, map_varis; apply in_map_iff; exists (k', r); auto|].
  cbn in R. assert (s = 0 \/ s = 1) as [-> | ->] by lia; auto.
Qed.
Lemma time_of x k r : In x (arc_states K) -> In (k, r) (pm_roads f) ->
  edge_time V x k = if Z.eqb (coord x k) 1 then VNum (road_time np_sqrt f r) else VInf.
Proof.
  intros Hx Hk. unfold edge_time. rewrite (V_find k r Hk). unfold coord. destruct (state_01 x k Hx) as [-> | ->]; auto. apply (In_keys _ _ _ Hk).
Qed.
Lemma within_reach x a b t : In x (arc_states K) -> within G (edge_time V x) a b (VNum t) -> reach false L (fun k => dfind x k = Some 1) a b t.
Proof.
  intros Hx W. remember (VNum t) as T eqn:ET. revert t ET. induction W as [a Ha|a b c e l T Ha He Hl El W IH]; intros t ET.
  - injection ET as <-. exists [a], []. split; [constructor|intros k []].
  - destruct (G_edge e a b He Hl) as (k & r & Ek & I & En). rewrite El in Ek. injection Ek as <-.
    rewrite (time_of x l r Hx I) in ET. destruct (Z.eqb_spec (coord x l) 1) as [C|C]; [|discriminate].
    destruct T as [t'| |]; try discriminate. cbn in ET. injection ET as <-. destruct (IH t' eq_refl) as (ns & ks & R & U).
    exists (a :: ns), (l :: ks). split.
    + apply (route_cons false L a b c l (mkEntry (r_from r) (r_to r) (road_time np_sqrt f r))); auto. apply in_L. auto.
    + intros k [<-|Hk]; auto. unfold coord in C. destruct (dfind x l); [congruence|discriminate].
Qed.
Lemma reach_within x a b t : In x (arc_states K) -> In a (g_nodes G) -> reach false L (fun k => dfind x k = Some 1) a b t ->
  within G (edge_time V x) a b (VNum t).
Proof.
  intros Hx Ha (ns & ks & R & U). revert Ha U. induction R as [a|a b c k en ns ks t I En R IH]; intros Ha U; [constructor; auto|].
  apply L_in in I as (r & I & ->).
  destruct (entry_edge_ex (pm_net f) false) with (k := k) (en := mkEntry (r_from r) (r_to r) (r_weight r)) (a := a) (b := b) as (e & He & Hl & El & _).
  { rewrite net_keys. apply K_nodup. } { apply net_np. } { apply in_net; auto. } { exact En. }
  cbn [weight]. replace (VNum (road_time np_sqrt f r + t)) with (t_add (edge_time V x k) (VNum t)).
  - apply (wi_step G _ a b c e k); auto. apply IH; [|intros k' H; apply U; right; auto]. unfold G.
    apply (node_of (pm_net f) false k (mkEntry (r_from r) (r_to r) (r_weight r)) a b); [apply in_net; auto|exact En].
  - rewrite (time_of x k r Hx I). unfold coord. rewrite (U k) by (left; auto). reflexivity.
Qed.
Lemma route_time_pos a ns ks t b : route false L a ns ks t b -> a <> b -> (0 < t)%Qc.
Proof.
  intros R. assert (P : forall a ns ks t b, route false L a ns ks t b -> (0 <= t)%Qc).
  { clear - Hroot Hends. induction 1 as [|a b c k en ns ks t I En R IH]; [apply Qcle_refl|]. apply L_in in I as (r & I & ->).
    pose proof (road_pos k r I). cbn [weight]. qc_lra. }
  destruct R as [a|a b c k en ns ks t I En R]; intros N; [contradiction|]. apply L_in in I as (r & I & ->).
  pose proof (road_pos k r I). specialize (P _ _ _ _ _ R). cbn [weight]. qc_lra.
Qed.
Lemma route_in a ns ks t b : route false L a ns ks t b -> incl ks K.
Proof. induction 1 as [|a b c k en ns ks t I En R IH]; [intros x []|]. intros x [<-|H]; auto. rewrite <- L_keys. apply (In_keys _ _ _ I). Qed.

(** all roads intact *)
Definition intact : dict Z := map (fun kv => (fst kv, nvals (snd kv) - 1)) V.
Lemma intact_in : In intact (arc_states K).
Proof.
  unfold intact, V, map_varis. rewrite map_map. unfold K, keys. clear. cbn [fst snd]. induction (pm_roads f) as [|[k r] l IH]; cbn; auto.
  apply in_app_iff. right. rewrite app_nil_r. apply in_map. exact IH.
Qed.
Lemma intact_1 k : In k K -> dfind intact k = Some 1.
Proof.
  intros H. apply In_dfind.
  - unfold intact, keys. rewrite map_map. cbn [fst]. change (NoDup (keys V)). rewrite V_keys. apply K_nodup.
  - apply in_map_iff in H as ([k' r] & <- & I). unfold intact, V, map_varis. rewrite map_map. apply in_map_iff. exists (k', r). auto.
Qed.
Lemma intact_reach a b t : reach false L (fun k => dfind intact k = Some 1) a b t <-> reach false L (fun _ => True) a b t.
Proof.
  split; intros (ns & ks & R & U); exists ns, ks; split; auto. intros k H. apply intact_1. apply (route_in _ _ _ _ _ R). auto.
Qed.

Variable n : string.
Hypothesis Hn : In n (keys (pm_nodes f)).
Hypothesis Hno : ~ In n (pm_origins f).
Let ds := pm_origins f.

Lemma ds_ok : ds <> [] /\ incl ds (g_nodes G).
Proof. destruct Hf as (_ & _ & _ & _ & _ & N & I & _). split; auto. intros d Hd. apply G_node, I. auto. Qed.
Lemma nearest_of x T : In x (arc_states K) ->
  ((exists d, In d ds /\ within G (edge_time V x) n d T) \/ (T = VInf /\ forall d T', In d ds -> ~ within G (edge_time V x) n d T')) ->
  (forall d T', In d ds -> within G (edge_time V x) n d T' -> t_le T T') -> nearest L (fun k => dfind x k = Some 1) n ds T.
Proof.
  intros Hx H M. destruct T as [t| |].
  - destruct H as [(d & Id & W)|[E _]]; [|discriminate]. split; [exists d; split; auto; apply within_reach; auto|].
    intros d' t' Id' R. apply reach_within in R; auto; [|apply G_node; auto]. apply (M d' (VNum t') Id' R).
  - intros d t Id R. apply reach_within in R; auto; [|apply G_node; auto]. destruct (M d (VNum t) Id R).
  - destruct H as [(d & Id & W)|[E _]]; [|discriminate]. exfalso.
    assert (W' := within_pos G V V_times x n d _ (proj1 (space_states V x V_wf ltac:(rewrite V_space; auto))) W). exact W'.
Qed.
Lemma nearest_fun up v v' : nearest L up n ds v -> nearest L up n ds v' -> v = v'.
Proof.
  destruct v as [t| |], v' as [t'| |]; cbn [nearest]; try tauto.
  - intros [(d & I & R) M] [(d' & I' & R') M']. f_equal. apply Qcle_antisym; eauto.
  - intros [(d & I & R) _] N. destruct (N d t I R).
  - intros N [(d & I & R) _]. destruct (N d t' I R).
Qed.
Lemma nearest_intact v : nearest L (fun k => dfind intact k = Some 1) n ds v <-> nearest L (fun _ => True) n ds v.
Proof.
  destruct v as [t| |]; cbn [nearest]; [| |tauto].
  - split; intros [(d & I & R) M]; (split; [exists d; split; auto; apply intact_reach; auto|]); intros d' t' I' R'; apply (M d' t' I'); apply intact_reach; auto.
  - split; intros N d t I R; apply (N d t I); apply intact_reach; auto.
Qed.

Lemma time_ex x : In x (arc_states K) -> exists T p es, get_time_and_path_multi_dest nx_multi x G n ds V = Ok (T, p, es) /\ nearest L (fun k => dfind x k = Some 1) n ds T.
Proof.
  intros Hx. assert (Hx' : In x (space (comps_of V))) by (rewrite V_space; auto). destruct (space_states V x V_wf Hx') as [Sx Kx].
  destruct ds_ok as [D1 D2].
  destruct (sf_multi G G_wf eq_refl eq_refl V V_times nx_multi Hnx x n ds 1%Qc Sx Kx V_ne) as (T & s & m & E & W & M & _); auto; [discriminate|discriminate|].
  unfold sf_min_path_multi in E. cbn [truthy] in E. replace (qc_eqb 1 0) with false in E by reflexivity. cbn [negb] in E.
  destruct (get_time_and_path_multi_dest nx_multi x G n ds V) as [[[T' p] es]|]; [|discriminate]. cbn [bind] in E. unfold min_comps in E.
  injection E as -> _ _. exists T, p, es. split; auto. apply nearest_of; auto.
Qed.

Definition node_sys (T0 : value) : sysfun := as_sysfun (fun x => sf_min_path_multi nx_multi x G n ds V (Some (t_times (pm_thres f) T0))).

Lemma node_ok T0 lateb : nearest L (fun _ => True) n ds T0 ->
  (forall x, In x (arc_states K) -> (lateb x = true <-> late L (pm_thres f) ds n x)) ->
  sys_ok V (fun x => negb (lateb x)) (node_sys T0).
Proof.
  intros N0 Hl. destruct ds_ok as [D1 D2]. assert (Pt : (0 < pm_thres f)%Qc) by apply Hf. destruct T0 as [t0| |]; [| |destruct N0].
  - assert (P0 : (0 < t0)%Qc). { destruct N0 as [(d & I & ns & ks & R & _) _]. apply (route_time_pos _ _ _ _ _ R). intros ->. contradiction. }
    assert (P : (0 < pm_thres f * t0)%Qc) by (apply qc_mult_pos; auto).
    apply multi_sys_ok; auto; try apply G_wf; try apply V_wf; try apply V_times; try apply V_ne.
    + intros E. rewrite E in P. apply (Qclt_not_eq _ _ P). auto.
    + apply Qclt_le_weak; auto.
    + intros x Hx. rewrite V_space in Hx. destruct (time_ex x Hx) as (T & _ & _ & _ & N). split.
      * intros Hp. apply negb_true_iff in Hp. destruct T as [t| |]; [| |destruct N].
        -- destruct (Qclt_le_dec (pm_thres f * t0)%Qc t) as [Lt|Le].
           ++ exfalso. assert (X : late L (pm_thres f) ds n x).
              { exists t0. split; auto. intros v Hv. rewrite (nearest_fun _ _ _ Hv N). cbn. apply Qclt_not_le. auto. }
              apply Hl in X; auto. congruence.
           ++ destruct N as [(d & I & R) _]. exists d, (VNum t). split; auto. split; auto. apply reach_within; auto. apply G_node; auto.
        -- exfalso. assert (X : late L (pm_thres f) ds n x). { exists t0. split; auto. intros v Hv. rewrite (nearest_fun _ _ _ Hv N). cbn. auto. }
           apply Hl in X; auto. congruence.
      * intros (d & T' & I & W & Le). apply negb_true_iff. destruct (lateb x) eqn:Lb; auto. apply Hl in Lb as (t0' & N0' & X); auto.
        assert (E := nearest_fun _ _ _ N0 N0'). injection E as <-. exfalso. apply (X T N). destruct T' as [t'| |]; try contradiction.
        apply within_reach in W; auto. destruct T as [t| |]; [|destruct (N d t' I W)|destruct N].
        apply Qcle_trans with t'; auto. apply (proj2 N d t' I W).
  - apply net_sys_ok; [apply V_wf|]. intros x Hx. assert (Hx' := Hx). rewrite V_space in Hx'. destruct (space_states V x V_wf Hx) as [Sx Kx].
    destruct (sf_multi G G_wf eq_refl eq_refl V V_times nx_multi Hnx x n ds 1%Qc Sx Kx V_ne) as (T & s & m & E & W & M & _); auto; [discriminate|discriminate|].
    assert (NW : forall p d, In d ds -> ~ walk G d p n).
    { intros p d I Wk. apply walk_rev in Wk; auto.
      assert (R : exists t, reach false L (fun _ => True) n d t).
      { clear - Wk. induction Wk as [a Ha|a b c e q Ha He Hle Wk (t & ns & ks & R & _)].
        - exists 0%Qc, [a], []. split; [constructor|auto].
        - destruct (G_edge e a b He Hle) as (k & r & _ & I & En). eexists _, (a :: ns), (k :: ks). split; auto. eapply route_cons; [apply in_L; exact I|exact En|exact R]. }
      destruct R as [t R]. apply (N0 d t I R). }
    unfold sf_min_path_multi in *. cbn [truthy] in E. replace (qc_eqb 1 0) with false in E by reflexivity. cbn [negb] in E.
    cbn [t_times truthy].
    unfold get_time_and_path_multi_dest in *. rewrite allM_states2 in * by auto. cbn [bind] in *. change (g_dir G) with false in *.
    assert (UG : update_G G x V = Ok (wgraph G V x)).
    { rewrite <- (update_weights_ok G G_wf eq_refl V V_times x) by auto. unfold update_G. pose proof V_ne as NV. destruct V; [contradiction|auto]. }
    rewrite UG. cbn [bind]. assert (C := Hnx (wgraph G V x) ds n (good_w G G_wf V V_times x Sx) D1 D2).
    destruct (nx_multi (wgraph G V x) ds n) as [[T' p]|er].
    + exfalso. destruct C as ((d & Id & Wk) & _). apply (NW p d Id). clear - Wk. induction Wk as [a Ha|a b c e q Ha He Hle Wk IH]; [constructor; auto|].
      cbn [wgraph g_edges] in He. apply in_map_iff in He as (e0 & <- & He). apply (walk_cons G a b c e0 q); auto.
    + destruct C as [-> _]. exists (Some VInf), S_, []. split; [reflexivity|]. split; [constructor|]. split; [discriminate|]. left. split; auto.
      assert (NL : forall y, In y (arc_states K) -> lateb y = false).
      { intros y Hy. destruct (lateb y) eqn:Lb; auto. apply Hl in Lb as (t0 & [(d & I & R) _] & _); auto. destruct (N0 d t0 I R). }
      split; [rewrite NL; auto|]. intros y Hy _. rewrite V_space in Hy. rewrite NL; auto.
Qed.
End Map.
