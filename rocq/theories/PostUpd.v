(** The evaluations that follow the failure map: masses of the stored branches under any weights,
    and the update with new probabilities. *)
From Coq Require Import ZArith List String Bool Arith QArith Qcanon Lia Permutation.
From Verif Require Import Py PyFacts Num Vari VariFacts Brc SpecBrc BrcFacts BrcDecomp BrcProb BrcRun BrcMisc BrcMain BrcProper.
From Verif Require Import Cpm SpecCpm CpmFacts CpmMarg CpmSum CpmCond CpmElim CpmProb Model ModelFacts SysEvent SysJoint MsysProd SpecProd PropProd SysProd.
From Verif Require Import Bnb SpecBnb Trans SpecTrans TransFacts NetSys Config SpecConfig ConfigFacts ConfigSetup.
From Verif Require Import PfMap SpecMap PfMapGeom PfMapFacts PfMapMain PfMapRun PfMapTable PropBrc PropBrc2 PropModel PropTrans PostMap TwoNet PostRun.
Import ListNotations.
Open Scope string_scope.
Open Scope Z_scope.
Open Scope list_scope.

(** * Weights of branches that part the states *)
Section Weights.
Context {X : Type} (sp : list X) (w : X -> Qc) (brs : list branch) (inb : branch -> X -> bool).
Context (Hpart : forall x, In x sp -> List.length (filter (fun b => inb b x) brs) = 1%nat).
Definition wt (E : X -> bool) : Qc := qsum (map w (filter E sp)).
Lemma one_sum (P : branch -> bool) x c : In x sp ->
  qsum (map (fun b => if P b then if inb b x then c else 0%Qc else 0%Qc) brs) = if existsb (fun b => P b && inb b x) brs then c else 0%Qc.
Proof.
  intros Hx. specialize (Hpart x Hx). clear Hx.
  assert (Z : forall l, filter (fun b => inb b x) l = [] -> qsum (map (fun b => if P b then if inb b x then c else 0%Qc else 0%Qc) l) = 0%Qc /\ existsb (fun b => P b && inb b x) l = false).
  { induction l as [|b l IH]; intros H; auto. cbn [filter] in H. destruct (inb b x) eqn:E; [discriminate|]. destruct (IH H) as [I1 I2].
    cbn [map qsum existsb]. rewrite E, I1, I2, andb_false_r. split; auto. destruct (P b); ring. }
  revert Hpart. induction brs as [|b l IH]; intros H; [discriminate|]. cbn [filter] in H. cbn [map qsum existsb]. destruct (inb b x) eqn:E.
  - cbn [List.length] in H. destruct (Z l) as [Z1 Z2]; [destruct (filter _ l); auto; discriminate|]. rewrite Z1, Z2, andb_true_r, orb_false_r. destruct (P b); ring.
  - rewrite andb_false_r. cbn [orb]. rewrite <- (IH H). destruct (P b); ring.
Qed.
Lemma part_wt (P : branch -> bool) : qsum (map (fun b => wt (inb b)) (filter P brs)) = wt (fun x => existsb (fun b => P b && inb b x) brs).
Proof.
  unfold wt. rewrite qsum_filter.
  rewrite (qsum_map_ext _ (fun b => qsum (map (fun x => if P b then if inb b x then w x else 0%Qc else 0%Qc) sp))).
  2:{ intros b _. destruct (P b); [apply qsum_filter|]. symmetry. apply qsum_map_zero. auto. }
  rewrite qsum_swap. rewrite (qsum_filter (fun x => existsb (fun b => P b && inb b x) brs)). apply qsum_map_ext. intros x Hx. apply one_sum. auto.
Qed.
Lemma wt_mono (E E' : X -> bool) : (forall x, In x sp -> (0 <= w x)%Qc) -> (forall x, In x sp -> E x = true -> E' x = true) -> (wt E <= wt E')%Qc.
Proof.
  intros Hn H. unfold wt. rewrite !qsum_filter. apply qsum_map_le. intros x Hx. specialize (H x Hx). specialize (Hn x Hx). destruct (E x); [rewrite H by auto; apply Qcle_refl|].
  destruct (E' x); [auto|apply Qcle_refl].
Qed.
(** three kinds of branches *)
Definition kind (l : st) : Qc := qsum (map (fun b => wt (inb b)) (filter (fun b => st_eqb (br_label b) l) brs)).
Lemma kinds_total : (kind F_ + kind S_ + kind U_ = wt (fun _ => true))%Qc.
Proof.
  assert (E : (kind F_ + kind S_ + kind U_)%Qc = qsum (map (fun b => wt (inb b)) (filter (fun _ => true) brs))).
  { unfold kind. clear. induction brs as [|b l IH]; [cbn; ring|]. cbn [filter]. destruct (br_label b); cbn [st_eqb map qsum]; rewrite <- IH; ring. }
  rewrite E, part_wt. unfold wt. do 2 f_equal. apply filter_ext_in. intros x Hx. apply existsb_exists. specialize (Hpart x Hx).
  destruct (filter (fun b => inb b x) brs) as [|b l] eqn:F; [discriminate|]. exists b. cbn [andb]. apply (filter_In (fun b => inb b x)). rewrite F. left; auto.
Qed.
Lemma kinds_enclose (E : X -> bool) : (forall x, In x sp -> (0 <= w x)%Qc) ->
  (forall b x, In b brs -> In x sp -> inb b x = true -> (br_label b = F_ -> E x = true) /\ (br_label b = S_ -> E x = false)) ->
  (kind F_ <= wt E)%Qc /\ (wt E <= kind F_ + kind U_)%Qc.
Proof.
  intros Hn H. split.
  - unfold kind. rewrite part_wt. apply wt_mono; auto. intros x Hx Ex. apply existsb_exists in Ex as (b & Hb & Eb). apply andb_true_iff in Eb as [E1 E2]. apply (H b x Hb Hx E2).
    destruct (br_label b); auto; discriminate.
  - assert (X1 : (kind F_ + kind U_)%Qc = (wt (fun _ => true) - kind S_)%Qc) by (rewrite <- kinds_total; ring). rewrite X1.
    assert (X2 : wt (fun _ => true) = (wt E + wt (fun x => negb (E x)))%Qc).
    { unfold wt. rewrite !qsum_filter. clear. induction sp as [|x l IH]; [cbn; ring|]. cbn [map qsum]. rewrite IH. destruct (E x); cbn [negb]; ring. }
    assert (X3 : (kind S_ <= wt (fun x => negb (E x)))%Qc).
    { unfold kind. rewrite part_wt. apply wt_mono; auto. intros x Hx Ex. apply existsb_exists in Ex as (b & Hb & Eb). apply andb_true_iff in Eb as [E1 E2]. apply negb_true_iff. apply (H b x Hb Hx E2).
      destruct (br_label b); auto; discriminate. }
    rewrite X2. revert X3. generalize (wt E) (wt (fun x => negb (E x))) (kind S_). clear. intros a b c H. replace (a + b - c)%Qc with (a + (b - c))%Qc by ring.
    assert (0 <= b - c)%Qc by qc_lra. revert H0. generalize (b - c)%Qc. intros. qc_lra.
Qed.
End Weights.

(** * Dictionaries *)
Lemma dset_mid {A} (a b : dict A) k x y : ~ In k (keys a) -> dset (a ++ (k, x) :: b) k y = a ++ (k, y) :: b.
Proof.
  induction a as [|[k' z] a IH]; intros N; cbn [app dset]; [rewrite String.eqb_refl; auto|].
  destruct (String.eqb_spec k k') as [->|E]; [destruct N; left; auto|]. rewrite IH; auto. intros H. apply N. right; auto.
Qed.
Lemma dget_mid {A} (a b : dict A) k x : ~ In k (keys a) -> dget (a ++ (k, x) :: b) k = Ok x.
Proof.
  intros N. apply dget_ok. induction a as [|[k' z] a IH]; cbn [app dfind]; [rewrite String.eqb_refl; auto|].
  destruct (String.eqb_spec k k') as [->|E]; [destruct N; left; auto|]. apply IH. intros H. apply N. right; auto.
Qed.

Section Update.
Variables (np_sqrt np_log : Qc -> Qc) (norm_cdf : Qc -> Qc -> Qc -> Qc) (gm_ln_sa : Qc -> Qc -> Qc) (gm_std_al : Qc -> Qc) (gm_std_ep : Qc -> Qc -> Qc).
Hypothesis Hroot : forall a, (0 < a)%Qc -> (0 < np_sqrt a)%Qc.
Hypothesis Hcdf : forall x m s, (0 < s)%Qc -> (0 <= norm_cdf x m s)%Qc /\ (norm_cdf x m s <= 1)%Qc.
Hypothesis Hal : forall m, gm_std_al m <> 0%Qc.
Notation edge_dist := (cal_edge_dist np_sqrt np_log norm_cdf gm_ln_sa gm_std_al gm_std_ep).
Variable f : mapfile.
Hypothesis Hf : map_ok f.
Notation L := (timed_roads np_sqrt f).
Notation K := (keys (pm_roads f)).
Notation V := (map_varis np_sqrt f).
Notation ds := (pm_origins f).

Lemma arcs_keys : keys (pm_arcs f) = K.
Proof. unfold pm_arcs, keys. rewrite map_map. reflexivity. Qed.
Lemma arc_one n brs rows : told np_sqrt f n brs rows -> forall x, In x (arc_states K) -> List.length (filter (fun b => in_branch b x) brs) = 1%nat.
Proof. intros (_ & _ & P & _) x Hx. apply P. rewrite PfMapMain.V_space. auto. Qed.

Section New.
Variables (name2 : string) (pf2 mean2 : dict Qc) (cov2 : list (list Qc)).
Hypothesis Hed2 : edge_dist f name2 = Ok (pf2, mean2, cov2).
Notation probs2 := (pm_probs pf2).
Definition new_pairs : dict (Qc * Qc) := map (fun kp => (fst kp, (snd kp, (1 - snd kp)%Qc))) pf2.
Lemma pairs_get k : In k K -> exists p, dget new_pairs k = Ok (p, (1 - p)%Qc) /\ pr probs2 k 0 = p /\ pr probs2 k 1 = (1 - p)%Qc.
Proof.
  intros Hk. destruct (pf_find np_sqrt np_log norm_cdf gm_ln_sa gm_std_al gm_std_ep Hroot Hcdf Hal f Hf name2 pf2 mean2 cov2 Hed2 k Hk) as (p & E & _).
  exists p. split.
  - apply dget_ok. unfold new_pairs. clear - E. induction pf2 as [|[k' q] l IH]; [discriminate|]. cbn [map dfind fst snd] in *. destruct (String.eqb k k'); [congruence|auto].
  - unfold pr. rewrite (probs_find pf2 k p E). auto.
Qed.
Lemma upd_fold pf tail : (forall k, In k (keys tail) -> ~ In k K) ->
  foldM (fun d k => M <- dget d k ;; q <- dget new_pairs k ;; M' <- set_p M [fst q; snd q] ;; Ok (dset d k M')) K
    (map (fun kv => (fst kv, comp_M (pm_probs pf) kv)) V ++ tail) = Ok (map (fun kv => (fst kv, comp_M probs2 kv)) V ++ tail).
Proof.
  intros Ht. assert (N := K_nodup f Hf). rewrite <- (PfMapMain.V_keys np_sqrt f) in *.
  assert (G : forall l pre, V = pre ++ l ->
    foldM (fun d k => M <- dget d k ;; q <- dget new_pairs k ;; M' <- set_p M [fst q; snd q] ;; Ok (dset d k M')) (keys l)
      (map (fun kv => (fst kv, comp_M probs2 kv)) pre ++ map (fun kv => (fst kv, comp_M (pm_probs pf) kv)) l ++ tail) =
      Ok (map (fun kv => (fst kv, comp_M probs2 kv)) V ++ tail)).
  { induction l as [|[k v] l IH]; intros pre E.
    - rewrite app_nil_r in E. subst pre. reflexivity.
    - cbn [keys map foldM fst]. cbn [app].
      assert (Nk : ~ In k (keys (map (fun kv => (fst kv, comp_M probs2 kv)) pre))).
      { unfold keys. rewrite map_map. cbn [fst]. intros H. rewrite E in N. unfold keys in N. rewrite map_app in N. cbn [map fst] in N. apply NoDup_remove_2 in N. apply N. apply in_or_app. auto. }
      rewrite dget_mid by auto. cbn [bind]. assert (Hv : In (k, v) V) by (rewrite E; apply in_or_app; right; left; auto).
      assert (Hk : In k K) by (rewrite <- (PfMapMain.V_keys np_sqrt f); eapply In_keys; eauto).
      destruct (pairs_get k Hk) as (p & Eg & P0 & P1). rewrite Eg. cbn [bind fst snd].
      assert (N2 := V_two np_sqrt f k v Hv).
      assert (S : set_p (comp_M (pm_probs pf) (k, v)) [p; (1 - p)%Qc] = Ok (comp_M probs2 (k, v))).
      { unfold set_p, comp_M. cbn [c_C c_vars c_nch fst snd]. rewrite N2. change (zrange 0 2) with [0; 1]. cbn [map]. rewrite P0, P1. reflexivity. }
      rewrite S. cbn [bind]. rewrite dset_mid by auto.
      specialize (IH (pre ++ [(k, v)])). rewrite map_app, <- !app_assoc in IH. cbn [map app fst] in IH. apply IH. auto. }
  apply (G V []). auto.
Qed.

Definition reprob (b : branch) : branch := mkBr (b_down b) (b_up b) (b_down_state b) (b_up_state b) (prob_event V probs2 (in_branch b)).
Lemma event_wt E : prob_event V probs2 E = wt (arc_states K) (arc_prob (road_scen pf2)) E.
Proof.
  assert (X := fail_prob np_sqrt np_log norm_cdf gm_ln_sa gm_std_al gm_std_ep Hroot Hcdf Hal f Hf name2 pf2 mean2 cov2 Hed2 (fun x => negb (E x))).
  unfold p_fail, event_prob in X. unfold wt.
  rewrite (filter_ext (fun x => negb (negb (E x))) E) in X by (intros; apply negb_involutive). rewrite <- X.
  unfold prob_event. do 2 f_equal. apply filter_ext. intros x. rewrite negb_involutive. auto.
Qed.
Lemma scen_nonneg x : In x (arc_states K) -> (0 <= arc_prob (road_scen pf2) x)%Qc.
Proof.
  intros Hx. unfold arc_prob. assert (H : forall q, In q (map (fun kv => match dfind (road_scen pf2) (fst kv) with Some p => nth (Z.to_nat (snd kv)) p 0%Qc | None => 0%Qc end) x) -> (0 <= q)%Qc).
  { intros q Hq. apply in_map_iff in Hq as ([k z] & <- & _). cbn [fst snd]. destruct (dfind (road_scen pf2) k) as [p|] eqn:E; [|apply Qcle_refl].
    unfold road_scen in E. apply dfind_In in E. apply in_map_iff in E as ([k' q'] & E & I). injection E as -> <-.
    destruct (pf_range np_sqrt np_log norm_cdf gm_ln_sa gm_std_al gm_std_ep Hroot Hcdf Hal f Hf name2 pf2 mean2 cov2 Hed2 k q' I) as [R0 R1].
    destruct (Z.to_nat z) as [|[|m]]; cbn [nth fst snd]; auto; [qc_lra|]. destruct m; apply Qcle_refl. }
  apply qprod_nonneg. exact H.
Qed.

Notation knd brs := (kind (arc_states K) (arc_prob (road_scen pf2)) brs in_branch).
Lemma upd_one has n pf brs rows (saved : dict (dict cpm)) : In n (keys (pm_nodes f)) -> told np_sqrt f n brs rows ->
  dfind saved n = Some (map (fun kv => (fst kv, comp_M (pm_probs pf) kv)) V ++ [(n, sys_M V (node_var n) rows)]) ->
  update_pf1 has (keys (pm_arcs f)) new_pairs saved n = if has then Ok (knd brs F_, knd brs U_) else Err AttributeError.
Proof.
  intros Hn (Nb & Bx & Pt & Fr & _) Es. unfold update_pf1, load_cpms. rewrite Es. cbn [bind]. rewrite arcs_keys.
  assert (Nn : ~ In n K) by (destruct Hf as (_ & _ & _ & _ & _ & _ & _ & _ & Nk); apply Nk; auto).
  rewrite upd_fold by (intros k [<-|[]]; auto). cbn [bind].
  assert (EK : keys (map (fun kv => (fst kv, comp_M probs2 kv)) V) = K) by (unfold keys; rewrite map_map; cbn [fst]; exact (PfMapMain.V_keys np_sqrt f)).
  rewrite dget_mid by (rewrite EK; auto). cbn [bind]. destruct has; auto.
  assert (EC : mapM (dget (map (fun kv => (fst kv, comp_M probs2 kv)) V ++ [(n, sys_M V (node_var n) rows)])) K = Ok (map (comp_M probs2) V)).
  { assert (E1 : mapM (dget (map (fun kv => (fst kv, comp_M probs2 kv)) V)) K = Ok (map (comp_M probs2) V)).
    { rewrite <- EK. rewrite mapM_snd by (rewrite EK; apply K_nodup; auto). rewrite map_map. reflexivity. }
    rewrite <- E1. apply mapM_ext_in. intros k Hk. unfold dget. rewrite <- EK in Hk. apply dfind_keys in Hk as [M E]. rewrite E.
    assert (X : forall (a b : dict cpm), dfind a k = Some M -> dfind (a ++ b) k = Some M).
    { clear. induction a as [|[k' y] a IH]; intros b H; [discriminate|]. cbn [dfind app] in *. destruct (String.eqb k k'); auto. }
    rewrite (X _ _ E). auto. }
  rewrite EC. cbn [bind].
  assert (Wp2 := probs_wf np_sqrt np_log norm_cdf gm_ln_sa gm_std_al gm_std_ep Hroot Hcdf Hal f Hf name2 pf2 mean2 cov2 Hed2).
  assert (Vne : V <> []) by (destruct Hf as (_ & _ & _ & N & _); unfold map_varis; destruct (pm_roads f); [contradiction|discriminate]).
  assert (Fr2 : Forall2 (row_ok V conv3 V) (map reprob brs) rows) by (clear - Fr; induction Fr; cbn; constructor; auto).
  destruct (sp_result V probs2 (PfMapMain.V_wf np_sqrt f Hf) Wp2 Vne (V_st np_sqrt f) (V_two np_sqrt f) (node_var n) conv3 (nv_new np_sqrt f Hf n Hn) (nv_basic n) (nv_ok n) (nv_range n)
    ltac:(intros [] [] X; cbn in X; auto; discriminate) (map reprob brs) rows) as (R & ER & HR); auto.
  { intros b Hb. apply in_map_iff in Hb as (b' & <- & Hb). apply (Bx b' Hb). }
  { intros b Hb. apply in_map_iff in Hb as (b' & <- & Hb). reflexivity. }
  { intros X. apply Nb. destruct brs; auto; discriminate. }
  rewrite ER. cbn [bind]. unfold bounds_of.
  assert (Q : forall l, qsum (map b_p (filter (fun b => st_eqb (br_label b) l) (map reprob brs))) = knd brs l).
  { intros l. unfold kind. pose proof event_wt as Ew. clear - Ew. induction brs as [|b bs IH]; auto. cbn [map filter]. change (br_label (reprob b)) with (br_label b). destruct (st_eqb (br_label b) l); auto.
    cbn [map qsum]. rewrite IH. f_equal. cbn [reprob b_p]. apply Ew. }
  assert (H0 := HR F_). assert (HU := HR U_). cbn [conv3] in H0, HU. change (v_name (node_var n)) with n in H0, HU. rewrite H0. cbn [bind]. rewrite HU. cbn [bind]. rewrite !Q. reflexivity.
Qed.
End New.
End Update.
