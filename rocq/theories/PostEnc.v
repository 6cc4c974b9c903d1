(** The evaluation with dependent roads: rows of the stored matrix and their probabilities. *)
From Coq Require Import ZArith List String Bool Arith QArith Qcanon Lia Permutation.
From Verif Require Import Py PyFacts Num Vari VariFacts Brc SpecBrc BrcFacts BrcDecomp BrcProb BrcRun BrcMisc BrcMain BrcProper.
From Verif Require Import Cpm SpecCpm CpmFacts CpmMarg CpmSum CpmCond CpmElim CpmProb Model ModelFacts SysEvent SysJoint MsysProd SpecProd PropProd SysProd.
From Verif Require Import Bnb SpecBnb Trans SpecTrans TransFacts NetSys Config SpecConfig ConfigFacts ConfigSetup SpecDemo.
From Verif Require Import PfMap SpecMap PfMapGeom PfMapFacts PfMapMain PfMapRun PfMapTable PropBrc PropBrc2 PropModel PropTrans PostMap TwoNet PostRun PostUpd SpecPost PostDep.
Import ListNotations.
Open Scope string_scope.
Open Scope Z_scope.
Open Scope list_scope.

Section Enc.
Variables (np_sqrt np_log : Qc -> Qc) (norm_cdf : Qc -> Qc -> Qc -> Qc) (gm_ln_sa : Qc -> Qc -> Qc) (gm_std_al : Qc -> Qc) (gm_std_ep : Qc -> Qc -> Qc).
Variable mvn_cdf : list Qc -> list (list Qc) -> res Qc.
Notation edge_dist := (cal_edge_dist np_sqrt np_log norm_cdf gm_ln_sa gm_std_al gm_std_ep).
Variable f : mapfile.
Hypothesis Hf : map_ok f.
Notation K := (keys (pm_roads f)).
Notation V := (map_varis np_sqrt f).

Section Told.
Variables (n : string) (brs : list branch) (rows : list (list Z)).
Hypothesis Hn : In n (keys (pm_nodes f)).
Hypothesis Ht : told np_sqrt f n brs rows.

Lemma rows_code row : In row rows -> Forall2 code_ok (node_var n :: map snd V) row.
Proof.
  destruct Ht as (_ & _ & _ & Fr & _). intros Hr. destruct (Forall2_in_r _ _ _ _ Fr Hr) as (b & Hb & R). apply (row_codes V (PfMapMain.V_wf np_sqrt f Hf) (node_var n) conv3 (nv_basic n) (nv_range n) b row R).
Qed.
(** a row is the code of the label and one of 0, 1, 2 for each road *)
Lemma rows_shape row : In row rows -> exists b cs, In b brs /\ row = conv3 (br_label b) :: cs /\ List.length cs = List.length K /\ (forall c, In c cs -> c = 0 \/ c = 1 \/ c = 2).
Proof.
  intros Hr. assert (Cd := rows_code row Hr). destruct Ht as (_ & _ & _ & Fr & _). destruct (Forall2_in_r _ _ _ _ Fr Hr) as (b & Hb & (cs & -> & F)). exists b, cs. split; auto. split; auto.
  split; [rewrite (PfMapMain.V_keys np_sqrt f) in F; symmetry; eapply Forall2_length; eauto|].
  inversion_clear Cd as [|? ? ? ? _ Cd']. intros c Hc. destruct (Forall2_in_r _ _ _ _ Cd' Hc) as (v & Hv & (B & EB & RB)). apply in_map_iff in Hv as ((k & v') & <- & Hv). cbn [snd] in EB.
  rewrite (two_table v' (proj2 (V_st np_sqrt f k v' Hv)) (V_two np_sqrt f k v' Hv)) in EB. injection EB as <-. cbn in RB. lia.
Qed.
Lemma pm_row b row x : In x (arc_states K) -> row_ok V conv3 V b row -> wf_br V b -> row_has K row x = in_branch b x.
Proof.
  intros Hx R Wb.
  destruct (row_ok_in_branch V (PfMapMain.V_wf np_sqrt f Hf) conv3 V b row x Wb ltac:(rewrite PfMapMain.V_space; auto) R) as (c & cs & -> & -> & Hl & I).
  assert (Cd := row_codes V (PfMapMain.V_wf np_sqrt f Hf) (node_var n) conv3 (nv_basic n) (nv_range n) b _ R).
  inversion_clear Cd as [|? ? ? ? _ Cd']. rewrite <- (PfMapMain.V_keys np_sqrt f) in *. apply eq_true_iff_eq. rewrite I. unfold row_has. cbn [List.length tl].
  rewrite andb_true_iff, Nat.eqb_eq, forallb_forall.
  assert (Cx : forall k v, In (k, v) V -> coord x k = 0 \/ coord x k = 1).
  { intros k v Hk'. rewrite (PfMapMain.V_keys np_sqrt f) in Hx. rewrite <- PfMapMain.V_space with (np_sqrt := np_sqrt) in Hx. assert (Y := sp_coord V (PfMapMain.V_wf np_sqrt f Hf) x k v Hx Hk'). rewrite (V_two np_sqrt f k v Hk') in Y. lia. }
  assert (H : forall l cs, incl l V -> List.length cs = List.length l -> Forall2 code_ok (map snd l) cs ->
    ((forall kc, In kc (combine (keys l) cs) -> (snd kc =? 2) || (snd kc =? coord x (fst kc)) = true) <-> Forall2 (fun k c => coded V k c (coord x k)) (keys l) cs)).
  { induction l as [|[k v] l IH]; intros cs' Hin Hl' C; destruct cs' as [|c cs']; try discriminate.
    - split; [constructor|intros _ ? []].
    - inversion_clear C as [|? ? ? ? C1 C2]. specialize (IH cs' (fun k' h => Hin k' (or_intror h)) ltac:(cbn in Hl'; lia) C2).
      assert (Hv : In (k, v) V) by (apply Hin; left; auto).
      assert (Fk : dfind V k = Some v) by (apply In_dfind; [apply (PfMapMain.V_wf np_sqrt f Hf)|auto]).
      assert (Bv := two_table v (proj2 (V_st np_sqrt f k v Hv)) (V_two np_sqrt f k v Hv)).
      assert (E : (c =? 2) || (c =? coord x k) = true <-> coded V k c (coord x k)).
      { destruct C1 as (B & EB & RB). cbn [snd] in EB. rewrite Bv in EB. injection EB as <-. cbn in RB. assert (Hc : c = 0 \/ c = 1 \/ c = 2) by lia. destruct (Cx k v Hv) as [E|E]; rewrite E; split; intros H.
        all: try (exists v, [[0]; [1]; [0; 1]]; destruct Hc as [->|[->| ->]]; try discriminate; eexists; (split; [auto|]); (split; [auto|]); (split; [lia|]); (split; [reflexivity|]); cbn; auto; fail).
        all: destruct H as (v1 & B & e & F & EB & _ & En & Ie); rewrite Fk in F; injection F as <-; rewrite Bv in EB; injection EB as <-.
        all: destruct Hc as [->|[->| ->]]; auto; injection En as <-; destruct Ie as [X|[]]; discriminate. }
      cbn [keys map fst combine]. split.
      + intros H. constructor; [apply E, (H (k, c)); left; auto|]. apply IH. intros kc X. apply H. right; auto.
      + intros H. inversion_clear H as [|? ? ? ? H1 H2]. intros kc [<-|X]; [apply E; auto|]. apply IH; auto. }
  assert (Hl' : List.length cs = List.length V) by (unfold keys in Hl; rewrite map_length in Hl; auto).
  rewrite <- (H V cs); auto; [|intros y Hy; auto]. split; [intros [_ Y]; auto|intros Y; split; auto].
Qed.

(** probabilities of the rows that add up *)
Variables (w : dict Z -> Qc).
Notation sp := (arc_states K).
Notation W := (wt sp w (fun _ => true)).
Notation knd := (kind sp w brs in_branch).
Lemma row_weights : map (fun row => wt sp w (row_has K row)) rows = map (fun b => wt sp w (in_branch b)) brs.
Proof.
  destruct Ht as (_ & Bx & _ & Fr & _). assert (G : forall bs rs, (forall b, In b bs -> wf_br V b) -> Forall2 (row_ok V conv3 V) bs rs -> map (fun row => wt sp w (row_has K row)) rs = map (fun b => wt sp w (in_branch b)) bs).
  { intros bs rs Hb F. induction F as [|b r bs rs R F IH]; auto. cbn [map]. rewrite IH by (intros; apply Hb; right; auto). f_equal. unfold wt. do 2 f_equal. apply filter_ext_in. intros x Hx. apply pm_row; auto. apply Hb. left; auto. }
  apply G; auto.
Qed.
Lemma rows_sum : qsum (map (fun row => wt sp w (row_has K row)) rows) = W.
Proof.
  rewrite row_weights. rewrite <- (kinds_total sp w brs in_branch (arc_one np_sqrt f n brs rows Ht)). unfold kind. clear. induction brs as [|b l IH]; [cbn; ring|]. cbn [filter map qsum]. rewrite IH. destruct (br_label b); cbn [st_eqb map qsum]; ring.
Qed.
Lemma kind_rows l c : c <> 0%Qc ->
  qsum (map snd (filter (fun rp => hd 0 (fst rp) =? conv3 l) (combine rows (map (fun row => (wt sp w (row_has K row) / c)%Qc) rows)))) = (knd l / c)%Qc.
Proof.
  intros Nc. destruct Ht as (_ & Bx & _ & Fr & _).
  assert (G : forall bs rs, (forall b, In b bs -> wf_br V b) -> Forall2 (row_ok V conv3 V) bs rs ->
    qsum (map snd (filter (fun rp => hd 0 (fst rp) =? conv3 l) (combine rs (map (fun row => (wt sp w (row_has K row) / c)%Qc) rs)))) = (qsum (map (fun b => wt sp w (in_branch b)) (filter (fun b => st_eqb (br_label b) l) bs)) / c)%Qc).
  { intros bs rs Hb F. induction F as [|b r bs rs R F IH]; [cbn; field; auto|]. specialize (IH (fun b h => Hb b (or_intror h))). cbn [map combine filter fst].
    assert (Eh : (hd 0 r =? conv3 l) = st_eqb (br_label b) l). { destruct R as (cs & -> & _). cbn [hd]. destruct (br_label b), l; reflexivity. }
    assert (Ew : wt sp w (row_has K r) = wt sp w (in_branch b)). { unfold wt. do 2 f_equal. apply filter_ext_in. intros x Hx. apply pm_row; auto. apply Hb. left; auto. }
    rewrite Eh. destruct (st_eqb (br_label b) l); auto. cbn [map snd qsum]. rewrite IH, Ew. field. auto. }
  apply G; auto.
Qed.

Lemma bounds_new p : p = map (fun row => (wt sp w (row_has K row) / W)%Qc) rows -> W <> 0%Qc ->
  bounds_of (mkCpm (node_var n :: map snd V) 1 rows p) n = Ok ((knd F_ / W)%Qc, (knd U_ / W)%Qc).
Proof.
  intros -> NW. set (R := mkCpm (node_var n :: map snd V) 1 rows (map (fun row => (wt sp w (row_has K row) / W)%Qc) rows)).
  assert (WR : wf_cpm R).
  { destruct (se_wf V (PfMapMain.V_wf np_sqrt f Hf) (V_st np_sqrt f) (node_var n) (nv_new np_sqrt f Hf n Hn) (nv_ok n) rows rows_code) as (W1 & W2 & W3 & W4 & _). cbn [sys_M c_vars c_nch c_C] in *.
    split; [exact W1|]. split; [exact W2|]. split; [exact W3|]. split; [exact W4|]. right. cbn [R c_p c_C]. rewrite map_length. auto. }
  assert (G : forall l, get_prob R (Names [n]) [SI (conv3 l)] true = Ok (knd l / W)%Qc).
  { intros l. change n with (v_name (node_var n)) at 1. rewrite (head_prob (node_var n) (map snd V) R eq_refl WR (nv_basic n) (nv_ok n) (conv3 l) (nv_range n l)).
    rewrite (head_mass (node_var n) (map snd V) R eq_refl WR (nv_basic n) (conv3 l) (nv_range n l)).
    - cbn [R c_C c_p]. rewrite kind_rows; auto.
    - intros row Hr. destruct (rows_shape row Hr) as (b & cs & _ & -> & _). apply nv_range. }
  unfold bounds_of. assert (G0 := G F_). assert (GU := G U_). cbn [conv3] in G0, GU. rewrite G0. cbn [bind]. rewrite GU. reflexivity.
Qed.

Lemma dep_one has name pf mean cov pf0 (saved : dict (dict cpm)) : edge_dist f name = Ok (pf, mean, cov) ->
  dfind saved n = Some (map (fun kv => (fst kv, comp_M (pm_probs pf0) kv)) V ++ [(n, sys_M V (node_var n) rows)]) ->
  W <> 0%Qc ->
  (forall row, In row rows -> exists a, row_args (node_var n :: map snd V) mean cov K row = Ok a /\ mvn_cdf (fst a) (snd a) = Ok (wt sp w (row_has K row))) ->
  cal_prob_dep np_sqrt np_log norm_cdf gm_ln_sa gm_std_al gm_std_ep mvn_cdf has f name (keys (pm_arcs f)) saved n =
    if has then Ok ((knd F_ / W)%Qc, (knd U_ / W)%Qc) else Err AttributeError.
Proof.
  intros Hed Es NW Hm. unfold cal_prob_dep. rewrite Hed. cbn [bind]. unfold load_cpms. rewrite Es. cbn [bind]. rewrite arcs_keys.
  assert (EK : keys (map (fun kv => (fst kv, comp_M (pm_probs pf0) kv)) V) = K) by (unfold keys; rewrite map_map; cbn [fst]; exact (PfMapMain.V_keys np_sqrt f)).
  assert (Nn : ~ In n K) by (destruct Hf as (_ & _ & _ & _ & _ & _ & _ & _ & Nk); apply Nk; auto).
  rewrite dget_mid by (rewrite EK; auto). cbn [bind]. cbn [sys_M c_vars c_C].
  assert (Em : mapM (fun row => a <- row_args (node_var n :: map snd V) mean cov K row ;; mvn_cdf (fst a) (snd a)) rows = Ok (map (fun row => wt sp w (row_has K row)) rows)).
  { assert (G : forall l, (forall row, In row l -> exists a, row_args (node_var n :: map snd V) mean cov K row = Ok a /\ mvn_cdf (fst a) (snd a) = Ok (wt sp w (row_has K row))) ->
      mapM (fun row => a <- row_args (node_var n :: map snd V) mean cov K row ;; mvn_cdf (fst a) (snd a)) l = Ok (map (fun row => wt sp w (row_has K row)) l)); [|apply G; auto].
    induction l as [|r l IH]; intros H; auto. cbn [mapM map]. destruct (H r (or_introl eq_refl)) as (a & E1 & E2). rewrite E1. cbn [bind]. rewrite E2. cbn [bind].
    rewrite IH by (intros; apply H; right; auto). reflexivity. }
  rewrite Em. cbn [bind]. rewrite rows_sum. destruct (qc_eqb W 0%Qc) eqn:E0; [apply qc_eqb_eq in E0; contradiction|].
  unfold set_p. cbn [sys_M c_C c_vars c_nch].
  assert (Ec : check_p rows (map (fun p => (p / W)%Qc) (map (fun row => wt sp w (row_has K row)) rows)) = Ok tt).
  { unfold check_p. rewrite !map_length, Nat.eqb_refl. match goal with |- match ?l with _ => _ end = _ => destruct l; auto end. }
  rewrite Ec. cbn [bind]. destruct has; auto. apply bounds_new; auto. rewrite map_map. reflexivity.
Qed.
End Told.
End Enc.
