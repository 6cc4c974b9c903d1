(** Elimination of the components from any system CPM that gives each component vector
    one state (as ModelFacts.v, there for the branches of brc). *)
From Coq Require Import ZArith List String Bool QArith Qcanon Lia Permutation.
From Verif Require Import Py PyFacts Num Vari VariFacts Brc SpecBrc BrcFacts BrcProb BrcRun BrcMisc BrcMain.
From Verif Require Import Cpm SpecCpm CpmFacts CpmCond CpmProd CpmList CpmSum CpmMarg CpmElim CpmProb Model ModelFacts.
Import ListNotations.
Open Scope string_scope.
Open Scope Z_scope.
Open Scope list_scope.

Section Event.
Context (varis : dict variable) (probs : prob_dict) (Hw : wf_varis varis) (Hp : wf_probs varis probs).
Context (Hst : forall k v, In (k, v) varis -> v_name v = k /\ stored v).
Context (vsys : variable).
Context (Hsn : ~ In (v_name vsys) (keys varis)) (Hsb : basic_table vsys) (Hsv : var_ok vsys).
Context (rows : list (list Z)) (phi : dict Z -> Z).
Notation sp := (space (comps_of varis)).
Context (Hcode : forall row, In row rows -> Forall2 code_ok (vsys :: map snd varis) row).
Context (Hrange : forall x, In x sp -> 0 <= phi x < nvals vsys).
Context (Hmass : forall x a, In x sp -> (forall k, In k (keys varis) -> a k = coord x k) ->
  mass (sys_M varis vsys rows) a = if a (v_name vsys) =? phi x then 1%Qc else 0%Qc).
Notation sysM := (sys_M varis vsys rows).
Notation allM := (map (comp_M probs) varis ++ [sysM]).

Lemma se_wf : wf_cpm sysM.
Proof.
  split; [apply vars_nodup; auto|]. split; [apply all_var_ok; auto|]. split; [cbn; lia|]. split; [exact Hcode|].
  right. cbn [sys_M c_p c_C]. apply map_length.
Qed.
Lemma se_make : mk_cpm (vsys :: map snd varis) 1 rows (map (fun _ => 1%Qc) rows) = Ok sysM.
Proof. destruct se_wf as (W1 & W2 & W3 & W4 & W5). apply mk_cpm_ok; auto. Qed.

Lemma se_in M : In M allM <-> (exists kv, In kv varis /\ M = comp_M probs kv) \/ M = sysM.
Proof.
  rewrite in_app_iff, in_map_iff. cbn. split.
  - intros [(kv & <- & H)|[<-|[]]]; eauto.
  - intros [(kv & H & ->)| ->]; eauto.
Qed.

Lemma se_pairwise : pairwise fit allM.
Proof.
  assert (D := vars_nodup varis Hw Hst vsys Hsn).
  assert (G : forall vd, (forall kv, In kv vd -> In kv varis) -> NoDup (map fst vd) -> pairwise fit (map (comp_M probs) vd ++ [sysM])).
  { induction vd as [|kv vd IH]; intros Hd Hn.
    - cbn. split; auto. intros ? [].
    - cbn [map app pairwise]. cbn [map] in Hn. inversion_clear Hn as [|? ? N1 N2]. split; [|apply IH; auto; intros; apply Hd; right; auto].
      assert (Hin : In kv varis) by (apply Hd; left; auto). destruct kv as [k v]. destruct (Hst k v Hin) as [Hnk _].
      intros M' HM. apply in_app_or in HM as [HM|[<-|[]]].
      + apply in_map_iff in HM as ([k' v'] & <- & Hin'). assert (Hv' : In (k', v') varis) by (apply Hd; right; auto).
        destruct (Hst k' v' Hv') as [Hnk' _].
        assert (k <> k'). { intros ->. apply N1. apply in_map_iff. exists (k', v'). auto. }
        split; intros w1 w2; cbn; intros [<-|[]] [<-|[]]; congruence.
      + split; intros w1 w2; cbn [comp_M sys_M c_vars children c_nch firstn fst snd].
        * intros [<-|[]] H2 E. apply (NoDup_names_inj (vsys :: map snd varis)); auto. right. apply in_map_iff. exists (k, v). auto.
        * intros [<-|[]] [<-|[]] E. apply Hsn. rewrite <- E, Hnk. eapply In_keys; eauto. }
  apply G; auto. apply Hw.
Qed.

Lemma se_ve_ok : ve_ok allM (map snd varis).
Proof.
  split; [split; [|exact se_pairwise]|split; [|split; [|split]]].
  - apply Forall_forall. intros M HM. apply se_in in HM as [(kv & H & ->)| ->]; [apply (comp_M_wf varis); auto|apply se_wf].
  - apply Forall_forall. intros M HM. apply se_in in HM as [(kv & H & ->)| ->]; unfold has_p; cbn [comp_M sys_M c_p c_C]; rewrite !map_length; auto.
  - intros v Hv. apply in_map_iff in Hv as ([k w] & E & Hin). cbn in E. subst w. exists (comp_M probs (k, v)).
    split; [apply se_in; eauto|]. split; [left; auto|].
    intros row c Hr Hc. cbn [comp_M c_C c_vars fst snd] in *. apply in_map_iff in Hr as (s & <- & Hs). apply In_zrange in Hs.
    cbn in Hc. destruct Hc as [Hc|[]]. injection Hc as <-. exists s. split; auto.
    apply basic_code; auto. apply stored_basic. apply (Hst k v Hin).
  - intros v Hv. apply in_map_iff in Hv as ([k w] & E & Hin). cbn in E. subst w. exists (comp_M probs (k, v)).
    split; [apply se_in; eauto|]. left; auto.
  - rewrite (vnames varis Hst). apply Hw.
Qed.

Lemma se_pmass x a : In x sp -> (forall k, In k (keys varis) -> a k = coord x k) ->
  pmass allM a = (prob_of probs x * (if a (v_name vsys) =? phi x then 1 else 0))%Qc.
Proof.
  intros Hx Ha. unfold pmass. rewrite map_app, qprod_app. cbn [map qprod]. rewrite (Hmass x a Hx Ha), Qcmult_1_r. f_equal.
  unfold prob_of. rewrite map_map.
  assert (Ek : x = map (fun k => (k, coord x k)) (keys varis)).
  { rewrite <- (sp_keys varis x Hx). pose proof (sp_nodup varis Hw x Hx) as N. clear - N.
    assert (G : forall l, (forall k v, In (k, v) l -> coord x k = v) -> l = map (fun k => (k, coord x k)) (keys l)).
    { induction l as [|[k v] l IH]; intros H; auto. cbn. rewrite (H k v) by (left; auto). f_equal. apply IH. intros. apply H. right; auto. }
    apply G. intros k v Hin. apply coord_In; auto. }
  transitivity (qprod (map (fun k => pr probs k (coord x k)) (keys varis))).
  2:{ rewrite <- (map_map (fun k => (k, coord x k)) (fun kv => pr probs (fst kv) (snd kv))), <- Ek. auto. }
  unfold keys. rewrite map_map. f_equal. apply map_ext_in. intros [k v] Hin. rewrite (comp_M_mass varis) by auto. cbn [fst snd].
  rewrite Ha by (eapply In_keys; eauto). pose proof (sp_coord varis Hw x k v Hx Hin).
  destruct ((0 <=? coord x k) && (coord x k <? nvals v)) eqn:B; auto. lia.
Qed.

Lemma se_sys x a : In x sp -> over x a (v_name vsys) = a (v_name vsys).
Proof.
  intros Hx. unfold over. assert (N : dfind x (v_name vsys) = None) by (apply dfind_none; rewrite (sp_keys varis x Hx); auto). rewrite N. auto.
Qed.

Lemma se_elim_mass a : marg (map snd varis) (pmass allM) a = prob_event varis probs (fun x => phi x =? a (v_name vsys)).
Proof.
  rewrite (marg_space varis) by (try apply pmass_ext; try apply Hw; intros k v H; apply (Hst k v H)).
  unfold prob_event. rewrite qsum_filter. apply qsum_map_ext. intros x Hx.
  rewrite (se_pmass x) by (auto; intros; apply (over_coord varis); auto). rewrite (se_sys x a Hx). rewrite Z.eqb_sym.
  destruct (phi x =? a (v_name vsys)); ring.
Qed.

Lemma se_alive : exists a, alive allM a.
Proof.
  destruct (positive_vector varis probs Hp) as (x & Hx & Hq).
  set (a := over x (fun _ => phi x)). exists a.
  assert (Ha : forall k, In k (keys varis) -> a k = coord x k) by (intros; apply (over_coord varis); auto).
  assert (As : a (v_name vsys) = phi x) by (unfold a; rewrite se_sys; auto).
  assert (Nn : forall M c, (forall q, In q (weights M) -> 0 <= q)%Qc -> (0 <= mass M c)%Qc).
  { intros M c H. rewrite mass_if. apply qsum_nonneg. intros q Hq'. apply in_map_iff in Hq' as ([r p] & <- & HI). cbn [fst snd].
    destruct (row_match _ _ _); [apply H; eapply in_combine_r; eauto|qc_lra]. }
  intros M HM. apply se_in in HM as [(kv & H & ->)| ->].
  - split; [|split; [|cbn; congruence]].
    + intros c. apply Nn. intros q Hq'. destruct kv as [k v]. rewrite weights_p in Hq'.
      * cbn [comp_M c_p fst snd] in Hq'. apply in_map_iff in Hq' as (s & <- & Hs). apply In_zrange in Hs. apply (pget_pr varis probs Hp k v s H Hs).
      * cbn [comp_M c_p fst snd]. pose proof (proj2 Hw k v H). rewrite zrange_cons by lia. cbn. congruence.
    + rewrite (comp_M_mass varis) by auto. destruct kv as [k v]. cbn [fst snd]. rewrite Ha by (eapply In_keys; eauto).
      pose proof (sp_coord varis Hw x k v Hx H).
      destruct ((0 <=? coord x k) && (coord x k <? nvals v)) eqn:B; [|lia]. apply (factor_pos varis probs Hw Hp x (k, v)); auto.
  - split; [|split; [|cbn; congruence]].
    + intros c. apply Nn. intros q Hq'. unfold weights in Hq'. cbn [sys_M c_p c_C] in Hq'.
      assert (E : q = 1%Qc); [|subst q; qc_lra]. destruct rows as [|r rs]; [destruct Hq'|]. cbn [map] in Hq'. destruct Hq' as [<-|Hq']; auto.
      apply in_map_iff in Hq' as (? & <- & _). auto.
    + rewrite (Hmass x a Hx Ha), As, Z.eqb_refl. reflexivity.
Qed.

Lemma se_result : exists M, variable_elim allM (map snd varis) = Ok M /\ c_vars M = [vsys] /\ wf_cpm M /\ has_p M /\
  forall a, mass M a = prob_event varis probs (fun x => phi x =? a (v_name vsys)).
Proof.
  destruct se_alive as [a Ha]. destruct (variable_elim_total allM (map snd varis) a vsys sysM) as [M HM]; auto.
  - apply se_ve_ok.
  - apply se_in. auto.
  - left; auto.
  - rewrite (vnames varis Hst). auto.
  - intros v Hv. right; auto.
  - exists M. split; auto. destruct (variable_elim_ok _ _ _ se_ve_ok HM) as (W & Ma & Sc & _).
    split; [|split; [auto|split; [apply (elim_has_p vsys _ _ _ se_ve_ok HM)|]]].
    + assert (X : forall w, In w (c_vars M) <-> w = vsys).
      { intros w. rewrite Sc. split.
        - intros [(N & HN & Hv) Hn]. apply se_in in HN as [(kv & Hk & ->)| ->].
          + exfalso. apply Hn. destruct Hv as [<-|[]]. apply in_map. auto.
          + destruct Hv as [<-|Hv]; [auto|tauto].
        - intros ->. split; [exists sysM; split; [apply se_in; auto|left; auto]|].
          intros H. apply Hsn. rewrite <- (vnames varis Hst). apply names_In. auto. }
      pose proof (proj1 W) as N. clear - X N. destruct (c_vars M) as [|w [|w2 l]].
      * exfalso. apply (X vsys). auto.
      * f_equal. apply X. left; auto.
      * exfalso. assert (w = vsys) by (apply X; left; auto). assert (w2 = vsys) by (apply X; right; left; auto). subst.
        inversion_clear N as [|? ? N1 N2]. apply N1. left; auto.
    + intros b. rewrite Ma. apply se_elim_mass.
Qed.

Lemma se_state_prob M s : wf_cpm M -> has_p M -> c_vars M = [vsys] -> 0 <= s < nvals vsys ->
  get_prob M (Vars [vsys]) [SI s] true = Ok (mass M (fun _ => s)).
Proof.
  intros W P Hv Hr. destruct (basic_code vsys s Hsb Hr) as [Hc Hs].
  assert (E : get_prob M (Vars [vsys]) (map SI [s]) true = Ok (total (fun row => Bool.eqb (hits (c_vars M) row [vsys] [s]) true) M)).
  { apply get_prob_spec; auto; try congruence.
    - rewrite Hv. split; auto. split; [cbn; constructor; [intros []|constructor]|]. split.
      + intros v1 v2 [<-|[]] [<-|[]]; auto.
      + intros v c [H|[]] _. injection H as <- <-. auto.
    - intros v c [H|[]]. injection H as <- <-. destruct Hsv as (B & HB & Hlen & _). destruct Hc as (B' & HB' & Hc).
      rewrite HB in HB'. injection HB' as <-. lia. }
  cbn [map] in E. rewrite E. apply (f_equal Ok). clear E.
  rewrite total_weighted, mass_weighted.
  assert (Wt : weights M = c_p M).
  { unfold weights, has_p in *. destruct (c_p M) eqn:Ep; auto. destruct (c_C M); [auto|discriminate]. }
  rewrite Wt. apply weighted_ext. intros r Hrr. destruct W as (_ & _ & _ & W4 & _). specialize (W4 r Hrr). rewrite Hv in *.
  inversion_clear W4 as [|? c ? r' W1 W2]. inversion_clear W2. unfold hits, row_match. cbn [combine forallb fst snd].
  rewrite String.eqb_refl. cbn [negb orb]. rewrite !andb_true_r.
  match goal with |- Bool.eqb ?x true = ?y => replace (Bool.eqb x true) with x by (destruct x; auto); apply eq_true_iff_eq end.
  rewrite existsb_exists, mem_Z_In. split.
  - intros (x & Hx & Hm). apply mem_Z_In, Hs in Hm. subst x. auto.
  - intros Hx. exists s. split; auto. apply mem_Z_In, Hs. auto.
Qed.

(** any dictionaries that hold these CPMs and variables *)
Lemma se_compute cpms vd : mapM (dget cpms) (keys varis ++ [v_name vsys]) = Ok allM -> mapM (dget vd) (keys varis) = Ok (map snd varis) ->
  dget vd (v_name vsys) = Ok vsys ->
  exists M, forall s, 0 <= s < nvals vsys ->
    compute_prob cpms vd (keys varis) (v_name vsys) (SI s) true = Ok (prob_event varis probs (fun x => phi x =? s), M).
Proof.
  intros L1 L2 L3. destruct se_result as (M & E & V & W & P & Ma). exists M. intros s Hs. unfold compute_prob.
  rewrite L1. cbn [bind]. rewrite L2. cbn [bind]. rewrite E. cbn [bind]. rewrite L3. cbn [bind].
  rewrite (se_state_prob M s W P V Hs). cbn [bind]. rewrite Ma. auto.
Qed.
End Event.
