(** Facts about the product of a system CPM with component CPMs, with samples. *)
From Coq Require Import ZArith List String Bool Arith Lia QArith Qcanon Permutation.
From Verif Require Import Py PyFacts Num Vari VariFacts Cpm CpmFacts SpecCpm CpmCond CpmProd CpmList CpmSum CpmMarg CpmElim CpmMean MsysProd SpecProd MsysProdFacts Hybrid SpecHyb HybFacts CalFacts HybProd SpecHybProd.
Import ListNotations.
Open Scope string_scope.
Open Scope Z_scope.
Open Scope list_scope.

Definition bare (M : hcpm) : Prop := c_C (h_c M) = [] /\ c_p (h_c M) = [].

Section Bare.
Variables (I : list Z) (G : list joint).
Hypothesis NI : NoDup I.
Hypothesis LI : List.length I = List.length G.
Hypothesis NG : G <> [].

(** a CPM without rows: scope, children and samples *)
Definition bare_product (M1 M2 M : hcpm) : Prop :=
  wf_cpm (h_c M) /\ bare M /\ (forall v, In v (c_vars (h_c M)) <-> In v (c_vars (h_c M1)) \/ In v (c_vars (h_c M2))) /\
  (forall v, In v (children (h_c M)) <-> In v (children (h_c M1)) \/ In v (children (h_c M2))).

Lemma bare_ord M1 M2 : wf_cpm (h_c M1) -> wf_cpm (h_c M2) -> fit (h_c M1) (h_c M2) -> bare M1 -> bare M2 ->
  sampled I G M1 -> sampled I G M2 -> basic_samples G (c_vars (h_c M1)) -> basic_samples G (c_vars (h_c M2)) ->
  c_vars (h_c M1) <> [] -> c_vars (h_c M2) <> [] ->
  exists M, h_product_ord M1 M2 = Ok M /\ bare_product M1 M2 M /\ sampled I G M /\
    h_q M = times (h_q M2) (h_q M1) /\ h_ps M = times (target_of M2) (target_of M1).
Proof using All.
  intros W1 W2 [A D] B1 B2 S1 S2 P1 P2 V1 V2.
  set (c := mkCpm (n_vars (h_c M1) (h_c M2)) (List.length (n_child (h_c M1) (h_c M2))) [] []).
  assert (CC : common_child (h_c M1) (h_c M2) = false) by (apply common_child_spec; exact D).
  assert (LE : (List.length (n_child (h_c M1) (h_c M2)) <= List.length (n_vars (h_c M1) (h_c M2)))%nat) by (unfold n_vars; rewrite app_length; lia).
  exists (mkH c (map (row_at (c_vars c)) G) (times (h_q M2) (h_q M1)) (times (target_of M2) (target_of M1)) I). split.
  - unfold h_product_ord. rewrite CC. cbv zeta. rewrite (proj1 B1). rewrite (no_samples_spec I G M1) by auto.
    match goal with |- (c0 <- ?e ;; _) = _ => assert (X : e = Ok c) end.
    { unfold mk_cpm. fold (n_child (h_c M1) (h_c M2)). fold (n_vars (h_c M1) (h_c M2)). apply Nat.leb_le in LE. rewrite LE. reflexivity. }
    rewrite X. cbn [bind]. pose proof (h_samples_ok I G NI LI NG M1 M2 c W1 W2 A S1 S2 P1 P2 V1 V2 eq_refl) as H.
    rewrite (no_samples_spec I G M1) in H by auto. exact H.
  - pose proof (target_length _ _ _ S1) as T1. pose proof (target_length _ _ _ S2) as T2.
    destruct S1 as (_ & _ & L1 & _), S2 as (_ & _ & L2 & _).
    split; [|split; [|auto]].
    + split; [|split; [split; reflexivity|split]].
      * split; [apply n_vars_nodup; auto|]. split; [apply n_vars_ok; auto|]. split; [exact LE|]. split; [cbn; tauto|left; reflexivity].
      * intros v. apply n_vars_In; auto.
      * intros v. unfold children at 1. cbn [h_c c_vars c_nch c]. unfold n_vars. rewrite firstn_app_len. apply n_child_In.
    + split; [reflexivity|]. split; [reflexivity|]. cbn [h_q h_ps]. split; [|right]; rewrite times_length; lia.
Qed.

Lemma bare_mult M1 M2 q1 t1 q2 t2 : wf_cpm (h_c M1) -> wf_cpm (h_c M2) -> fit (h_c M1) (h_c M2) -> bare M1 -> bare M2 ->
  holds I G M1 (h_c M1) q1 t1 -> holds I G M2 (h_c M2) q2 t2 -> basic_samples G (c_vars (h_c M1)) -> basic_samples G (c_vars (h_c M2)) ->
  c_vars (h_c M1) <> [] -> c_vars (h_c M2) <> [] ->
  exists M, h_product M1 M2 = Ok M /\ bare_product M1 M2 M /\ holds I G M (h_c M) (fun i => q1 i * q2 i)%Qc (fun i => t1 i * t2 i)%Qc.
Proof using All.
  intros W1 W2 F B1 B2 (_ & S1 & H1) (_ & S2 & H2) P1 P2 V1 V2. unfold h_product.
  pose proof (target_length _ _ _ S1) as T1. pose proof (target_length _ _ _ S2) as T2.
  pose proof S1 as (_ & _ & L1 & _). pose proof S2 as (_ & _ & L2 & _).
  assert (NE : forall l1 l2, List.length l1 = List.length G -> List.length l2 = List.length G -> times l1 l2 <> []).
  { intros l1 l2 K1 K2 X. assert (Y : List.length (times l1 l2) = O) by (rewrite X; auto). rewrite times_length in Y by lia. destruct G; [congruence|cbn in K1; lia]. }
  assert (TT : forall M l1 l2, List.length l1 = List.length G -> List.length l2 = List.length G -> h_ps M = times l1 l2 -> target_of M = times l1 l2).
  { intros M l1 l2 K1 K2 E. unfold target_of. rewrite E. destruct (times l1 l2) eqn:X; auto. exfalso. eapply (NE l1 l2); eauto. }
  destruct (ncols (h_c M2) <? ncols (h_c M1))%nat.
  - destruct F as [A D]. assert (F' : fit (h_c M2) (h_c M1)) by (split; [apply agree_sym; auto|intros v w Hv Hw E; apply (D w v); auto]).
    destruct (bare_ord M2 M1) as (M & E & (K1 & K2 & K3 & K4) & S & Q & T); auto. exists M. split; auto. split.
    + split; auto. split; auto. split; [intros v; rewrite K3; tauto|intros v; rewrite K4; tauto].
    + split; auto. split; auto. intros i Hi. rewrite Q, (TT M (target_of M1) (target_of M2)) by auto. rewrite !nth_times by lia.
      destruct (H1 i Hi) as [-> ->], (H2 i Hi) as [-> ->]. auto.
  - destruct (bare_ord M1 M2) as (M & E & K & S & Q & T); auto. exists M. split; auto. split; auto.
    split; auto. split; auto. intros i Hi. rewrite Q, (TT M (target_of M2) (target_of M1)) by auto. rewrite !nth_times by lia.
    destruct (H1 i Hi) as [-> ->], (H2 i Hi) as [-> ->]. split; ring.
Qed.

Lemma bare_list l : l <> [] -> fit_list (map h_c l) -> ready I G l -> Forall bare l ->
  exists M, h_product_list l = Ok M /\ holds I G M (h_c M) (joint_q l) (joint_t l) /\ wf_cpm (h_c M) /\
    (forall v, In v (c_vars (h_c M)) <-> exists N, In N l /\ In v (c_vars (h_c N))).
Proof using All.
  destruct l as [|M0 l]; [congruence|]. intros _ [HW [HP1 HP2]] R HB. cbn [map] in *. inversion HW as [|? ? W0 HW']; subst. inversion HB as [|? ? B0 HB']; subst.
  enough (K : forall l M q t, holds I G M (h_c M) q t -> wf_cpm (h_c M) -> bare M -> basic_samples G (c_vars (h_c M)) -> c_vars (h_c M) <> [] ->
    fit_list (map h_c l) -> ready I G l -> Forall bare l -> (forall N, In N (map h_c l) -> fit (h_c M) N) ->
    exists M', foldM h_product l M = Ok M' /\ holds I G M' (h_c M') (fun i => q i * joint_q l i)%Qc (fun i => t i * joint_t l i)%Qc /\ wf_cpm (h_c M') /\
      (forall v, In v (c_vars (h_c M')) <-> In v (c_vars (h_c M)) \/ exists N, In N l /\ In v (c_vars (h_c N)))).
  { destruct (R M0 (or_introl eq_refl)) as (R1 & R2 & R3). cbn [h_product_list].
    destruct (K l M0 _ _ (holds_self I G M0 R1)) as (M & E & H & W & V); auto; [split; auto|intros M HM; apply R; right; auto|].
    exists M. split; auto. split; auto. split; auto. intros v. rewrite V. split.
    - intros [Hv|(N & HN & Hv)]; [exists M0|exists N]; split; auto; [left; auto|right; auto].
    - intros (N & [<-|HN] & Hv); [left; auto|right; exists N; auto]. }
  clear -NI LI NG. induction l as [|N l IH]; intros M q t Hh WM BM PM VM F R HB FM; cbn [map foldM] in *.
  - exists M. split; auto. split; [|split; auto].
    + eapply holds_ext; [apply Hh|]. intros i _. unfold joint_q, joint_t. cbn [map qprod]. split; ring.
    + intros v. split; auto. intros [Hv|(N & [] & _)]; auto.
  - destruct F as [F1 [F2 F3]]. inversion F1 as [|? ? WN F4]; subst. inversion HB as [|? ? BN HB']; subst.
    destruct (R N (or_introl eq_refl)) as (R1 & R2 & R3).
    assert (FN : fit (h_c M) (h_c N)) by (apply FM; left; auto).
    destruct (bare_mult M N _ _ _ _ WM WN FN BM BN Hh (holds_self I G N R1) PM R2 VM R3) as (M1 & E1 & (K1 & K2 & K3 & K4) & H1). rewrite E1. cbn [bind].
    destruct (IH M1 _ _ H1) as (M' & E' & H' & W' & V'); auto.
    + intros a v Ha Hv. apply K3 in Hv as [Hv|Hv]; auto.
    + destruct (c_vars (h_c M)) as [|v V] eqn:EV; [congruence|]. intros X. assert (Y : In v (c_vars (h_c M1))) by (apply K3; left; left; auto). rewrite X in Y. destruct Y.
    + split; auto.
    + intros N' HN. apply R. right; auto.
    + intros N' HN. destruct (FM N' (or_intror HN)) as [A1 D1], (F2 N' HN) as [A2 D2]. split.
      * intros v w Hv Hw E. apply K3 in Hv as [Hv|Hv]; auto.
      * intros v w Hv Hw E. apply K4 in Hv as [Hv|Hv]; [apply (D1 v w)|apply (D2 v w)]; auto.
    + exists M'. split; auto. split; [|split; auto].
      * eapply holds_ext; [apply H'|]. intros i _. unfold joint_q, joint_t. cbn [map qprod]. split; cbv beta; ring.
      * intros v. rewrite V', K3. split.
        -- intros [[Hv|Hv]|(N' & HN & Hv)]; auto; right; [exists N|exists N']; split; auto; [left; auto|right; auto].
        -- intros [Hv|(N' & [<-|HN] & Hv)]; auto. right. exists N'. auto.
Qed.
End Bare.

(** ** Which components are taken *)
Lemma sampled_comp_c Ms v : comp_for (map h_c Ms) v = option_map h_c (sampled_comp Ms v).
Proof.
  unfold comp_for, sampled_comp. induction Ms as [|m Ms IH]; auto. cbn [map find]. destruct (mem_str _ _); auto.
Qed.
Lemma found_comp Ms v : Forall comp_ok (map h_c Ms) ->
  find (fun m => match c_vars (h_c m) with w :: _ => String.eqb (v_name w) (v_name v) | [] => false end) Ms = sampled_comp Ms v.
Proof.
  unfold sampled_comp. induction Ms as [|m Ms IH]; auto. intros H. cbn [map] in H. inversion H as [|? ? Hm H']; subst. cbn [find]. rewrite IH by auto.
  destruct Hm as (_ & _ & N & w & Hw & _). rewrite (comp_vars _ _ Hw N), Hw. cbn [names map mem_str existsb]. rewrite orb_false_r, String.eqb_sym. auto.
Qed.

(** variables of a condition have no component *)
Lemma cond_no_comp Msys Ms cs y s : prod_ok Msys Ms cs -> In (y, s) cs -> in_comps Ms y = false.
Proof.
  intros (_ & _ & _ & _ & HM & HC & HA) Hy. unfold in_comps. destruct (comp_for Ms y) as [m|] eqn:E; auto. exfalso.
  apply find_some in E as [Hm E]. rewrite Forall_forall in HM. destruct (HM m Hm) as (W & _ & N & w & Hw & _).
  destruct HC as [[-> _]|(y' & s' & -> & HP)]; [destruct Hy|]. destruct Hy as [[= <- <-]|[]]. destruct (HP m Hm) as [P _].
  destruct W as (ND & _). rewrite (comp_vars _ _ Hw N), P in ND. rewrite Hw in E. cbn in E. rewrite orb_false_r in E. apply String.eqb_eq in E.
  cbn in ND. inversion ND as [|? ? X _]; subst. apply X. left. auto.
Qed.

Lemma comps_taken Msys Ms cs : prod_ok Msys (map h_c Ms) cs -> forall l,
  (forall v, In v l -> in_comps (map h_c Ms) v = false -> In (v_name v) (names (map fst cs))) ->
  exists ms, mapM (sample_comp Ms (map fst cs)) l = Ok ms /\ List.concat ms = map no_rows (sampled_comps Ms (filter (in_comps (map h_c Ms)) l)).
Proof.
  intros OK l. pose proof OK as (_ & _ & _ & _ & HM & HC & HA). induction l as [|v l IH]; intros H; [exists []; auto|].
  destruct IH as (ms & E & F); [intros w Hw; apply H; right; auto|]. cbn [mapM filter]. rewrite E. unfold sample_comp. rewrite found_comp by auto. rewrite existsb_names.
  destruct (in_comps (map h_c Ms) v) eqn:EI.
  - assert (X : mem_str (v_name v) (names (map fst cs)) = false).
    { apply not_true_is_false. intros X. apply mem_str_In, in_map_iff in X as (y & X1 & X2). apply in_map_iff in X2 as ([y' s] & X2 & X3). cbn in X2. subst y'.
      pose proof (cond_no_comp _ _ _ _ _ OK X3) as Y. unfold in_comps, comp_for in *. rewrite X1 in Y. rewrite Y in EI. discriminate. }
    rewrite X. unfold in_comps in EI. rewrite sampled_comp_c in EI. destruct (sampled_comp Ms v) as [m|] eqn:ES; [|discriminate].
    exists ([no_rows m] :: ms). cbn [bind List.concat]. split; auto. unfold sampled_comps. cbn [flat_map map]. rewrite ES. cbn [app map]. rewrite F. auto.
  - assert (X : mem_str (v_name v) (names (map fst cs)) = true) by (apply mem_str_In, H; [left|]; auto). rewrite X. cbn [bind].
    exists ([] :: ms). cbn [List.concat app]. auto.
Qed.

Lemma sampled_comps_In Msys Ms cs l m : prod_ok Msys (map h_c Ms) cs -> incl l (c_vars Msys) -> In m (sampled_comps Ms l) ->
  exists v, In v l /\ In m Ms /\ comp_ok (h_c m) /\ children (h_c m) = [v].
Proof.
  intros (_ & _ & _ & _ & HM & _ & HA) Hl Hm. apply in_flat_map in Hm as (v & Hv & Hm). destruct (sampled_comp Ms v) as [m'|] eqn:E; [|destruct Hm].
  destruct Hm as [<-|[]]. exists v. split; auto. pose proof (find_some _ _ E) as [Hin _]. split; auto.
  destruct (comp_for_ok Msys (map h_c Ms) v (h_c m')) as (_ & K); auto. rewrite sampled_comp_c, E. auto.
Qed.

Lemma comps_agree Msys Ms cs m m' : prod_ok Msys (map h_c Ms) cs -> In m Ms -> In m' Ms ->
  (exists v, In v (c_vars Msys) /\ children (h_c m) = [v]) -> (exists v, In v (c_vars Msys) /\ children (h_c m') = [v]) ->
  agree (c_vars (h_c m)) (c_vars (h_c m')).
Proof.
  intros (_ & _ & _ & _ & HM & HC & HA) Hm Hm' (x & Hx & Cx) (y & Hy & Cy) v w Hv Hw E.
  rewrite Forall_forall in HM. destruct (HM _ (in_map h_c _ _ Hm)) as (_ & _ & N & _). destruct (HM _ (in_map h_c _ _ Hm')) as (_ & _ & N' & _).
  rewrite (comp_vars _ _ Cx N) in Hv. rewrite (comp_vars _ _ Cy N') in Hw. destruct Hv as [<-|Hv].
  - apply (HA _ (in_map h_c _ _ Hm') x w Hx); auto. rewrite (comp_vars _ _ Cy N'). exact Hw.
  - destruct Hw as [<-|Hw].
    + symmetry. apply (HA _ (in_map h_c _ _ Hm) y v Hy); auto. rewrite (comp_vars _ _ Cx N). right; exact Hv.
    + destruct HC as [[_ HP]|(z & s & _ & HP)].
      * rewrite (HP _ (in_map h_c _ _ Hm)) in Hv. destruct Hv.
      * destruct (HP _ (in_map h_c _ _ Hm)) as [P _], (HP _ (in_map h_c _ _ Hm')) as [P' _]. rewrite P in Hv. rewrite P' in Hw.
        destruct Hv as [<-|[]], Hw as [<-|[]]. auto.
Qed.

Lemma no_rows_wf M : wf_cpm (h_c M) -> wf_cpm (h_c (no_rows M)).
Proof. intros (N & V & L & _). split; auto. split; auto. split; auto. split; [cbn; tauto|left; reflexivity]. Qed.
Lemma no_rows_vars M : c_vars (h_c (no_rows M)) = c_vars (h_c M) /\ children (h_c (no_rows M)) = children (h_c M).
Proof. auto. Qed.

Lemma stripped_fit Msys Ms cs : prod_ok (h_c Msys) (map h_c Ms) cs ->
  fit_list (map h_c (no_rows Msys :: map no_rows (sampled_comps Ms (mult_of (h_c Msys) (map h_c Ms))))).
Proof.
  intros OK. pose proof OK as (W & _ & _ & _ & HM & HC & HA).
  assert (Hl : incl (mult_of (h_c Msys) (map h_c Ms)) (parents (h_c Msys))) by (intros v Hv; apply filter_In in Hv as [Hv _]; auto).
  assert (Nl : NoDup (names (mult_of (h_c Msys) (map h_c Ms)))).
  { apply (NoDup_names_sub _ v_name). pose proof (proj1 W) as N. rewrite (children_parents (h_c Msys)) in N. unfold names in *. rewrite map_app in N.
    apply NoDup_app_r in N. exact N. }
  assert (Pi : incl (parents (h_c Msys)) (c_vars (h_c Msys))) by (intros v; apply parents_incl).
  split.
  - apply Forall_forall. intros c Hc. apply in_map_iff in Hc as (M & <- & [<-|HM']); [apply no_rows_wf; auto|].
    apply in_map_iff in HM' as (m & <- & Hm). apply (sampled_comps_In _ _ _ _ _ OK) in Hm as (v & _ & _ & (Wm & _) & _); [|intros v Hv; auto]. apply no_rows_wf; auto.
  - cbn [map pairwise]. split.
    + intros c Hc. rewrite map_map in Hc. apply in_map_iff in Hc as (m & <- & Hm). apply (sampled_comps_In _ _ _ _ _ OK) in Hm as (v & Hv & Hin & _ & Cv); [|intros v Hv; auto].
      split; [exact (HA _ (in_map h_c _ _ Hin))|]. intros x w Hx Hw E. rewrite (proj2 (no_rows_vars m)), Cv in Hw. destruct Hw as [<-|[]].
      rewrite (proj2 (no_rows_vars Msys)) in Hx. pose proof (proj1 W) as N. rewrite (children_parents (h_c Msys)) in N. unfold names in N. rewrite map_app in N.
      apply (NoDup_app_disj _ _ (v_name v) N); [rewrite <- E; apply in_map; auto|apply in_map; auto].
    + revert Hl Nl. generalize (mult_of (h_c Msys) (map h_c Ms)). induction l as [|v l IH]; intros Hl Nl; [exact Logic.I|].
      cbn [names map] in Nl. inversion Nl as [|? ? Nv Nl']; subst. assert (IH' := IH (fun x Hx => Hl x (or_intror Hx)) Nl').
      unfold sampled_comps in *. cbn [flat_map]. destruct (sampled_comp Ms v) as [m|] eqn:E; [|exact IH']. cbn [app map pairwise]. split; auto.
      destruct (sampled_comps_In _ Ms cs [v] m OK) as (v' & [<-|[]] & Hin & _ & Cv); [intros x [<-|[]]; apply Pi, Hl; left; auto|unfold sampled_comps; cbn [flat_map]; rewrite E; left; auto|].
      intros c Hc. rewrite map_map in Hc. apply in_map_iff in Hc as (m' & <- & Hm'). fold (sampled_comps Ms l) in Hm'.
      apply (sampled_comps_In _ _ _ _ _ OK) in Hm' as (v' & Hv' & Hin' & _ & Cv'); [|intros x Hx; apply Pi, Hl; right; auto].
      split.
      * apply (comps_agree (h_c Msys) Ms cs m m' OK Hin Hin'); [exists v|exists v']; split; auto; apply Pi, Hl; [left|right]; auto.
      * intros x w Hx Hw Ex. rewrite (proj2 (no_rows_vars m)), Cv in Hx. rewrite (proj2 (no_rows_vars m')), Cv' in Hw. destruct Hx as [<-|[]], Hw as [<-|[]].
        apply Nv. rewrite Ex. apply in_map. auto.
Qed.

Lemma col_ind_pos M vs : NoDup (names (c_vars M)) -> NoDup (names vs) -> incl vs (c_vars M) -> get_col_ind M (names vs) = Ok (map (pos (c_vars M)) vs).
Proof.
  intros N Nv Hi. unfold get_col_ind. assert (nodup_names (names vs) = true) as ->.
  { unfold nodup_names. rewrite nodup_fixed_point by auto. apply Nat.eqb_refl. }
  clear Nv. induction vs as [|v vs IH]; auto. cbn [names map mapM]. rewrite (name_index_pos M v) by (auto; apply Hi; left; auto). cbn [bind].
  unfold names in IH. rewrite IH; auto. intros x Hx. apply Hi. right; auto.
Qed.
Lemma cols_pos vars vs a : NoDup (names vars) -> incl vs vars -> cols (row_at vars a) (map (pos vars) vs) = row_at vs a.
Proof.
  intros N Hi. unfold cols, row_at at 2. rewrite map_map. apply map_ext_in. intros v Hv. unfold at_, row_at.
  apply nth_error_nth. rewrite nth_error_map, (pos_In vars v N (Hi v Hv)). auto.
Qed.

Section Main.
Variables (I : list Z) (G : list joint).
Hypothesis NI : NoDup I.
Hypothesis LI : List.length I = List.length G.
Hypothesis NG : G <> [].
Variables (Msys : hcpm) (Ms : list hcpm) (cs : list (variable * Z)).
Hypothesis OK : prod_ok (h_c Msys) (map h_c Ms) cs.
Hypothesis HS : forall M, In M (Msys :: Ms) -> sampled I G M /\ basic_samples G (c_vars (h_c M)).
Hypothesis NV : c_vars (h_c Msys) <> [].
Hypothesis HY : forall y s v, In (y, s) cs -> In v (children (h_c Msys) ++ mult_of (h_c Msys) (map h_c Ms)) -> v_name y <> v_name v.

Lemma hs_samples : existsb no_samples (Msys :: Ms) = false.
Proof using NG OK HS NV.
  apply not_true_is_false. intros X. apply existsb_exists in X as (M & HM & X). destruct (HS M HM) as [S _].
  rewrite (no_samples_spec I G M S NG) in X; [discriminate|]. destruct HM as [<-|HM]; auto.
  destruct OK as (_ & _ & _ & _ & HC & _). rewrite Forall_forall in HC. destruct (HC _ (in_map h_c _ _ HM)) as (_ & _ & N & v & Hv & _).
  rewrite (comp_vars _ _ Hv N). discriminate.
Qed.

Lemma h_prod_sys_ok :
  (forall v, In v (rest_of (h_c Msys) (map h_c Ms)) -> In (v_name v) (names (map fst cs))) ->
  mult_of (h_c Msys) (map h_c Ms) <> [] \/ new_conds cs (rest_of (h_c Msys) (map h_c Ms)) = [] ->
  exists R, h_prod_sys Msys Ms = Ok R /\ prod_sys (h_c Msys) (map h_c Ms) = Ok (h_c R) /\ wf_cpm (h_c R) /\ sampled I G R /\ basic_samples G (c_vars (h_c R)) /\
    forall i, (i < List.length G)%nat -> let l := Msys :: sampled_comps Ms (mult_of (h_c Msys) (map h_c Ms)) in
      nth i (h_q R) 0%Qc = joint_q l i /\ nth i (target_of R) 0%Qc = joint_t l i.
Proof using All.
  intros HR HN. pose proof OK as (W & _ & _ & NM & HM & HC & HA). unfold h_prod_sys. pose proof (prod_result_wf _ _ _ OK) as WR.
  rewrite (prod_sys_spec _ _ _ OK). cbn [bind].
  rewrite hs_samples. rewrite (cond_of_ok _ cs) by auto. cbn [bind].
  destruct (comps_taken _ _ _ OK (parents (h_c Msys))) as (ms & Em & Fm).
  { intros v Hv E. apply HR. apply filter_In. rewrite E. auto. }
  rewrite Em. cbn [bind]. rewrite Fm. fold (mult_of (h_c Msys) (map h_c Ms)). set (l := sampled_comps Ms (mult_of (h_c Msys) (map h_c Ms))) in *.
  set (c := mkCpm _ _ _ _) in *. assert (WC : wf_cpm c) by (apply WR; auto). clear WR.
  assert (ML : incl (mult_of (h_c Msys) (map h_c Ms)) (c_vars (h_c Msys))) by (intros v Hv; apply filter_In in Hv as [Hv _]; apply parents_incl; auto).
  destruct (bare_list I G NI LI NG (no_rows Msys :: map no_rows l)) as (P & EP & HP & WP & VP); [discriminate|exact (stripped_fit _ _ _ OK)| | |].
  { intros M [<-|Hin]; [destruct (HS Msys (or_introl eq_refl)) as [S1 S2]; split; [exact S1|split; [exact S2|exact NV]]|].
    apply in_map_iff in Hin as (m & <- & Hm). apply (sampled_comps_In _ _ _ _ _ OK ML) in Hm as (v & _ & Hm & Cm & Cv).
    destruct (HS m (or_intror Hm)) as [S1 S2]. split; [exact S1|]. split; [exact S2|]. cbn [no_rows h_c c_vars]. destruct Cm as (_ & _ & N & _). rewrite (comp_vars _ _ Cv N). discriminate. }
  { constructor; [split; reflexivity|]. apply Forall_forall. intros M Hin. apply in_map_iff in Hin as (m & <- & _). split; reflexivity. }
  rewrite EP. cbn [bind].
  assert (IC : incl (c_vars c) (c_vars (h_c P))).
  { intros v Hv. apply VP. cbn [c c_vars] in Hv. apply in_app_or in Hv as [Hv|Hv].
    - exists (no_rows Msys). split; [left; auto|]. apply (part_incl (h_c Msys) (map h_c Ms)). exact Hv.
    - apply in_map_iff in Hv as ([y s] & <- & Hv). destruct HN as [HN|HN]; [|rewrite HN in Hv; destruct Hv]. apply filter_In in Hv as [Hv _].
      destruct (mult_of (h_c Msys) (map h_c Ms)) as [|v0 V0] eqn:EM; [congruence|].
      assert (I0 : in_comps (map h_c Ms) v0 = true) by (assert (X : In v0 (mult_of (h_c Msys) (map h_c Ms))) by (rewrite EM; left; auto); apply filter_In in X as [_ X]; exact X).
      unfold in_comps in I0. rewrite sampled_comp_c in I0. destruct (sampled_comp Ms v0) as [m|] eqn:E0; [|discriminate].
      assert (Hl : In m l) by (unfold l, sampled_comps; cbn [flat_map]; rewrite E0; left; auto).
      exists (no_rows m). split; [right; apply in_map; auto|]. apply (sampled_comps_In _ _ _ _ _ OK ML) in Hl as (v1 & _ & Hm & (_ & _ & N & _) & Cv).
      cbn [no_rows h_c c_vars fst]. rewrite (comp_vars _ _ Cv N). right.
      destruct HC as [[-> _]|(y' & s' & -> & HP')]; [destruct Hv|]. destruct Hv as [[= <- <-]|[]]. rewrite (proj1 (HP' _ (in_map h_c _ _ Hm))). left; auto. }
  rewrite col_ind_pos; [|apply WP|apply WC|exact IC]. cbn [bind].
  destruct HP as (_ & (S1 & S2 & S3 & S4) & HW).
  assert (BP : basic_samples G (c_vars (h_c P))).
  { intros a v Ha Hv. apply VP in Hv as (N & [<-|HN'] & Hv); [apply (HS Msys (or_introl eq_refl)); auto|].
    apply in_map_iff in HN' as (m & <- & Hm). apply (sampled_comps_In _ _ _ _ _ OK ML) in Hm as (w & _ & Hm & _). apply (HS m (or_intror Hm)); auto. }
  assert (BC : basic_samples G (c_vars c)) by (intros a v Ha Hv; apply BP; auto).
  rewrite S2, map_map. rewrite (map_ext _ (row_at (c_vars c))) by (intros a; apply cols_pos; [apply WP|exact IC]).
  exists (mkH c (map (row_at (c_vars c)) G) (h_q P) (h_ps P) (h_idx P)). split.
  - unfold mk_h. rewrite check_Cs_ok by auto. cbn [bind]. rewrite !check_len_ok; auto; rewrite map_length; auto. right. congruence.
  - split; [reflexivity|]. split; [exact WC|]. split; [split; auto|]. split; [exact BC|].
    intros i Hi. destruct (HW i Hi) as [Q T]. cbv zeta. unfold joint_q, joint_t in *. cbn [map qprod] in *. rewrite map_map in Q, T. split; [exact Q|exact T].
Qed.

(** a parent that is neither a component nor a condition *)
Lemma h_prod_sys_missing v : In v (rest_of (h_c Msys) (map h_c Ms)) -> ~ In (v_name v) (names (map fst cs)) -> h_prod_sys Msys Ms = Err AssertionError.
Proof using NG OK HS NV.
  intros Hv Hn. pose proof OK as (W & _ & _ & NM & HM & HC & HA). unfold h_prod_sys. rewrite (prod_sys_spec _ _ _ OK). cbn [bind].
  rewrite hs_samples. rewrite (cond_of_ok _ cs) by auto. cbn [bind]. apply filter_In in Hv as [Hv EI]. apply negb_true_iff in EI.
  assert (X : mapM (sample_comp Ms (map fst cs)) (parents (h_c Msys)) = Err AssertionError); [|rewrite X; reflexivity].
  induction (parents (h_c Msys)) as [|w l IH]; [destruct Hv|]. cbn [mapM].
  assert (Y : forall e, sample_comp Ms (map fst cs) w = Err e -> e = AssertionError) by (intros e; unfold sample_comp; destruct (existsb _ _); [discriminate|]; destruct (find _ _); [discriminate|congruence]).
  destruct (sample_comp Ms (map fst cs) w) as [m|e] eqn:E; [|cbn [bind]; f_equal; auto]. cbn [bind].
  destruct Hv as [->|Hv]; [|rewrite IH; auto]. exfalso. unfold sample_comp in E. rewrite found_comp in E by auto. rewrite existsb_names in E.
  destruct (mem_str (v_name v) (names (map fst cs))) eqn:Z; [apply mem_str_In in Z; auto|]. unfold in_comps in EI. rewrite sampled_comp_c in EI.
  destruct (sampled_comp Ms v); discriminate.
Qed.
End Main.

Lemma h_prod_sys_dropped Msys Ms M c : In M (Msys :: Ms) -> no_samples M = true -> prod_sys (h_c Msys) (map h_c Ms) = Ok c ->
  h_prod_sys Msys Ms = Ok (mkH c [] [] [] []).
Proof.
  intros HM HN E. unfold h_prod_sys. rewrite E. cbn [bind]. assert (X : existsb no_samples (Msys :: Ms) = true) by (apply existsb_exists; eauto). rewrite X. auto.
Qed.
