(** The joint CPM of system and components of a network conditioned on a hazard: facts. *)
From Coq Require Import ZArith List String Bool Arith Lia QArith Qcanon Permutation Sorted Relations.
From Verif Require Import Py Num Vari Cpm SpecCpm PyFacts VariFacts CpmFacts CpmCond CpmProd CpmList CpmSum CpmMarg CpmElim CpmProb CpmMean Net SpecNet NetFacts MsysProd SpecProd MsysProdFacts VeCond SpecVe VeFacts CalFacts.
Import ListNotations.
Open Scope string_scope.
Open Scope Z_scope.
Open Scope list_scope.

Lemma filter_all {A} (f : A -> bool) l : (forall x, In x l -> f x = true) -> filter f l = l.
Proof. induction l as [|x l IH]; intros H; auto. cbn [filter]. rewrite H by (left; auto). f_equal. apply IH. intros; apply H; right; auto. Qed.
Lemma filter_none {A} (f : A -> bool) l : (forall x, In x l -> f x = false) -> filter f l = [].
Proof. induction l as [|x l IH]; intros H; auto. cbn [filter]. rewrite H by (left; auto). apply IH. intros; apply H; right; auto. Qed.

Lemma mass_on_names K K' M a : (forall n, In n (names K) <-> In n (names K')) -> mass_on K M a = mass_on K' M a.
Proof.
  intros H. unfold mass_on, total, weighted. f_equal. f_equal. apply filter_ext. intros rq.
  assert (G : forall l : list (variable * Z), forallb (fun vc => negb (mem_str (v_name (fst vc)) (names K)) || mem_Z (a (v_name (fst vc))) (states_of (fst vc) (snd vc))) l =
    forallb (fun vc => negb (mem_str (v_name (fst vc)) (names K')) || mem_Z (a (v_name (fst vc))) (states_of (fst vc) (snd vc))) l); [|apply G].
  induction l as [|vc l IH]; auto. cbn [forallb]. rewrite IH. f_equal. f_equal. f_equal.
  apply eq_true_iff_eq. rewrite !mem_str_In. apply H.
Qed.

(** what [sum] leaves is the mass on the variables kept *)
Lemma sum_mass_on R X m' a : wf_cpm R -> has_p R -> kept R X true <> [] -> sum R (Vars X) true = Ok m' -> mass m' a = mass_on (kept R X true) R a.
Proof.
  intros WR HP NK E. rewrite mass_weighted. rewrite (sum_mass R X true m' WR ltac:(discriminate) NK (has_p_or R HP) E).
  destruct (sum_spec R X true WR ltac:(discriminate) NK) as (m2 & E' & W' & V' & _). assert (m2 = m') by congruence. subst m2.
  assert (weights R = c_p R) as ->.
  { unfold weights. destruct (c_p R) eqn:Ep; auto. unfold has_p in HP. rewrite Ep in HP. destruct (c_C R); [auto|discriminate]. }
  unfold mass_on, total, weighted. f_equal. f_equal. apply filter_ext_in. intros [row q] Hin. cbn [fst].
  assert (Lr : List.length row = List.length (c_vars R)).
  { apply in_combine_l in Hin. destruct WR as (_ & _ & _ & WR & _). specialize (WR row Hin). apply Forall2_length in WR. auto. }
  assert (KI : incl (kept R X true) (c_vars R)) by (intros v; apply kept_incl).
  rewrite V'. rewrite row_match_proj, combine_pos by (auto; apply WR). apply eq_true_iff_eq. rewrite !forallb_forall. split.
  - intros H vc Hvc. apply in_map_iff in Hvc as (v & <- & Hv). cbn [fst snd].
    destruct (mem_str (v_name v) (names (kept R X true))) eqn:Em; auto. cbn [negb orb]. apply mem_str_In in Em. apply in_map_iff in Em as (w & Ew & Hw).
    rewrite <- (NoDup_names_inj (c_vars R) w v (proj1 WR) (KI w Hw) Hv Ew). exact (H w Hw).
  - intros H v Hv. specialize (H (v, at_ row (pos (c_vars R) v)) (in_map (fun v => (v, at_ row (pos (c_vars R) v))) _ _ (KI v Hv))). cbn [fst snd] in H.
    assert (Em : mem_str (v_name v) (names (kept R X true)) = true) by (apply mem_str_In; apply in_map; auto). rewrite Em in H. exact H.
Qed.

(** a component conditioned on the hazard *)
Definition cond_comp (h : variable) (s0 : Z) (xm : variable * cpm) : Prop :=
  comp_ok (snd xm) /\ basic_child (snd xm) /\ children (snd xm) = [fst xm] /\ parents (snd xm) = [h] /\
  forall row, In row (c_C (snd xm)) -> nth_error row 1 = Some s0.

Section tail.
Variables (h : variable) (k e s0 : Z) (Ph m1 S : cpm) (L : list (variable * cpm)) (E : list variable).
Hypothesis Hs0 : names_state h s0 k.
Hypothesis He : names_state h e k.
Hypothesis Wm1 : wf_cpm m1.
Hypothesis Pm1 : has_p m1.
Hypothesis Vm1 : c_vars m1 = [h].
Hypothesis Nm1 : c_nch m1 = 1%nat.
Hypothesis Bm1 : basic_in m1 h.
Hypothesis Qm1 : forall a, mass m1 a = if a (v_name h) =? k then mass Ph a else 0%Qc.
Hypothesis WS : wf_cpm S.
Hypothesis PS : has_p S.
Hypothesis NCS : children S <> [].
Hypothesis HL : Forall (cond_comp h s0) L.
Hypothesis NL : NoDup (names (map fst L)).
Hypothesis LE : forall v, In v (map fst L) <-> In v E.
Hypothesis NE : NoDup (names E).
Hypothesis LP : forall v, In v (map fst L) -> In v (parents S).
Hypothesis PL : forall v, In v (parents S) -> In v (map fst L) \/ v = h.
Hypothesis hL : forall v, In v (map fst L) -> v_name v <> v_name h.
Hypothesis hC : forall v, In v (children S) -> v_name v <> v_name h.

Definition tail : res cpm :=
  m <- prod_sys S (map snd L) ;; m' <- sum m (Names (names E)) true ;; m'' <- product m' m1 ;; sum m'' (Names [v_name h]) true.

Lemma LC v w : In v (map fst L) -> In w (children S) -> v_name v <> v_name w.
Proof using WS LP.
  intros Hx Hy Z. assert (N := proj1 WS). rewrite vars_split in N. unfold names in N. rewrite map_app in N.
  apply (NoDup_app_disj _ _ (v_name w) N); [apply in_map; auto|rewrite <- Z; apply in_map, LP; auto].
Qed.
Lemma F2L : Forall2 (fun x m => children m = [x]) (map fst L) (map snd L).
Proof using HL. clear -HL. induction HL as [|xm l H F IH]; cbn; constructor; auto. apply H. Qed.

Lemma tail_ok : let cs := map snd L in L <> [] -> c_C S <> [] -> prod_ok S cs [(h, s0)] /\
  (forall y s v, In (y, s) [(h, s0)] -> In v (children S ++ mult_of S cs) -> v_name y <> v_name v) /\
  (forall v, In v (mult_of S cs) <-> In v (map fst L)) /\ (forall v, In v (rest_of S cs) <-> In v (parents S) /\ v = h) /\ comps_for cs (map fst L) = cs.
Proof using WS PS HL NL LP PL hL hC.
  intros cs L0 C0.
  destruct (comps_for_all (map fst L) cs NL F2L) as [CF IC].
  assert (HM : forall m, In m cs -> exists x, In x (map fst L) /\ cond_comp h s0 (x, m)).
  { intros m0 Hm. apply in_map_iff in Hm as ([x m'] & <- & Hm). exists x. split; [apply in_map_iff; exists (x, m'); auto|]. rewrite Forall_forall in HL. apply HL. auto. }
  assert (hNC : in_comps cs h = false).
  { unfold in_comps, comp_for. destruct (find _ cs) as [m0|] eqn:F; auto. exfalso. apply find_some in F as [F1 F2]. destruct (HM m0 F1) as (x & Hx & _ & _ & Z & _).
    cbn [snd fst] in Z. rewrite Z in F2. apply mem_str_In in F2. destruct F2 as [F2|[]]. apply (hL x Hx). auto. }
  set (mu := mult_of S cs). set (re := rest_of S cs).
  assert (MuI : forall v, In v mu <-> In v (map fst L)).
  { intros v. unfold mu, mult_of. rewrite filter_In. split; [intros [H1 H2]|intros H1; split; auto].
    destruct (PL v H1) as [H3| ->]; auto. congruence. }
  assert (ReI : forall v, In v re <-> In v (parents S) /\ v = h).
  { intros v. unfold re, rest_of. rewrite filter_In. split; intros [H1 H2]; split; auto.
    - destruct (PL v H1) as [H3|H3]; auto. rewrite (IC v H3) in H2. discriminate.
    - subst v. rewrite hNC. auto. }
  assert (PO : prod_ok S cs [(h, s0)]).
  { split; [auto|]. split; [auto|]. split; [auto|]. split.
    { intros Z. apply map_eq_nil in Z. auto. }
    split; [apply Forall_forall; intros m0 Hm; destruct (HM m0 Hm) as (x & _ & Z & _); auto|]. split.
    - right. exists h, s0. split; auto. intros m0 Hm. destruct (HM m0 Hm) as (x & _ & _ & _ & _ & Z & Z'). auto.
    - intros m0 Hm. destruct (HM m0 Hm) as (x & Hx & _ & _ & H1 & H2 & _). cbn [fst snd] in *. intros v1 v2 H3 H4 Ev. rewrite vars_split, H1, H2 in H4.
      destruct H4 as [<-|[<-|[]]].
      + apply (NoDup_names_inj (c_vars S)); auto; [apply WS|apply parents_incl; auto].
      + rewrite vars_split in H3. apply in_app_or in H3 as [H3|H3]; [exfalso; apply (hC v1); auto|].
        destruct (PL v1 H3) as [H4| ->]; auto. exfalso. apply (hL v1); auto. }
  assert (Dis : forall y s v, In (y, s) [(h, s0)] -> In v (children S ++ mult_of S cs) -> v_name y <> v_name v).
  { intros y s v [[= <- <-]|[]] Hv. apply not_eq_sym. apply in_app_or in Hv as [Hv|Hv]; [apply hC; auto|apply hL, MuI; auto]. }
  auto.
Qed.

Definition tail_R : cpm :=
  let cs := map snd L in
  mkCpm (part_vars S cs ++ map fst (new_conds [(h, s0)] (rest_of S cs))) (List.length (children S ++ mult_of S cs)) (map (new_row S cs [(h, s0)]) (c_C S))
    (map (fun rp => (snd rp * qprod (map (fun v => comp_factor cs v (at_ (fst rp) (pos (c_vars S) v))) (mult_of S cs)))%Qc) (combine (c_C S) (c_p S))).

Lemma tail_stage1 : L <> [] -> c_C S <> [] -> exists m', prod_sys S (map snd L) = Ok tail_R /\ wf_cpm tail_R /\
  sum tail_R (Names (names E)) true = Ok m' /\ sum tail_R (Vars E) true = Ok m' /\ wf_cpm m' /\ has_p m' /\ c_C m' <> [] /\
  (forall v, In v (children m') <-> In v (children S)) /\ (forall v, In v (c_vars m') <-> In v (children S) \/ v = h) /\
  forall a, a (v_name h) = k -> mass m' a = marg E (pmass (S :: map snd L)) a.
Proof using All.
  intros L0 C0. set (cs := map snd L) in *.
  destruct (tail_ok L0 C0) as (PO & Dis & MuI & ReI & CF). fold cs in PO, Dis, MuI, ReI, CF.
  assert (HM : forall m, In m cs -> basic_child m).
  { intros m0 Hm. apply in_map_iff in Hm as ([x m'] & <- & Hm). rewrite Forall_forall in HL. apply (HL (x, m')). auto. }
  set (mu := mult_of S cs) in *. set (re := rest_of S cs) in *.
  assert (NP : NoDup (names (parents S))).
  { assert (N := proj1 WS). rewrite vars_split in N. unfold names in N. rewrite map_app in N. apply NoDup_app_r in N. auto. }
  assert (NF : forall f, NoDup (names (filter f (parents S)))).
  { intros f. clear -NP. induction (parents S) as [|v l IH]; cbn [filter]; [constructor|]. cbn in NP. inversion NP as [|? ? N1 N2]; subst.
    destruct (f v); auto. cbn. constructor; auto. intros Z. apply N1. apply in_map_iff in Z as (w & <- & Hw). apply filter_In in Hw as [Hw _]. apply in_map. auto. }
  assert (Nmu : NoDup (names mu)) by apply NF.
  assert (ER := prod_sys_spec S cs [(h, s0)] PO). assert (WR := prod_result_wf S cs [(h, s0)] PO Dis).
  change (prod_sys S cs = Ok tail_R) in ER. change (wf_cpm tail_R) in WR. set (R := tail_R) in *.
  set (nc := map fst (new_conds [(h, s0)] (rest_of S cs))) in *.
  assert (NcI : forall v, In v (re ++ nc) <-> v = h).
  { intros v. unfold nc, new_conds. fold re. cbn [filter fst]. destruct (mem_str (v_name h) (names re)) eqn:Em; cbn [negb map fst]; rewrite in_app_iff, ReI.
    - apply mem_str_In in Em. apply in_map_iff in Em as (w & _ & Hw). apply ReI in Hw as [Hw ->]. split; [intros [[_ Z]|[]]; auto|intros ->; auto].
    - split; [intros [[_ Z]|[<-|[]]]; auto|intros ->; right; left; auto]. }
  assert (VR : c_vars R = (children S ++ mu) ++ re ++ nc).
  { unfold R, tail_R. cbn [c_vars]. fold cs. unfold part_vars. rewrite <- app_assoc. reflexivity. }
  assert (CR : children R = children S ++ mu /\ parents R = re ++ nc).
  { assert (NR : c_nch R = List.length (children S ++ mu)) by reflexivity. split; [unfold children at 1|unfold parents at 1]; rewrite VR, NR.
    - rewrite firstn_app, firstn_all, Nat.sub_diag. cbn [firstn]. apply app_nil_r.
    - rewrite skipn_app, skipn_all, Nat.sub_diag. reflexivity. }
  destruct CR as [CR PR].
  assert (KR : kept R E true = children S ++ re ++ nc).
  { unfold kept. rewrite CR, PR, filter_app. rewrite filter_all, filter_none, app_nil_r; auto.
    - intros v Hv. unfold kept_child. apply negb_false_iff. apply existsb_exists. exists v. split; [apply LE, MuI; auto|apply v_eqb_refl].
    - intros v Hv. unfold kept_child. apply negb_true_iff. rewrite <- not_true_iff_false. intros Z. apply existsb_exists in Z as (w & Hw & Z). apply v_eqb_eq in Z.
      apply (LC w v); auto. apply LE; auto. }
  assert (NKR : kept R E true <> []) by (rewrite KR; destruct (children S); [congruence|discriminate]).
  assert (PpR : has_p R).
  { unfold has_p, R, tail_R. cbn [c_p c_C]. rewrite !map_length, combine_length. unfold has_p in PS. lia. }
  assert (IX : incl E (c_vars R)) by (intros v Hv; rewrite VR, !in_app_iff; left; right; apply MuI, LE; auto).
  exists (match sum R (Vars E) true with Ok m => m | Err _ => R end). rewrite (sum_names R E true (proj1 WR) IX).
  destruct (sum_spec R E true WR ltac:(discriminate) NKR) as (m' & E' & W' & V' & C' & P' & _ & R' & _). rewrite E'.
  assert (Hp' : has_p m') by (apply (proj1 (sum_keep R E true m' h WR ltac:(discriminate) NKR E') PpR)).
  assert (Mm' : forall a, a (v_name h) = k -> mass m' a = marg E (pmass (S :: cs)) a).
  { intros a Ha. rewrite (sum_mass_on R E m' a WR PpR NKR E'), KR.
    rewrite (mass_on_names (children S ++ re ++ nc) (children S ++ rest_of S cs ++ map fst [(h, s0)]) R a).
    - rewrite (prod_sys_mass S cs [(h, s0)] R a PO).
      + fold mu. assert (Pm : Permutation mu E).
        { apply NoDup_Permutation; [eapply NoDup_map_inv; exact Nmu|eapply NoDup_map_inv; exact NE|]. intros v. rewrite MuI. apply LE. }
        rewrite (marg_perm mu E _ a (pmass_ext _) Pm Nmu). apply marg_ext. intros b. unfold pmass. cbn [map qprod fold_right]. f_equal.
        change (qprod (map (fun M => mass M b) (comps_for cs mu)) = qprod (map (fun M => mass M b) cs)). apply qprod_perm_map.
        assert (Z : Permutation (comps_for cs mu) (comps_for cs (map fst L))); [|rewrite CF in Z; exact Z].
        unfold comps_for. apply Permutation_flat_map. apply NoDup_Permutation; [eapply NoDup_map_inv; exact Nmu|eapply NoDup_map_inv; exact NL|exact MuI].
      + apply Forall_forall. auto.
      + intros y s v H1 H2. apply (Dis y s v H1). apply in_or_app. auto.
      + exact ER.
      + intros y s [[= <- <-]|[]]. rewrite Ha. apply Hs0. auto.
    - intros n. unfold names. rewrite !map_app, !in_app_iff. fold re. split; (intros [Z|Z]; [auto|right]).
      + rewrite <- in_app_iff, <- map_app in Z. apply in_map_iff in Z as (w & <- & Hw). apply NcI in Hw. subst w. right. left. auto.
      + rewrite <- in_app_iff, <- map_app in Z |- *. apply in_map_iff in Z as (w & <- & Hw). apply in_map. apply NcI.
        apply in_app_or in Hw as [Hw|[<-|[]]]; auto. apply ReI in Hw. tauto. }
  rewrite KR in V'.
  assert (C'' : forall v, In v (children m') <-> In v (children S)).
  { intros v. rewrite C', CR. assert (Q : filter (kept_child E true) (children S ++ mu) = children S); [|rewrite Q; tauto].
    unfold kept in KR. rewrite CR, PR in KR. apply app_inv_tail in KR. exact KR. }
  assert (V'' : forall v, In v (c_vars m') <-> In v (children S) \/ v = h) by (intros v; rewrite V', in_app_iff, NcI; tauto).
  split; [auto|]. split; [auto|]. split; [auto|]. split; [auto|]. split; [auto|]. split; [auto|]. split; [|auto].
  destruct (c_C S) as [|row C] eqn:ES; [congruence|]. intros Z. assert (Y : In (proj (c_vars R) (kept R E true) (new_row S cs [(h, s0)] row)) (c_C m')); [|rewrite Z in Y; destruct Y].
  apply R'. exists (new_row S cs [(h, s0)] row). split; auto. unfold R, tail_R. cbn [c_C]. fold cs. apply in_map. rewrite ES. left; auto.
Qed.

Lemma tail_stage2 m' : wf_cpm m' -> has_p m' -> (forall v, In v (children m') <-> In v (children S)) -> (forall v, In v (c_vars m') <-> In v (children S) \/ v = h) ->
  agree (c_vars m') (c_vars m1) /\ disjoint_children m' m1 /\
  forall m2, product m' m1 = Ok m2 -> wf_cpm m2 /\ has_p m2 /\ sum m2 (Names [v_name h]) true = sum m2 (Vars [h]) true /\ kept m2 [h] true <> [] /\
    (forall v, In v (kept m2 [h] true) <-> In v (children S)) /\ (forall v, In v (c_vars m2) <-> In v (children S) \/ v = h) /\
    (forall a, mass m2 a = (mass m' a * mass m1 a)%Qc) /\ basic_in m2 h.
Proof using All.
  intros W' Hp' C'' V''.
  assert (Ag : agree (c_vars m') (c_vars m1)).
  { rewrite Vm1. intros v w Hv [<-|[]] Ev. apply V'' in Hv as [Hv|Hv]; auto. exfalso. apply (hC v); auto. }
  assert (Ch1 : children m1 = [h]) by (unfold children; rewrite Vm1, Nm1; auto).
  assert (Dj : disjoint_children m' m1).
  { intros v w Hv Hw. rewrite Ch1 in Hw. destruct Hw as [<-|[]]. apply hC, C''. auto. }
  split; [auto|]. split; [auto|]. intros m2 EP.
  destruct (product_ok m' m1 m2 W' Wm1 Ag Dj EP) as (W2 & Q2 & V2 & C2 & N2).
  assert (Hp2 : has_p m2) by exact (product_has_p m' m1 m2 W' Wm1 Ag Dj EP).
  assert (Ihh : incl [h] (c_vars m2)) by (intros v [<-|[]]; apply V2; right; rewrite Vm1; left; auto).
  assert (In2 : forall v, In v (children m2) <-> In v (children S) \/ v = h).
  { intros v. rewrite C2, C'', Ch1. cbn. intuition. }
  assert (Pa2 : parents m2 = []).
  { assert (Z : forall v, ~ In v (parents m2)); [|destruct (parents m2) as [|v l]; auto; exfalso; apply (Z v); left; auto].
    intros v Hv. assert (Hv2 := parents_incl _ _ Hv). apply V2 in Hv2. rewrite V'', Vm1 in Hv2.
    assert (Hc : In v (children m2)) by (apply In2; cbn in Hv2; intuition).
    assert (N := proj1 W2). rewrite vars_split in N. unfold names in N. rewrite map_app in N. apply (NoDup_app_disj _ _ (v_name v) N); apply in_map; auto. }
  assert (K2 : forall v, In v (kept m2 [h] true) <-> In v (children S)).
  { intros v. unfold kept. rewrite Pa2, app_nil_r, filter_In, In2. unfold kept_child. cbn [existsb]. rewrite orb_false_r. split.
    - intros [[Hv| ->] Z]; auto. rewrite v_eqb_refl in Z. discriminate.
    - intros Hv. split; auto. rewrite v_eqb_names; auto. }
  assert (NK2 : kept m2 [h] true <> []).
  { intros Z. destruct (children S) as [|c l] eqn:Ec; [congruence|]. assert (Y : In c (kept m2 [h] true)) by (apply K2; left; auto). rewrite Z in Y. destruct Y. }
  split; [auto|]. split; [auto|]. split; [exact (sum_names m2 [h] true (proj1 W2) Ihh)|]. split; [auto|]. split; [auto|].
  split; [intros v; rewrite V2, V'', Vm1; cbn; intuition|]. split; [auto|].
  apply (basic_product m' m1 m2 h W' Wm1 Ag Dj EP). right. split; [rewrite Vm1; left; auto|auto].
Qed.

Theorem tail_sound m : tail = Ok m -> wf_cpm m /\ has_p m /\ (forall v, In v (c_vars m) <-> In v (children S)) /\
  forall a, mass m a = marg [h] (fun b => ((if b (v_name h) =? k then mass Ph b else 0%Qc) * marg E (pmass (S :: map snd L)) b)%Qc) a.
Proof using All.
  unfold tail. intros H. set (cs := map snd L) in *.
  assert (L0 : L <> []). { intros Z. subst L. cbn in H. discriminate. }
  assert (C0 : c_C S <> []).
  { intros Z. unfold prod_sys in H. destruct (negb _) in H; [discriminate|]. destruct (mapM comp_name cs); cbn [bind] in H; [|discriminate].
    destruct (cond_of cs); cbn [bind] in H; [|discriminate]. rewrite Z in H. discriminate. }
  destruct (tail_stage1 L0 C0) as (m' & ER & WR & E' & _ & W' & Hp' & _ & C'' & V'' & Mm'). fold cs in ER, Mm'. rewrite ER in H. cbn [bind] in H. rewrite E' in H. cbn [bind] in H.
  destruct (tail_stage2 m' W' Hp' C'' V'') as (Ag & Dj & G).
  destruct (product m' m1) as [m2|] eqn:EP; cbn [bind] in H; [|discriminate].
  destruct (G m2 eq_refl) as (W2 & Hp2 & Es & NK2 & K2 & V2 & Q2 & B2). rewrite Es in H.
  destruct (sum_spec m2 [h] true W2 ltac:(discriminate) NK2) as (m3 & E3 & W3 & V3 & _). assert (m3 = m) by congruence. subst m3. clear E3.
  split; [auto|]. split; [exact (proj1 (sum_keep m2 [h] true m h W2 ltac:(discriminate) NK2 H) Hp2)|]. split; [intros v; rewrite V3; apply K2|].
  intros a. rewrite (sum_marg m2 [h] true m [h] W2 ltac:(discriminate) NK2 (has_p_or m2 Hp2) H).
  - apply marg_ext. intros b. rewrite Q2, Qm1. destruct (Z.eqb_spec (b (v_name h)) k) as [Eb|Eb]; [|ring]. rewrite (Mm' b Eb). ring.
  - cbn. constructor; [tauto|constructor].
  - intros v. rewrite V3, K2, V2. cbn. split.
    + intros [<-|[]]. split; [auto|]. intros Z. apply (hC h Z). auto.
    + intros [H1 H2]. intuition.
  - intros v [<-|[]]. auto.
Qed.
End tail.

(** * Joining components to the system *)
Definition dict_of (L : list (variable * cpm)) (sys : string) (S : cpm) : dict cpm :=
  map (fun xm => (v_name (fst xm), snd xm)) L ++ [(sys, S)].

Lemma dget_last L sys S : ~ In sys (names (map fst L)) -> dget (dict_of L sys S) sys = Ok S.
Proof.
  intros N. apply dget_ok. unfold dict_of. induction L as [|[x m] L IH]; cbn in *; [rewrite String.eqb_refl; auto|].
  destruct (String.eqb_spec sys (v_name x)) as [Z|]; [exfalso; apply N; left; auto|]. apply IH. tauto.
Qed.
Lemma dget_pair L sys S x m : NoDup (names (map fst L)) -> In (x, m) L -> dget (dict_of L sys S) (v_name x) = Ok m.
Proof.
  intros N H. apply dget_ok. unfold dict_of. induction L as [|[y c] L IH]; [destruct H|]. cbn in N |- *. inversion N as [|? ? N1 N2]; subst.
  destruct H as [[= -> ->]|H]; [rewrite String.eqb_refl; auto|].
  destruct (String.eqb_spec (v_name x) (v_name y)) as [Z|]; auto. exfalso. apply N1. rewrite <- Z. unfold names. rewrite map_map. apply in_map_iff. exists (x, m). auto.
Qed.
Lemma dset_last L sys S P : ~ In sys (names (map fst L)) -> dset (dict_of L sys S) sys P = dict_of L sys P.
Proof.
  intros N. unfold dict_of. induction L as [|[x m] L IH]; cbn in *; [rewrite String.eqb_refl; auto|].
  destruct (String.eqb_spec sys (v_name x)) as [Z|]; [exfalso; apply N; left; auto|]. f_equal. apply IH. tauto.
Qed.
Lemma ddel_pair L sys S n : n <> sys -> ddel (dict_of L sys S) n = dict_of (filter (fun xm => negb (String.eqb (v_name (fst xm)) n)) L) sys S.
Proof.
  intros N. unfold ddel, dict_of. rewrite filter_app. cbn [filter fst]. assert (String.eqb sys n = false) as -> by (apply String.eqb_neq; auto). cbn [negb]. f_equal.
  induction L as [|[x m] L IH]; auto. cbn [map filter fst snd]. destruct (String.eqb (v_name x) n); cbn [negb map fst snd]; rewrite IH; auto.
Qed.
Lemma rest_of_dict L sys S : ~ In sys (names (map fst L)) -> map snd (filter (fun kM => negb (String.eqb (fst kM) sys)) (dict_of L sys S)) = map snd L.
Proof.
  intros N. unfold dict_of. rewrite filter_app, map_app. cbn [filter fst]. rewrite String.eqb_refl. cbn [negb map]. rewrite app_nil_r.
  induction L as [|[x m] L IH]; auto. cbn [map filter fst snd] in *. assert (String.eqb (v_name x) sys = false) as ->.
  { apply String.eqb_neq. intros Z. apply N. left. auto. }
  cbn [negb map snd]. f_equal. apply IH. intros Z. apply N. right. auto.
Qed.

Section joined.
Variables (sys : string) (h : variable) (s0 : Z) (S : cpm) (comps' : list cpm).
Notation X := (parents S).
Hypothesis WS : wf_cpm S.
Hypothesis hS : ~ In (v_name h) (names (c_vars S)).
Hypothesis sX : ~ In sys (names X).

Definition joined (S' : cpm) (L : list (variable * cpm)) : Prop :=
  wf_cpm S' /\ has_p S' /\ Forall (cond_comp h s0) L /\ NoDup (names (map fst L)) /\ incl (map fst L) X /\
  (forall v, In v (children S') <-> In v (children S) \/ (In v X /\ ~ In v (map fst L))) /\
  (forall v, In v (map fst L) -> In v (parents S')) /\ (forall v, In v (parents S') -> In v (map fst L) \/ v = h) /\
  (forall a, pmass (S' :: map snd L) a = pmass (S :: comps') a).

Lemma xh v : In v X -> v_name v <> v_name h.
Proof using hS. intros H Z. apply hS. rewrite <- Z. apply in_map. apply parents_incl. auto. Qed.
Lemma joined_hC S' L v : joined S' L -> In v (children S') -> v_name v <> v_name h.
Proof using hS.
  intros (_ & _ & _ & _ & _ & C & _) Hv Z. apply hS. rewrite <- Z. apply in_map. apply C in Hv as [Hv|[Hv _]]; [apply children_incl|apply parents_incl]; auto.
Qed.

Lemma filter_fst L n : map fst (filter (fun xm : variable * cpm => negb (String.eqb (v_name (fst xm)) n)) L) = filter (fun v => negb (String.eqb (v_name v) n)) (map fst L).
Proof. induction L as [|xm L IH]; auto. cbn [filter map]. destruct (String.eqb (v_name (fst xm)) n); cbn [negb map]; rewrite IH; auto. Qed.
Lemma names_filter (f : variable -> bool) l : NoDup (names l) -> NoDup (names (filter f l)).
Proof.
  induction l as [|v l IH]; cbn [filter]; [constructor|]. cbn. intros N. inversion N as [|? ? N1 N2]; subst.
  destruct (f v); auto. cbn. constructor; auto. intros Z. apply N1. apply in_map_iff in Z as (w & <- & Hw). apply filter_In in Hw as [Hw _]. apply in_map. auto.
Qed.
Lemma pmass_without L x m a : NoDup (names (map fst L)) -> In (x, m) L ->
  qprod (map (fun M => mass M a) (map snd L)) = (mass m a * qprod (map (fun M => mass M a) (map snd (filter (fun xm => negb (String.eqb (v_name (fst xm)) (v_name x))) L))))%Qc.
Proof.
  induction L as [|[y c] L IH]; intros N H; [destruct H|]. cbn in N. inversion N as [|? ? N1 N2]; subst. cbn [map snd qprod filter fst].
  destruct H as [[= -> ->]|H].
  - rewrite String.eqb_refl. cbn [negb]. rewrite filter_all; auto. intros [z c'] Hz. cbn [fst]. apply negb_true_iff, String.eqb_neq. intros Z. apply N1. rewrite <- Z.
    unfold names. rewrite map_map. apply in_map_iff. exists (z, c'). auto.
  - assert (String.eqb (v_name y) (v_name x) = false) as ->.
    { apply String.eqb_neq. intros Z. apply N1. rewrite Z. unfold names. rewrite map_map. apply in_map_iff. exists (x, m). auto. }
    cbn [negb map snd qprod]. rewrite (IH N2 H). ring.
Qed.

Lemma join_one S' L x d : joined S' L -> In x (map fst L) -> join_sys sys (dict_of L sys S') (v_name x) = Ok d ->
  exists S'', d = dict_of (filter (fun xm => negb (String.eqb (v_name (fst xm)) (v_name x))) L) sys S'' /\
    joined S'' (filter (fun xm => negb (String.eqb (v_name (fst xm)) (v_name x))) L).
Proof using WS hS sX.
  intros J Hx H. pose proof J as (W & P & FL & NL & IL & CH & LP & PL & Q). unfold join_sys in H.
  assert (sL : ~ In sys (names (map fst L))).
  { intros Z. apply sX. apply in_map_iff in Z as (v & <- & Hv). apply in_map. apply IL. auto. }
  rewrite dget_last in H by auto. cbn [bind] in H.
  assert (HxL := Hx). apply in_map_iff in HxL as ([x' m] & Ex & Hm). cbn in Ex. subst x'. rewrite (dget_pair L sys S' x m NL Hm) in H. cbn [bind] in H.
  destruct (product S' m) as [S''|] eqn:EP; cbn [bind] in H; [|discriminate]. injection H as <-. exists S''.
  rewrite dset_last by auto. assert (xs : v_name x <> sys). { intros Z. apply sL. rewrite <- Z. apply in_map. auto. }
  rewrite ddel_pair by auto. split; [reflexivity|].
  rewrite Forall_forall in FL. pose proof (FL _ Hm) as (OK & BC & Cm & Pm & Rm). cbn [fst snd] in *.
  assert (Vm : c_vars m = [x; h]) by (rewrite vars_split, Cm, Pm; auto).
  assert (Nv := proj1 W).
  assert (CP : forall v w, In v (children S') -> In w (parents S') -> v_name v <> v_name w).
  { intros v w Hv Hw Z. assert (N := Nv). rewrite vars_split in N. unfold names in N. rewrite map_app in N.
    apply (NoDup_app_disj _ _ (v_name v) N); [apply in_map; auto|rewrite Z; apply in_map; auto]. }
  assert (Ag : agree (c_vars S') (c_vars m)).
  { rewrite Vm. intros v w Hv [<-|[<-|[]]] Z.
    - apply (NoDup_names_inj (c_vars S')); auto. apply parents_incl. auto.
    - rewrite vars_split in Hv. apply in_app_or in Hv as [Hv|Hv]; [exfalso; apply (joined_hC S' L v J); auto|].
      destruct (PL v Hv) as [Hv'| ->]; auto. exfalso. apply (xh v); auto. }
  assert (Dj : disjoint_children S' m). { intros v w Hv Hw. rewrite Cm in Hw. destruct Hw as [<-|[]]. apply CP; auto. }
  destruct (product_ok S' m S'' W (proj1 OK) Ag Dj EP) as (W2 & Q2 & V2 & C2 & N2).
  assert (Hp2 : has_p S'') by exact (product_has_p S' m S'' W (proj1 OK) Ag Dj EP).
  assert (CP2 : forall v w, In v (children S'') -> In w (parents S'') -> v_name v <> v_name w).
  { intros v w Hv Hw Z. assert (N := proj1 W2). rewrite vars_split in N. unfold names in N. rewrite map_app in N.
    apply (NoDup_app_disj _ _ (v_name v) N); [apply in_map; auto|rewrite Z; apply in_map; auto]. }
  assert (FI : forall v, In v (filter (fun v => negb (String.eqb (v_name v) (v_name x))) (map fst L)) <-> In v (map fst L) /\ v <> x).
  { intros v. rewrite filter_In, negb_true_iff, String.eqb_neq. split; intros [A B]; split; auto; [congruence|].
    intros Z. apply B. apply (NoDup_names_inj (map fst L)); auto. }
  rewrite Cm in C2. rewrite Vm in V2. cbn in C2, V2.
  split; [auto|]. split; [auto|]. split; [apply Forall_forall; intros xm Hxm; apply filter_In in Hxm as [Hxm _]; auto|]. rewrite filter_fst.
  split; [apply names_filter; auto|]. split; [intros v Hv; apply FI in Hv as [Hv _]; auto|].
  split; [|split; [|split]].
  - intros v. rewrite C2, CH, FI. split.
    + intros [[A|[A B]]|[<-|[]]]; [auto|right; split; auto; tauto|right; split; [auto|tauto]].
    + intros [A|[A B]]; [auto|]. destruct (in_dec string_dec (v_name v) (names (map fst L))) as [Y|Y].
      * apply in_map_iff in Y as (w & Ew & Hw). assert (NX : NoDup (names X)).
        { assert (N := proj1 WS). rewrite vars_split in N. unfold names in N. rewrite map_app in N. apply NoDup_app_r in N. auto. }
        assert (w = v) by (apply (NoDup_names_inj X); auto). subst w.
        destruct (String.eqb_spec (v_name v) (v_name x)) as [Z|Z]; [right; left; apply (NoDup_names_inj (map fst L)); auto|]. exfalso. apply B. split; auto. congruence.
      * left. right. split; auto. intros Z. apply Y. apply in_map. auto.
  - intros v Hv. apply FI in Hv as [Hv Nx]. assert (Hp := LP v Hv).
    assert (Y : In v (c_vars S'')) by (apply V2; left; apply parents_incl; auto). rewrite vars_split in Y. apply in_app_or in Y as [Y|Y]; auto.
    exfalso. apply C2 in Y as [Y|[<-|[]]]; [apply (CP v v Y Hp); auto|auto].
  - intros v Hv. rewrite FI. assert (Y := parents_incl _ _ Hv). apply V2 in Y as [Y|[<-|[<-|[]]]]; [|exfalso; apply (CP2 x x); auto; apply C2; auto|auto].
    rewrite vars_split in Y. apply in_app_or in Y as [Y|Y]; [exfalso; apply (CP2 v v); auto; apply C2; auto|].
    destruct (PL v Y) as [Z| ->]; auto. left. split; auto. intros ->. apply (CP2 x x); auto. apply C2. auto.
  - intros a. rewrite <- Q. unfold pmass. cbn [map qprod]. rewrite Q2. rewrite (pmass_without L x m a NL Hm). ring.
Qed.

Lemma join_all J : forall S' L d, joined S' L -> NoDup (names J) -> incl J (map fst L) -> foldM (join_sys sys) (names J) (dict_of L sys S') = Ok d ->
  exists S'' L', d = dict_of L' sys S'' /\ joined S'' L' /\ forall v, In v (map fst L') <-> In v (map fst L) /\ ~ In v J.
Proof using WS hS sX.
  induction J as [|x J IH]; intros S' L d HJ N I H; cbn [names map foldM] in H.
  - injection H as <-. exists S', L. split; [auto|]. split; [auto|]. intros v. cbn. tauto.
  - destruct (join_sys sys (dict_of L sys S') (v_name x)) as [d1|] eqn:E1; cbn [bind] in H; [|discriminate].
    destruct (join_one S' L x d1 HJ (I x (or_introl eq_refl)) E1) as (S1 & -> & J1). cbn in N. inversion N as [|? ? N1 N2]; subst.
    set (L1 := filter _ L) in *.
    assert (NL : NoDup (names (map fst L))) by apply HJ.
    assert (FI : forall v, In v (map fst L1) <-> In v (map fst L) /\ v <> x).
    { intros v. unfold L1. rewrite filter_fst, filter_In, negb_true_iff, String.eqb_neq. split; intros [A B]; split; auto; [congruence|].
      intros Z. apply B. apply (NoDup_names_inj (map fst L)); auto. apply I. left; auto. }
    destruct (IH S1 L1 d J1 N2) as (S2 & L2 & -> & J2 & F2); auto.
    { intros v Hv. apply FI. split; [apply I; right; auto|]. intros ->. apply N1. apply in_map. auto. }
    exists S2, L2. split; [auto|]. split; [auto|]. intros v. rewrite F2, FI. cbn. intuition.
Qed.
End joined.

(** * One row of the hazard, and all of them *)
Section jstep.
Variables (cpms : dict cpm) (sys : string) (h : variable) (S Ph : cpm) (comps : list cpm) (ord : list string).
Hypothesis HN : hazard_net cpms sys h S Ph comps.
Notation X := (parents S).

Definition jnt_vars : list variable := filter (fun v => negb (mem_str (v_name v) ord)) X.
Definition elm_vars : list variable := filter (fun v => mem_str (v_name v) ord) X.

Lemma names_filter_map (f : string -> bool) l : filter f (names l) = names (filter (fun v => f (v_name v)) l).
Proof. induction l as [|v l IH]; auto. cbn. destruct (f (v_name v)); cbn; unfold names in IH; rewrite IH; auto. Qed.
Lemma jnt_names : filter (fun x => negb (mem_str x ord)) (names X) = names jnt_vars.
Proof. apply names_filter_map. Qed.
Lemma elm_names : filter (fun x => negb (mem_str x (names jnt_vars))) (names X) = names elm_vars.
Proof using HN.
  rewrite names_filter_map. unfold elm_vars. f_equal. apply filter_ext_in. intros v Hv.
  apply eq_true_iff_eq. rewrite negb_true_iff, <- not_true_iff_false, !mem_str_In. unfold jnt_vars. split.
  - intros H. apply mem_str_In. destruct (mem_str (v_name v) ord) eqn:E; auto. exfalso. apply H. apply in_map. apply filter_In. rewrite E. auto.
  - intros H Z. apply in_map_iff in Z as (w & Ew & Hw). apply filter_In in Hw as [_ Hw]. rewrite Ew in Hw. apply mem_str_In in H. rewrite H in Hw. discriminate.
Qed.

Definition rest_step (m1 : cpm) (d : dict cpm) : res cpm :=
  comps <- variable_elim_list (map snd (filter (fun kM => negb (String.eqb (fst kM) sys)) d)) [] ;;
  S <- dget d sys ;;
  m <- prod_sys S comps ;;
  m' <- sum m (Names (names elm_vars)) true ;;
  m'' <- product m' m1 ;;
  sum m'' (Names [v_name h]) true.

Lemma jstep_form k : In [k] (c_C Ph) -> exists m1 L e s0,
  cal_step (combine (names X) comps ++ [(sys, S)]) [] sys (names jnt_vars) (names elm_vars) [v_name h] Ph [k] =
    (d <- foldM (join_sys sys) (names jnt_vars) (dict_of L sys S) ;; rest_step m1 d) /\
  (wf_cpm m1 /\ has_p m1 /\ c_vars m1 = [h] /\ c_nch m1 = 1%nat /\ c_C m1 <> [] /\ (forall r, In r (c_C m1) -> r = [e]) /\
   (forall a, mass m1 a = if a (v_name h) =? k then mass Ph a else 0%Qc) /\ basic_in m1 h) /\
  names_state h e k /\ names_state h s0 k /\ joined h s0 S (map snd L) S L /\ map fst L = X /\
  forall a, a (v_name h) = k -> pmass (map snd L) a = pmass comps a.
Proof using HN.
  intros Hk. destruct (m1_ok cpms sys h S Ph comps HN k Hk) as (m1 & E1 & Wm1 & Pm1 & Vm1 & Nm1 & Cm1 & Rm1 & Qm1 & Bm1).
  destruct (comps_ok cpms sys h S Ph comps HN k Hk) as (comps' & Ec & Fc & Pc).
  set (e := new_code h k k) in *.
  assert (NX0 := NX cpms sys h S Ph comps HN). assert (hS0 := hS cpms sys h S Ph comps HN). assert (WS0 := wfS cpms sys h S Ph comps HN).
  unfold cal_step. rewrite E1. cbn [bind]. destruct (c_C m1) as [|r1 C1] eqn:EC; [congruence|].
  assert (r1 = [e]) by (apply Rm1; left; auto). subst r1. rewrite Vm1. cbn [map].
  assert (MA : forall d, mapM (fun kM : string * cpm => M <- condition (snd kM) (Vars [h]) [SI e] ;; Ok (fst kM, M)) d = Ok (combine (names X) comps') ->
     mapM (fun kM : string * cpm => M <- condition (snd kM) (Vars [h]) [SI e] ;; Ok (fst kM, M)) (d ++ [(sys, S)]) = Ok (combine (names X) comps' ++ [(sys, S)])).
  { generalize (combine (names X) comps'). intros d' d. revert d'. induction d as [|kM d IH]; intros d' H0; cbn [mapM app] in *.
    - injection H0 as <-. cbn [fst snd]. rewrite (condition_out S h e) by auto. reflexivity.
    - destruct (condition (snd kM) (Vars [h]) [SI e]); cbn [bind] in *; [|discriminate]. destruct (mapM _ d) as [d1|]; cbn [bind] in *; [|discriminate].
      injection H0 as <-. rewrite (IH d1 eq_refl). reflexivity. }
  rewrite (MA _ Ec). clear MA Ec. cbn [bind].
  assert (Lc : List.length X = List.length comps') by (pose proof Fc as F'; apply Forall2_length in F'; auto).
  set (L := combine X comps').
  assert (DL : combine (names X) comps' ++ [(sys, S)] = dict_of L sys S).
  { unfold dict_of, L. f_equal. clear. revert comps'. induction X as [|x l IH]; intros [|c cs]; cbn; auto. f_equal. apply IH. }
  rewrite DL. clear DL.
  assert (FL : map fst L = X /\ map snd L = comps').
  { unfold L. clear -Lc. revert comps' Lc. induction X as [|x l IH]; intros [|c cs] L; cbn in L; try lia; auto. destruct (IH cs ltac:(lia)) as [A B]. cbn. rewrite A, B. auto. }
  destruct FL as [FL1 FL2].
  set (s0 := new_code h k e).
  assert (J0 : joined h s0 S comps' S L).
  { split; [auto|]. split; [apply HN|]. split.
    { apply Forall_forall. intros [x m0] Hxm. unfold L in Hxm. clear -Fc Hxm. induction Fc as [|y c l cs Hc F IH]; [destruct Hxm|]. destruct Hxm as [[= <- <-]|Hxm]; auto. }
    rewrite FL1, FL2. split; [auto|]. split; [intros v; auto|]. split; [intros v; tauto|]. split; [auto|]. split; [auto|]. auto. }
  assert (Hs0 : names_state h s0 k).
  { destruct (k_state cpms sys h S Ph comps HN k Hk) as [Sk _]. apply new_state; [apply (okh cpms sys h S Ph comps HN)|auto|apply (e_state cpms sys h S Ph comps HN k Hk)]. }
  exists m1, L, e, s0. split; [reflexivity|]. split; [rewrite EC; repeat (split; [auto; congruence|]); auto|].
  split; [apply (e_state cpms sys h S Ph comps HN k Hk)|]. split; [auto|]. rewrite FL2. auto.
Qed.

Lemma jstep_sound k m : In [k] (c_C Ph) ->
  cal_step (combine (names X) comps ++ [(sys, S)]) [] sys (names jnt_vars) (names elm_vars) [v_name h] Ph [k] = Ok m ->
  wf_cpm m /\ has_p m /\ (forall v, In v (c_vars m) <-> In v (children S) \/ In v jnt_vars) /\
  forall a, mass m a = marg [h] (share (S :: comps) elm_vars Ph [k]) a.
Proof using HN.
  intros Hk H. destruct (jstep_form k Hk) as (m1 & L & e & s0 & E & (Wm1 & Pm1 & Vm1 & Nm1 & _ & _ & Qm1 & Bm1) & He & Hs0 & J0 & FL1 & Pc).
  rewrite E in H. clear E. unfold rest_step in H.
  assert (NX0 := NX cpms sys h S Ph comps HN). assert (hS0 := hS cpms sys h S Ph comps HN). assert (WS0 := wfS cpms sys h S Ph comps HN).
  set (comps' := map snd L) in *.
  assert (sX : ~ In sys (names X)) by apply HN.
  destruct (foldM (join_sys sys) (names jnt_vars) (dict_of L sys S)) as [d|] eqn:EJ; cbn [bind] in H; [|discriminate].
  destruct (join_all sys h s0 S comps' WS0 hS0 sX jnt_vars S L d J0) as (S' & L' & -> & J & FJ); auto.
  { apply names_filter. auto. }
  { rewrite FL1. intros v Hv. apply filter_In in Hv. tauto. }
  pose proof J as (W' & P' & F' & N' & I' & C' & LP' & PL' & Q').
  assert (sL' : ~ In sys (names (map fst L'))). { intros Z. apply sX. apply in_map_iff in Z as (v & <- & Hv). apply in_map. auto. }
  rewrite rest_of_dict in H by auto. unfold variable_elim_list in H. cbn [foldM bind] in H. rewrite dget_last in H by auto. cbn [bind] in H.
  assert (FE : forall v, In v (map fst L') <-> In v elm_vars).
  { intros v. rewrite FJ, FL1. unfold elm_vars, jnt_vars. rewrite !filter_In. destruct (mem_str (v_name v) ord); cbn; intuition discriminate. }
  destruct (tail_sound h k e s0 Ph m1 S' L' elm_vars) with (m := m) as (Wm & Pm & Vm & Qm); auto.
  - intros Z. assert (Y : children S <> []) by apply HN. destruct (children S) as [|c l] eqn:Ec; [congruence|].
    assert (Y2 : In c (children S')) by (apply C'; left; left; auto). rewrite Z in Y2. destruct Y2.
  - apply names_filter. auto.
  - intros v Hv. apply (xh h S hS0). auto.
  - intros v Hv. exact (joined_hC h s0 S comps' hS0 S' L' v J Hv).
  - split; [auto|]. split; [auto|]. split.
    + intros v. rewrite Vm, C', FE. unfold elm_vars, jnt_vars. rewrite !filter_In. destruct (mem_str (v_name v) ord); cbn; intuition discriminate.
    + intros a. rewrite Qm. apply marg_ext. intros b. unfold share. rewrite (varsP cpms sys h S Ph comps HN). unfold row_match. cbn [combine forallb fst snd]. rewrite andb_true_r.
      assert (Z : mem_Z (b (v_name h)) (states_of h k) = (b (v_name h) =? k)).
      { apply eq_true_iff_eq. rewrite mem_Z_In, Z.eqb_eq. apply (k_state cpms sys h S Ph comps HN k Hk). }
      rewrite Z. destruct (Z.eqb_spec (b (v_name h)) k) as [Eb|Eb]; [|ring]. f_equal. apply VeFacts.marg_ext_on. intros b' Hb'. rewrite Q'. unfold pmass. cbn [map qprod]. f_equal.
      change (pmass comps' b' = pmass comps b'). apply Pc. rewrite Hb'; auto. intros Y. apply in_map_iff in Y as (x & Ex & Hx). apply filter_In in Hx as [Hx _].
      apply (xh h S hS0 x); auto.
Qed.

Lemma merge_vars M1 M2 M : merge M1 M2 = Ok M -> names (c_vars M1) = names (c_vars M2).
Proof.
  clear. unfold merge. destruct (_ && _) eqn:E; [|discriminate]. intros _. apply andb_true_iff in E as [L E]. apply Nat.eqb_eq in L. revert E L.
  generalize (c_vars M2). induction (c_vars M1) as [|v l IH]; intros [|w l'] E L; cbn in L; try lia; auto. cbn in E. apply andb_true_iff in E as [E1 E2].
  cbn. apply v_eqb_eq in E1. rewrite E1. f_equal. apply IH; auto.
Qed.
Lemma names_eq (T l l' : list variable) : NoDup (names T) -> incl l T -> incl l' T -> names l = names l' -> l = l'.
Proof.
  clear. intros N. revert l'. induction l as [|v l IH]; intros [|w l'] I I' E; cbn in E; try discriminate; auto. injection E as E1 E2. f_equal.
  - apply (NoDup_names_inj T); auto; [apply I|apply I']; left; auto.
  - apply IH; auto; intros x Hx; [apply I|apply I']; right; auto.
Qed.

Lemma fold_dset_same (ms : list (string * cpm)) d : (forall kM, In kM ms -> dfind d (fst kM) = Some (snd kM)) -> fold_left (fun (d : dict cpm) kM => dset d (fst kM) (snd kM)) ms d = d.
Proof.
  clear. induction ms as [|[n M] ms IH]; intros H; auto. cbn [fold_left fst snd]. pose proof (H (n, M) (or_introl eq_refl)) as H2. cbn [fst snd] in H2.
  assert (D : dset d n M = d).
  { clear -H2. induction d as [|[n' M'] d IH]; [discriminate|]. cbn in *. destruct (String.eqb_spec n n') as [->|]; [congruence|]. rewrite IH; auto. }
  rewrite D. apply IH. intros kM Hk. apply H. right; auto.
Qed.

Lemma no_ve out : ~ In sys ord -> (forall x, In x out -> relevant cpms [sys] x) ->
  filter (fun x => mem_str x ord && negb (mem_str x [v_name h]) && negb (mem_str x (names X))) out = [].
Proof using HN.
  intros NO H1.
  apply filter_none. intros x Hx. apply H1 in Hx. destruct (hazard_relevant _ _ _ _ _ _ _ HN Hx) as [->|[Hy| ->]].
    - assert (mem_str sys ord = false) as -> by (apply mem_str_false; auto). auto.
    - apply mem_str_In in Hy. rewrite Hy. cbn. apply andb_false_r.
    - assert (Z : mem_str (v_name h) [v_name h] = true) by (apply mem_str_In; left; auto). rewrite Z. cbn. rewrite andb_false_r. auto.
Qed.

Lemma inf_dict : exists ms, mapM (fun v => M <- dget cpms v ;; Ok (v, M)) (names X ++ names jnt_vars) = Ok ms /\
  dset (fold_left (fun (d : dict cpm) kM => dset d (fst kM) (snd kM)) ms []) sys S = combine (names X) comps ++ [(sys, S)].
Proof using HN.
  pose proof HN as (DS & WS & _ & _ & _ & _ & hNS & sX & DP & WP & PP & VP & NP & _ & _ & CP & F).
  assert (NX0 := NX cpms sys h S Ph comps HN).
  assert (Lc : List.length (names (parents S)) = List.length comps) by (unfold names; rewrite map_length; pose proof F as F'; apply Forall2_length in F'; auto).
  assert (FS : map fst (combine (names (parents S)) comps) = names (parents S)).
  { clear -Lc. revert comps Lc. induction (names (parents S)) as [|x l IH]; intros [|c cs] L; cbn in L; try lia; auto. cbn. rewrite IH by lia. auto. }
  assert (DC : forall x, In x X -> exists m, dfind cpms (v_name x) = Some m /\ dfind (combine (names X) comps) (v_name x) = Some m).
  { intros x Hx. clear -F Hx NX0. induction F as [|y c l cs (D & _) F IH]; [destruct Hx|]. cbn in NX0 |- *. inversion NX0 as [|? ? N1 N2]; subst.
    destruct Hx as [->|Hx]; [rewrite String.eqb_refl; eauto|]. destruct (String.eqb_spec (v_name x) (v_name y)) as [Z|]; [exfalso; apply N1; rewrite <- Z; apply in_map; auto|]. auto. }
  assert (MS : exists js, mapM (fun v => M <- dget cpms v ;; Ok (v, M)) (names X ++ names jnt_vars) = Ok (combine (names X) comps ++ js) /\
    forall kM, In kM js -> dfind (combine (names X) comps) (fst kM) = Some (snd kM)).
  { assert (JS : exists js, mapM (fun v => M <- dget cpms v ;; Ok (v, M)) (names jnt_vars) = Ok js /\
      forall kM, In kM js -> dfind (combine (names X) comps) (fst kM) = Some (snd kM)).
    { assert (I : incl jnt_vars X) by (intros v Hv; apply filter_In in Hv; tauto). revert I. generalize jnt_vars as J. clear -DC. induction J as [|x J IH]; intros I.
      - exists []. split; [reflexivity|intros kM []].
      - destruct IH as (js & Ej & Hj); [intros y Hy; apply I; right; auto|]. destruct (DC x (I x (or_introl eq_refl))) as (m & D1 & D2).
        exists ((v_name x, m) :: js). cbn [names map mapM]. apply dget_ok in D1. rewrite D1. cbn [bind]. unfold names in Ej. rewrite Ej. split; [reflexivity|].
        intros kM [<-|Hk]; auto. }
    destruct JS as (js & Ej & Hj). exists js. split; auto. clear -F Ej.
    enough (G : mapM (fun v => M <- dget cpms v ;; Ok (v, M)) (names X) = Ok (combine (names X) comps)).
    { clear -G Ej. revert G. generalize (combine (names X) comps). induction (names X) as [|n l IH]; intros d G; cbn [mapM app] in *; [injection G as <-; auto|].
      destruct (dget cpms n); cbn [bind] in *; [|discriminate]. destruct (mapM _ l) as [d1|]; cbn [bind] in *; [|discriminate]. injection G as <-. rewrite (IH d1 eq_refl). reflexivity. }
    clear -F. induction F as [|x m l cs (D & _) F IH]; auto. cbn [names map mapM combine]. apply dget_ok in D. rewrite D. cbn [bind]. unfold names in IH. rewrite IH. auto. }
  destruct MS as (js & MS & HJ). exists (combine (names X) comps ++ js). split; [auto|].
  rewrite fold_left_app, fold_dset, fold_dset_same by (auto; rewrite FS; auto). rewrite dset_fresh by (unfold keys; rewrite FS; auto). auto.
Qed.

Theorem jcal_sound varis M : ~ In sys ord -> cal_msys cpms varis [v_name h] ord sys = Ok M ->
  wf_cpm M /\ (forall v, In v (c_vars M) <-> In v (children S) \/ In v jnt_vars) /\
  forall a, mass M a = marg (h :: elm_vars) (pmass (Ph :: S :: comps)) a.
Proof using HN.
  intros NO H. pose proof HN as (DS & WS & _ & _ & _ & _ & hNS & sX & DP & WP & PP & VP & NP & _ & _ & CP & F).
  assert (NX0 := NX cpms sys h S Ph comps HN).
  unfold cal_msys in H. destruct (get_inf_vars cpms [sys] (Some ord)) as [out|] eqn:E; cbn [bind] in H; [|discriminate].
  assert (H1 : forall x, In x out -> relevant cpms [sys] x).
  { destruct (inf_main cpms [sys] (Some ord)) as [(out' & E' & H1 & _)|(E' & _)]; [|congruence]. rewrite E in E'. injection E' as <-. intros x Hx. apply H1. auto. }
  assert (dget cpms sys = Ok S) as DG by (apply dget_ok; auto). rewrite DG in H. cbn [bind] in H.
  rewrite (no_ve out NO H1) in H. cbn [filter mapM bind] in H. rewrite jnt_names, elm_names in H. cbn [app] in H.
  destruct inf_dict as (ms & MS & MD). rewrite MS in H. cbn [bind] in H. rewrite MD in H.
  cbn [mapM] in H. assert (dget cpms (v_name h) = Ok Ph) as DGh by (apply dget_ok; auto). rewrite DGh in H. cbn [bind product_list foldM] in H.
  assert (HR := row_of_P cpms sys h S Ph comps HN).
  assert (ST : forall row m, In row (c_C Ph) -> cal_step (combine (names X) comps ++ [(sys, S)]) [] sys (names jnt_vars) (names elm_vars) [v_name h] Ph row = Ok m ->
     wf_cpm m /\ has_p m /\ (forall v, In v (c_vars m) <-> In v (children S) \/ In v jnt_vars) /\
     forall a, mass m a = marg [h] (share (S :: comps) elm_vars Ph row) a).
  { intros row m Hr. destruct (HR row Hr) as (k & -> & _). apply jstep_sound. auto. }
  destruct (c_C Ph) as [|row rows] eqn:EC; [congruence|].
  destruct (cal_step _ _ _ _ _ _ _ row) as [M0|] eqn:E0; cbn [bind] in H; [|discriminate].
  destruct (ST row M0 (or_introl eq_refl) E0) as (W0' & P0 & V0' & Q0).
  assert (LP : forall rs done acc, incl rs (c_C Ph) -> wf_cpm acc -> has_p acc -> (forall v, In v (c_vars acc) <-> In v (children S) \/ In v jnt_vars) ->
     (forall a, mass acc a = qsum (map (fun row => marg [h] (share (S :: comps) elm_vars Ph row) a) done)) ->
     foldM (fun acc r => m <- cal_step (combine (names X) comps ++ [(sys, S)]) [] sys (names jnt_vars) (names elm_vars) [v_name h] Ph r ;; merge acc m) rs acc = Ok M ->
     wf_cpm M /\ (forall v, In v (c_vars M) <-> In v (children S) \/ In v jnt_vars) /\
     forall a, mass M a = qsum (map (fun row => marg [h] (share (S :: comps) elm_vars Ph row) a) (done ++ rs))).
  { induction rs as [|r rs IH]; intros done acc I Wa Pa Va Qa HM; cbn [foldM] in HM.
    - injection HM as <-. rewrite app_nil_r. auto.
    - destruct (cal_step _ _ _ _ _ _ _ r) as [m|] eqn:Em; cbn [bind] in HM; [|discriminate].
      destruct (ST r m) as (Wm & Pm & Vm & Qm); [rewrite <- EC; apply I; left; auto|auto|].
      destruct (merge acc m) as [M1|] eqn:EM; cbn [bind] in HM; [|discriminate].
      assert (VV : c_vars acc = c_vars m).
      { apply (names_eq (c_vars S)); [apply WS| | |exact (merge_vars _ _ _ EM)]; intros v Hv; [apply Va in Hv|apply Vm in Hv];
          (destruct Hv as [Hv|Hv]; [apply children_incl; auto|apply filter_In in Hv as [Hv _]; apply parents_incl; auto]). }
      destruct (merge_inv acc m M1 Wa Pa Pm VV EM) as (W1 & P1 & V1 & _ & _ & Q1).
      destruct (IH (done ++ [r]) M1) as (A & B & C); auto.
      + intros y Hy. apply I. right; auto.
      + intros v. rewrite V1. apply Va.
      + intros a. rewrite Q1, Qa, Qm, map_app. cbn [map]. rewrite qsum_snoc. auto.
      + split; [auto|]. split; [auto|]. intros a. rewrite C, <- app_assoc. reflexivity. }
  destruct (LP rows [row] M0) as (WM & VM & QM); auto.
  { rewrite EC. intros y Hy. right; auto. }
  { intros a. rewrite Q0. cbn [map qsum fold_right]. ring. }
  split; [auto|]. split; [auto|].
  intros a. rewrite QM. cbn [app]. rewrite <- EC. rewrite <- (marg_qsum [h] (fun row => share (S :: comps) elm_vars Ph row) (c_C Ph) a).
  rewrite (marg_ext [h] _ (fun b => (mass Ph b * marg elm_vars (pmass (S :: comps)) b)%Qc) a).
  2:{ intros b. apply shares_total. exact (one_row_P cpms sys h S Ph comps HN). }
  cbn [marg]. f_equal. apply map_ext. intros x. rewrite Qcmult_comm. rewrite <- marg_factor_list.
  - apply marg_ext. intros b. unfold pmass. cbn [map qprod fold_right]. ring.
  - intros v Hv. apply mass_ignores. rewrite VP. intros [Z|[]]. apply filter_In in Hv as [Hv _]. apply (hX cpms sys h S Ph comps HN v Hv). auto.
Qed.
End jstep.
