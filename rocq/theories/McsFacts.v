(** Proofs about the Monte Carlo estimators. *)
From Coq Require Import ZArith List String Bool Arith Lia Lqa Permutation QArith Qcanon.
From Verif Require Import Py PyFacts Num Vari VariFacts Cpm Brc SpecBrc BrcFacts BrcProb BrcDecomp BrcRules BrcRun BrcMain NetSys Mcs SpecMcs.
Import ListNotations.
Open Scope string_scope.
Open Scope Z_scope.
Open Scope list_scope.

Definition okp {A} (o : Qc * A) : Qc * res A := (fst o, Ok (snd o)).

Lemma mean_scale {A} (D : list (Qc * A)) c f : mean D (fun x => (c * f x)%Qc) = (c * mean D f)%Qc.
Proof. unfold mean. rewrite <- qsum_map_scale. apply qsum_map_ext. intros; ring. Qed.

Lemma np_choice_ok {A} (xs : list A) ps : xs <> [] -> List.length ps = List.length xs ->
  (forall q, In q ps -> (0 <= q)%Qc) -> qsum ps = 1%Qc ->
  exists os, np_choice xs ps = Ok os /\ (forall o, In o os -> (0 < fst o)%Qc /\ In o (combine ps xs)) /\
    forall f, mean os f = mean (combine ps xs) f.
Proof.
  intros Hx Hl Hn Hs. unfold np_choice.
  destruct (List.length xs =? 0)%nat eqn:E0; [apply Nat.eqb_eq in E0; destruct xs; [congruence|discriminate]|].
  rewrite (proj2 (Nat.eqb_eq _ _) Hl). cbn [negb].
  assert (E1 : forallb (qc_leb 0%Qc) ps = true) by (apply forallb_forall; intros q Hq; apply qc_leb_le; auto).
  rewrite E1, (proj2 (qc_eqb_eq _ _) Hs). cbn [andb].
  eexists. split; [reflexivity|]. split.
  - intros [w a] Ho. apply filter_In in Ho as [Ho Hz]. cbn [fst] in *. split; auto.
    apply in_combine_l in Ho. specialize (Hn _ Ho). apply negb_true_iff in Hz.
    destruct (Qclt_le_dec 0 w) as [L|L]; auto. exfalso.
    assert (w = 0)%Qc by (apply Qcle_antisym; auto). apply qc_eqb_eq in H. congruence.
  - intros f. unfold mean. rewrite qsum_filter. apply qsum_map_ext. intros o _.
    destruct (qc_eqb (fst o) 0%Qc) eqn:X; cbn [negb]; auto. apply qc_eqb_eq in X. rewrite X. ring.
Qed.

Lemma flat_ok {A X} (g : A -> list (Qc * res X)) (Q : X -> Prop) (E : A -> (X -> Qc) -> Qc) (os : list (Qc * A)) :
  (forall o, In o os -> (0 < fst o)%Qc /\
     exists D, g (snd o) = map okp D /\ (forall r, In r D -> (0 < fst r)%Qc /\ Q (snd r)) /\ forall f, mean D f = E (snd o) f) ->
  exists D, flat_map (fun o => map (fun r => ((fst o * fst r)%Qc, snd r)) (g (snd o))) os = map okp D /\
    (forall r, In r D -> (0 < fst r)%Qc /\ Q (snd r)) /\
    forall f, mean D f = mean os (fun a => E a f).
Proof.
  induction os as [|[w a] os IH]; intros H.
  - exists []. split; [auto|]. split; [intros r []|]. auto.
  - destruct IH as (D2 & E2 & P2 & M2); [intros o Ho; apply H; right; auto|].
    destruct (H (w, a) (or_introl eq_refl)) as (Hw & D1 & E1 & P1 & M1). cbn [fst snd] in *.
    exists (map (fun r => ((w * fst r)%Qc, snd r)) D1 ++ D2). split; [|split].
    + cbn [flat_map fst snd]. rewrite E2, E1, map_app, !map_map. auto.
    + intros r Hr. apply in_app_or in Hr as [Hr|Hr]; [|auto].
      apply in_map_iff in Hr as ([w1 x] & <- & Hr). destruct (P1 _ Hr) as [A1 A2]. cbn [fst snd] in *. split; auto.
      unfold Qclt in *. rewrite qc_this_mult. apply Qmult_lt_0_compat; auto.
    + intros f. unfold mean in *. rewrite map_app, qsum_app, M2, map_map. cbn [map qsum fst snd].
      f_equal. rewrite <- M1, <- qsum_map_scale. apply qsum_map_ext. intros; ring.
Qed.

Lemma in_box_tail' k a d u x : ~ In k (keys x) -> in_box ((k, a) :: d) u x = in_box d u x.
Proof.
  intros Hk. unfold in_box. apply forallb_ext_in.
  intros [k' v] Hin. cbn [fst snd]. rewrite coord_cons.
  destruct (String.eqb_spec k' k) as [->|]; auto.
  exfalso. apply Hk. eapply In_keys; eauto.
Qed.

(** a component can be drawn between [d] and [u] *)
Definition step_ok (probs : prob_dict) (k : string) (d u : Z) : Prop :=
  d = u \/ (u = d + 1 /\ p_state probs k d = Ok (pr probs k d) /\ p_state probs k u = Ok (pr probs k u) /\
            (0 <= pr probs k d)%Qc /\ (0 <= pr probs k u)%Qc /\ (pr probs k d + pr probs k u = 1)%Qc).

(** product of the probabilities of the components that are fixed *)
Definition fixp (probs : prob_dict) (up d : dict Z) : Qc :=
  qprod (map (fun kv => if snd kv =? coord up (fst kv) then pr probs (fst kv) (snd kv) else 1%Qc) d).

Lemma zrange_one a : zrange a (a + 1) = [a].
Proof. unfold zrange. replace (Z.to_nat (a + 1 - a)) with 1%nat by lia. cbn. f_equal. lia. Qed.
Lemma zrange_two a : zrange a (a + 1 + 1) = [a; a + 1].
Proof. unfold zrange. replace (Z.to_nat (a + 1 + 1 - a)) with 2%nat by lia. cbn. repeat f_equal; lia. Qed.

Lemma draw_state_ok probs k d u : step_ok probs k d u ->
  exists os, draw_state probs k d u = Ok os /\ (forall o, In o os -> (0 < fst o)%Qc /\ d <= snd o <= u) /\
    mean os (fun _ => 1%Qc) = 1%Qc /\
    forall f, qsum (map (fun v => (pr probs k v * f v)%Qc) (zrange d (u + 1))) =
              ((if d =? u then pr probs k d else 1) * mean os f)%Qc.
Proof.
  unfold draw_state. intros [<-|(-> & E1 & E2 & N1 & N2 & S)].
  - rewrite Z.ltb_irrefl, Z.eqb_refl. eexists. split; [reflexivity|]. split.
    + intros o [<-|[]]. cbn [fst snd]. split; [reflexivity|lia].
    + split; [reflexivity|]. intros f. rewrite zrange_one. unfold mean. cbn [map qsum fst snd]. ring.
  - assert (L : (d <? d + 1) = true) by (apply Z.ltb_lt; lia). rewrite L, E1, E2. cbn [bind].
    assert (Ln : (d =? d + 1) = false) by (apply Z.eqb_neq; lia). rewrite Ln.
    destruct (np_choice_ok (zrange d (d + 1 + 1)) [pr probs k d; pr probs k (d + 1)]) as (os & E & P & M).
    + rewrite zrange_two. congruence.
    + rewrite zrange_two. auto.
    + intros q [<-|[<-|[]]]; auto.
    + cbn. rewrite Qcplus_0_r. auto.
    + rewrite E. exists os. split; auto. rewrite zrange_two in *. split; [|split].
      * intros o Ho. destruct (P o Ho) as [A B]. split; auto. cbn [combine] in B. destruct B as [<-|[<-|[]]]; cbn [snd]; lia.
      * rewrite M. unfold mean. cbn [combine map qsum fst snd]. rewrite !Qcmult_1_r, Qcplus_0_r. auto.
      * intros f. rewrite M. unfold mean. cbn [combine map qsum fst snd]. ring.
Qed.

Lemma draw_box_ok probs up : forall cs, NoDup (keys cs) -> forall d, In d (space cs) ->
  (forall k n, In (k, n) cs -> dget up k = Ok (coord up k) /\ coord d k <= coord up k < n /\ step_ok probs k (coord d k) (coord up k)) ->
  exists D, draw_box probs up d = map okp D /\
    (forall o, In o D -> (0 < fst o)%Qc /\ In (snd o) (filter (in_box d up) (space cs))) /\
    mean D (fun _ => 1%Qc) = 1%Qc /\
    forall f, qsum (map (fun x => (prob_of probs x * f x)%Qc) (filter (in_box d up) (space cs))) = (fixp probs up d * mean D f)%Qc.
Proof.
  induction cs as [|[k n] cs IH]; intros Hd d Hin H.
  - apply space_spec in Hin. inversion Hin; subst. exists [(1%Qc, [])]. split; [reflexivity|]. split.
    + intros o [<-|[]]. cbn. split; [reflexivity|auto].
    + split; [reflexivity|]. intros f. unfold mean, fixp, prob_of. cbn [draw_box space filter in_box forallb map qsum qprod fst snd]. ring.
  - inversion_clear Hd as [|? ? Hn Hd']. apply space_spec in Hin.
    inversion Hin as [|[k1 a] ? d' ? [E1 B1] F1]; subst. cbn in E1, B1. subst k1. apply space_spec in F1.
    destruct (H k n (or_introl eq_refl)) as (G1 & G2 & G3). rewrite coord_cons, String.eqb_refl in G2, G3.
    destruct (IH Hd' d' F1) as (D' & E' & P' & T' & M').
    { intros k' n' Hk'. destruct (H k' n' (or_intror Hk')) as (G1' & G2' & G3'). rewrite coord_cons in G2', G3'.
      destruct (String.eqb_spec k' k) as [->|]; auto. exfalso. apply Hn. eapply In_keys; eauto. }
    destruct (draw_state_ok probs k a (coord up k) G3) as (os & Eo & Po & To & Mo).
    set (g := fun v : Z => map (fun r => (fst r, (x <- snd r ;; Ok ((k, v) :: x)))) (draw_box probs up d')).
    assert (Eg : draw_box probs up ((k, a) :: d') = flat_map (fun o => map (fun r => ((fst o * fst r)%Qc, snd r)) (g (snd o))) os).
    { cbn [draw_box]. rewrite G1. cbn [bind]. rewrite Eo. apply flat_map_ext. intros o. unfold g. rewrite map_map. auto. }
    rewrite Eg.
    destruct (flat_ok g (fun x => In x (filter (in_box ((k, a) :: d') up) (space ((k, n) :: cs))))
                (fun v f => mean D' (fun y => f ((k, v) :: y))) os) as (D & ED & PD & MD).
    { intros o Ho. destruct (Po o Ho) as [A1 A2]. split; auto.
      exists (map (fun r => (fst r, (k, snd o) :: snd r)) D'). split; [|split].
      - unfold g. rewrite E', !map_map. auto.
      - intros r Hr. apply in_map_iff in Hr as (r' & <- & Hr). destruct (P' r' Hr) as [C1 C2]. cbn [fst snd]. split; auto.
        apply filter_In in C2 as [C2 C3]. apply filter_In. split.
        + cbn [space]. apply in_flat_map. exists (snd o). split; [apply In_zrange; lia|apply in_map; auto].
        + unfold in_box. cbn [forallb fst snd]. rewrite coord_cons, String.eqb_refl. apply andb_true_iff. split; [lia|].
          fold (in_box ((k, a) :: d') up (snd r')). rewrite in_box_tail'; [exact C3|]. assert (K := space_keys _ _ C2). intros X. apply Hn. rewrite <- K. exact X.
      - intros f. unfold mean. rewrite map_map. auto. }
    exists D. split; auto. split; auto. split.
    + rewrite MD. rewrite T'. auto.
    + intros f. rewrite MD. cbn [space]. rewrite filter_flat_map, qsum_flat_map.
      rewrite (qsum_map_ext _ (fun v => if (a <=? v) && (v <=? coord up k)
          then (pr probs k v * (fixp probs up d' * mean D' (fun y => f ((k, v) :: y))))%Qc else 0%Qc)).
      * rewrite <- qsum_filter, filter_zrange by lia.
        rewrite (Mo (fun v => (fixp probs up d' * mean D' (fun y => f ((k, v) :: y)))%Qc)).
        unfold fixp. cbn [map qprod fst snd]. rewrite mean_scale. fold (fixp probs up d'). ring.
      * intros v Hv. apply In_zrange in Hv. rewrite filter_map, map_map.
        rewrite (filter_ext_in' _ (fun y => ((a <=? v) && (v <=? coord up k)) && in_box d' up y)).
        2:{ intros y Hy. unfold in_box at 1. cbn [forallb fst snd]. rewrite coord_cons, String.eqb_refl.
            f_equal. apply (in_box_tail' k a d' up y). rewrite (space_keys _ _ Hy). auto. }
        destruct ((a <=? v) && (v <=? coord up k)); cbn [andb].
        -- rewrite <- M', <- qsum_map_scale. apply qsum_map_ext. intros y _. unfold prob_of. cbn [map qprod fst snd]. ring.
        -- assert (filter (fun _ : dict Z => false) (space cs) = []) as ->; [|auto].
           generalize (space cs). induction l; auto.
Qed.

Lemma has_unknown_open b : has_unknown b = open_branch b.
Proof. unfold has_unknown, open_branch. destruct (b_down_state b), (b_up_state b); auto. Qed.

Section Draw.
Context (varis : dict variable) (probs : prob_dict) (Hw : wf_varis varis) (Hp : wf_probs varis probs).

Lemma binary_step k v d u : In (k, v) varis -> nvals v = 2 -> 0 <= d -> d <= u -> u < 2 -> step_ok probs k d u.
Proof.
  intros Hk Hv H0 H1 H2. destruct (Z.eq_dec d u) as [->|Hn]; [left; auto|]. right.
  assert (d = 0) by lia. assert (u = 1) by lia. subst d u.
  destruct (pget_pr varis probs Hp k v 0 Hk) as [A1 A2]; [lia|]. destruct (pget_pr varis probs Hp k v 1 Hk) as [B1 B2]; [lia|].
  repeat split; auto. destruct (Hp k v Hk) as [_ S]. rewrite Hv in S. change (zrange 0 2) with [0; 1] in S. cbn [map qsum] in S. rewrite Qcplus_0_r in S. auto.
Qed.

Context (brs : list branch) (Hb : boxes varis brs) (He : exact_probs varis probs brs) (Hpt : partition varis brs).
Context (Hst : forall b k v, In b brs -> open_branch b = true -> In (k, v) varis -> step_ok probs k (coord (b_down b) k) (coord (b_up b) k)).

Lemma box_ok b : In b brs -> open_branch b = true ->
  exists D, draw_box probs (b_up b) (b_down b) = map okp D /\
    (forall o, In o D -> (0 < fst o)%Qc /\ In (snd o) (sp varis) /\ open_region brs (snd o) = true) /\
    forall f, qsum (map (fun x => (prob_of probs x * f x)%Qc) (filter (in_branch b) (sp varis))) = (b_p b * mean D f)%Qc.
Proof.
  intros Hin Ho. destruct (Hb b Hin) as (B1 & B2 & B3).
  destruct (draw_box_ok probs (b_up b) (comps_of varis)) with (d := b_down b) as (D & E & P & T & M); auto.
  - rewrite keys_comps_of. apply Hw.
  - intros k n Hk. unfold comps_of in Hk. apply in_map_iff in Hk as ([k' v] & [= -> <-] & Hk).
    assert (Kk : In k (keys varis)) by (eapply In_keys; eauto).
    split; [apply dget_coord; rewrite (sp_keys varis _ B2); auto|]. split.
    + split; [apply B3; auto|]. apply (sp_coord varis Hw); auto.
    + apply (Hst b k v); auto.
  - exists D. split; auto. split.
    + intros o Hd. destruct (P o Hd) as [P1 P2]. apply filter_In in P2 as [P2 P3]. split; auto. split; auto.
      apply existsb_exists. exists b. split; auto. rewrite Ho. exact P3.
    + assert (F : fixp probs (b_up b) (b_down b) = b_p b).
      { rewrite (He b Hin). unfold prob_event. specialize (M (fun _ => 1%Qc)). rewrite T, Qcmult_1_r in M. rewrite <- M.
        apply qsum_map_ext. intros x _. ring. }
      intros f. rewrite <- F. apply M.
Qed.

Lemma count_open x (g : Qc) : In x (sp varis) ->
  qsum (map (fun b => if in_branch b x then g else 0%Qc) (filter open_branch brs)) = if open_region brs x then g else 0%Qc.
Proof.
  intros Hx. rewrite <- qsum_filter.
  pose proof (bcover_filter open_branch x brs) as L. unfold bcover in L. rewrite (Hpt x Hx) in L.
  destruct (open_region brs x) eqn:E.
  - apply existsb_exists in E as (b & B1 & B2). apply andb_true_iff in B2 as [B2 B3].
    assert (X : In b (filter (fun b => in_branch b x) (filter open_branch brs))) by (apply filter_In; split; auto; apply filter_In; auto).
    destruct (filter (fun b => in_branch b x) (filter open_branch brs)) as [|b1 [|]]; [destruct X| |cbn in L; lia].
    cbn. ring.
  - destruct (filter (fun b => in_branch b x) (filter open_branch brs)) as [|b l] eqn:F; auto. exfalso.
    assert (X : In b (filter (fun b => in_branch b x) (filter open_branch brs))) by (rewrite F; left; auto).
    apply filter_In in X as [X1 X2]. apply filter_In in X1 as [X1 X3].
    assert (Y : open_region brs x = true); [|congruence]. apply existsb_exists. exists b. rewrite X2, X3. auto.
Qed.

Lemma brs_u_open : mcs_brs_u brs = filter open_branch brs.
Proof. unfold mcs_brs_u. apply filter_ext. intros b. apply has_unknown_open. Qed.

Lemma open_sum (f : dict Z -> Qc) :
  qsum (map (fun b => qsum (map (fun x => (prob_of probs x * f x)%Qc) (filter (in_branch b) (sp varis)))) (filter open_branch brs)) =
  qsum (map (fun x => (prob_of probs x * f x)%Qc) (filter (open_region brs) (sp varis))).
Proof.
  rewrite (qsum_map_ext _ (fun b => qsum (map (fun x => if in_branch b x then (prob_of probs x * f x)%Qc else 0%Qc) (sp varis))))
    by (intros; apply qsum_filter).
  rewrite qsum_swap, qsum_filter. apply qsum_map_ext. intros x Hx. apply count_open; auto.
Qed.

Lemma u_prob_event : mcs_u_prob brs = prob_event varis probs (open_region brs).
Proof. unfold mcs_u_prob. rewrite brs_u_open. apply (sel_prob varis probs open_branch brs He Hpt). Qed.

Lemma qsum_pos_nonempty {A} (f : A -> Qc) l : (0 < qsum (map f l))%Qc -> l <> [].
Proof. intros H ->. cbn in H. exfalso. qc_lra. Qed.

Lemma draw_sample_ok : (0 < prob_event varis probs (open_region brs))%Qc ->
  exists D, draw_sample brs probs = map okp D /\
    (forall o, In o D -> (0 < fst o)%Qc /\ In (snd o) (sp varis) /\ open_region brs (snd o) = true) /\
    forall f, mean D f = qsum (map (fun x => (prob_of probs x / prob_event varis probs (open_region brs) * f x)%Qc)
                                   (filter (open_region brs) (sp varis))).
Proof.
  set (P := prob_event varis probs (open_region brs)). intros HP.
  assert (NZ : P <> 0%Qc) by (intros X; rewrite X in HP; qc_lra).
  unfold draw_sample. assert (U := u_prob_event). fold P in U. rewrite U.
  assert (Hne : mcs_brs_u brs <> []).
  { apply (qsum_pos_nonempty b_p). change (0 < mcs_u_prob brs)%Qc. rewrite U. auto. }
  assert (Hin : forall b, In b (mcs_brs_u brs) -> In b brs /\ open_branch b = true).
  { intros b Hbb. rewrite brs_u_open in Hbb. apply filter_In in Hbb. auto. }
  destruct (np_choice_ok (mcs_brs_u brs) (map (fun b => (b_p b / P)%Qc) (mcs_brs_u brs))) as (os & E & Po & Mo); auto.
  - apply map_length.
  - intros q Hq. apply in_map_iff in Hq as (b & <- & Hbb). destruct (Hin b Hbb) as [I1 _].
    rewrite (He b I1). unfold Qcdiv. apply qcmult_nonneg; [apply (prob_event_nonneg varis probs Hw Hp)|].
    replace (/ P)%Qc with (1 / P)%Qc by (unfold Qcdiv; ring). apply inv_nonneg. auto.
  - unfold Qcdiv. rewrite qsum_map_scale_r. change (qsum (map b_p (mcs_brs_u brs))) with (mcs_u_prob brs).
    rewrite U. apply Qcmult_inv_r. auto.
  - rewrite E.
    set (pure := fun b : branch => map (fun o => (fst o, match snd o with Ok x => x | Err _ => [] end)) (draw_box probs (b_up b) (b_down b))).
    destruct (flat_ok (fun b => draw_box probs (b_up b) (b_down b)) (fun x => In x (sp varis) /\ open_region brs x = true)
                (fun b f => mean (pure b) f) os) as (D & ED & PD & MD).
    + intros o Ho. destruct (Po o Ho) as [O1 O2]. split; auto.
      assert (Hi : In (snd o) (mcs_brs_u brs)) by (destruct o; eapply in_combine_r; exact O2).
      destruct (Hin _ Hi) as [I1 I2]. destruct (box_ok _ I1 I2) as (D & F1 & F2 & F3).
      exists D. split; auto. split; auto. intros f. unfold pure. rewrite F1, map_map. unfold mean. rewrite map_map. auto.
    + exists D. split; auto. split; auto. intros f. rewrite MD, Mo. unfold mean at 1.
      assert (G : forall l, (forall b, In b l -> In b (mcs_brs_u brs)) ->
        qsum (map (fun o : Qc * branch => (fst o * mean (pure (snd o)) f)%Qc) (combine (map (fun b => (b_p b / P)%Qc) l) l)) =
        qsum (map (fun b => (/ P * qsum (map (fun x => (prob_of probs x * f x)%Qc) (filter (in_branch b) (sp varis))))%Qc) l)).
      { induction l as [|b l IH]; intros Hl; [auto|]. cbn [map combine qsum fst snd]. rewrite IH by (intros; apply Hl; right; auto).
        f_equal. destruct (Hin b (Hl b (or_introl eq_refl))) as [I1 I2]. destruct (box_ok _ I1 I2) as (Db & F1 & F2 & F3).
        rewrite F3. replace (mean (pure b) f) with (mean Db f); [unfold Qcdiv; ring|].
        unfold pure. rewrite F1, map_map. unfold mean. rewrite map_map. auto. }
      rewrite G by auto. rewrite qsum_map_scale, brs_u_open, open_sum, <- qsum_map_scale.
      apply qsum_map_ext. intros x _. unfold Qcdiv. ring.
Qed.

(** the two parts of the estimator add up *)
Lemma target (phi : dict Z -> bool) : sound_labels varis phi brs -> settled_or_open brs -> proper_labels brs ->
  (mcs_pf_low brs + prob_event varis probs (fun x => open_region brs x && negb (phi x)) = p_fail varis probs phi)%Qc.
Proof.
  intros Hl Hs Hpl. unfold mcs_pf_low. rewrite (sel_prob varis probs) by auto.
  set (F := sel (fun b => st_eqb (b_up_state b) F_) brs).
  unfold p_fail, prob_event.
  rewrite !qsum_filter, <- qsum_map_plus. apply qsum_map_ext. intros x Hx.
  assert (C := Hpt x Hx).
  destruct (filter (fun b => in_branch b x) brs) as [|b [|]] eqn:Ef; try discriminate C.
  assert (X : In b (filter (fun b => in_branch b x) brs)) by (rewrite Ef; left; auto). apply filter_In in X as [X1 X2].
  assert (U : forall b', In b' brs -> in_branch b' x = true -> b' = b).
  { intros b' B1 B2. assert (Y : In b' (filter (fun b => in_branch b x) brs)) by (apply filter_In; auto).
    rewrite Ef in Y. destruct Y as [->|[]]; auto. }
  assert (EF : F x = st_eqb (b_up_state b) F_).
  { apply eq_true_iff_eq. split; intros H.
    - apply existsb_exists in H as (b' & B1 & B2). apply andb_true_iff in B2 as [B2 B3]. rewrite (U b' B1 B3) in B2. auto.
    - apply existsb_exists. exists b. split; auto. rewrite H. auto. }
  assert (EO : open_region brs x = open_branch b).
  { apply eq_true_iff_eq. split; intros H.
    - apply existsb_exists in H as (b' & B1 & B2). apply andb_true_iff in B2 as [B2 B3]. rewrite (U b' B1 B3) in B2. auto.
    - apply existsb_exists. exists b. split; auto. rewrite H. auto. }
  rewrite EF, EO. destruct (Hl b x X1 Hx X2) as [L1 L2]. destruct (Hpl b X1) as [P1 P2]. specialize (Hs b X1).
  unfold open_branch, is_u in *. destruct (b_up_state b); cbn [st_eqb].
  - rewrite orb_false_r in *. destruct (b_down_state b); cbn [andb].
    + rewrite L2 by auto. cbn. ring.
    + exfalso. destruct Hs as [H|[H|H]]; discriminate.
    + destruct (phi x); cbn; ring.
  - rewrite L1, P1 by auto. cbn. ring.
  - rewrite orb_true_r. cbn [andb]. ring.
Qed.
End Draw.

(** * The loop of the estimator *)
Lemma above_one cov_t : (cov_t < 1)%Qc -> above 1%Qc cov_t = true.
Proof.
  intros H. unfold above. destruct (qc_ltb cov_t 0) eqn:E; auto. cbn [orb]. apply qc_ltb_ge in E. apply qc_ltb_lt.
  assert (X := qcmult_le_l cov_t 1 cov_t E). assert (cov_t * cov_t <= cov_t * 1)%Qc by (apply X; qc_lra).
  rewrite Qcmult_1_r in H0. qc_lra.
Qed.
Lemma above_one_ge cov_t : (1 <= cov_t)%Qc -> above 1%Qc cov_t = false.
Proof.
  intros H. unfold above. apply orb_false_iff. split; apply qc_ltb_ge; [qc_lra|].
  assert (X := qcmult_le_l 1 cov_t cov_t). assert (cov_t * 1 <= cov_t * cov_t)%Qc by (apply X; qc_lra).
  rewrite Qcmult_1_r in H0. qc_lra.
Qed.

Lemma failures_app phi a b : failures phi (a ++ b) = (failures phi a + failures phi b)%nat.
Proof. unfold failures. rewrite filter_app, app_length. auto. Qed.
Lemma failures_le phi a : (failures phi a <= List.length a)%nat.
Proof. unfold failures. induction a as [|x a IH]; cbn; [auto|]. destruct (negb (phi x)); cbn; lia. Qed.


Lemma answers_count (phi : dict Z -> bool) (sys_fun : sysfun) (x : dict Z) n : snd (fst (sys_fun x)) = (if phi x then S_ else F_) ->
  (match snd (fst (sys_fun x)) with F_ => Z.of_nat n + 1 | _ => Z.of_nat n end) = Z.of_nat (n + failures phi [x]).
Proof. intros ->. unfold failures. cbn [filter]. destruct (phi x); cbn [negb List.length]; lia. Qed.

Section Loop.
Context (phi : dict Z -> bool) (sys_fun : sysfun) (pf_low u_prob cov_t : Qc).

Definition linv (pre : list (dict Z)) (pf cov2 : Qc) : Prop :=
  ((List.length pre <= 9)%nat -> pf = 0%Qc /\ cov2 = 1%Qc) /\
  ((9 < List.length pre)%nat -> (pf, cov2) = posterior pf_low u_prob (Z.of_nat (List.length pre)) (Z.of_nat (failures phi pre))).

Lemma linv_step pre x pf cov2 : linv pre pf cov2 -> snd (fst (sys_fun x)) = (if phi x then S_ else F_) ->
  let est := if 9 <? Z.of_nat (List.length pre) + 1 then posterior pf_low u_prob (Z.of_nat (List.length pre) + 1)
               (match snd (fst (sys_fun x)) with F_ => Z.of_nat (failures phi pre) + 1 | _ => Z.of_nat (failures phi pre) end) else (pf, cov2) in
  linv (pre ++ [x]) (fst est) (snd est).
Proof.
  intros [I1 I2] Hx. cbv zeta. rewrite (answers_count phi sys_fun x _ Hx), <- failures_app.
  unfold linv. rewrite app_length. cbn [List.length].
  replace (Z.of_nat (List.length pre) + 1) with (Z.of_nat (List.length pre + 1)) by lia.
  destruct (9 <? Z.of_nat (List.length pre + 1)) eqn:E; split; intros H.
  - apply Z.ltb_lt in E. lia.
  - destruct (posterior _ _ _ _); auto.
  - cbn [fst snd]. apply I1. lia.
  - apply Z.ltb_ge in E. lia.
Qed.

Lemma loop_spec : forall xs pre pf cov2 e, linv pre pf cov2 -> answers phi sys_fun xs ->
  mcs_loop sys_fun pf_low u_prob cov_t (Z.of_nat (List.length pre)) (Z.of_nat (failures phi pre)) pf cov2 (map Ok xs) = Ok (Some e) ->
  exists ys zs, xs = ys ++ zs /\ e_nsamp e = Z.of_nat (List.length (pre ++ ys)) /\ (9 < List.length (pre ++ ys))%nat /\
    (e_pf e, e_cov2 e) = posterior pf_low u_prob (Z.of_nat (List.length (pre ++ ys))) (Z.of_nat (failures phi (pre ++ ys))) /\
    above (e_cov2 e) cov_t = false.
Proof.
  induction xs as [|x xs IH]; intros pre pf cov2 e I Ha H.
  - cbn [mcs_loop map] in H. destruct (above cov2 cov_t) eqn:E; [discriminate|].
    destruct (9 <? Z.of_nat (List.length pre)) eqn:E9; [|discriminate]. injection H as <-. apply Z.ltb_lt in E9.
    exists [], []. rewrite (app_nil_r pre). cbn [e_nsamp e_pf e_cov2]. repeat split; auto; try lia. apply I. lia.
  - cbn [mcs_loop map] in H. destruct (above cov2 cov_t) eqn:E.
    + cbn [bind] in H. cbv zeta in H. assert (Hx := Ha x (or_introl eq_refl)).
      assert (I' := linv_step pre x pf cov2 I Hx). cbv zeta in I'.
      match type of I' with linv _ (fst ?e) _ => set (est := e) in * end. rewrite (answers_count phi sys_fun x _ Hx), <- failures_app in H.
      replace (Z.of_nat (List.length pre) + 1) with (Z.of_nat (List.length (pre ++ [x]))) in H by (rewrite app_length; cbn; lia).
      destruct (IH _ _ _ e I' (fun y Hy => Ha y (or_intror Hy)) H) as (ys & zs & -> & R).
      exists (x :: ys), zs. split; auto. rewrite <- app_assoc in R. cbn [app] in R. exact R.
    + destruct (9 <? Z.of_nat (List.length pre)) eqn:E9; [|discriminate]. injection H as <-. apply Z.ltb_lt in E9.
      exists [], (x :: xs). rewrite (app_nil_r pre). cbn [e_nsamp e_pf e_cov2]. repeat split; auto; try lia. apply I. lia.
Qed.

(** no exception once the first test passes *)
Lemma loop_total : (cov_t < 1)%Qc -> forall xs pre pf cov2, linv pre pf cov2 -> answers phi sys_fun xs ->
  exists r, mcs_loop sys_fun pf_low u_prob cov_t (Z.of_nat (List.length pre)) (Z.of_nat (failures phi pre)) pf cov2 (map Ok xs) = Ok r.
Proof.
  intros Hc. induction xs as [|x xs IH]; intros pre pf cov2 I Ha; cbn [mcs_loop map].
  - destruct (above cov2 cov_t) eqn:E; [eauto|]. destruct (9 <? Z.of_nat (List.length pre)) eqn:E9; [eauto|].
    apply Z.ltb_ge in E9. destruct I as [I _]. destruct I as [_ ->]; [lia|]. rewrite above_one in E by auto. discriminate.
  - destruct (above cov2 cov_t) eqn:E.
    + cbn [bind]. cbv zeta. assert (Hx := Ha x (or_introl eq_refl)).
      assert (I' := linv_step pre x pf cov2 I Hx). cbv zeta in I'.
      match type of I' with linv _ (fst ?e) _ => set (est := e) in * end. rewrite (answers_count phi sys_fun x _ Hx), <- failures_app.
      replace (Z.of_nat (List.length pre) + 1) with (Z.of_nat (List.length (pre ++ [x]))) by (rewrite app_length; cbn; lia).
      apply IH; auto. intros y Hy; apply Ha; right; auto.
    + destruct (9 <? Z.of_nat (List.length pre)) eqn:E9; [eauto|].
      apply Z.ltb_ge in E9. destruct I as [I _]. destruct I as [_ ->]; [lia|]. rewrite above_one in E by auto. discriminate.
Qed.

(** the loop goes on through all draws only if the coefficient of variation stays above the target *)
Lemma loop_none : forall xs pre pf cov2, linv pre pf cov2 -> answers phi sys_fun xs ->
  mcs_loop sys_fun pf_low u_prob cov_t (Z.of_nat (List.length pre)) (Z.of_nat (failures phi pre)) pf cov2 (map Ok xs) = Ok None ->
  (9 < List.length (pre ++ xs))%nat ->
  above (snd (posterior pf_low u_prob (Z.of_nat (List.length (pre ++ xs))) (Z.of_nat (failures phi (pre ++ xs))))) cov_t = true.
Proof.
  induction xs as [|x xs IH]; intros pre pf cov2 I Ha H L; cbn [mcs_loop map] in H.
  - rewrite app_nil_r in *. destruct (above cov2 cov_t) eqn:E; [|destruct (9 <? _); discriminate].
    destruct I as [_ I]. rewrite <- (I L). auto.
  - destruct (above cov2 cov_t) eqn:E; [|destruct (9 <? _); discriminate].
    cbn [bind] in H. cbv zeta in H. assert (Hx := Ha x (or_introl eq_refl)).
    assert (I' := linv_step pre x pf cov2 I Hx). cbv zeta in I'.
    match type of I' with linv _ (fst ?e) _ => set (est := e) in * end. rewrite (answers_count phi sys_fun x _ Hx), <- failures_app in H.
    replace (Z.of_nat (List.length pre) + 1) with (Z.of_nat (List.length (pre ++ [x]))) in H by (rewrite app_length; cbn; lia).
    specialize (IH _ _ _ I' (fun y Hy => Ha y (or_intror Hy)) H). rewrite <- app_assoc in IH. cbn [app] in IH. auto.
Qed.

Lemma loop_goes_on : forall xs pre pf cov2, linv pre pf cov2 -> answers phi sys_fun xs -> (cov_t < 1)%Qc ->
  (forall ys zs, xs = ys ++ zs -> (9 < List.length (pre ++ ys))%nat ->
     above (snd (posterior pf_low u_prob (Z.of_nat (List.length (pre ++ ys))) (Z.of_nat (failures phi (pre ++ ys))))) cov_t = true) ->
  mcs_loop sys_fun pf_low u_prob cov_t (Z.of_nat (List.length pre)) (Z.of_nat (failures phi pre)) pf cov2 (map Ok xs) = Ok None.
Proof.
  induction xs as [|x xs IH]; intros pre pf cov2 I Ha Hc H.
  - assert (A : above cov2 cov_t = true); [|cbn [mcs_loop map]; rewrite A; auto].
    destruct (le_lt_dec (List.length pre) 9) as [L|L]; [rewrite (proj2 (proj1 I L)); apply above_one; auto|].
    specialize (H [] [] eq_refl). rewrite app_nil_r in H. rewrite <- (proj2 I L) in H. auto.
  - assert (A : above cov2 cov_t = true).
    { destruct (le_lt_dec (List.length pre) 9) as [L|L]; [rewrite (proj2 (proj1 I L)); apply above_one; auto|].
      specialize (H [] (x :: xs) eq_refl). rewrite app_nil_r in H. rewrite <- (proj2 I L) in H. auto. }
    cbn [mcs_loop map]. rewrite A. cbn [bind]. cbv zeta. assert (Hx := Ha x (or_introl eq_refl)).
    assert (I' := linv_step pre x pf cov2 I Hx). cbv zeta in I'.
    match type of I' with linv _ (fst ?e) _ => set (est := e) in * end. rewrite (answers_count phi sys_fun x _ Hx), <- failures_app.
    replace (Z.of_nat (List.length pre) + 1) with (Z.of_nat (List.length (pre ++ [x]))) by (rewrite app_length; cbn; lia).
    apply IH; auto.
    + intros y Hy; apply Ha; right; auto.
    + intros ys zs -> L. rewrite <- app_assoc in *. cbn [app] in *. apply (H (x :: ys) zs); auto.
Qed.
End Loop.

Lemma linv_start phi pf_low u_prob : linv phi pf_low u_prob [] 0%Qc 1%Qc.
Proof. split; cbn; intros H; [auto|lia]. Qed.

(** * Numbers *)
Lemma qc_div_le x y z : (0 < y)%Qc -> (x <= z * y)%Qc -> (x / y <= z)%Qc.
Proof.
  intros Hy H. assert (N : y <> 0%Qc) by (intros X; rewrite X in Hy; qc_lra).
  assert (P : (0 <= (z * y - x) * (1 / y))%Qc) by (apply qcmult_nonneg; [qc_lra|apply inv_nonneg; auto]).
  replace ((z * y - x) * (1 / y))%Qc with (z - x / y)%Qc in P by (field; auto). qc_lra.
Qed.
Lemma qc_le_div x y z : (0 < y)%Qc -> (z * y <= x)%Qc -> (z <= x / y)%Qc.
Proof.
  intros Hy H. assert (N : y <> 0%Qc) by (intros X; rewrite X in Hy; qc_lra).
  assert (P : (0 <= (x - z * y) * (1 / y))%Qc) by (apply qcmult_nonneg; [qc_lra|apply inv_nonneg; auto]).
  replace ((x - z * y) * (1 / y))%Qc with (x / y - z)%Qc in P by (field; auto). qc_lra.
Qed.
Lemma qc_mul_pos x y : (0 < x)%Qc -> (0 < y)%Qc -> (0 < x * y)%Qc.
Proof. unfold Qclt. intros. rewrite qc_this_mult. apply Qmult_lt_0_compat; auto. Qed.
Lemma qc_pos_neq x : (0 < x)%Qc -> x <> 0%Qc.
Proof. intros H X. rewrite X in H. qc_lra. Qed.

Lemma qz_nonneg n : (0 <= qz (Z.of_nat n))%Qc.
Proof. unfold Qcle. rewrite qz_this, qc_this_0. change 0%Q with (inject_Z 0). rewrite <- Zle_Qle. lia. Qed.
Lemma qz_minus a b : qz (a - b) = (qz a - qz b)%Qc.
Proof. apply Qc_is_canon. rewrite qc_this_minus, !qz_this. unfold Qminus. rewrite <- inject_Z_opp, <- inject_Z_plus. reflexivity. Qed.
Lemma qz_le a b : a <= b -> (qz a <= qz b)%Qc.
Proof. intros H. unfold Qcle. rewrite !qz_this. rewrite <- Zle_Qle. auto. Qed.
Lemma prior_pos : (0 < prior)%Qc.
Proof. reflexivity. Qed.
Lemma prior_small : (prior * qz 100 = 1)%Qc.
Proof. apply Qc_is_canon. reflexivity. Qed.

Lemma amgm x y : (qz 4 * (x * y) <= (x + y) * (x + y))%Qc.
Proof.
  assert (Y : (0 <= (x - y) * (x - y))%Qc).
  { destruct (Qclt_le_dec x y) as [L|L].
    - replace ((x - y) * (x - y))%Qc with ((y - x) * (y - x))%Qc by ring. apply qcmult_nonneg; qc_lra.
    - apply qcmult_nonneg; qc_lra. }
  assert (F4 : qz 4 = (1 + 1 + 1 + 1)%Qc) by (apply Qc_is_canon; reflexivity). rewrite F4. clear F4.
  replace ((x - y) * (x - y))%Qc with ((x + y) * (x + y) - (1 + 1 + 1 + 1) * (x * y))%Qc in Y by ring.
  set (p := ((x + y) * (x + y))%Qc) in *. set (q := ((1 + 1 + 1 + 1) * (x * y))%Qc) in *. clearbody p q. qc_lra.
Qed.

Section Posterior.
Context (pf_low u : Qc) (n k : nat) (Hk : (k <= n)%nat) (Hl : (0 <= pf_low)%Qc) (Hu : (0 <= u)%Qc).
Let a := (prior + qz (Z.of_nat k))%Qc.
Let b := (prior + qz (Z.of_nat n - Z.of_nat k))%Qc.

Lemma ab_pos : (0 < a)%Qc /\ (0 < b)%Qc /\ (a + b = qz (Z.of_nat n) + prior + prior)%Qc.
Proof.
  assert (P := prior_pos). assert (A := qz_nonneg k).
  assert (B := qz_nonneg (n - k)). replace (Z.of_nat (n - k)) with (Z.of_nat n - Z.of_nat k) in B by lia.
  unfold a, b. split; [qc_lra|]. split; [qc_lra|]. rewrite qz_minus. ring.
Qed.

Lemma post_pf : fst (posterior pf_low u (Z.of_nat n) (Z.of_nat k)) = (pf_low + u * (a / (a + b)))%Qc /\
  (0 <= a / (a + b))%Qc /\ (a / (a + b) <= 1)%Qc.
Proof.
  destruct ab_pos as (A & B & _). split; [reflexivity|]. split.
  - apply qc_le_div; [qc_lra|]. rewrite Qcmult_0_l. qc_lra.
  - apply qc_div_le; [qc_lra|]. rewrite Qcmult_1_l. qc_lra.
Qed.

Lemma post_bounds : let pf := fst (posterior pf_low u (Z.of_nat n) (Z.of_nat k)) in (pf_low <= pf)%Qc /\ (pf <= pf_low + u)%Qc.
Proof.
  cbv zeta. destruct post_pf as (-> & A & B).
  assert (X := qcmult_nonneg _ _ Hu A). assert (Y := qcmult_le_l _ _ _ Hu B). rewrite Qcmult_1_r in Y. split; qc_lra.
Qed.

Lemma post_stops cov_t : (0 < pf_low)%Qc -> (0 <= cov_t)%Qc ->
  (u * u <= qz 4 * (qz (Z.of_nat n) + 1) * (cov_t * cov_t * (pf_low * pf_low)))%Qc ->
  above (snd (posterior pf_low u (Z.of_nat n) (Z.of_nat k))) cov_t = false.
Proof.
  intros Hl0 Hc H. unfold above. apply orb_false_iff. split; apply qc_ltb_ge; auto.
  cbn [posterior snd]. fold a b. destruct ab_pos as (A & B & S). destruct post_bounds as [P1 P2]. cbv zeta in *.
  set (pf := (pf_low + u * (a / (a + b)))%Qc) in *. change (fst (posterior _ _ _ _)) with pf in P1, P2.
  assert (Hpf : (0 < pf)%Qc) by qc_lra.
  assert (Sp : (0 < a + b)%Qc) by qc_lra. set (s := (a + b)%Qc) in *.
  assert (S1 : (0 < s + 1)%Qc) by qc_lra.
  apply qc_div_le; [apply qc_mul_pos; auto|].
  set (X := (cov_t * cov_t * (pf * pf))%Qc).
  assert (HX : (cov_t * cov_t * (pf_low * pf_low) <= X)%Qc).
  { unfold X. apply qcmult_le_l; [apply qcmult_nonneg; auto|].
    apply Qcle_trans with (pf_low * pf)%Qc; [apply qcmult_le_l; auto|].
    replace (pf_low * pf)%Qc with (pf * pf_low)%Qc by ring. apply qcmult_le_l; auto. qc_lra. }
  assert (X0 : (0 <= X)%Qc) by (unfold X; repeat apply qcmult_nonneg; auto; qc_lra).
  replace (u * u * (a * b / (s * s) / (s + 1)))%Qc with (u * u * (a * b) / (s * s * (s + 1)))%Qc
    by (field; split; apply qc_pos_neq; auto).
  apply qc_div_le; [repeat apply qc_mul_pos; auto|].
  assert (AB : (qz 4 * (a * b) <= s * s)%Qc). { apply amgm. }
  assert (P4 : (0 < qz 4)%Qc) by reflexivity.
  assert (U4 : (u * u <= qz 4 * (s + 1) * X)%Qc).
  { apply Qcle_trans with (qz 4 * (qz (Z.of_nat n) + 1) * (cov_t * cov_t * (pf_low * pf_low)))%Qc; auto.
    assert (N0 := qz_nonneg n). assert (PP := prior_pos).
    apply Qcle_trans with (qz 4 * (qz (Z.of_nat n) + 1) * X)%Qc.
    - apply qcmult_le_l; auto. apply qcmult_nonneg; qc_lra.
    - replace (qz 4 * (qz (Z.of_nat n) + 1) * X)%Qc with (qz 4 * X * (qz (Z.of_nat n) + 1))%Qc by ring.
      replace (qz 4 * (s + 1) * X)%Qc with (qz 4 * X * (s + 1))%Qc by ring.
      apply qcmult_le_l; [apply qcmult_nonneg; qc_lra|]. rewrite S. qc_lra. }
  assert (Z1 : (qz 4 * (u * u * (a * b)) <= qz 4 * (X * (s * s * (s + 1))))%Qc).
  { apply Qcle_trans with (u * u * (s * s))%Qc.
    - replace (qz 4 * (u * u * (a * b)))%Qc with (u * u * (qz 4 * (a * b)))%Qc by ring. apply qcmult_le_l; auto. apply qcmult_nonneg; auto.
    - replace (u * u * (s * s))%Qc with (s * s * (u * u))%Qc by ring.
      replace (qz 4 * (X * (s * s * (s + 1))))%Qc with (s * s * (qz 4 * (s + 1) * X))%Qc by ring.
      apply qcmult_le_l; auto. apply qcmult_nonneg; qc_lra. }
  assert (Z2 : (u * u * (a * b) <= qz 4 * (X * (s * s * (s + 1))) / qz 4)%Qc).
  { apply qc_le_div; auto. replace (u * u * (a * b) * qz 4)%Qc with (qz 4 * (u * u * (a * b)))%Qc by ring. auto. }
  replace (qz 4 * (X * (s * s * (s + 1))) / qz 4)%Qc with (X * (s * s * (s + 1)))%Qc in Z2 by (field; apply qc_pos_neq; auto). auto.
Qed.

Lemma post_no_failure cov_t : pf_low = 0%Qc -> (0 < u)%Qc -> k = 0%nat -> (9 < n)%nat -> (cov_t < 1)%Qc ->
  above (snd (posterior pf_low u (Z.of_nat n) (Z.of_nat k))) cov_t = true.
Proof.
  intros -> Hu0 E0 Hn Hc. assert (A1 := above_one cov_t Hc). unfold above in *.
  destruct (qc_ltb cov_t 0); auto. cbn [orb] in *. apply qc_ltb_lt in A1. apply qc_ltb_lt.
  cbn [posterior snd]. fold a b. destruct ab_pos as (A & B & S).
  assert (Ea : a = prior). { unfold a. rewrite E0. change (qz (Z.of_nat 0)) with 0%Qc. ring. }
  assert (Eb : b = (qz (Z.of_nat n) + prior)%Qc). { unfold b. rewrite E0. replace (Z.of_nat n - Z.of_nat 0) with (Z.of_nat n) by lia. ring. }
  apply Qclt_le_trans with 1%Qc; auto.
  replace (u * u * (a * b / ((a + b) * (a + b)) / (a + b + 1)) / ((0 + u * (a / (a + b))) * (0 + u * (a / (a + b)))))%Qc
    with (b / (a * (a + b + 1)))%Qc.
  2:{ field. repeat split; apply qc_pos_neq; auto; qc_lra. }
  apply qc_le_div; [apply qc_mul_pos; auto; qc_lra|]. rewrite Qcmult_1_l, S, Ea, Eb.
  assert (Q : (qz 10 <= qz (Z.of_nat n))%Qc) by (apply qz_le; lia). set (m := qz (Z.of_nat n)) in *. clearbody m.
  unfold Qcle in *. rewrite !qc_this_plus, qc_this_mult, !qc_this_plus. change (this prior) with (1 # 100). change (this 1%Qc) with 1%Q.
  change (this (qz 10)) with 10%Q in Q. lra.
Qed.
End Posterior.

(** * Untruncated searches leave settled or open branches *)
Lemma full_settled varis probs rs brs : wf_rules varis rs -> consistent varis rs ->
  vbrs varis probs rs brs -> fullhom rs brs -> settled_or_open brs.
Proof.
  intros Hr Hc V F b Hb. unfold fullhom in F. rewrite Forall_forall in F. destruct (F b Hb) as [[[[D1 D2] _] [[U1 U2] _]] [_ H2]].
  unfold open_branch, is_u. destruct (b_down_state b), (b_up_state b); cbn; auto.
  exfalso. destruct V as [V _]. rewrite Forall_forall in V. destruct (V b Hb) as ((_ & HU & _) & _).
  apply (Hc (b_up b)); auto.
Qed.

Lemma run_settled varis probs phi sys_fun g rules brs s b :
  wf_varis varis -> wf_probs varis probs -> sys_ok varis phi sys_fun ->
  wf_rules varis (rules_arg rules) -> sound_rules varis phi (rules_arg rules) ->
  (forall b, brs = Some b -> valid_brs varis probs (rules_arg rules) b) ->
  no_cut varis (g_max_nb g) -> 0 < g_max_sf g ->
  run varis probs sys_fun g rules brs = Ok s -> s_brs s = Some b ->
  settled_or_open b /\ sound_labels varis phi b.
Proof.
  intros Hw Hp Hs Hr Hsr Hb Hn L H Eb.
  pose proof (run_final varis probs phi sys_fun g rules brs Hw Hp Hs Hr Hsr Hb L) as R. rewrite H in R.
  destruct R as (h0 & b0 & u & R). cbv zeta in R.
  destruct R as (Eb0 & _ & _ & He & _). rewrite Eb in Eb0. injection Eb0 as <-.
  rewrite Forall_forall in He. destruct (He (b, u, s_rules s)) as (A1 & A2 & A3 & A4 & _); [apply in_or_app; right; left; auto|].
  cbn [e_used e_brs fst snd] in *. split.
  - apply (full_settled varis probs u); auto. apply (sound_consistent _ _ _ A2).
  - eapply vbrs_labels; eauto.
Qed.

(** * Crude Monte Carlo *)
Lemma combine_split {A B} (l : list (A * B)) : combine (map snd l) (map fst l) = map (fun p => (snd p, fst p)) l.
Proof. induction l as [|[a b] l IH]; cbn; [auto|]. rewrite IH. auto. Qed.

Lemma zfind_NoDup (kv : list (Z * Qc)) k q : NoDup (map fst kv) -> In (k, q) kv -> zfind kv k = Some q.
Proof.
  induction kv as [|[k' q'] kv IH]; intros N H; [destruct H|]. cbn [map fst] in N. inversion_clear N.
  cbn [zfind]. destruct H as [[= -> ->]|H].
  - rewrite Z.eqb_refl. auto.
  - destruct (Z.eqb_spec k k') as [->|]; [|auto]. exfalso. apply H0. apply in_map_iff. exists (k', q). auto.
Qed.

Lemma draw_indep_gen probs0 : forall varis probs, Forall2 (fun kv kd => fst kd = fst kv /\ exists l, snd kd = PDict l /\
    Permutation (map fst l) (zrange 0 (nvals (snd kv))) /\
    (forall x q, In (x, q) l -> pr probs0 (fst kv) x = q /\ (0 <= q)%Qc) /\
    1 <= nvals (snd kv) /\ qsum (map (pr probs0 (fst kv)) (zrange 0 (nvals (snd kv)))) = 1%Qc) varis probs ->
  exists D, draw_indep probs = map okp D /\
    (forall o, In o D -> (0 < fst o)%Qc /\ In (snd o) (space (comps_of varis))) /\
    forall f, mean D f = qsum (map (fun x => (prob_of probs0 x * f x)%Qc) (space (comps_of varis))).
Proof.
  induction varis as [|[k v] varis IH]; intros probs H; inversion H as [|? [k' d] ? probs' H1 H2]; subst.
  - exists [(1%Qc, [])]. split; [reflexivity|]. split.
    + intros o [<-|[]]. cbn. split; [reflexivity|auto].
    + intros f. unfold mean, prob_of. cbn [comps_of map space qsum qprod fst snd]. ring.
  - cbn [fst snd] in H1. destruct H1 as (-> & l & -> & P & Q & Hv & S).
    destruct (IH _ H2) as (D' & E' & P' & M').
    assert (Z1 : map (pr probs0 k) (map fst l) = map snd l).
    { rewrite map_map. apply map_ext_in. intros [x q] Hx. cbn [fst snd]. apply Q. auto. }
    destruct (np_choice_ok (map fst l) (map snd l)) as (os & E & Po & Mo).
    { intros X. rewrite X in P. apply Permutation_nil in P.
      assert (In 0 (zrange 0 (nvals v))) by (apply In_zrange; lia). rewrite P in H0. destruct H0. }
    { rewrite !map_length. auto. }
    { intros q Hq. apply in_map_iff in Hq as ([x q'] & <- & Hx). apply (Q x). auto. }
    { rewrite <- Z1. rewrite <- S. apply qsum_perm, Permutation_map. auto. }
    set (g := fun x : Z => map (fun r => (fst r, (y <- snd r ;; Ok ((k, x) :: y)))) (draw_indep probs')).
    assert (Eg : draw_indep ((k, PDict l) :: probs') = flat_map (fun o => map (fun r => ((fst o * fst r)%Qc, snd r)) (g (snd o))) os).
    { cbn [draw_indep draw_dict]. rewrite E. apply flat_map_ext. intros o. unfold g. rewrite map_map. auto. }
    rewrite Eg.
    destruct (flat_ok g (fun x => In x (space (comps_of ((k, v) :: varis)))) (fun x f => mean D' (fun y => f ((k, x) :: y))) os) as (D & ED & PD & MD).
    { intros o Ho. destruct (Po o Ho) as [A1 A2]. split; auto.
      exists (map (fun r => (fst r, (k, snd o) :: snd r)) D'). split; [|split].
      - unfold g. rewrite E', !map_map. auto.
      - intros r Hr. apply in_map_iff in Hr as (r' & <- & Hr). destruct (P' r' Hr) as [C1 C2]. cbn [fst snd]. split; auto.
        cbn [comps_of map space fst snd]. apply in_flat_map. exists (snd o). split; [|apply in_map; auto].
        apply (Permutation_in _ P). destruct o as [w x]. eapply in_combine_r. exact A2.
      - intros f. unfold mean. rewrite map_map. auto. }
    exists D. split; auto. split; auto. intros f. rewrite MD, Mo, combine_split. unfold mean at 1. rewrite map_map. cbn [fst snd].
    cbn [comps_of map space fst snd]. rewrite qsum_flat_map.
    rewrite <- (qsum_perm _ _ (Permutation_map _ P)), map_map.
    apply qsum_map_ext. intros [x q] Hx. cbn [fst snd]. rewrite M', map_map, <- qsum_map_scale. apply qsum_map_ext.
    intros y _. unfold prob_of. cbn [map qprod fst snd]. rewrite (proj1 (Q x q Hx)). ring.
Qed.

Lemma draw_indep_ok varis probs : wf_varis varis -> wf_probs varis probs -> full_dicts varis probs ->
  exists D, draw_indep probs = map okp D /\
    (forall o, In o D -> (0 < fst o)%Qc /\ In (snd o) (sp varis)) /\
    forall f, mean D f = qsum (map (fun x => (prob_of probs x * f x)%Qc) (sp varis)).
Proof.
  intros Hw Hp Hf. apply draw_indep_gen.
  assert (K : keys probs = keys varis).
  { clear Hw Hp. induction Hf as [|[k v] [k' d] ? ? [E _] H IH]; cbn; auto. cbn in E. f_equal; auto. }
  assert (G : forall k d, In (k, d) probs -> dfind probs k = Some d).
  { intros k d Hd. apply In_dfind; auto. rewrite K. apply Hw. }
  unfold full_dicts in Hf. clear K.
  assert (I1 : incl varis varis) by apply incl_refl. assert (I2 : incl probs probs) by apply incl_refl.
  revert Hf I1 I2. generalize varis at 1 2 4 as V. generalize probs at 1 2 6 as Pb. intros Pb V Hf I1 I2.
  induction Hf as [|[k v] [k' d] V' P' [E (l & El & Pl)] H IH]; constructor.
  - cbn [fst snd] in *. subst k' d. split; auto. exists l. split; auto. split; auto.
    assert (Hk : In (k, v) varis) by (apply I1; left; auto). assert (Hd := G k _ (I2 _ (or_introl eq_refl))).
    destruct (Hp k v Hk) as [(d & Ed & Hq) S]. rewrite Hd in Ed. injection Ed as <-.
    assert (Nl : NoDup (map fst l)). { eapply Permutation_NoDup; [apply Permutation_sym; exact Pl|apply zrange_NoDup]. }
    split; [|split; [apply (proj2 Hw k v Hk)|auto]].
    intros x q Hx. assert (Hr : 0 <= x < nvals v).
    { apply In_zrange. apply (Permutation_in _ Pl). apply in_map_iff. exists (x, q). auto. }
    destruct (Hq x Hr) as (q' & Q1 & Q2). unfold pr. rewrite Hd, Q1. cbn [pget] in Q1. rewrite (zfind_NoDup l x q Nl Hx) in Q1.
    injection Q1 as ->. auto.
  - apply IH; intros a Ha; [apply I1|apply I2]; right; auto.
Qed.

Section Indep.
Context (phi : dict Z -> bool) (sys_fun : sysfun) (cov_t : Qc) (Hc : (cov_t < 1)%Qc).

Definition iest (n k : Z) : Qc * Qc :=
  let pf := (qz k / qz n)%Qc in (pf, (pf * (1 - pf) / qz n / (pf * pf))%Qc).

(** state after the draws [pre] *)
Definition iinv (pre : list (dict Z)) (pf : option Qc) (cov2 : Qc) : Prop :=
  (pf = None -> failures phi pre = 0%nat) /\
  ((failures phi pre <= 5)%nat -> cov2 = 1%Qc) /\
  ((5 < failures phi pre)%nat -> above cov2 cov_t = true \/
      exists pre0 x, pre = pre0 ++ [x] /\ phi x = false /\
        (pf, cov2) = (Some (fst (iest (Z.of_nat (List.length pre)) (Z.of_nat (failures phi pre)))),
                      snd (iest (Z.of_nat (List.length pre)) (Z.of_nat (failures phi pre))))).

Lemma indep_spec : forall xs pre pf cov2, iinv pre pf cov2 -> answers phi sys_fun xs ->
  match indep_loop sys_fun cov_t (Z.of_nat (List.length pre)) (Z.of_nat (failures phi pre)) pf cov2 (map Ok xs) with
  | Ok (Some e) => exists ys zs, xs = ys ++ zs /\ e_nsamp e = Z.of_nat (List.length (pre ++ ys)) /\ (5 < failures phi (pre ++ ys))%nat /\
      (exists pre0 x, pre ++ ys = pre0 ++ [x] /\ phi x = false) /\
      (e_pf e, e_cov2 e) = iest (e_nsamp e) (Z.of_nat (failures phi (pre ++ ys))) /\ above (e_cov2 e) cov_t = false
  | Ok None => True
  | Err x => x = UnboundLocalError /\ exists ys zs, xs = ys ++ zs /\ failures phi (pre ++ ys) = 0%nat /\ 20000 <= Z.of_nat (List.length (pre ++ ys))
  end.
Proof.
  assert (Stop : forall pre pf cov2 xs, iinv pre pf cov2 -> above cov2 cov_t = false ->
    match (match pf with Some p => Ok (Some (mkEst p cov2 (Z.of_nat (List.length pre)))) | None => Err UnboundLocalError end) with
    | Ok (Some e) => exists ys zs, xs = ys ++ zs /\ e_nsamp e = Z.of_nat (List.length (pre ++ ys)) /\ (5 < failures phi (pre ++ ys))%nat /\
      (exists pre0 x, pre ++ ys = pre0 ++ [x] /\ phi x = false) /\
      (e_pf e, e_cov2 e) = iest (e_nsamp e) (Z.of_nat (failures phi (pre ++ ys))) /\ above (e_cov2 e) cov_t = false
    | Ok None => True
    | Err x => x = UnboundLocalError /\ exists ys zs, xs = ys ++ zs /\ failures phi (pre ++ ys) = 0%nat /\ 20000 <= Z.of_nat (List.length (pre ++ ys))
    end).
  { intros pre pf cov2 xs (I1 & I2 & I3) Ha. destruct (le_lt_dec (failures phi pre) 5) as [L|L].
    - rewrite (I2 L), above_one in Ha by auto. discriminate.
    - destruct (I3 L) as [X|(pre0 & x & E1 & E2 & E3)]; [congruence|]. injection E3 as -> ->.
      exists [], xs. rewrite (app_nil_r pre). cbn [e_nsamp e_pf e_cov2]. repeat split; auto. exists pre0, x. auto. }
  induction xs as [|x xs IH]; intros pre pf cov2 I Ha; cbn [indep_loop map].
  - destruct (above cov2 cov_t) eqn:E; auto. apply (Stop pre pf cov2); auto.
  - destruct (above cov2 cov_t) eqn:E; [|apply (Stop pre pf cov2); auto].
    cbn [bind]. cbv zeta. assert (Hx := Ha x (or_introl eq_refl)). rewrite Hx.
    assert (El : Z.of_nat (List.length pre) + 1 = Z.of_nat (List.length (pre ++ [x]))) by (rewrite app_length; cbn; lia).
    assert (Ha' : answers phi sys_fun xs) by (intros y Hy; apply Ha; right; auto).
    destruct I as (I1 & I2 & I3).
    destruct (phi x) eqn:Ep.
    + assert (Ef : failures phi (pre ++ [x]) = failures phi pre).
      { rewrite failures_app. unfold failures. cbn. rewrite Ep. cbn. lia. }
      destruct ((Z.of_nat (List.length pre) + 1) mod 20000 =? 0) eqn:Em; cbn [andb].
      * destruct pf as [p|].
        -- rewrite El, <- Ef. specialize (IH (pre ++ [x]) (Some p) cov2).
           destruct (indep_loop _ _ _ _ _ _ _) as [[e|]|ex].
           ++ destruct IH as (ys & zs & -> & R); auto.
              { split; [congruence|]. split; [rewrite Ef; auto|]. intros _. left; auto. }
              exists (x :: ys), zs. split; auto. rewrite <- app_assoc in R. exact R.
           ++ auto.
           ++ destruct IH as (-> & ys & zs & -> & R); auto.
              { split; [congruence|]. split; [rewrite Ef; auto|]. intros _. left; auto. }
              split; auto. exists (x :: ys), zs. split; auto. rewrite <- app_assoc in R. exact R.
        -- split; auto. exists [x], xs. split; auto. rewrite Ef. split; [apply I1; auto|].
           apply Z.eqb_eq in Em. rewrite El in Em. apply Z.mod_divide in Em; [|lia].
           assert (0 < Z.of_nat (List.length (pre ++ [x]))) by (rewrite app_length; cbn; lia).
           apply Z.divide_pos_le in Em; lia.
      * rewrite El, <- Ef. specialize (IH (pre ++ [x]) pf cov2).
        destruct (indep_loop _ _ _ _ _ _ _) as [[e|]|ex].
        -- destruct IH as (ys & zs & -> & R); auto.
           { split; [rewrite Ef; auto|]. split; [rewrite Ef; auto|]. intros _. left; auto. }
           exists (x :: ys), zs. split; auto. rewrite <- app_assoc in R. exact R.
        -- auto.
        -- destruct IH as (-> & ys & zs & -> & R); auto.
           { split; [rewrite Ef; auto|]. split; [rewrite Ef; auto|]. intros _. left; auto. }
           split; auto. exists (x :: ys), zs. split; auto. rewrite <- app_assoc in R. exact R.
    + assert (Ef : failures phi (pre ++ [x]) = S (failures phi pre)).
      { rewrite failures_app. unfold failures. cbn. rewrite Ep. cbn. lia. }
      replace (Z.of_nat (failures phi pre) + 1) with (Z.of_nat (failures phi (pre ++ [x]))) by lia. rewrite El.
      match goal with |- context [indep_loop _ _ _ _ ?p ?c _] => set (pf' := p); set (cov' := c) end.
      assert (I' : iinv (pre ++ [x]) pf' cov').
      { split; [unfold pf'; congruence|]. split.
        - intros L. unfold cov'. destruct (5 <? Z.of_nat (failures phi (pre ++ [x]))) eqn:E5; [apply Z.ltb_lt in E5; lia|]. apply I2. lia.
        - intros L. right. exists pre, x. split; auto. split; auto. unfold pf', cov'.
          destruct (5 <? Z.of_nat (failures phi (pre ++ [x]))) eqn:E5; [auto|apply Z.ltb_ge in E5; lia]. }
      specialize (IH (pre ++ [x]) pf' cov' I' Ha').
      destruct (indep_loop _ _ _ _ _ _ _) as [[e|]|ex]; auto.
      * destruct IH as (ys & zs & -> & R). exists (x :: ys), zs. split; auto. rewrite <- app_assoc in R. exact R.
      * destruct IH as (-> & ys & zs & -> & R). split; auto. exists (x :: ys), zs. split; auto. rewrite <- app_assoc in R. exact R.
Qed.

(** no failure in the first 20000 draws *)
Lemma indep_unbound : forall xs pre, answers phi sys_fun xs -> (forall x, In x xs -> phi x = true) ->
  Z.of_nat (List.length pre) < 20000 -> 20000 <= Z.of_nat (List.length (pre ++ xs)) ->
  indep_loop sys_fun cov_t (Z.of_nat (List.length pre)) 0 None 1%Qc (map Ok xs) = Err UnboundLocalError.
Proof.
  induction xs as [|x xs IH]; intros pre Ha Hp L1 L2.
  - rewrite app_nil_r in L2. lia.
  - cbn [indep_loop map]. rewrite above_one by auto. cbn [bind]. cbv zeta. rewrite (Ha x (or_introl eq_refl)), (Hp x (or_introl eq_refl)).
    rewrite andb_true_r. destruct (Z.eq_dec (Z.of_nat (List.length pre) + 1) 20000) as [E|E].
    + rewrite E. reflexivity.
    + assert (M : (Z.of_nat (List.length pre) + 1) mod 20000 =? 0 = false).
      { rewrite Z.mod_small by lia. apply Z.eqb_neq. lia. }
      rewrite M. replace (Z.of_nat (List.length pre) + 1) with (Z.of_nat (List.length (pre ++ [x]))) by (rewrite app_length; cbn; lia).
      apply IH.
      * intros y Hy; apply Ha; right; auto.
      * intros y Hy; apply Hp; right; auto.
      * rewrite app_length. cbn. lia.
      * rewrite <- app_assoc. exact L2.
Qed.
End Indep.

(** * Samples stored in the CPMs *)
Lemma set_col_rows {X} (P : X -> list Z) (c : X -> Z) r i l : (forall x, In x l -> List.length (P x) = i) ->
  set_col i (map c l) (map (fun x => P x ++ repeat 0 (S r)) l) = map (fun x => (P x ++ [c x]) ++ repeat 0 r) l.
Proof.
  induction l as [|x l IH]; intros H; [auto|]. cbn [map set_col]. f_equal; [|apply IH; intros; apply H; right; auto].
  rewrite <- (H x (or_introl eq_refl)). rewrite firstn_app, firstn_all, Nat.sub_diag, firstn_O, app_nil_r.
  rewrite <- app_assoc. cbn [app]. f_equal. f_equal.
  rewrite skipn_app. rewrite skipn_all2 by lia.
  replace (S (List.length (P x)) - List.length (P x))%nat with 1%nat by lia. reflexivity.
Qed.

Lemma dfind_dset_neq {A} (d : dict A) k a k' : k' <> k -> dfind (dset d k a) k' = dfind d k'.
Proof. intros H. rewrite dfind_dset. destruct (String.eqb_spec k' k); congruence. Qed.
Lemma dfind_dset_eq {A} (d : dict A) k a : dfind (dset d k a) k = Some a.
Proof. rewrite dfind_dset, String.eqb_refl. auto. Qed.

Section Store.
Context (varis : dict variable) (probs : prob_dict) (Hw : wf_varis varis) (Hp : wf_probs varis probs).
Context (samples : list (dict Z)) (Hs : forall x, In x samples -> In x (sp varis)).

Definition x_probs (x : dict Z) : dict Qc := map (fun kv => (fst kv, pr probs (fst kv) (snd kv))) x.
Definition idx : list Z := map Z.of_nat (seq 0 (List.length samples)).
Definition comp_cpm (v : variable) : scpm :=
  mkScpm [v] (map (fun x => [coord x (v_name v)]) samples) (map (fun x => pr probs (v_name v) (coord x (v_name v))) samples) idx.

Lemma sample_probs_ok x : In x (sp varis) -> sample_probs probs x = Ok (x_probs x).
Proof.
  intros Hx. unfold sample_probs, x_probs. apply mapM_ok. intros [k z] Hk. cbn [fst snd].
  assert (Kk : In k (keys varis)) by (rewrite <- (sp_keys varis x Hx); eapply In_keys; eauto).
  destruct (varis_find varis k Kk) as (v & Hv & _).
  assert (Ez : coord x k = z) by (apply coord_In; auto; apply (sp_nodup varis Hw); auto).
  assert (Hr := sp_coord varis Hw x k v Hx Hv). rewrite Ez in Hr.
  unfold p_state. rewrite (proj1 (pget_pr varis probs Hp k v z Hv Hr)). auto.
Qed.

Lemma x_probs_get x k : In k (keys x) -> dget (x_probs x) k = Ok (pr probs k (coord x k)).
Proof.
  unfold x_probs, coord. induction x as [|[k' z] x IH]; intros H; [destruct H|].
  unfold dget. cbn [map dfind fst snd]. destruct (String.eqb_spec k k') as [->|N]; [auto|].
  destruct H as [H|H]; [cbn in H; congruence|]. apply IH; auto.
Qed.

Notation comp_of_varis := (comp_of_varis varis).

Lemma comp_range v x : comp_of_varis v -> In x samples -> In (v_name v) (keys x) /\ 0 <= coord x (v_name v) < nvals v.
Proof.
  intros Hv Hx. assert (Hi : In (v_name v, v) varis) by (apply dfind_In; auto). split.
  - rewrite (sp_keys varis x (Hs x Hx)). eapply In_keys; eauto.
  - apply (sp_coord varis Hw); auto.
Qed.

Lemma set_comp v M : comp_of_varis v -> sc_vars M = [v] ->
  (M <- set_Cs_vec M (map (fun x => coord x (v_name v)) samples) ;;
   q <- mapM (fun s => dget s (v_name v)) (map x_probs samples) ;;
   M <- set_q M q ;; set_idx M (map Z.of_nat (seq 0 (List.length samples)))) = Ok (comp_cpm v).
Proof.
  intros Hv Hm. unfold set_Cs_vec. rewrite Hm. cbn [forallb]. rewrite andb_true_r.
  assert (E : cs_col_ok (map (fun x => [x]) (map (fun x => coord x (v_name v)) samples)) (0%nat, v) = true).
  { apply forallb_forall. intros row Hr. rewrite map_map in Hr. apply in_map_iff in Hr as (x & <- & Hx).
    cbn. apply Z.leb_le. destruct (comp_range v x Hv Hx). lia. }
  rewrite E. cbn [bind].
  rewrite (mapM_ok _ (fun s => match dget s (v_name v) with Ok q => q | Err _ => 0%Qc end)).
  2:{ intros s Hx. apply in_map_iff in Hx as (x & <- & Hx). destruct (comp_range v x Hv Hx) as [K _]. rewrite x_probs_get by auto. auto. }
  cbn [bind]. unfold set_q, len_ok. cbn [sc_Cs]. rewrite !map_length, Nat.eqb_refl, orb_true_r. cbn [bind]. unfold set_idx. cbn [sc_Cs sc_vars sc_q].
  unfold len_ok. rewrite !map_length, seq_length, Nat.eqb_refl, orb_true_r. unfold comp_cpm, idx. f_equal. f_equal; rewrite map_map; auto.
  apply map_ext_in. intros x Hx. destruct (comp_range v x Hv Hx) as [K _]. rewrite x_probs_get by auto. auto.
Qed.

Lemma alloc_ok width : forall vs i cpms r (P : dict Z -> list Z),
  NoDup (map v_name vs) -> (forall v, In v vs -> comp_of_varis v /\ exists M, dfind cpms (v_name v) = Some M /\ sc_vars M = [v]) ->
  (i + List.length vs <= width)%nat -> (List.length vs <= r)%nat -> (forall x, In x samples -> List.length (P x) = i) ->
  exists cpms', alloc samples (map x_probs samples) width i vs cpms (map (fun x => P x ++ repeat 0 r) samples) =
      Ok (cpms', map (fun x => (P x ++ map (fun v => coord x (v_name v)) vs) ++ repeat 0 (r - List.length vs)) samples) /\
    keys cpms' = keys cpms /\
    (forall k, ~ In k (map v_name vs) -> dfind cpms' k = dfind cpms k) /\
    (forall v, In v vs -> dfind cpms' (v_name v) = Some (comp_cpm v)).
Proof.
  induction vs as [|v vs IH]; intros i cpms r P Hn Hv Hi Hr HP.
  - exists cpms. split; [|split; [auto|split; [auto|intros v []]]]. cbn [alloc]. f_equal. f_equal.
    apply map_ext. intros x. cbn [map List.length]. rewrite app_nil_r, Nat.sub_0_r. auto.
  - cbn [map] in Hn. inversion_clear Hn as [|? ? Hn1 Hn2]. cbn [List.length] in *.
    destruct (Hv v (or_introl eq_refl)) as (Cv & M & EM & VM).
    destruct r as [|r]; [lia|].
    assert (Ed : dget cpms (v_name v) = Ok M) by (unfold dget; rewrite EM; auto).
    destruct (IH (S i) (dset cpms (v_name v) (comp_cpm v)) r (fun x => P x ++ [coord x (v_name v)])) as (cpms' & E & K & O & C); auto.
    + intros w Hw'. destruct (Hv w (or_intror Hw')) as (Cw & Mw & EMw & VMw). split; auto. exists Mw. split; auto.
      rewrite dfind_dset_neq; auto. intros X. apply Hn1. rewrite <- X. apply in_map. auto.
    + lia.
    + lia.
    + intros x Hx. rewrite app_length, (HP x Hx). cbn. lia.
    + exists cpms'. split; [|split; [|split]].
      * cbn [alloc].
        rewrite (mapM_ok (fun s => dget s (v_name v)) (fun x => coord x (v_name v)) samples).
        2:{ intros x Hx. apply dget_coord. apply comp_range; auto. }
        cbn [bind]. rewrite Ed. cbn [bind]. assert (T := set_comp v M Cv VM).
        destruct (set_Cs_vec M _) as [M1|]; cbn [bind] in T |- *; [|discriminate].
        destruct (mapM _ (map x_probs samples)) as [q|]; cbn [bind] in T |- *; [|discriminate].
        destruct (set_q M1 q) as [M2|]; cbn [bind] in T |- *; [|discriminate]. rewrite T. cbn [bind].
        assert (L : (i <? width)%nat = true) by (apply Nat.ltb_lt; lia). rewrite L.
        rewrite set_col_rows by auto. rewrite E. f_equal. f_equal. apply map_ext. intros x. cbn [map].
        rewrite <- !app_assoc. cbn [app]. auto.
      * rewrite K. apply keys_dset. apply dfind_keys. eauto.
      * intros k Hk. cbn [map In] in Hk. rewrite O by tauto. apply dfind_dset_neq. intros X. apply Hk. left; auto.
      * intros w [<-|Hin]; [|apply C; auto]. rewrite O by auto. apply dfind_dset_eq.
Qed.

Notation cpms_fit := (cpms_fit varis probs).
Definition sys_cpm (sys_fun : sysfun) (v0 : variable) (vs : list variable) : scpm :=
  mkScpm (v0 :: vs) (map (fun x => sys_state sys_fun x :: map (fun v => coord x (v_name v)) vs) samples)
    (map (fun _ => 1%Qc) samples) idx.

Lemma store_ok sys_fun cpms sys v0 vs : cpms_fit cpms sys v0 vs ->
  exists cpms', store_samples probs samples (map x_probs samples) (map (sys_state sys_fun) samples) cpms sys = Ok cpms' /\
    keys cpms' = keys cpms /\
    dfind cpms' sys = Some (sys_cpm sys_fun v0 vs) /\
    (forall v, In v vs -> dfind cpms' (v_name v) = Some (comp_cpm v)) /\
    (forall k, k <> sys -> ~ In k (map v_name vs) -> dfind cpms' k = dfind cpms k).
Proof.
  intros ((Ms & EMs & VMs) & Hv0 & Hsys & Hn & Hl & Hc). unfold store_samples.
  assert (Ed : dget cpms sys = Ok Ms) by (unfold dget; rewrite EMs; auto). rewrite Ed. cbn [bind]. rewrite VMs. cbn [tl].
  destruct (alloc_ok (S (List.length probs)) vs 1 cpms (List.length probs) (fun x => [sys_state sys_fun x])) as (cpms' & E & K & O & C); auto; try lia.
  assert (Ei : map (fun s : Z => s :: repeat 0 (List.length probs)) (map (sys_state sys_fun) samples) =
               map (fun x => [sys_state sys_fun x] ++ repeat 0 (List.length probs)) samples) by (rewrite map_map; auto).
  rewrite Ei, E. cbn [bind fst snd]. rewrite Hl, Nat.sub_diag. cbn [repeat].
  assert (Ed' : dget cpms' sys = Ok Ms) by (unfold dget; rewrite O, EMs by auto; auto). rewrite Ed'. cbn [bind].
  set (C' := map (fun x => ([sys_state sys_fun x] ++ map (fun v => coord x (v_name v)) vs) ++ []) samples).
  assert (EC : C' = map (fun x => sys_state sys_fun x :: map (fun v => coord x (v_name v)) vs) samples).
  { unfold C'. apply map_ext. intros x. rewrite app_nil_r. auto. }
  assert (Em : set_Cs_mat Ms C' = Ok (mkScpm (v0 :: vs) C' (sc_q Ms) (sc_idx Ms))).
  { unfold set_Cs_mat. rewrite VMs, EC.
    assert (T1 : forallb (fun row : list Z => (List.length row =? List.length (v0 :: vs))%nat)
        (map (fun x => sys_state sys_fun x :: map (fun v => coord x (v_name v)) vs) samples) = true).
    { apply forallb_forall. intros row Hr. apply in_map_iff in Hr as (x & <- & _). cbn [List.length]. rewrite map_length. apply Nat.eqb_refl. }
    rewrite T1. cbn [andb].
    assert (T2 : forallb (cs_col_ok (map (fun x => sys_state sys_fun x :: map (fun v => coord x (v_name v)) vs) samples))
        (combine (seq 0 (List.length (v0 :: vs))) (v0 :: vs)) = true).
    { apply forallb_forall. intros [j w] Hj. apply forallb_forall. intros row Hr. apply in_map_iff in Hr as (x & <- & Hx).
      cbn [fst snd]. apply Z.leb_le. apply In_nth_error in Hj as (m & Hm).
      assert (Hm1 : nth_error (seq 0 (List.length (v0 :: vs))) m = Some j /\ nth_error (v0 :: vs) m = Some w).
      { clear -Hm. revert m Hm. generalize (seq 0 (List.length (v0 :: vs))). generalize (v0 :: vs).
        intros l l0. revert l. induction l0 as [|a l0 IH]; intros l m Hm; [destruct m; discriminate|].
        destruct l as [|b l]; [destruct m; discriminate|]. destruct m; cbn in *; [injection Hm as -> ->; auto|apply IH; auto]. }
      destruct Hm1 as [Hm1 Hm2].
      assert (Lm : (m < List.length (v0 :: vs))%nat) by (apply nth_error_Some; congruence).
      assert (j = m).
      { assert (Y := seq_nth 0%nat 0%nat Lm). rewrite (nth_error_nth _ _ 0%nat Hm1) in Y. exact Y. }
      subst j. destruct m as [|m]; cbn [nth_error] in Hm2; unfold at_; cbn [nth].
      - injection Hm2 as ->. unfold sys_state. destruct (snd (fst (sys_fun x))); lia.
      - assert (Hin : In w vs) by (eapply nth_error_In; eauto). destruct (Hc w Hin) as [Cw _].
        erewrite nth_error_nth; [|apply map_nth_error; exact Hm2]. destruct (comp_range w x Cw Hx). lia. }
    rewrite T2. auto. }
  rewrite Em. cbn [bind]. unfold set_q, len_ok. cbn [sc_Cs]. rewrite EC, !map_length, Nat.eqb_refl, orb_true_r. cbn [bind].
  unfold set_idx. cbn [sc_Cs sc_vars sc_q]. unfold len_ok. rewrite !map_length, seq_length, Nat.eqb_refl, orb_true_r. cbn [bind].
  eexists. split; [reflexivity|]. split; [|split; [|split]].
  - rewrite keys_dset; [auto|]. rewrite K. apply dfind_keys. exists Ms. exact EMs.
  - rewrite dfind_dset_eq. reflexivity.
  - intros v Hv. rewrite dfind_dset_neq; [auto|]. intros X. apply Hsys. rewrite <- X. apply in_map. auto.
  - intros k Hk1 Hk2. rewrite dfind_dset_neq by auto. apply O; auto.
Qed.
End Store.

Lemma mapM_Ok {A} (l : list A) : mapM (fun d : res A => d) (map Ok l) = Ok l.
Proof. induction l as [|a l IH]; cbn; [auto|]. rewrite IH. auto. Qed.

Lemma with_probs_ok varis probs xs : wf_varis varis -> wf_probs varis probs -> (forall x, In x xs -> In x (sp varis)) ->
  map (with_probs probs) (map Ok xs) = map Ok xs.
Proof.
  intros Hw Hp H. rewrite map_map. apply map_ext_in. intros x Hx. unfold with_probs. cbn [bind].
  rewrite (sample_probs_ok varis probs Hw Hp x (H x Hx)). auto.
Qed.

Lemma using_cpms_ok varis probs brs (sys_fun : sysfun) cov_t cpms sys v0 vs xs e :
  wf_varis varis -> wf_probs varis probs -> (forall x, In x xs -> In x (sp varis)) ->
  cpms_fit varis probs cpms sys v0 vs ->
  mcs_unknown_simple brs sys_fun cov_t (map Ok xs) = Ok (Some e) ->
  let samples := firstn (Z.to_nat (e_nsamp e)) xs in
  exists cpms', mcs_unknown_using_cpms brs probs sys_fun cpms sys cov_t (map Ok xs) = Ok (Some (cpms', e)) /\
    keys cpms' = keys cpms /\
    dfind cpms' sys = Some (sys_cpm samples sys_fun v0 vs) /\
    (forall v, In v vs -> dfind cpms' (v_name v) = Some (comp_cpm probs samples v)) /\
    (forall k, k <> sys -> ~ In k (map v_name vs) -> dfind cpms' k = dfind cpms k).
Proof.
  intros Hw Hp Hx Hf H samples. unfold mcs_unknown_using_cpms. rewrite (with_probs_ok varis) by auto. rewrite H. cbn [bind].
  rewrite firstn_map, mapM_Ok. cbn [bind]. fold samples.
  assert (Hs : forall x, In x samples -> In x (sp varis)).
  { intros x Hi. apply Hx. unfold samples in Hi. rewrite <- (firstn_skipn (Z.to_nat (e_nsamp e)) xs). apply in_or_app. auto. }
  rewrite (mapM_ok (sample_probs probs) (x_probs probs) samples).
  2:{ intros x Hi. apply (sample_probs_ok varis); auto. }
  cbn [bind]. destruct (store_ok varis probs Hw samples Hs sys_fun cpms sys v0 vs Hf) as (cpms' & E & R).
  rewrite E. cbn [bind]. exists cpms'. split; [auto|exact R].
Qed.

(** the factors stored for a sample multiply to its probability *)
Lemma q_product varis probs vs x : NoDup (keys varis) -> NoDup (map v_name vs) -> Permutation (map v_name vs) (keys varis) -> In x (sp varis) ->
  qprod (map (fun v => pr probs (v_name v) (coord x (v_name v))) vs) = prob_of probs x.
Proof.
  intros Hk Hn P Hx. unfold prob_of.
  assert (Ex : map (fun kv : string * Z => pr probs (fst kv) (snd kv)) x = map (fun k => pr probs k (coord x k)) (keys x)).
  { unfold keys. rewrite map_map. apply map_ext_in. intros [k z] Hin. cbn [fst snd]. rewrite (coord_In x k z); auto.
    rewrite (sp_keys varis x Hx). auto. }
  rewrite Ex, (sp_keys varis x Hx).
  rewrite <- (qprod_perm _ _ (Permutation_map (fun k => pr probs k (coord x k)) P)), map_map. auto.
Qed.
