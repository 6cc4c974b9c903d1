(** Probabilities of boxes and of events for the search of brc.py. *)
From Coq Require Import ZArith List String Bool Arith Lia Permutation QArith Qcanon.
From Verif Require Import Py Num Vari VariFacts PyFacts Brc SpecBrc BrcFacts.
Import ListNotations.
Open Scope Z_scope.
Open Scope list_scope.

Lemma filter_zrange lo hi n :
  0 <= lo -> lo <= hi -> hi < n ->
  filter (fun v => (lo <=? v) && (v <=? hi)) (zrange 0 n) = zrange lo (hi + 1).
Proof.
  intros H1 H2 H3. rewrite (zrange_app 0 lo n), (zrange_app lo (hi + 1) n) by lia.
  rewrite !filter_app.
  assert (E : forall l, (forall v, In v l -> (lo <=? v) && (v <=? hi) = false) ->
    filter (fun v => (lo <=? v) && (v <=? hi)) l = []).
  { induction l; cbn; intros H; auto. rewrite (H a) by auto. apply IHl. auto. }
  rewrite (E (zrange 0 lo)), (E (zrange (hi + 1) n)).
  - cbn. rewrite app_nil_r.
    assert (E' : forall l, (forall v, In v l -> (lo <=? v) && (v <=? hi) = true) ->
      filter (fun v => (lo <=? v) && (v <=? hi)) l = l).
    { induction l; cbn; intros H; auto. rewrite (H a) by auto. f_equal. apply IHl. auto. }
    apply E'. intros v Hv. apply In_zrange in Hv. lia.
  - intros v Hv. apply In_zrange in Hv. lia.
  - intros v Hv. apply In_zrange in Hv. lia.
Qed.

Lemma filter_flat_map {A B} (f : B -> bool) (g : A -> list B) l :
  filter f (flat_map g l) = flat_map (fun a => filter f (g a)) l.
Proof. induction l; cbn; auto. rewrite filter_app, IHl. auto. Qed.

Lemma filter_map {A B} (f : B -> bool) (g : A -> B) l :
  filter f (map g l) = map g (filter (fun a => f (g a)) l).
Proof. induction l; cbn; auto. destruct (f (g a)); cbn; rewrite IHl; auto. Qed.

Lemma filter_ext_in' {A} (f g : A -> bool) l :
  (forall a, In a l -> f a = g a) -> filter f l = filter g l.
Proof. intros H. apply filter_ext_in. auto. Qed.

Definition in_box (d u x : dict Z) : bool :=
  forallb (fun kv => (coord d (fst kv) <=? snd kv) && (snd kv <=? coord u (fst kv))) x.

Lemma in_box_tail k a b d u x :
  ~ In k (keys x) -> in_box ((k, a) :: d) ((k, b) :: u) x = in_box d u x.
Proof.
  intros Hk. unfold in_box. apply forallb_ext_in.
  intros [k' v] Hin. cbn. rewrite !coord_cons.
  destruct (String.eqb_spec k' k) as [->|]; auto.
  exfalso. apply Hk. eapply In_keys; eauto.
Qed.

Lemma box_prob_gen (P : string -> Z -> Qc) cs : NoDup (keys cs) ->
  forall d u, In d (space cs) -> In u (space cs) ->
  (forall k, In k (keys cs) -> coord d k <= coord u k) ->
  qsum (map (fun x => qprod (map (fun kv => P (fst kv) (snd kv)) x)) (filter (in_box d u) (space cs)))
  = qprod (map (fun kv => qsum (map (P (fst kv)) (zrange (snd kv) (coord u (fst kv) + 1)))) d).
Proof.
  induction cs as [|[k n] cs IH]; intros Hd d u Hdin Huin Hle.
  - apply space_spec in Hdin, Huin. inversion Hdin; inversion Huin; subst. cbn. ring.
  - inversion_clear Hd as [|? ? Hn Hd'].
    apply space_spec in Hdin, Huin.
    inversion Hdin as [|[k1 a] ? d' ? [E1 B1] F1]; subst. inversion Huin as [|[k2 b] ? u' ? [E2 B2] F2]; subst.
    cbn in E1, E2, B1, B2. subst k1 k2.
    apply space_spec in F1, F2.
    assert (Hab : a <= b).
    { specialize (Hle k (or_introl eq_refl)). rewrite !coord_cons, String.eqb_refl in Hle. auto. }
    cbn [space]. rewrite filter_flat_map, qsum_flat_map.
    set (R := qsum (map (fun x => qprod (map (fun kv => P (fst kv) (snd kv)) x)) (filter (in_box d' u') (space cs)))).
    rewrite (qsum_map_ext _ (fun v => if (a <=? v) && (v <=? b) then (P k v * R)%Qc else 0%Qc)).
    + rewrite <- qsum_filter, filter_zrange by lia.
      rewrite qsum_map_scale_r. cbn [map fst snd qprod]. rewrite coord_cons, String.eqb_refl.
      f_equal. unfold R. rewrite IH; auto.
      * f_equal. apply map_ext_in. intros [k' v] Hin. cbn. rewrite coord_cons.
        destruct (String.eqb_spec k' k) as [->|]; auto. exfalso. apply Hn.
        rewrite <- (space_keys _ _ F1). eapply In_keys; eauto.
      * intros k' Hk'. specialize (Hle k' (or_intror Hk')). rewrite !coord_cons in Hle.
        destruct (String.eqb_spec k' k) as [E|]; auto. exfalso. apply Hn. rewrite <- E. auto.
    + intros v Hv. apply In_zrange in Hv. rewrite filter_map, map_map.
      rewrite (filter_ext_in' _ (fun y => ((a <=? v) && (v <=? b)) && in_box d' u' y)).
      2:{ intros y Hy. unfold in_box at 1. cbn [forallb fst snd]. rewrite !coord_cons, String.eqb_refl.
          f_equal. apply (in_box_tail k a b d' u' y). rewrite (space_keys _ _ Hy). auto. }
      destruct ((a <=? v) && (v <=? b)); cbn [andb].
      * unfold R. rewrite <- qsum_map_scale. f_equal.
      * assert (filter (fun _ : dict Z => false) (space cs) = []) as ->; [|auto].
        generalize (space cs). induction l; auto.
Qed.

Lemma fold_left_qprod {A} (f : A -> Qc) l : forall a,
  fold_left (fun p x => (p * f x)%Qc) l a = (a * qprod (map f l))%Qc.
Proof. induction l; intros; cbn; [ring|]. rewrite IHl. ring. Qed.

Section Prob.
Context (varis : dict variable) (probs : prob_dict) (Hw : wf_varis varis) (Hp : wf_probs varis probs).

Lemma pget_pr k v x : In (k, v) varis -> 0 <= x < nvals v ->
  (d <- dget probs k ;; pget d x) = Ok (pr probs k x) /\ (0 <= pr probs k x)%Qc.
Proof.
  intros Hin Hx. destruct (Hp k v Hin) as [(d & Hd & H) _]. destruct (H x Hx) as (q & Hq & Hq0).
  unfold dget, pr. rewrite Hd. cbn. rewrite Hq. auto.
Qed.

Lemma sum_range_ok k v a b : In (k, v) varis -> 0 <= a -> b <= nvals v ->
  sum_range probs k a b = Ok (qsum (map (pr probs k) (zrange a b))).
Proof.
  intros Hin Ha Hb. unfold sum_range.
  rewrite (mapM_ok _ (pr probs k)); [auto|].
  intros x Hx. apply In_zrange in Hx. apply (pget_pr k v); auto. lia.
Qed.

Lemma prob_of_nonneg x : In x (sp varis) -> (0 <= prob_of probs x)%Qc.
Proof.
  intros Hx. unfold prob_of. apply qprod_nonneg. intros q Hq. apply in_map_iff in Hq as ([k y] & <- & Hin).
  cbn. assert (Hk : In k (keys varis)) by (rewrite <- (sp_keys varis x Hx); eapply In_keys; eauto).
  destruct (varis_find varis k Hk) as (v & Hv & _).
  rewrite <- (coord_In x k y); auto; [|apply (sp_nodup varis Hw); auto].
  apply (pget_pr k v); auto. apply (sp_coord varis Hw); auto.
Qed.

Lemma prob_event_box b : wf_br varis b ->
  prob_event varis probs (in_branch b) =
  qprod (map (fun kv => qsum (map (pr probs (fst kv)) (zrange (snd kv) (coord (b_up b) (fst kv) + 1)))) (b_down b)).
Proof.
  intros (H1 & H2 & H3). unfold prob_event, prob_of.
  change (in_branch b) with (in_box (b_down b) (b_up b)).
  apply (box_prob_gen (pr probs)); auto.
  - rewrite keys_comps_of. apply Hw.
  - intros k Hk. rewrite keys_comps_of in Hk. apply H3; auto.
Qed.

Lemma approx_prob_ok b : wf_br varis b ->
  approx_prob_by_comps (b_down b) (b_up b) probs = Ok (prob_event varis probs (in_branch b)).
Proof.
  intros Hb. rewrite prob_event_box by auto. destruct Hb as (H1 & H2 & H3).
  unfold approx_prob_by_comps.
  rewrite (foldM_ok _ (fun p kv => (p * qsum (map (pr probs (fst kv)) (zrange (snd kv) (coord (b_up b) (fst kv) + 1))))%Qc)).
  - rewrite fold_left_qprod. f_equal. ring.
  - intros p [k y] Hin. cbn.
    assert (Hk : In k (keys varis)) by (rewrite <- (sp_keys varis _ H1); eapply In_keys; eauto).
    rewrite dget_coord by (rewrite (sp_keys varis _ H2); auto). cbn.
    destruct (varis_find varis k Hk) as (v & Hv & _).
    assert (B1 := sp_coord varis Hw _ k v H1 Hv). assert (B2 := sp_coord varis Hw _ k v H2 Hv).
    rewrite (coord_In (b_down b) k y) in B1; auto; [|apply (sp_nodup varis Hw); auto].
    rewrite (sum_range_ok k v) by (auto; lia). auto.
Qed.

(** total probability *)
Lemma prob_total : prob_event varis probs (fun _ => true) = 1%Qc.
Proof.
  unfold prob_event, prob_of.
  assert (G : forall vs, (forall k v, In (k, v) vs -> qsum (map (pr probs k) (zrange 0 (nvals v))) = 1%Qc) ->
    qsum (map (fun x => qprod (map (fun kv => pr probs (fst kv) (snd kv)) x)) (space (comps_of vs))) = 1%Qc).
  { induction vs as [|[k v] vs IH]; intros H; cbn; [ring|].
    rewrite qsum_flat_map.
    rewrite (qsum_map_ext _ (fun x => (pr probs k x * 1)%Qc)).
    - rewrite qsum_map_scale_r, (H k v) by (left; auto). ring.
    - intros x _. rewrite map_map. cbn [map qprod fst snd]. rewrite qsum_map_scale.
      f_equal. apply IH. intros. apply H. right; auto. }
  assert (filter (fun _ : dict Z => true) (sp varis) = sp varis) as ->.
  { generalize (sp varis). induction l; cbn; congruence. }
  apply G. intros k v Hin. apply (Hp k v Hin).
Qed.

Lemma prob_event_ext E E' :
  (forall x, In x (sp varis) -> E x = E' x) -> prob_event varis probs E = prob_event varis probs E'.
Proof. intros H. unfold prob_event. rewrite (filter_ext_in' E E'); auto. Qed.

Lemma prob_event_nonneg E : (0 <= prob_event varis probs E)%Qc.
Proof.
  unfold prob_event. apply qsum_nonneg. intros q Hq. apply in_map_iff in Hq as (x & <- & Hx).
  apply filter_In in Hx as [Hx _]. apply prob_of_nonneg. auto.
Qed.

Lemma prob_event_mono E E' :
  (forall x, In x (sp varis) -> E x = true -> E' x = true) ->
  (prob_event varis probs E <= prob_event varis probs E')%Qc.
Proof.
  intros H. unfold prob_event. rewrite !qsum_filter. apply qsum_map_le. intros x Hx.
  destruct (E x) eqn:E1.
  - rewrite (H x Hx E1). qc_lra.
  - assert (0 <= prob_of probs x)%Qc by (apply prob_of_nonneg; auto). destruct (E' x); qc_lra.
Qed.

Lemma prob_event_compl E :
  (prob_event varis probs E + prob_event varis probs (fun x => negb (E x)) = 1)%Qc.
Proof.
  rewrite <- prob_total. unfold prob_event. rewrite <- qsum_split.
  f_equal. f_equal. generalize (sp varis). induction l; cbn; congruence.
Qed.

(** sum of the exact probabilities of a list of branches *)
Lemma qsum_boxes (bs : list branch) :
  qsum (map (fun b => prob_event varis probs (in_branch b)) bs) =
  qsum (map (fun x => (prob_of probs x * qz (Z.of_nat (List.length (filter (fun b => in_branch b x) bs))))%Qc) (sp varis)).
Proof.
  unfold prob_event.
  rewrite (qsum_map_ext _ (fun b => qsum (map (fun x => if in_branch b x then prob_of probs x else 0%Qc) (sp varis))))
    by (intros; apply qsum_filter).
  rewrite qsum_swap. apply qsum_map_ext. intros x _.
  induction bs as [|b bs IH]; cbn.
  - unfold qz. change (Q2Qc (inject_Z 0)) with 0%Qc. ring.
  - rewrite IH. destruct (in_branch b x); cbn [List.length].
    + assert (E : forall n, qz (Z.of_nat (S n)) = (1 + qz (Z.of_nat n))%Qc).
      { intros n. rewrite Nat2Z.inj_succ. unfold qz. apply Qc_is_canon. rewrite qc_this_plus.
        unfold Q2Qc; cbn [this]. rewrite !Qred_correct. unfold Z.succ. rewrite inject_Z_plus. ring. }
      rewrite E. ring.
    + ring.
Qed.

(** disjoint boxes inside / covering an event *)
Lemma qsum_disjoint_event (bs : list branch) (E : dict Z -> bool) :
  exact_probs varis probs bs ->
  (forall x, In x (sp varis) -> E x = true -> List.length (filter (fun b => in_branch b x) bs) = 1%nat) ->
  (forall x, In x (sp varis) -> E x = false -> List.length (filter (fun b => in_branch b x) bs) = O) ->
  qsum (map b_p bs) = prob_event varis probs E.
Proof.
  intros He H1 H0. rewrite (qsum_map_ext b_p (fun b => prob_event varis probs (in_branch b))) by auto.
  rewrite qsum_boxes. unfold prob_event. rewrite qsum_filter. apply qsum_map_ext. intros x Hx.
  destruct (E x) eqn:Ex.
  - rewrite (H1 x Hx Ex). change (qz (Z.of_nat 1)) with 1%Qc. ring.
  - rewrite (H0 x Hx Ex). change (qz (Z.of_nat 0)) with 0%Qc. ring.
Qed.

End Prob.
