(** Basic columns through conditioning, product and sum; variable elimination. *)
From Coq Require Import ZArith List String Bool Arith Lia QArith Qcanon Permutation Sorted.
From Verif Require Import Py Num Vari Cpm SpecCpm PyFacts VariFacts CpmFacts CpmCond CpmProd CpmList CpmSum CpmMarg.
Import ListNotations.
Open Scope string_scope.
Open Scope Z_scope.
Open Scope list_scope.

Lemma In_combine_at vars row v c : NoDup (names vars) -> List.length row = List.length vars ->
  (In (v, c) (combine vars row) <-> In v vars /\ c = at_ row (pos vars v)).
Proof.
  intros Hn Hl. rewrite combine_pos by auto. rewrite in_map_iff. split.
  - intros (w & E & H). injection E as -> <-. auto.
  - intros [H ->]. eauto.
Qed.

(** ** basic columns *)
Lemma basic_condition M vs codes M' v : wf_cpm M -> ev_ok (c_vars M) vs codes -> basic_in M v ->
  condition M (Vars vs) (map SI codes) = Ok M' -> basic_in M' v.
Proof.
  intros W E Hb H. rewrite condition_spec in H by auto. injection H as <-. intros row c Hrow Hin. cbn [c_C c_vars] in *.
  apply in_map_iff in Hrow as (r & <- & Hr). apply filter_In in Hr as [Hr Hc].
  pose proof W as (W1 & W2 & W3 & W4 & W5).
  destruct (proj1 (cond_row_match (c_vars M) vs codes W1 W2 E r (fun _ => 0) (W4 r Hr)) Hc) as [R _].
  assert (Lr : List.length r = List.length (c_vars M)) by (specialize (W4 r Hr); apply Forall2_length in W4; auto).
  assert (Lc : List.length (cond_row (c_vars M) vs codes r) = List.length (c_vars M)) by (apply Forall2_length in R; auto).
  apply In_combine_at in Hin as [Hv ->]; auto.
  assert (Hp := pos_In (c_vars M) v W1 Hv).
  destruct (Hb r (at_ r (pos (c_vars M) v)) Hr) as (s & Hs & Hx); [apply In_combine_at; auto|].
  destruct (cond_row_at (c_vars M) vs codes W1 E r (pos (c_vars M) v) v Lr Hp) as [(t & Ht & ->)|[_ ->]]; [|eauto].
  exists s. split; auto. destruct (td_var (c_vars M) vs codes W1 E v t _ Ht) as (_ & _ & Ht' & _).
  assert (Hm : meets (states_of v t) (states_of v (at_ r (pos (c_vars M) v))) = true).
  { unfold cmp, cmp_td in Hc. rewrite forallb_forall in Hc. apply (Hc (v, t, pos (c_vars M) v) Ht). }
  rewrite Forall_forall in W2.
  destruct (new_code_spec v (at_ r (pos (c_vars M) v)) t) as [_ N]; auto.
  { apply (Forall2_at (c_vars M) r); auto. }
  intros x. rewrite N, Hx. apply meets_spec in Hm as (y & Y1 & Y2). apply Hx in Y2. subst y. split; [tauto|]. intros ->. auto.
Qed.

Lemma prod_row_pairs M1 M2 r1 r2 v c : wf_cpm M1 -> wf_cpm M2 -> agree (c_vars M1) (c_vars M2) -> common_child M1 M2 = false ->
  List.length r1 = List.length (c_vars M1) -> List.length r2 = List.length (c_vars M2) ->
  In (v, c) (combine (n_vars M1 M2) (prod_row M1 M2 r1 r2)) ->
  In (v, c) (combine (c_vars M2) r2) \/ (In (v, c) (combine (c_vars M1) r1) /\ ncom_of M2 v = true).
Proof.
  intros W1 W2 Ha Hcc L1 L2 H.
  assert (N := p_vars_nodup M1 M2 W1 W2).
  assert (I : incl (n_vars M1 M2) (p_vars M1 M2)) by (intros w Hw; apply (p_vars_In M1 M2 Ha), (n_vars_In M1 M2 W1 W2 Ha); auto).
  assert (Lp : List.length (r2 ++ rest_codes M1 M2 r1) = List.length (p_vars M1 M2)).
  { unfold p_vars. rewrite !app_length, L2. f_equal. unfold rest_codes. rewrite <- (select_map_id (ncom_of M2)). apply select_length. auto. }
  assert (X : In (v, c) (combine (p_vars M1 M2) (r2 ++ rest_codes M1 M2 r1))).
  { apply In_combine_at; auto. unfold prod_row, cols, idx2 in H. rewrite somes_ismember in H by auto. rewrite map_map in H.
    assert (G : forall l, incl l (p_vars M1 M2) -> In (v, c) (combine l (map (fun x => at_ (r2 ++ rest_codes M1 M2 r1) (pos (p_vars M1 M2) x)) l)) ->
       In v (p_vars M1 M2) /\ c = at_ (r2 ++ rest_codes M1 M2 r1) (pos (p_vars M1 M2) v)).
    { induction l as [|w l IH]; intros Il Hl; [destruct Hl|]. cbn in Hl. destruct Hl as [E|Hl].
      - injection E as -> <-. split; auto. apply Il. left; auto.
      - apply IH; auto. intros y Hy. apply Il. right; auto. }
    apply (G (n_vars M1 M2)); auto. }
  unfold p_vars in X. rewrite combine_app_eq in X by auto. apply in_app_or in X as [X|X]; auto. right.
  assert (Nc : ncom_of M2 v = true) by (apply in_combine_l in X; apply filter_In in X; tauto). split; auto.
  rewrite <- (select_map_id (ncom_of M2)) in X. unfold rest_codes in X. rewrite select_combine_eq in X by auto.
  eapply select_In; eauto.
Qed.

Lemma cond_row_code M vs codes M' v row c : wf_cpm M -> ev_ok (c_vars M) vs codes ->
  condition M (Vars vs) (map SI codes) = Ok M' -> In row (c_C M') -> In (v, c) (combine (c_vars M) row) ->
  In v vs -> exists r s, In r (c_C M) /\ In (v, s) (combine vs codes) /\ (forall x, In x (states_of v c) <-> In x (states_of v (at_ r (pos (c_vars M) v))) /\ In x (states_of v s)) /\
    exists x, In x (states_of v c).
Proof.
  intros W E H Hrow Hin Hvs. rewrite condition_spec in H by auto. injection H as <-. cbn [c_C c_vars] in *.
  apply in_map_iff in Hrow as (r & <- & Hr). apply filter_In in Hr as [Hr Hc].
  pose proof W as (W1 & W2 & W3 & W4 & W5).
  destruct (proj1 (cond_row_match (c_vars M) vs codes W1 W2 E r (fun _ => 0) (W4 r Hr)) Hc) as [R _].
  assert (Lr : List.length r = List.length (c_vars M)) by (specialize (W4 r Hr); apply Forall2_length in W4; auto).
  assert (Lc : List.length (cond_row (c_vars M) vs codes r) = List.length (c_vars M)) by (apply Forall2_length in R; auto).
  apply In_combine_at in Hin as [Hv ->]; auto.
  assert (Hp := pos_In (c_vars M) v W1 Hv).
  destruct (cond_row_at (c_vars M) vs codes W1 E r (pos (c_vars M) v) v Lr Hp) as [(t & Ht & Ec)|[Ex _]].
  2:{ exfalso. rewrite <- not_true_iff_false in Ex. apply Ex. apply existsb_v_In. eauto. }
  exists r, t. destruct (td_var (c_vars M) vs codes W1 E v t _ Ht) as (_ & _ & Ht' & _).
  assert (Hm : meets (states_of v t) (states_of v (at_ r (pos (c_vars M) v))) = true).
  { unfold cmp, cmp_td in Hc. rewrite forallb_forall in Hc. apply (Hc (v, t, pos (c_vars M) v) Ht). }
  rewrite Forall_forall in W2. rewrite Ec.
  destruct (new_code_spec v (at_ r (pos (c_vars M) v)) t) as [_ N]; auto.
  { apply (Forall2_at (c_vars M) r); auto. }
  split; auto. split; [apply todo_In in Ht; tauto|]. split; auto.
  apply meets_spec in Hm as (y & Y1 & Y2). exists y. apply N. auto.
Qed.

Lemma basic_prod_result M1 M2 v : wf_cpm M1 -> wf_cpm M2 -> agree (c_vars M1) (c_vars M2) -> common_child M1 M2 = false ->
  (In v (c_vars M1) /\ basic_in M1 v) \/ (In v (c_vars M2) /\ basic_in M2 v) -> basic_in (prod_result M1 M2) v.
Proof.
  intros W1 W2 Ha Hcc HB row c Hrow Hin. cbn [prod_result c_C c_vars] in *.
  apply (Permutation_in _ (prod_sorted_fst M1 M2 W1 W2 Ha)) in Hrow.
  unfold prod_rows in Hrow. apply in_concat in Hrow as (l & Hl & Hrow). apply in_map_iff in Hl as (r1 & <- & Hr1).
  cbn [parts_of fst] in Hrow. apply in_map_iff in Hrow as (r2 & <- & Hr2).
  destruct (Mc_spec M1 M2 W1 W2 Ha r1 Hr1) as (E & Wc & V & _).
  assert (L1 := proj1 (wf_rows M1 r1 W1 Hr1)).
  apply prod_row_pairs in Hin; auto; [|rewrite <- V; apply (wf_rows _ r2 Wc Hr2)].
  destruct HB as [[Hv B1]|[Hv B2]].
  - destruct Hin as [Hin|[Hin _]]; [|eapply B1; eauto].
    assert (Hv2 : In v (c_vars M2)) by (eapply in_combine_l; eauto).
    assert (Hcv : In v (com_vars M1 M2)).
    { unfold com_vars. apply filter_In. split; auto. apply existsb_v_In. eauto. }
    destruct (cond_row_code (M2w M2) (com_vars M1 M2) (com_codes M1 M2 r1) (Mc M1 M2 r1) v r2 c) as (r & s & Hr & Hs & Hx & (x & Hx0)); auto.
    { apply M2w_wf; auto. }
    { apply (com_ev_ok M1 M2); auto. }
    apply com_pairs in Hs; auto. destruct (B1 r1 s Hr1 Hs) as (t & Ht & Hst).
    exists t. split; auto. intros y. rewrite Hx, Hst. apply Hx in Hx0 as [X1 X2]. apply Hst in X2. subst x. split; [tauto|]. intros ->. auto.
  - destruct Hin as [Hin|[_ Hn]].
    + assert (Bc : basic_in (Mc M1 M2 r1) v).
      { eapply basic_condition; [| | |exact E]; [apply M2w_wf; auto|apply (com_ev_ok M1 M2); auto|exact B2]. }
      apply (Bc r2); auto. rewrite V. auto.
    + exfalso. unfold ncom_of, com_of in Hn. apply negb_true_iff in Hn. rewrite <- not_true_iff_false in Hn. apply Hn. apply existsb_v_In. eauto.
Qed.

Lemma basic_product M1 M2 M v : wf_cpm M1 -> wf_cpm M2 -> agree (c_vars M1) (c_vars M2) -> disjoint_children M1 M2 ->
  product M1 M2 = Ok M -> (In v (c_vars M1) /\ basic_in M1 v) \/ (In v (c_vars M2) /\ basic_in M2 v) -> basic_in M v.
Proof.
  intros W1 W2 Ha Hd H HB. unfold product in H. destruct (ncols M2 <? ncols M1)%nat.
  - assert (Hcc : common_child M2 M1 = false) by (apply common_child_spec, disj_sym; auto).
    destruct (product_ord_inv M2 M1 Hcc M H) as (I1 & I2 & I3).
    rewrite (product_ord_spec M2 M1 W2 W1 (agree_sym _ _ Ha) Hcc I1 I2 I3) in H. injection H as <-.
    apply basic_prod_result; auto using agree_sym. tauto.
  - assert (Hcc : common_child M1 M2 = false) by (apply common_child_spec; auto).
    destruct (product_ord_inv M1 M2 Hcc M H) as (I1 & I2 & I3).
    rewrite (product_ord_spec M1 M2 W1 W2 Ha Hcc I1 I2 I3) in H. injection H as <-.
    apply basic_prod_result; auto.
Qed.

Lemma has_p_or M : has_p M -> c_p M <> [] \/ c_C M = [].
Proof. unfold has_p. intros H. destruct (c_C M), (c_p M); try discriminate; auto. left. discriminate. Qed.

Lemma product_has_p M1 M2 M : wf_cpm M1 -> wf_cpm M2 -> agree (c_vars M1) (c_vars M2) -> disjoint_children M1 M2 ->
  product M1 M2 = Ok M -> has_p M.
Proof.
  intros W1 W2 Ha Hd H. unfold product in H. destruct (ncols M2 <? ncols M1)%nat.
  - assert (Hcc : common_child M2 M1 = false) by (apply common_child_spec, disj_sym; auto).
    destruct (product_ord_inv M2 M1 Hcc M H) as (I1 & I2 & I3).
    rewrite (product_ord_spec M2 M1 W2 W1 (agree_sym _ _ Ha) Hcc I1 I2 I3) in H. injection H as <-.
    unfold has_p. cbn. rewrite !map_length. auto.
  - assert (Hcc : common_child M1 M2 = false) by (apply common_child_spec; auto).
    destruct (product_ord_inv M1 M2 Hcc M H) as (I1 & I2 & I3).
    rewrite (product_ord_spec M1 M2 W1 W2 Ha Hcc I1 I2 I3) in H. injection H as <-.
    unfold has_p. cbn. rewrite !map_length. auto.
Qed.

Lemma product_fold_keep l v : forall M0, wf_cpm M0 -> (forall M', In M' l -> fit M0 M') -> fit_list l ->
  forall M, foldM product l M0 = Ok M -> (has_p M0 -> has_p M) /\
    ((exists M', In M' (M0 :: l) /\ In v (c_vars M') /\ basic_in M' v) -> basic_in M v).
Proof.
  induction l as [|M1 l IH]; intros M0 W0 HF [HW HP] M H; cbn [foldM] in H.
  - injection H as <-. split; auto. intros (M' & [<-|[]] & _ & B). auto.
  - destruct (product M0 M1) as [M01|] eqn:E; cbn [bind] in H; [|congruence].
    inversion HW as [|? ? W1 HW']; subst. destruct HP as [HP1 HP2].
    destruct (HF M1 (or_introl eq_refl)) as [F1 F2].
    assert (P := product_ok M0 M1 M01 W0 W1 F1 F2 E).
    assert (G : forall M', In M' l -> fit M01 M').
    { intros M' HM. eapply fit_product; [| |eauto]; [apply HF; right; auto|apply HP1; auto]. }
    destruct (IH M01 (proj1 P) G (conj HW' HP2) M H) as (I1 & I2). split.
    + intros _. apply I1. apply (product_has_p M0 M1 M01); auto.
    + intros (M' & HM & Hv & Hb). destruct P as (_ & _ & Pv & _).
      assert (K : (In v (c_vars M0) /\ basic_in M0 v) \/ (In v (c_vars M1) /\ basic_in M1 v) -> basic_in M v).
      { intros K. apply I2. exists M01. split; [left; auto|]. split; [apply Pv; tauto|]. apply (basic_product M0 M1 M01 v); auto. }
      destruct HM as [<-|[<-|HM]]; [apply K; auto|apply K; auto|]. apply I2. exists M'. split; [right; auto|auto].
Qed.

Lemma product_list_keep l M v : fit_list l -> product_list l = Ok M ->
  (Forall has_p l -> has_p M) /\ ((exists M', In M' l /\ In v (c_vars M') /\ basic_in M' v) -> basic_in M v).
Proof.
  destruct l as [|M0 l]; cbn [product_list]; [congruence|]. intros [HW [HP1 HP2]] H.
  inversion HW as [|? ? W0 HW']; subst.
  destruct (product_fold_keep l v M0 W0 HP1 (conj HW' HP2) M H) as [K1 K2]. split.
  - intros F. inversion F; subst. auto.
  - exact K2.
Qed.

Lemma sum_keep M vs flag Ms v : wf_cpm M -> (flag = false -> NoDup (names vs)) -> kept M vs flag <> [] ->
  sum M (Vars vs) flag = Ok Ms -> (has_p M -> has_p Ms) /\ (basic_in M v -> basic_in Ms v).
Proof.
  intros W Hf Hk E. destruct (sum_spec M vs flag W Hf Hk) as (Ms' & E' & W' & V & _ & _ & _ & I & P0 & P1 & _).
  assert (Ms' = Ms) by congruence. subst Ms'. split.
  - intros Hp. unfold has_p in *. destruct W' as (_ & _ & _ & _ & [X|X]); [|auto].
    destruct (c_C Ms) as [|r C] eqn:EC; [rewrite X; auto|]. exfalso.
    destruct (proj1 (I r) (or_introl eq_refl)) as (row & Hrow & _).
    apply P1; auto; intros Y; rewrite Y in *; [destruct (c_C M); [destruct Hrow|discriminate]|destruct Hrow].
  - intros Hb row c Hrow Hin. apply I in Hrow as (r & Hr & ->). rewrite V in Hin.
    apply (Hb r c Hr). apply In_combine_at; [apply W|apply (wf_rows M r W Hr)|].
    unfold proj in Hin. assert (G : forall l, incl l (c_vars M) -> In (v, c) (combine l (map (fun v => at_ r (pos (c_vars M) v)) l)) ->
       In v (c_vars M) /\ c = at_ r (pos (c_vars M) v)).
    { induction l as [|w l IH]; intros Il Hl; [destruct Hl|]. cbn in Hl. destruct Hl as [X|Hl].
      - injection X as -> <-. split; auto. apply Il. left; auto.
      - apply IH; auto. intros y Hy. apply Il. right; auto. }
    apply (G (kept M vs flag)); auto. intros w. apply kept_incl.
Qed.

(** ** algebra of marginals *)
Definition same_joint (a b : joint) : Prop := forall n, a n = b n.
Definition ext (f : joint -> Qc) : Prop := forall a b, same_joint a b -> f a = f b.

Lemma row_match_ext vs row a b : (forall v, In v vs -> a (v_name v) = b (v_name v)) -> row_match vs row a = row_match vs row b.
Proof.
  intros H. unfold row_match. apply forallb_ext_in. intros [v c] Hin. cbn [fst snd]. rewrite H; auto. eapply in_combine_l; eauto.
Qed.
Lemma mass_ext M a b : (forall v, In v (c_vars M) -> a (v_name v) = b (v_name v)) -> mass M a = mass M b.
Proof. intros H. unfold mass. do 2 f_equal. apply filter_ext. intros rp. apply row_match_ext. auto. Qed.

Lemma set_joint_ext a b v x : same_joint a b -> same_joint (set_joint a v x) (set_joint b v x).
Proof. intros H n. unfold set_joint. destruct (String.eqb n (v_name v)); auto. Qed.
Lemma marg_ext_a l f : ext f -> ext (marg l f).
Proof.
  intros H. induction l as [|v l IH]; auto. intros a b E. cbn. f_equal. apply map_ext. intros x. apply IH. apply set_joint_ext; auto.
Qed.
Lemma marg_app l1 l2 f a : marg (l1 ++ l2) f a = marg l1 (marg l2 f) a.
Proof. revert a. induction l1 as [|v l1 IH]; intros a; cbn; auto. f_equal. apply map_ext. intros x. apply IH. Qed.

Lemma marg_swap v w l f a : ext f -> v_name v <> v_name w -> marg (v :: w :: l) f a = marg (w :: v :: l) f a.
Proof.
  intros H Hne. cbn [marg]. rewrite qsum_swap. f_equal. apply map_ext. intros y. f_equal. apply map_ext. intros x.
  apply marg_ext_a; auto. intros n. unfold set_joint. destruct (String.eqb_spec n (v_name v)), (String.eqb_spec n (v_name w)); congruence.
Qed.
Lemma marg_perm l l' f a : ext f -> Permutation l l' -> NoDup (names l) -> marg l f a = marg l' f a.
Proof.
  intros He P. revert a. induction P; intros a N; cbn [marg]; auto.
  - f_equal. apply map_ext. intros y. apply IHP. inversion N; auto.
  - apply (marg_swap y x l f a He). inversion N as [|? ? N1 N2]; subst. intros E. apply N1. left. auto.
  - rewrite IHP1 by auto. apply IHP2. eapply Permutation_NoDup; [apply Permutation_map; eauto|auto].
Qed.

(** a factor that does not mention the variable can be taken out *)
Definition ignores (v : variable) (g : joint -> Qc) : Prop := forall a x, g (set_joint a v x) = g a.
Lemma marg_factor v f g a : ignores v g -> marg [v] (fun b => (f b * g b)%Qc) a = (marg [v] f a * g a)%Qc.
Proof.
  intros H. cbn [marg]. rewrite <- qsum_map_scale_r. f_equal. apply map_ext. intros x. rewrite H. auto.
Qed.
Lemma mass_ignores M v : ~ In (v_name v) (names (c_vars M)) -> ignores v (mass M).
Proof.
  intros H a x. apply mass_ext. intros w Hw. unfold set_joint. destruct (String.eqb_spec (v_name w) (v_name v)) as [E|]; auto.
  exfalso. apply H. rewrite <- E. apply in_map. auto.
Qed.

(** ** variable elimination *)
Lemma pmass_ext l : ext (pmass l).
Proof. intros a b E. unfold pmass. f_equal. apply map_ext. intros M. apply mass_ext. intros v _. apply E. Qed.
Lemma pmass_filter (h : cpm -> bool) l a : pmass l a = (pmass (filter h l) a * pmass (filter (fun M => negb (h M)) l) a)%Qc.
Proof.
  unfold pmass. induction l as [|M l IH]; cbn [filter map qprod]; [ring|]. rewrite IH. destruct (h M); cbn [negb map qprod]; ring.
Qed.

Lemma in_scope_name v M : in_scope v M = true <-> In (v_name v) (names (c_vars M)).
Proof.
  unfold in_scope. rewrite existsb_v_In. unfold names. rewrite in_map_iff. split; intros (w & H1 & H2); exists w; auto.
Qed.

Lemma pairwise_filter h l : pairwise fit l -> pairwise fit (filter h l).
Proof.
  induction l as [|M l IH]; cbn; auto. intros [H1 H2]. destruct (h M); auto. cbn. split; auto.
  intros M' HM. apply filter_In in HM as [HM _]. auto.
Qed.
Lemma pairwise_two l M N : pairwise fit l -> In M l -> In N l -> M = N \/ fit M N.
Proof.
  induction l as [|M0 l IH]; cbn; [tauto|]. intros [H1 H2] [->|HM] [->|HN]; auto. right. apply fit_sym; auto.
Qed.
Lemma fit_list_filter h l : fit_list l -> fit_list (filter h l).
Proof.
  intros [H1 H2]. split; [|apply pairwise_filter; auto]. rewrite Forall_forall in *. intros M HM. apply filter_In in HM as [HM _]. auto.
Qed.
Lemma pairwise_filter_cross h l M N : pairwise fit l -> In M (filter h l) -> In N (filter (fun M => negb (h M)) l) -> fit M N.
Proof.
  intros P HM HN. apply filter_In in HM as [HM E1], HN as [HN E2]. destruct (pairwise_two l M N P HM HN) as [->|]; auto.
  rewrite E1 in E2. discriminate.
Qed.


Lemma elim_step_ok l v vars l' : ve_ok l (v :: vars) -> elim_step l v = Ok l' ->
  ve_ok l' vars /\ (forall a, pmass l' a = marg [v] (pmass l) a) /\
  (forall w, (exists M, In M l' /\ In w (c_vars M)) <-> (exists M, In M l /\ In w (c_vars M)) /\ w <> v) /\
  (forall w, (exists M, In M l' /\ In w (children M)) <-> (exists M, In M l /\ In w (children M)) /\ w <> v).
Proof.
  intros (F & P & B & C & N) H. unfold elim_step in H.
  destruct (product_list (filter (in_scope v) l)) as [mult|] eqn:E1; cbn [bind] in H; [|congruence].
  destruct (sum mult (Vars [v]) true) as [Ms|] eqn:E2; cbn [bind] in H; [|congruence]. injection H as <-.
  set (S := filter (in_scope v) l) in *. set (R := filter (fun M => negb (in_scope v M)) l).
  assert (FS : fit_list S) by (apply fit_list_filter; auto).
  destruct (product_list_ok S mult FS E1) as (Wm & Mm & Vm & Cm).
  assert (Hv : In v (children mult)).
  { destruct (C v (or_introl eq_refl)) as (M & HM & Hc). apply Cm. exists M. split; auto. apply filter_In. split; auto.
    apply in_scope_name. apply in_map. apply children_incl; auto. }
  assert (Hk : kept mult [v] true <> []).
  { intros X. rewrite (sum_all mult [v] true Wm) in E2; auto; [congruence|discriminate]. }
  destruct (sum_spec mult [v] true Wm) as (Ms' & E2' & Ws & Vs & Cs & _); [discriminate|auto|].
  assert (Ms' = Ms) by congruence. subst Ms'.
  assert (Kv : forall w, In w (c_vars Ms) <-> In w (c_vars mult) /\ w <> v).
  { intros w. rewrite Vs. unfold kept. rewrite in_app_iff, filter_In. unfold kept_child. cbn [existsb]. rewrite orb_false_r, negb_true_iff.
    assert (Hn := proj1 Wm). split.
    - intros [[H1 H2]|H1].
      + split; [apply children_incl; auto|]. intros ->. rewrite v_eqb_refl in H2. discriminate.
      + split; [apply parents_incl; auto|]. intros ->. rewrite children_parents in Hn. unfold names in Hn. rewrite map_app in Hn.
        clear -Hn Hv H1. induction (children mult) as [|x ch IH]; [destruct Hv|]. cbn in Hn. inversion Hn as [|? ? N1 N2]; subst.
        destruct Hv as [->|Hv]; auto. apply N1. apply in_or_app. right. apply in_map. auto.
    - intros [H1 H2]. rewrite (children_parents mult) in H1. apply in_app_or in H1 as [H1|H1]; auto. left. split; auto.
      destruct (v_eqb w v) eqn:X; auto. apply v_eqb_eq in X. exfalso. apply H2. apply (NoDup_names_inj (c_vars mult)); auto using children_incl. }
  assert (Kc : forall w, In w (children Ms) <-> In w (children mult) /\ w <> v).
  { intros w. rewrite Cs, filter_In. unfold kept_child. cbn [existsb]. rewrite orb_false_r, negb_true_iff. split.
    - intros [H1 H2]. split; auto. intros ->. rewrite v_eqb_refl in H2. discriminate.
    - intros [H1 H2]. split; auto. destruct (v_eqb w v) eqn:X; auto. apply v_eqb_eq in X. exfalso. apply H2.
      apply (NoDup_names_inj (c_vars mult)); auto using children_incl. apply Wm. }
  destruct (product_list_keep S mult v FS E1) as [Hp _].
  assert (Pm : has_p mult).
  { apply Hp. rewrite Forall_forall in *. intros M HM. apply filter_In in HM as [HM _]. auto. }
  assert (Bm : forall w, (exists M', In M' S /\ In w (c_vars M') /\ basic_in M' w) -> basic_in mult w).
  { intros w Hw. apply (product_list_keep S mult w FS E1). auto. }
  assert (Bv : basic_in mult v).
  { apply Bm. destruct (B v (or_introl eq_refl)) as (M & HM & H1 & H2). exists M. split; auto. apply filter_In. split; auto.
    apply in_scope_name. apply in_map. auto. }
  assert (Cross : forall M, In M R -> fit Ms M).
  { intros M HM. assert (G : fit mult M).
    { split.
      - intros x y Hx Hy E. apply Vm in Hx as (M' & HM' & Hx). apply (proj1 (pairwise_filter_cross (in_scope v) l M' M (proj2 F) HM' HM)); auto.
      - intros x y Hx Hy. apply Cm in Hx as (M' & HM' & Hx). apply (proj2 (pairwise_filter_cross (in_scope v) l M' M (proj2 F) HM' HM)); auto. }
    destruct G as [G1 G2]. split.
    - intros x y Hx Hy E. apply Kv in Hx as [Hx _]. auto.
    - intros x y Hx Hy. apply Kc in Hx as [Hx _]. auto. }
  assert (VR : forall M, In M R -> ~ In v (c_vars M)).
  { intros M HM X. apply filter_In in HM as [_ HM]. apply negb_true_iff in HM. rewrite (proj2 (in_scope_name v M)) in HM; [discriminate|].
    apply in_map. auto. }
  assert (Split : forall M, In M l <-> In M S \/ In M R).
  { intros M. unfold S, R. rewrite !filter_In. destruct (in_scope v M); cbn; intuition congruence. }
  assert (SV : forall w, (exists M, In M (Ms :: R) /\ In w (c_vars M)) <-> (exists M, In M l /\ In w (c_vars M)) /\ w <> v).
  { intros w. split.
    - intros (M & [<-|HM] & Hw).
      + apply Kv in Hw as [Hw Hne]. apply Vm in Hw as (M' & HM' & Hw). split; auto. exists M'. split; auto. apply Split. auto.
      + split; [exists M; split; auto; apply Split; auto|]. intros ->. apply (VR M HM Hw).
    - intros [(M & HM & Hw) Hne]. apply Split in HM as [HM|HM].
      + exists Ms. split; [left; auto|]. apply Kv. split; auto. apply Vm. eauto.
      + exists M. split; [right|]; auto. }
  assert (SC : forall w, (exists M, In M (Ms :: R) /\ In w (children M)) <-> (exists M, In M l /\ In w (children M)) /\ w <> v).
  { intros w. split.
    - intros (M & [<-|HM] & Hw).
      + apply Kc in Hw as [Hw Hne]. apply Cm in Hw as (M' & HM' & Hw). split; auto. exists M'. split; auto. apply Split. auto.
      + split; [exists M; split; auto; apply Split; auto|]. intros ->. apply (VR M HM). apply children_incl; auto.
    - intros [(M & HM & Hw) Hne]. apply Split in HM as [HM|HM].
      + exists Ms. split; [left; auto|]. apply Kc. split; auto. apply Cm. eauto.
      + exists M. split; [right|]; auto. }
  split; [|split; [|split; [exact SV|exact SC]]].
  - split; [|split; [|split; [|split]]].
    + split; [constructor; auto; apply (fit_list_filter (fun M => negb (in_scope v M)) l F)|]. cbn [pairwise]. split; auto.
      apply pairwise_filter. apply F.
    + constructor.
      * apply (sum_keep mult [v] true Ms v Wm); auto. discriminate.
      * rewrite Forall_forall in *. intros M HM. apply P. apply Split; auto.
    + intros w Hw. assert (Hwv : w <> v) by (intros ->; inversion N as [|? ? N1 N2]; subst; apply N1; apply in_map; auto).
      destruct (B w (or_intror Hw)) as (M & HM & H1 & H2). apply Split in HM as [HM|HM].
      * exists Ms. split; [left; auto|]. split; [apply Kv; split; auto; apply Vm; eauto|].
        apply (sum_keep mult [v] true Ms w Wm); auto; [discriminate|]. apply Bm. eauto.
      * exists M. split; [right; auto|auto].
    + intros w Hw. apply SC. split; [apply C; right; auto|]. intros ->. inversion N as [|? ? N1 N2]; subst. apply N1. apply in_map. auto.
    + inversion N; auto.
  - intros a. cbn [pmass map]. unfold pmass at 1. cbn [map qprod]. change (qprod (map (fun M => mass M a) R)) with (pmass R a).
    rewrite (marg_ext [v] _ (fun b => (pmass S b * pmass R b)%Qc)) by (intros b; apply pmass_filter).
    rewrite marg_factor.
    + f_equal. rewrite (sum_marg mult [v] true Ms [v] Wm); auto.
      * apply marg_ext. intros b. apply Mm.
      * discriminate.
      * apply has_p_or; auto.
      * repeat constructor. intros [].
      * intros w. rewrite Kv. cbn [In]. split.
        -- intros [<-|[]]. split; [apply children_incl; auto|tauto].
        -- intros [H1 H2]. left. destruct (string_dec (v_name v) (v_name w)) as [X|X].
           ++ apply (NoDup_names_inj (c_vars mult)); auto using children_incl. apply Wm.
           ++ exfalso. apply H2. split; auto. congruence.
      * intros w [<-|[]]. exact Bv.
    + intros b x. unfold pmass. f_equal. apply map_ext_in. intros M HM. apply mass_ignores.
      apply filter_In in HM as [_ HM]. apply negb_true_iff in HM. rewrite <- in_scope_name. congruence.
Qed.

Lemma elim_list_ok vars : forall l l', ve_ok l vars -> variable_elim_list l vars = Ok l' ->
  ve_ok l' [] /\ (forall a, pmass l' a = marg (rev vars) (pmass l) a) /\
  (forall w, (exists M, In M l' /\ In w (c_vars M)) <-> (exists M, In M l /\ In w (c_vars M)) /\ ~ In w vars) /\
  (forall w, (exists M, In M l' /\ In w (children M)) <-> (exists M, In M l /\ In w (children M)) /\ ~ In w vars).
Proof.
  unfold variable_elim_list. induction vars as [|v vars IH]; intros l l' V H; cbn [foldM] in H.
  - injection H as <-. split; auto. split; [reflexivity|]. split; intros w; cbn; tauto.
  - destruct (elim_step l v) as [l1|] eqn:E; cbn [bind] in H; [|congruence].
    destruct (elim_step_ok l v vars l1 V E) as (V1 & M1 & S1 & C1). destruct (IH l1 l' V1 H) as (V2 & M2 & S2 & C2).
    split; auto. split; [|split].
    + intros a. rewrite M2. cbn [rev]. rewrite marg_app. apply marg_ext. auto.
    + intros w. rewrite S2, S1. cbn [In]. split; intros; intuition congruence.
    + intros w. rewrite C2, C1. cbn [In]. split; intros; intuition congruence.
Qed.

Lemma variable_elim_ok l vars M : ve_ok l vars -> variable_elim l vars = Ok M ->
  wf_cpm M /\ (forall a, mass M a = marg vars (pmass l) a) /\
  (forall w, In w (c_vars M) <-> (exists N, In N l /\ In w (c_vars N)) /\ ~ In w vars) /\
  (forall w, In w (children M) <-> (exists N, In N l /\ In w (children N)) /\ ~ In w vars).
Proof.
  intros V H. unfold variable_elim in H. destruct (variable_elim_list l vars) as [l'|] eqn:E; cbn [bind] in H; [|congruence].
  destruct (elim_list_ok vars l l' V E) as (V' & M' & S' & C').
  destruct (product_list_ok l' M (proj1 V') H) as (W & Mm & Sm & Cm). split; auto. split; [|split].
  - intros a. rewrite Mm. fold (pmass l' a). rewrite M'. symmetry. apply marg_perm; [apply pmass_ext|apply Permutation_rev|apply V].
  - intros w. rewrite Sm. apply S'.
  - intros w. rewrite Cm. apply C'.
Qed.

(** ** when elimination cannot fail *)

Lemma qprod_pos l : (forall x, In x l -> 0 < x)%Qc -> (0 < qprod l)%Qc.
Proof.
  induction l as [|x l IH]; intros H; cbn; [reflexivity|].
  assert (X : (0 * qprod l < x * qprod l)%Qc) by (apply Qcmult_lt_compat_r; [apply IH; intros; apply H; right; auto|apply H; left; auto]).
  rewrite Qcmult_0_l in X. auto.
Qed.
Lemma qc_pos_ne x : (0 < x)%Qc -> x <> 0%Qc.
Proof. intros H E. rewrite E in H. apply (Qclt_not_le 0 0 H). apply Qcle_refl. Qed.

Lemma mass_row_exists M a : mass M a <> 0%Qc -> exists row, In row (c_C M) /\ row_match (c_vars M) row a = true.
Proof.
  intros H. rewrite mass_if in H. destruct (existsb (fun rp => row_match (c_vars M) (fst rp) a) (combine (c_C M) (weights M))) eqn:E.
  - apply existsb_exists in E as ([row q] & H1 & H2). exists row. split; auto. eapply in_combine_l; eauto.
  - exfalso. apply H. apply qsum_map_zero. intros rp Hrp. destruct (row_match (c_vars M) (fst rp) a) eqn:X; auto.
    rewrite <- not_true_iff_false in E. exfalso. apply E. apply existsb_exists. eauto.
Qed.

Lemma basic_range M v a : wf_cpm M -> In v (c_vars M) -> basic_in M v -> mass M a <> 0%Qc -> 0 <= a (v_name v) < nvals v.
Proof.
  intros W Hv Hb Hm. destruct (mass_row_exists M a Hm) as (row & Hr & Hrm).
  assert (Lr := proj1 (wf_rows M row W Hr)). rewrite row_match_cells in Hrm by (auto; apply W). rewrite forallb_forall in Hrm.
  specialize (Hrm v Hv). unfold cell in Hrm. apply mem_Z_In in Hrm.
  destruct (Hb row (at_ row (pos (c_vars M) v)) Hr) as (s & Hs & Hx); [apply In_combine_at; auto; apply W|].
  apply Hx in Hrm. rewrite Hrm. auto.
Qed.

Lemma elim_step_total l v vars a q M0 : ve_ok l (v :: vars) -> alive l a ->
  In M0 l -> In q (c_vars M0) -> v_name q <> v_name v -> In v (c_vars M0) ->
  exists Ms, elim_step l v = Ok (Ms :: filter (fun M => negb (in_scope v M)) l) /\
    alive (Ms :: filter (fun M => negb (in_scope v M)) l) a /\
    (forall M w, In M l -> In v (c_vars M) -> In w (c_vars M) -> v_name w <> v_name v -> In w (c_vars Ms)).
Proof.
  intros V A HM Hq Hne Hi. pose proof V as (F & P & B & C & N). unfold elim_step.
  set (S := filter (in_scope v) l). assert (FS : fit_list S) by (apply fit_list_filter; auto).
  assert (HS : In M0 S).
  { apply filter_In. split; auto. apply in_scope_name. apply in_map. auto. }
  assert (AS : alive S a) by (intros M X; apply filter_In in X as [X _]; apply A; auto).
  destruct (product_list_total S a) as [mult E1]; auto.
  { intros X. rewrite X in HS. destruct HS. }
  { intros M X. destruct (AS M X) as (A1 & A2 & A3). split; [apply qc_pos_ne; auto|]. split; auto.
    intros Y. rewrite Forall_forall in P. apply filter_In in X as [X _]. specialize (P M X). unfold has_p in P. rewrite Y in P.
    apply (mass_rows M a (qc_pos_ne _ A2)). destruct (c_C M); [auto|discriminate]. }
  rewrite E1. cbn [bind].
  destruct (product_list_ok S mult FS E1) as (Wm & Mm & Vm & Cm).
  assert (Qm : In q (c_vars mult)) by (apply Vm; eauto).
  assert (Kq : In q (kept mult [v] true)).
  { unfold kept. apply in_or_app. rewrite (children_parents mult) in Qm. apply in_app_or in Qm as [Qm|Qm]; auto. left.
    apply filter_In. split; auto. unfold kept_child. cbn [existsb]. rewrite orb_false_r. apply negb_true_iff. unfold v_eqb. apply String.eqb_neq. auto. }
  assert (Hk : kept mult [v] true <> []) by (intros X; rewrite X in Kq; destruct Kq).
  destruct (sum_spec mult [v] true Wm) as (Ms & E2 & Ws & Vs & Cs & _); [discriminate|auto|].
  rewrite E2. cbn [bind]. exists Ms. split; [reflexivity|].
  assert (EL : elim_step l v = Ok (Ms :: filter (fun M => negb (in_scope v M)) l)).
  { unfold elim_step. fold S. rewrite E1. cbn [bind]. rewrite E2. reflexivity. }
  destruct (elim_step_ok l v vars _ V EL) as (V' & _ & SV & _).
  assert (Hv : In v (c_vars mult)) by (apply Vm; exists M0; split; auto).
  assert (Bm : basic_in mult v).
  { apply (product_list_keep S mult v FS E1). destruct (B v (or_introl eq_refl)) as (M & HM' & H1 & H2). exists M. split; auto.
    apply filter_In. split; auto. apply in_scope_name. apply in_map. auto. }
  assert (Pm : has_p mult).
  { apply (product_list_keep S mult v FS E1). rewrite Forall_forall in *. intros M X. apply filter_In in X as [X _]. auto. }
  assert (Pos : (0 < mass mult a)%Qc).
  { rewrite Mm. apply qprod_pos. intros x Hx. apply in_map_iff in Hx as (M & <- & X). apply AS. auto. }
  assert (NN : forall b, (0 <= mass mult b)%Qc).
  { intros b. rewrite Mm. apply qprod_nonneg. intros x Hx. apply in_map_iff in Hx as (M & <- & X). apply AS. auto. }
  assert (InMs : forall w, In w (c_vars mult) -> v_name w <> v_name v -> In w (c_vars Ms)).
  { intros w Hw Hn. rewrite Vs. unfold kept. apply in_or_app. rewrite (children_parents mult) in Hw. apply in_app_or in Hw as [Hw|Hw]; auto. left.
    apply filter_In. split; auto. unfold kept_child. cbn [existsb]. rewrite orb_false_r. apply negb_true_iff. unfold v_eqb. apply String.eqb_neq. auto. }
  assert (Chv : In v (children mult)).
  { destruct (C v (or_introl eq_refl)) as (M & HMl & Hc). apply Cm. exists M. split; auto. apply filter_In. split; auto.
    apply in_scope_name. apply in_map. apply children_incl; auto. }
  assert (Mass : forall b, mass Ms b = marg [v] (mass mult) b).
  { apply (sum_marg mult [v] true Ms [v] Wm); auto.
    - discriminate.
    - apply has_p_or; auto.
    - repeat constructor. intros [].
    - intros w. cbn [In]. split.
      + intros [<-|[]]. split; auto. rewrite Vs. unfold kept. intros X. apply in_app_or in X as [X|X].
        * apply filter_In in X as [_ X]. unfold kept_child in X. cbn in X. rewrite v_eqb_refl in X. discriminate.
        * assert (Hn := proj1 Wm). rewrite children_parents in Hn. unfold names in Hn. rewrite map_app in Hn.
          clear -Hn Chv X. induction (children mult) as [|x ch IH]; [destruct Chv|]. cbn in Hn. inversion Hn as [|? ? N1 N2]; subst.
          destruct Chv as [->|Hv]; auto. apply N1. apply in_or_app. right. apply in_map. auto.
      + intros [H1 H2]. left. destruct (string_dec (v_name v) (v_name w)) as [X|X].
        * apply (NoDup_names_inj (c_vars mult)); auto. apply Wm.
        * exfalso. apply H2. apply InMs; auto.
    - intros w [<-|[]]. auto. }
  split.
  - intros M [<-|HMr].
    + split; [|split].
      * intros b. rewrite Mass. cbn [marg]. apply qsum_nonneg. intros x Hx. apply in_map_iff in Hx as (y & <- & _). auto.
      * rewrite Mass. cbn [marg]. assert (R := basic_range mult v a Wm Hv Bm (qc_pos_ne _ Pos)).
        apply Qclt_le_trans with (mass mult a); auto.
        assert (Y : mass mult a = mass mult (set_joint a v (a (v_name v)))).
        { apply mass_ext. intros w _. unfold set_joint. destruct (String.eqb_spec (v_name w) (v_name v)) as [X|]; auto. rewrite X. auto. }
        rewrite Y. assert (Z : In (a (v_name v)) (zrange 0 (nvals v))) by (apply zrange_In; auto).
        revert Z NN. clear. generalize (zrange 0 (nvals v)). intros L Z NN. induction L as [|y L IH]; [destruct Z|]. cbn [map qsum].
        assert (0 <= qsum (map (fun x => mass mult (set_joint a v x)) L))%Qc.
        { apply qsum_nonneg. intros z Hz. apply in_map_iff in Hz as (u & <- & _). auto. }
        assert (0 <= mass mult (set_joint a v y))%Qc by auto.
        destruct Z as [->|Z]; [qc_lra|]. specialize (IH Z). qc_lra.
      * rewrite Vs. auto.
    + apply filter_In in HMr as [HMr _]. apply A. auto.
  - intros M w HMl Hvm Hw Hn. apply InMs; auto. apply Vm. exists M. split; auto. apply filter_In. split; auto. apply in_scope_name. apply in_map. auto.
Qed.

(** ** connected CPMs *)
Lemma linked_trans l x y z : linked l x y -> linked l y z -> linked l x z.
Proof. induction 1; auto. intros X. eapply linked_step; eauto. Qed.
Lemma linked_first l x z : linked l x z -> x <> z -> exists M y, In M l /\ In x (names (c_vars M)) /\ In y (names (c_vars M)) /\ y <> x.
Proof.
  induction 1 as [x|M x y z H1 H2 H3 H4 IH]; intros Hn; [congruence|].
  destruct (string_dec y x) as [->|E]; [auto|]. exists M, y. auto.
Qed.

(** elimination of [n] keeps the others connected *)
Lemma linked_elim l l' Ms n : (forall M x y, In M l -> In x (names (c_vars M)) -> In y (names (c_vars M)) -> ~ In n (names (c_vars M)) -> linked l' x y) ->
  (forall M x, In M l -> In n (names (c_vars M)) -> In x (names (c_vars M)) -> x <> n -> In x (names (c_vars Ms))) -> In Ms l' ->
  forall x z, linked l x z -> z <> n ->
    (x <> n -> linked l' x z) /\
    (x = n -> forall M u, In M l -> In n (names (c_vars M)) -> In u (names (c_vars M)) -> u <> n -> linked l' u z).
Proof.
  intros HR HS HM x z L Hz. induction L as [x|M x y z H1 H2 H3 H4 IH].
  - split; [intros _; apply linked_refl|intros ->; congruence].
  - specialize (IH Hz) as [IH1 IH2]. split.
    + intros Hx. destruct (string_dec y n) as [->|Hy]; [apply (IH2 eq_refl M); auto|].
      destruct (in_dec string_dec n (names (c_vars M))) as [Hn|Hn].
      * apply (linked_step _ Ms x y z); auto; apply (HS M); auto.
      * apply linked_trans with y; auto. apply (HR M); auto.
    + intros -> M' u H5 H6 H7 Hu. destruct (string_dec y n) as [->|Hy]; [apply (IH2 eq_refl M'); auto|].
      apply (linked_step _ Ms u y z); auto; [apply (HS M'); auto|apply (HS M); auto].
Qed.
Lemma linked_back l l' : (forall M x y, In M l' -> In x (names (c_vars M)) -> In y (names (c_vars M)) -> linked l x y) ->
  forall x z, linked l' x z -> linked l x z.
Proof. intros H x z. induction 1 as [x|M x y z H1 H2 H3 H4 IH]; [apply linked_refl|]. apply linked_trans with y; eauto. Qed.

Lemma elim_step_linked l v l' vars : ve_ok l (v :: vars) -> elim_step l v = Ok l' ->
  exists Ms w, l' = Ms :: filter (fun M => negb (in_scope v M)) l /\ In w (c_vars Ms) /\ 
    (forall x y, linked l' x y -> linked l x y) /\ (forall u, In u (c_vars Ms) -> linked l (v_name v) (v_name u) /\ v_name u <> v_name v).
Proof.
  intros (F & P & B & C & N) H. unfold elim_step in H.
  destruct (product_list (filter (in_scope v) l)) as [mult|] eqn:E1; cbn [bind] in H; [|congruence].
  destruct (sum mult (Vars [v]) true) as [Ms|] eqn:E2; cbn [bind] in H; [|congruence]. injection H as <-.
  set (S := filter (in_scope v) l) in *. assert (FS : fit_list S) by (apply fit_list_filter; auto).
  destruct (product_list_ok S mult FS E1) as (Wm & _ & Vm & Cm).
  assert (Hk : kept mult [v] true <> []).
  { intros X. rewrite (sum_all mult [v] true Wm) in E2; auto; [congruence|discriminate]. }
  destruct (sum_spec mult [v] true Wm) as (Ms' & E2' & Ws & Vs & _); [discriminate|auto|].
  assert (Ms' = Ms) by congruence. subst Ms'.
  assert (Hv : In v (children mult)).
  { destruct (C v (or_introl eq_refl)) as (M & HM & Hc). apply Cm. exists M. split; auto. apply filter_In. split; auto.
    apply in_scope_name. apply in_map. apply children_incl; auto. }
  assert (K : forall u, In u (c_vars Ms) -> (exists M, In M l /\ In (v_name v) (names (c_vars M)) /\ In (v_name u) (names (c_vars M))) /\ v_name u <> v_name v).
  { intros u Hu. rewrite Vs in Hu. assert (Hm : In u (c_vars mult)).
    { apply in_app_or in Hu as [Hu|Hu]; [apply filter_In in Hu as [Hu _]; apply children_incl; auto|apply parents_incl; auto]. }
    split.
    - apply Vm in Hm as (M & HM & Hm). apply filter_In in HM as [HM X]. apply in_scope_name in X. exists M. split; [auto|]. split; [auto|]. apply in_map; auto.
    - intros E. assert (u = v) by (apply (NoDup_names_inj (c_vars mult)); auto using children_incl; apply Wm). subst u.
      apply in_app_or in Hu as [Hu|Hu].
      + apply filter_In in Hu as [_ Hu]. unfold kept_child in Hu. cbn in Hu. rewrite v_eqb_refl in Hu. discriminate.
      + assert (Hn := proj1 Wm). rewrite children_parents in Hn. unfold names in Hn. rewrite map_app in Hn.
        clear -Hn Hv Hu. induction (children mult) as [|x ch IH]; [destruct Hv|]. cbn in Hn. inversion Hn as [|? ? N1 N2]; subst.
        destruct Hv as [->|Hv]; auto. apply N1. apply in_or_app. right. apply in_map. auto. }
  assert (KL : forall u, In u (c_vars Ms) -> linked l (v_name v) (v_name u) /\ linked l (v_name u) (v_name v)).
  { intros u Hu. destruct (K u Hu) as [(M & H1 & H2 & H3) _]. split; (eapply linked_step; [exact H1| | |apply linked_refl]); auto. }
  destruct (c_vars Ms) as [|w ws] eqn:Ew; [exfalso; apply Hk; rewrite <- Vs; auto|].
  exists Ms, w. rewrite Ew. split; [auto|]. split; [left; auto|]. split; [|intros u Hu; split; [apply KL|apply K]; auto].
  apply linked_back. intros M x y [<-|HM] Hx Hy.
  - rewrite Ew in Hx, Hy. apply in_map_iff in Hx as (x' & <- & Hx), Hy as (y' & <- & Hy). apply linked_trans with (v_name v); apply KL; auto.
  - apply filter_In in HM as [HM _]. eapply linked_step; [exact HM| | |apply linked_refl]; auto.
Qed.

Lemma fit_scope l v M M' : fit_list l -> In M l -> In M' l -> In v (c_vars M') -> In (v_name v) (names (c_vars M)) -> In v (c_vars M).
Proof.
  intros (W & PW) HM HM' Hv' H1. apply in_map_iff in H1 as (v' & Ev & H1). destruct (pairwise_two l M M' PW HM HM') as [->|[X _]].
  - assert (v' = v) by (rewrite Forall_forall in W; apply (NoDup_names_inj (c_vars M')); auto; apply W; auto). subst; auto.
  - rewrite (X v' v H1 Hv' Ev) in H1. auto.
Qed.

Lemma elim_list_linked vars : forall l, ve_ok l vars -> l <> [] -> forall a, alive l a ->
  ((exists l', variable_elim_list l vars = Ok l') <-> forall v, In v vars -> exists q, linked l (v_name v) q /\ ~ In q (names vars)).
Proof.
  unfold variable_elim_list. induction vars as [|v vars IH]; intros l V Hl a A; cbn [foldM].
  - split; [intros _ v []|eauto].
  - assert (N : ~ In (v_name v) (names vars)) by (destruct V as (_ & _ & _ & _ & N); inversion N; auto).
    split.
    + intros [l' H]. destruct (elim_step l v) as [l1|] eqn:E; cbn [bind] in H; [|congruence].
      destruct (elim_step_linked l v l1 vars V E) as (Ms & w & -> & Hw & LB & LM).
      assert (V1 := proj1 (elim_step_ok l v vars _ V E)).
      assert (A1 : alive (Ms :: filter (fun M => negb (in_scope v M)) l) a).
      { destruct (LM w Hw) as [L1 L2]. destruct (linked_first l (v_name v) (v_name w) L1 (fun X => L2 (eq_sym X))) as (M & y & HM & H1 & H2 & H3).
        apply in_map_iff in H2 as (y' & <- & H2).
        assert (Hv : In v (c_vars M)) by (destruct V as (FL & _ & B & _); destruct (B v (or_introl eq_refl)) as (M' & HM' & Hv' & _); apply (fit_scope l v M M'); auto).
        destruct (elim_step_total l v vars a y' M V A HM H2 H3 Hv) as (Ms' & E' & A' & _). rewrite E in E'. injection E' as <-. auto. }
      destruct (IH _ V1 ltac:(discriminate) a A1) as [IH1 _]. specialize (IH1 (ex_intro _ l' H)).
      assert (G : forall u, In u vars -> exists q, linked l (v_name u) q /\ ~ In q (names (v :: vars))).
      { intros u Hu. destruct (IH1 u Hu) as (q & L & Hq). destruct (string_dec q (v_name v)) as [->|Hne].
        - exfalso. assert (X : v_name u <> v_name v) by (intros X; apply N; rewrite <- X; apply in_map; auto).
          clear -L X V E LM. 
          assert (G : forall x, linked (Ms :: filter (fun M => negb (in_scope v M)) l) x (v_name v) -> x = v_name v).
          { intros x H. remember (v_name v) as n eqn:En. induction H as [x|M x y z H1 H2 H3 H4 IH]; [auto|]. specialize (IH En LM L X).
            exfalso. destruct H1 as [<-|H1].
            - apply in_map_iff in H3 as (u' & H3 & H5). destruct (LM u' H5) as [_ Y]. congruence.
            - apply filter_In in H1 as [_ H1]. apply negb_true_iff in H1. rewrite (proj2 (in_scope_name v M)) in H1; [discriminate|]. congruence. }
          auto.
        - exists q. split; [auto|]. intros [X|X]; [congruence|auto]. }
      intros u [<-|Hu]; [|auto]. destruct (LM w Hw) as [L1 L2].
      destruct (in_dec string_dec (v_name w) (names vars)) as [Hin|Hout].
      * apply in_map_iff in Hin as (u' & E2 & Hu'). destruct (G u' Hu') as (q & L & Hq). exists q. split; [|auto].
        apply linked_trans with (v_name w); [auto|]. rewrite <- E2. auto.
      * exists (v_name w). split; [auto|]. intros [X|X]; [congruence|auto].
    + intros H. destruct (H v (or_introl eq_refl)) as (q & L & Hq).
      destruct (linked_first l (v_name v) q L) as (M & y & HM & H1 & H2 & H3); [intros X; apply Hq; left; auto|].
      apply in_map_iff in H2 as (y' & <- & H2).
      assert (Hv : In v (c_vars M)) by (destruct V as (FL & _ & B & _); destruct (B v (or_introl eq_refl)) as (M' & HM' & Hv' & _); apply (fit_scope l v M M'); auto).
      destruct (elim_step_total l v vars a y' M V A HM H2 H3 Hv) as (Ms & E & A1 & LM). rewrite E. cbn [bind].
      apply (IH _ (proj1 (elim_step_ok l v vars _ V E)) ltac:(discriminate) a A1).
      intros u Hu. destruct (H u (or_intror Hu)) as (q' & L' & Hq'). exists q'. split; [|intros X; apply Hq'; right; auto].
      set (l1 := Ms :: filter (fun M => negb (in_scope v M)) l).
      assert (HR : forall M x z, In M l -> In x (names (c_vars M)) -> In z (names (c_vars M)) -> ~ In (v_name v) (names (c_vars M)) -> linked l1 x z).
      { intros M' x z HM' Hx Hz Hn. eapply linked_step; [|exact Hx|exact Hz|apply linked_refl]. right. apply filter_In. split; [auto|].
        apply negb_true_iff, not_true_iff_false. rewrite in_scope_name. auto. }
      assert (HS : forall M x, In M l -> In (v_name v) (names (c_vars M)) -> In x (names (c_vars M)) -> x <> v_name v -> In x (names (c_vars Ms))).
      { intros M' x HM' Hn Hx Hne. apply in_map_iff in Hx as (x' & <- & Hx). apply in_map. apply (LM M'); auto.
        destruct V as (FL & _ & B & _). destruct (B v (or_introl eq_refl)) as (M'' & HM'' & Hv' & _). apply (fit_scope l v M' M''); auto. }
      apply (linked_elim l l1 Ms (v_name v) HR HS (or_introl eq_refl) (v_name u) q' L').
      * intros X. apply Hq'. left; auto.
      * intros X. apply N. rewrite <- X. apply in_map; auto.
Qed.

Lemma elim_list_alive vars : forall l a, ve_ok l vars -> l <> [] -> alive l a ->
  (forall v, In v vars -> exists q, linked l (v_name v) q /\ ~ In q (names vars)) ->
  exists l', variable_elim_list l vars = Ok l' /\ alive l' a /\ ve_ok l' [] /\ l' <> [].
Proof.
  unfold variable_elim_list. induction vars as [|v vars IH]; intros l a V Hl A H; cbn [foldM]; [eauto|].
  assert (S : exists l1, elim_step l v = Ok l1 /\ alive l1 a).
  { destruct (H v (or_introl eq_refl)) as (q & L & Hq).
    destruct (linked_first l (v_name v) q L) as (M & y & HM & H1 & H2 & H3); [intros X; apply Hq; left; auto|].
    apply in_map_iff in H2 as (y' & <- & H2).
    assert (Hv : In v (c_vars M)) by (destruct V as (FL & _ & B & _); destruct (B v (or_introl eq_refl)) as (M' & HM' & Hv' & _); apply (fit_scope l v M M'); auto).
    destruct (elim_step_total l v vars a y' M V A HM H2 H3 Hv) as (Ms & E & A1 & LM). eauto. }
  destruct S as (l1 & E & A1). rewrite E. cbn [bind].
  destruct (elim_step_linked l v l1 vars V E) as (Ms & w & -> & _). assert (V1 := proj1 (elim_step_ok l v vars _ V E)).
  apply IH; auto; [discriminate|].
  apply (elim_list_linked vars _ V1 ltac:(discriminate) a A1).
  destruct (proj2 (elim_list_linked (v :: vars) l V Hl a A) H) as [l' HL]. unfold variable_elim_list in HL. cbn [foldM] in HL. rewrite E in HL. eauto.
Qed.

Lemma variable_elim_iff l vars a : ve_ok l vars -> l <> [] -> alive l a ->
  ((exists M, variable_elim l vars = Ok M) <-> forall v, In v vars -> exists q, linked l (v_name v) q /\ ~ In q (names vars)).
Proof.
  intros V Hl A. split.
  - intros [M H]. unfold variable_elim in H. destruct (variable_elim_list l vars) as [l'|] eqn:E; [|discriminate].
    apply (elim_list_linked vars l V Hl a A). eauto.
  - intros H. destruct (elim_list_alive vars l a V Hl A H) as (l' & E & A' & V' & Hne). unfold variable_elim. rewrite E. cbn [bind].
    apply (product_list_total l' a); auto; [apply V'|].
    intros M X. destruct (A' M X) as (A1 & A2 & A3). split; [apply qc_pos_ne; auto|]. split; auto.
    destruct V' as (_ & P & _). rewrite Forall_forall in P. specialize (P M X). intros Y. unfold has_p in P. rewrite Y in P.
    apply (mass_rows M a (qc_pos_ne _ A2)). destruct (c_C M); [auto|discriminate].
Qed.

Lemma variable_elim_total l vars a q M0 : ve_ok l vars -> alive l a ->
  In M0 l -> In q (c_vars M0) -> ~ In (v_name q) (names vars) -> incl vars (c_vars M0) ->
  exists M, variable_elim l vars = Ok M.
Proof.
  intros V A HM Hq Hn Hi. apply (variable_elim_iff l vars a V); auto; [intros ->; destruct HM|].
  intros v Hv. exists (v_name q). split; [|auto]. apply (linked_step l M0 _ (v_name q)); auto; [apply in_map; auto|apply in_map; auto|apply linked_refl].
Qed.
