(** [prod_Msys_and_Mcomps] *)
From Coq Require Import ZArith List String Bool QArith Qcanon Lia Permutation.
From Verif Require Import Py PyFacts Num Vari VariFacts Cpm SpecCpm CpmFacts CpmCond CpmProd CpmList CpmSum CpmMarg CpmElim CpmProb CpmMean SysValFacts.
From Verif Require Import MsysProd SpecProd.
Import ListNotations.
Open Scope string_scope.
Open Scope Z_scope.
Open Scope list_scope.

Lemma comp_vars m v : children m = [v] -> c_nch m = 1%nat -> c_vars m = v :: parents m.
Proof. intros H E. rewrite (vars_split m), H. auto. Qed.

Lemma at_hd row : at_ row 0 = hd 0 row.
Proof. destruct row; auto. Qed.

(** the row of a basic state *)
Lemma total_one C p k : List.length p = List.length C -> NoDup (map (hd 0) C) -> In k (map (hd 0) C) ->
  exists r x, find_idx (fun c => at_ c 0 =? k) C = Some r /\ nth_error p r = Some x /\
    weighted (fun row => hd 0 row =? k) C p = x.
Proof.
  revert p. induction C as [|row C IH]; intros [|q p] L N H; cbn in L; try lia; [destruct H|].
  cbn [find_idx]. unfold weighted. cbn [combine filter fst]. rewrite at_hd. destruct (hd 0 row =? k) eqn:E.
  - exists 0%nat, q. split; [|split]; auto. cbn [map snd qsum fold_right].
    assert (Z0 : filter (fun rp : list Z * Qc => hd 0 (fst rp) =? k) (combine C p) = []).
    { inversion N as [|? ? Hn _]; subst. apply Z.eqb_eq in E. subst k. clear - Hn.
      revert p. induction C as [|r C IH]; intros [|q p]; auto. cbn [combine filter fst]. cbn in Hn.
      destruct (Z.eqb_spec (hd 0 r) (hd 0 row)); [tauto|]. apply IH. tauto. }
    rewrite Z0. cbn. ring.
  - destruct H as [H|H]; [cbn in H; rewrite <- H, Z.eqb_refl in E; discriminate|].
    inversion N; subst. destruct (IH p) as (r & x & E1 & E2 & E3); auto; try lia.
    exists (S r), x. rewrite E1. split; auto.
Qed.

Lemma comp_prob_ok m v c : comp_ok m -> children m = [v] -> code_ok v c ->
  comp_prob m c = Ok (comp_total m (states_of v c)).
Proof.
  intros (W & P & N1 & w & Hc & NE & ND & Hk & HB) Hv (B & EB & Hcr). rewrite Hv in Hc. injection Hc as <-.
  unfold comp_prob. rewrite (comp_vars m v Hv N1), EB, (states_of_index v B c EB Hcr). cbn [bind].
  assert (E : forall l, (forall k, In k l -> 0 <= k < nvals v) ->
    mapM (fun k => match find_idx (fun c => at_ c 0 =? k) (c_C m) with
                   | None => Err ValueError
                   | Some r => match nth_error (c_p m) r with Some x => Ok x | None => Err IndexError end
                   end) l = Ok (map (fun k => total (fun row => hd 0 row =? k) m) l)).
  { induction l as [|k l IH]; intros Hl; auto. cbn [mapM map].
    destruct (total_one (c_C m) (c_p m) k) as (r & x & E1 & E2 & E3); auto; [apply Hk, Hl; left; auto|].
    rewrite E1, E2, total_weighted, E3. cbn [bind]. rewrite IH; auto. intros; apply Hl; right; auto. }
  rewrite E; auto. apply HB.
Qed.

Lemma find_idx_find {A} (f : A -> bool) l :
  match find_idx f l with Some i => nth_error l i = find f l /\ exists x, find f l = Some x | None => find f l = None end.
Proof.
  induction l as [|x l IH]; [reflexivity|]. cbn [find_idx find]. destruct (f x) eqn:E; [split; [auto|eauto]|].
  destruct (find_idx f l); auto.
Qed.

Definition cname (m : cpm) : string := hd "" (names (children m)).

Lemma comp_names_ok Ms : Forall comp_ok Ms -> mapM comp_name Ms = Ok (map cname Ms).
Proof.
  intros H. apply mapM_ok. intros m Hm. rewrite Forall_forall in H. destruct (H m Hm) as (_ & _ & N1 & v & Hv & _).
  unfold comp_name, cname. rewrite (comp_vars m v Hv N1), Hv. auto.
Qed.

Lemma mult_idx_find Ms v : Forall comp_ok Ms ->
  mult_idx (map cname Ms) v = find_idx (fun m => mem_str (v_name v) (names (children m))) Ms.
Proof.
  intros H. unfold mult_idx. induction H as [|m Ms Hm _ IH]; auto. cbn [map find_idx]. rewrite IH.
  destruct Hm as (_ & _ & _ & w & Hw & _). unfold cname. rewrite Hw. cbn [names map hd mem_str existsb].
  rewrite orb_false_r. auto.
Qed.
Lemma is_mult_in Ms v : Forall comp_ok Ms -> is_mult (map cname Ms) v = in_comps Ms v.
Proof.
  intros H. unfold is_mult, in_comps, comp_for. rewrite mult_idx_find by auto.
  pose proof (find_idx_find (fun m => mem_str (v_name v) (names (children m))) Ms) as X.
  destruct (find_idx _ Ms); [destruct X as [_ [x ->]]|rewrite X]; auto.
Qed.

Lemma idxs_mult Ms l : Forall comp_ok Ms ->
  flat_map (fun v => match mult_idx (map cname Ms) v with Some i => [i] | None => [] end) l =
  flat_map (fun v => match mult_idx (map cname Ms) v with Some i => [i] | None => [] end) (filter (in_comps Ms) l).
Proof.
  intros H. induction l as [|v l IH]; auto. cbn [flat_map filter]. rewrite <- (is_mult_in Ms v H). unfold is_mult.
  destruct (mult_idx (map cname Ms) v) eqn:E; cbn [flat_map]; rewrite IH, ?E; auto.
Qed.

(** the component found has [v] as its child *)
Lemma comp_for_ok Msys Ms v m : Forall comp_ok Ms -> (forall m, In m Ms -> agree (c_vars Msys) (c_vars m)) ->
  In v (c_vars Msys) -> comp_for Ms v = Some m -> In m Ms /\ comp_ok m /\ children m = [v].
Proof.
  intros H A Hv E. apply find_some in E as [Hm E]. rewrite Forall_forall in H. pose proof (H m Hm) as K.
  split; [|split]; auto. destruct K as (_ & _ & _ & w & Hw & _). rewrite Hw in *. cbn in E.
  rewrite orb_false_r in E. apply String.eqb_eq in E. rewrite (A m Hm v w); auto.
  apply children_incl. rewrite Hw. left; auto.
Qed.

(** multiplication of one column of factors *)
Lemma mult_fold Msys Ms nch (g : list Z -> list Z) (C : list (list Z)) :
  Forall comp_ok Ms -> (forall m, In m Ms -> agree (c_vars Msys) (c_vars m)) ->
  forall l k p, incl l (c_vars Msys) -> Forall (fun v => in_comps Ms v = true) l -> List.length p = List.length C ->
  (forall row i v, In row C -> nth_error l i = Some v -> code_ok v (at_ row (pos (c_vars Msys) v)) /\
     at_ (g row) (nch + (k + i)) = at_ row (pos (c_vars Msys) v)) ->
  foldM (mult_comp Ms nch (map g C))
    (combine (seq k (List.length (flat_map (fun v => match mult_idx (map cname Ms) v with Some i => [i] | None => [] end) l)))
             (flat_map (fun v => match mult_idx (map cname Ms) v with Some i => [i] | None => [] end) l)) p
  = Ok (map (fun rp => (snd rp * qprod (map (fun v => comp_factor Ms v (at_ (fst rp) (pos (c_vars Msys) v))) l))%Qc) (combine C p)).
Proof.
  intros H A. induction l as [|v l IH]; intros k p Hi Hm L Hg.
  - cbn. f_equal. clear - L. revert p L. induction C as [|r C IH]; intros [|q p] L; cbn in L; try lia; auto.
    cbn [combine map snd]. rewrite <- IH by lia. f_equal. ring.
  - inversion Hm as [|? ? Hv Hl]; subst. cbn [flat_map].
    pose proof Hv as Hc. unfold in_comps in Hc. rewrite mult_idx_find by auto.
    pose proof (find_idx_find (fun m => mem_str (v_name v) (names (children m))) Ms) as X.
    unfold comp_for in Hc. destruct (find_idx _ Ms) as [i|] eqn:Ei; [|rewrite X in Hc; discriminate].
    destruct X as [X1 [m X2]]. cbn [app List.length seq combine foldM]. unfold mult_comp at 1. cbn [fst snd]. rewrite X1, X2.
    destruct (comp_for_ok Msys Ms v m) as (Hin & Hok & Hch); auto; [apply Hi; left; auto|].
    rewrite (mapM_ok _ (fun rp => (snd rp * comp_total m (states_of v (at_ (fst rp) (nch + k))))%Qc)).
    + cbn [bind]. rewrite IH; auto.
      * f_equal. clear IH. clear Ei X1.
        assert (Hg0 : forall row, In row C -> at_ (g row) (nch + k) = at_ row (pos (c_vars Msys) v)).
        { intros row Hr. destruct (Hg row 0%nat v Hr eq_refl) as [_ Y]. rewrite Nat.add_0_r in Y. auto. }
        clear Hg. revert p L. induction C as [|r C IH]; intros [|q p] L; cbn in L; try lia; auto.
        cbn [map combine fst snd]. rewrite IH by (try lia; intros; apply Hg0; right; auto). f_equal.
        unfold comp_factor at 2. unfold comp_for. rewrite X2. rewrite Hg0 by (left; auto). cbn [map qprod fold_right].
        unfold qprod. ring.
      * intros x Hx. apply Hi. right; auto.
      * rewrite map_length, combine_length, map_length. lia.
      * intros row j w Hr Hj. destruct (Hg row (S j) w Hr Hj) as [Y1 Y2]. split; auto.
        rewrite <- Y2. f_equal. lia.
    + intros [r q] Hrq. cbn [fst snd]. apply in_combine_l in Hrq as Hr. apply in_map_iff in Hr as (row & <- & Hr).
      destruct (Hg row 0%nat v Hr eq_refl) as [Y1 Y2]. rewrite Nat.add_0_r in Y2. rewrite Y2.
      rewrite (comp_prob_ok m v) by auto. reflexivity.
Qed.

Lemma vars_eqb_refl l : vars_eqb l l = true.
Proof. induction l as [|v l IH]; auto. cbn. unfold v_eqb. rewrite String.eqb_refl, IH. auto. Qed.

Lemma cond_of_ok Ms cs : Forall comp_ok Ms -> Ms <> [] -> conditioned Ms cs -> cond_of Ms = Ok cs.
Proof.
  intros H Hn Hc. destruct Ms as [|M0 Ms]; [congruence|]. rewrite Forall_forall in H. unfold cond_of.
  destruct (H M0 (or_introl eq_refl)) as (W0 & P0 & N0 & v0 & Hv0 & C0 & _).
  destruct Hc as [[-> Hp]|(y & s & -> & Hp)].
  - pose proof (Hp M0 (or_introl eq_refl)) as E. unfold parents in E. rewrite E. auto.
  - destruct (Hp M0 (or_introl eq_refl)) as [E R0]. pose proof E as E'. unfold parents in E'. rewrite E'.
    assert (forallb (fun x => vars_eqb (skipn 1 (c_vars x)) [y]) (M0 :: Ms) = true) as ->.
    { apply forallb_forall. intros m Hm. destruct (H m Hm) as (_ & _ & N1 & v & Hv & _). destruct (Hp m Hm) as [Ep _].
      rewrite (comp_vars m v Hv N1), Ep. cbn [skipn]. apply vars_eqb_refl. }
    cbn [negb]. destruct (c_C M0) as [|r0 C] eqn:EC; [congruence|].
    assert (Hr0 : In r0 (c_C M0)) by (rewrite EC; left; auto).
    assert (L0 : List.length r0 = 2%nat).
    { destruct (wf_rows M0 r0 W0 Hr0) as [L _]. rewrite L, (comp_vars M0 v0 Hv0 N0), E. auto. }
    rewrite N0. pose proof (R0 r0 (or_introl eq_refl)) as R.
    destruct r0 as [|c0 [|s0 [|]]]; try discriminate. cbn in R. injection R as ->. cbn [skipn].
    assert (forallb (fun m => forallb (fun c => at_ c 1 =? s) (c_C m)) (M0 :: Ms) = true) as ->; auto.
    apply forallb_forall. intros m Hm. apply forallb_forall. intros row Hr. apply Z.eqb_eq. unfold at_.
    apply nth_error_nth. apply (Hp m Hm); auto.
Qed.

Lemma existsb_names v l : existsb (v_eqb v) l = mem_str (v_name v) (names l).
Proof. unfold mem_str, names, v_eqb. induction l as [|w l IH]; auto. cbn. rewrite IH. auto. Qed.

Lemma add_conds_ok Ms cs par C : conditioned Ms cs ->
  add_conds cs par C = (par ++ map fst (new_conds cs par), map (fun row => row ++ map snd (new_conds cs par)) C).
Proof.
  assert (Z0 : (par, C) = (par ++ [], map (fun row : list Z => row ++ []) C)).
  { rewrite app_nil_r. f_equal. erewrite map_ext; [symmetry; apply map_id|]. intros r. cbn. apply app_nil_r. }
  unfold new_conds. intros [[-> _]|(y & s & -> & _)]; cbn [add_conds filter fst snd]; auto.
  rewrite existsb_names. destruct (mem_str (v_name y) (names par)); auto.
Qed.

Lemma conds_code Ms cs y s : Forall comp_ok Ms -> Ms <> [] -> conditioned Ms cs -> In (y, s) cs -> var_ok y /\ code_ok y s.
Proof.
  intros H Hn Hc Hy. destruct Ms as [|M0 Ms]; [congruence|]. inversion H as [|? ? H0 _]; subst.
  destruct Hc as [[-> _]|(y' & s' & -> & Hp)]; [destruct Hy|]. destruct Hy as [[= <- <-]|[]].
  destruct H0 as (W0 & _ & N0 & v0 & Hv0 & C0 & _). destruct (Hp M0 (or_introl eq_refl)) as [E R0].
  assert (V : c_vars M0 = [v0; y']) by (rewrite (comp_vars M0 v0 Hv0 N0), E; auto).
  destruct (c_C M0) as [|r0 C] eqn:EC; [congruence|]. specialize (R0 r0 (or_introl eq_refl)).
  destruct W0 as (_ & W1 & _ & W2 & _). rewrite V in *. split.
  - rewrite Forall_forall in W1. apply W1. cbn; auto.
  - specialize (W2 r0). rewrite EC in W2. specialize (W2 (or_introl eq_refl)).
    inversion W2 as [|? c0 ? r1 _ W3]; subst. inversion W3 as [|? c1 ? r2 W4 _]; subst. cbn in R0. injection R0 as ->. auto.
Qed.

Lemma code_le v c : var_ok v -> code_ok v c -> c <= 2 ^ nvals v - 1.
Proof. intros (B & EB & L & _) (B' & EB' & H). rewrite EB in EB'. injection EB' as <-. lia. Qed.

Lemma wf_cell M row v : wf_cpm M -> In row (c_C M) -> In v (c_vars M) -> code_ok v (at_ row (pos (c_vars M) v)).
Proof.
  intros (N & _ & _ & W & _) Hr Hv. specialize (W row Hr). pose proof (pos_In _ _ N Hv) as E. unfold at_.
  revert W E. generalize (pos (c_vars M) v). generalize (c_vars M). clear. intros vs n W. revert n.
  induction W as [|w c vs row Hc _ IH]; intros [|n] E; cbn in *; try discriminate; auto. injection E as <-. auto.
Qed.

Definition part_vars Msys Ms := (children Msys ++ mult_of Msys Ms) ++ rest_of Msys Ms.
Lemma part_incl Msys Ms : incl (part_vars Msys Ms) (c_vars Msys).
Proof.
  intros v Hv. unfold part_vars in Hv. rewrite !in_app_iff in Hv. destruct Hv as [[Hv|Hv]|Hv]; [apply children_incl; auto| |];
    apply filter_In in Hv as [Hv _]; apply parents_incl; auto.
Qed.

Definition new_row Msys Ms cs row := proj (c_vars Msys) (part_vars Msys Ms) row ++ map snd (new_conds cs (rest_of Msys Ms)).

Lemma prod_sys_spec Msys Ms cs : prod_ok Msys Ms cs ->
  prod_sys Msys Ms = Ok (mkCpm (part_vars Msys Ms ++ map fst (new_conds cs (rest_of Msys Ms)))
    (List.length (children Msys ++ mult_of Msys Ms))
    (map (new_row Msys Ms cs) (c_C Msys))
    (map (fun rp => (snd rp * qprod (map (fun v => comp_factor Ms v (at_ (fst rp) (pos (c_vars Msys) v))) (mult_of Msys Ms)))%Qc)
         (combine (c_C Msys) (c_p Msys)))).
Proof.
  intros (W & P & NC & NM & HM & HC & HA). unfold prod_sys.
  assert (forallb (fun x => (c_nch x =? 1)%nat) Ms = true) as ->.
  { apply forallb_forall. intros m Hm. rewrite Forall_forall in HM. destruct (HM m Hm) as (_ & _ & -> & _). auto. }
  cbn [negb]. rewrite comp_names_ok by auto. cbn [bind].
  assert (E1 : filter (is_mult (map cname Ms)) (parents Msys) = mult_of Msys Ms).
  { apply filter_ext. intros v. apply is_mult_in; auto. }
  assert (E2 : filter (fun v => negb (is_mult (map cname Ms) v)) (parents Msys) = rest_of Msys Ms).
  { apply filter_ext. intros v. rewrite is_mult_in; auto. }
  rewrite E1, E2. rewrite (cond_of_ok Ms cs) by auto. cbn [bind].
  destruct (c_C Msys) as [|r0 C0] eqn:EC; [congruence|]. rewrite <- EC in *. clear r0 C0 EC.
  fold (part_vars Msys Ms).
  assert (E3 : mapM (name_index Msys) (names (part_vars Msys Ms)) = Ok (map (pos (c_vars Msys)) (part_vars Msys Ms))).
  { unfold names. pose proof (part_incl Msys Ms) as Hi. revert Hi. generalize (part_vars Msys Ms). induction l as [|v l IH]; intros Hi; auto.
    cbn [map mapM]. rewrite (name_index_pos Msys v); [|apply W|apply Hi; left; auto]. cbn [bind].
    rewrite IH; auto. intros x Hx. apply Hi. right; auto. }
  rewrite E3. cbn [bind].
  rewrite (map_ext _ (fun row => proj (c_vars Msys) (part_vars Msys Ms) row)).
  2:{ intros row. unfold cols, proj. apply map_map. }
  rewrite (add_conds_ok Ms) by auto. rewrite map_map.
  change (fun x => proj (c_vars Msys) (part_vars Msys Ms) x ++ map snd (new_conds cs (rest_of Msys Ms))) with (new_row Msys Ms cs).
  rewrite idxs_mult by auto. fold (mult_of Msys Ms).
  assert (Hrow : forall row, In row (c_C Msys) -> List.length row = List.length (c_vars Msys)) by (intros row Hr; apply (wf_rows Msys row W Hr)).
  rewrite (mult_fold Msys); auto.
  - cbn [bind]. unfold mk_cpm. rewrite app_assoc. fold (part_vars Msys Ms).
    assert ((List.length (children Msys ++ mult_of Msys Ms) <=? List.length (part_vars Msys Ms ++ map fst (new_conds cs (rest_of Msys Ms))))%nat = true) as ->.
    { apply Nat.leb_le. unfold part_vars. rewrite !app_length. lia. }
    rewrite check_C_ok; [cbn [bind]|].
    + match goal with |- context [check_p ?c ?p] => assert (check_p c p = Ok tt) as -> end; auto.
      unfold check_p. destruct (map _ (combine _ _)) eqn:E; auto. rewrite <- E, !map_length, combine_length.
      unfold has_p in P. rewrite P, Nat.min_id, Nat.eqb_refl. auto.
    + intros row Hr. apply in_map_iff in Hr as (r & <- & Hr). unfold new_row. split.
      * unfold proj. rewrite !app_length, !map_length. auto.
      * intros k v c Hv Hc. destruct (Nat.lt_ge_cases k (List.length (part_vars Msys Ms))) as [Hk|Hk].
        -- rewrite nth_error_app1 in Hv by auto. rewrite nth_error_app1 in Hc by (unfold proj; rewrite map_length; auto).
           unfold proj in Hc. rewrite (map_nth_error _ _ _ Hv) in Hc. injection Hc as <-.
           assert (Hin : In v (c_vars Msys)) by (apply (part_incl Msys Ms); eapply nth_error_In; eauto).
           apply code_le; [|apply wf_cell; auto]. destruct W as (_ & W & _). rewrite Forall_forall in W. auto.
        -- rewrite nth_error_app2 in Hv by auto. rewrite nth_error_app2 in Hc by (unfold proj; rewrite map_length; auto).
           unfold proj in Hc. rewrite map_length in Hc. rewrite nth_error_map in Hv, Hc.
           destruct (nth_error (new_conds cs (rest_of Msys Ms)) _) as [[y s]|] eqn:E; [|discriminate]. cbn in Hv, Hc.
           injection Hv as <-. injection Hc as <-. apply nth_error_In in E. apply filter_In in E as [E _].
           destruct (conds_code Ms cs y s) as [V1 V2]; auto. apply code_le; auto.
  - intros v Hv. apply filter_In in Hv as [Hv _]. apply parents_incl; auto.
  - apply Forall_forall. intros v Hv. apply filter_In in Hv as [_ Hv]. auto.
  - intros row i v Hr Hi. split.
    + apply wf_cell; auto. apply nth_error_In in Hi. apply filter_In in Hi as [Hv _]. apply parents_incl; auto.
    + unfold new_row, at_. apply nth_error_nth. rewrite nth_error_app1.
      2:{ unfold proj, part_vars. rewrite map_length, !app_length. assert (i < List.length (mult_of Msys Ms))%nat by (apply nth_error_Some; congruence).
          assert (List.length (children Msys) = c_nch Msys) by (unfold children; apply firstn_length_le, W). lia. }
      unfold proj. rewrite nth_error_map. unfold part_vars.
      assert (L : List.length (children Msys) = c_nch Msys) by (unfold children; apply firstn_length_le, W).
      rewrite <- app_assoc, nth_error_app2 by lia. replace (c_nch Msys + (0 + i) - List.length (children Msys))%nat with i by lia.
      rewrite nth_error_app1 by (apply nth_error_Some; congruence). rewrite Hi. reflexivity.
Qed.

(** ** the result as a product *)
Lemma marg_ext_on l f g : forall a, (forall b, (forall n, ~ In n (names l) -> b n = a n) -> f b = g b) -> marg l f a = marg l g a.
Proof.
  induction l as [|v l IH]; intros a H; cbn [marg]; [apply H; auto|]. f_equal. apply map_ext. intros x. apply IH.
  intros b Hb. apply H. intros n Hn. cbn in Hn. rewrite Hb by tauto. unfold set_joint.
  destruct (String.eqb_spec n (v_name v)); auto. subst. tauto.
Qed.

Lemma marg_rows vars row (F : variable -> Z -> Qc) l : forall (q : joint -> Qc) (K : joint -> bool) a, NoDup (names l) ->
  (forall b v x, In v l -> K (set_joint b v x) = K b /\ q (set_joint b v x) = q b) ->
  marg l (fun b => if forallb (cell vars row b) l && K b then (q b * qprod (map (fun v => F v (b (v_name v))) l))%Qc else 0%Qc) a =
  if K a then (q a * qprod (map (fun v => qsum (map (F v) (filter (fun x => mem_Z x (states_of v (at_ row (pos vars v)))) (zrange 0 (nvals v))))) l))%Qc else 0%Qc.
Proof.
  induction l as [|v l IH]; intros q K a N H; cbn [marg forallb andb map qprod]; auto.
  inversion N as [|? ? N1 N2]; subst.
  set (P := qprod (map _ l)).
  transitivity (qsum (map (fun x => if mem_Z x (states_of v (at_ row (pos vars v))) && K a then (q a * F v x * P)%Qc else 0%Qc) (zrange 0 (nvals v)))).
  - apply qsum_map_ext. intros x _.
    rewrite (marg_ext l _ (fun b => if forallb (cell vars row b) l && (cell vars row b v && K b)
        then ((q b * F v (b (v_name v))) * qprod (map (fun v => F v (b (v_name v))) l))%Qc else 0%Qc)).
    2:{ intros b. rewrite andb_assoc, (andb_comm (forallb _ l)). destruct (cell vars row b v && forallb (cell vars row b) l && K b); ring. }
    rewrite (IH (fun b => (q b * F v (b (v_name v)))%Qc) (fun b => cell vars row b v && K b)); auto.
    + destruct (H a v x (or_introl eq_refl)) as [-> ->]. fold P. unfold cell, set_joint. rewrite String.eqb_refl. auto.
    + intros b w y Hw. destruct (H b w y (or_intror Hw)) as [-> ->]. unfold cell, set_joint.
      assert (Hne : v_name v <> v_name w) by (intros E; apply N1; rewrite E; apply in_map; auto).
      destruct (String.eqb_spec (v_name v) (v_name w)); [contradiction|]. auto.
  - destruct (K a).
    + rewrite qsum_filter. rewrite <- (qsum_map_scale_r P). rewrite <- qsum_map_scale. apply qsum_map_ext. intros x _.
      rewrite andb_true_r. destruct (mem_Z _ _); ring.
    + apply qsum_map_zero. intros x _. rewrite andb_false_r. auto.
Qed.

Lemma mass_comp Ms cs m v b : Forall comp_ok Ms -> Forall basic_child Ms -> conditioned Ms cs -> meets_conds cs b ->
  In m Ms -> children m = [v] -> mass m b = total (fun row => hd 0 row =? b (v_name v)) m.
Proof.
  intros H HB HC Hm Hin Hv. rewrite Forall_forall in H, HB. destruct (H m Hin) as (W & P & N1 & _). specialize (HB m Hin).
  rewrite mass_weighted, total_weighted. rewrite (comp_vars m v Hv N1).
  assert (weights m = c_p m) as ->.
  { unfold weights. unfold has_p in P. destruct (c_p m); auto. destruct (c_C m); [auto|discriminate]. }
  apply weighted_ext. intros row Hr. destruct (wf_rows m row W Hr) as [L _]. rewrite (comp_vars m v Hv N1) in L.
  assert (X := HB v row (b (v_name v))). rewrite Hv in X. specialize (X (or_introl eq_refl) Hr).
  destruct row as [|c row]; [discriminate|]. cbn [hd] in *. unfold row_match. cbn [combine forallb fst snd].
  assert (mem_Z (b (v_name v)) (states_of v c) = (c =? b (v_name v))) as ->.
  { apply eq_true_iff_eq. rewrite mem_Z_In, X, Z.eqb_eq. split; auto. }
  assert (forallb (fun vc => mem_Z (b (v_name (fst vc))) (states_of (fst vc) (snd vc))) (combine (parents m) row) = true) as ->; [|apply andb_true_r].
  destruct HC as [[_ HC]|(y & s & -> & HC)]; [rewrite HC by auto; auto|]. destruct (HC m Hin) as [-> HR].
  specialize (HR _ Hr). cbn in HR. destruct row as [|s' row]; [discriminate|]. cbn in HR. injection HR as ->.
  cbn. destruct row; rewrite andb_true_r; apply mem_Z_In, Hm; left; auto.
Qed.

Lemma comp_total_range m v c : comp_ok m -> children m = [v] ->
  comp_total m (states_of v c) =
  qsum (map (fun x => total (fun row => hd 0 row =? x) m) (filter (fun x => mem_Z x (states_of v c)) (zrange 0 (nvals v)))).
Proof.
  intros (_ & _ & _ & w & Hc & _ & _ & _ & HB) Hv. rewrite Hv in Hc. injection Hc as <-. unfold comp_total.
  apply qsum_perm, Permutation_map, NoDup_Permutation; [apply HB|apply NoDup_filter, zrange_NoDup|].
  intros x. rewrite filter_In, zrange_In, mem_Z_In. split; [|tauto]. intros Hx. split; auto. apply (HB c); auto.
Qed.

Lemma combine_proj vars l row : combine l (proj vars l row) = map (fun v => (v, at_ row (pos vars v))) l.
Proof. unfold proj. induction l as [|v l IH]; auto. cbn. rewrite IH. auto. Qed.
Lemma combine_app {A B} (l1 l2 : list A) (r1 r2 : list B) : List.length l1 = List.length r1 ->
  combine (l1 ++ l2) (r1 ++ r2) = combine l1 r1 ++ combine l2 r2.
Proof. revert r1. induction l1 as [|x l1 IH]; intros [|y r1] H; cbn in *; try lia; auto. rewrite IH by lia. auto. Qed.
Lemma combine_fst_snd {A B} (l : list (A * B)) : combine (map fst l) (map snd l) = l.
Proof. induction l as [|[x y] l IH]; auto. cbn. rewrite IH. auto. Qed.

Lemma combine_map_l {A B C} (f : A -> C) (l : list A) (r : list B) : combine (map f l) r = map (fun ab => (f (fst ab), snd ab)) (combine l r).
Proof. revert r. induction l as [|x l IH]; intros [|y r]; cbn; auto. rewrite IH. auto. Qed.

Lemma total_map f (g : list Z -> list Z) (h : list Z * Qc -> Qc) vars n C p : List.length C = List.length p ->
  total f (mkCpm vars n (map g C) (map h (combine C p))) =
  qsum (map (fun rp => if f (g (fst rp)) then h rp else 0%Qc) (combine C p)).
Proof.
  unfold total. cbn [c_C c_p]. revert p. induction C as [|r C IH]; intros [|q p] L; cbn in L; try lia; auto.
  cbn [combine map filter fst]. specialize (IH p ltac:(lia)). destruct (f (g r)); cbn [map snd qsum]; rewrite IH; auto. ring.
Qed.

Lemma prod_sys_mass Msys Ms cs R a : prod_ok Msys Ms cs -> Forall basic_child Ms ->
  (forall y s v, In (y, s) cs -> In v (mult_of Msys Ms) -> v_name y <> v_name v) ->
  prod_sys Msys Ms = Ok R -> meets_conds cs a ->
  mass_on (children Msys ++ rest_of Msys Ms ++ map fst cs) R a =
  marg (mult_of Msys Ms) (pmass (Msys :: comps_for Ms (mult_of Msys Ms))) a.
Proof.
  intros OK HB HY E Ha. rewrite (prod_sys_spec _ _ cs OK) in E. injection E as <-.
  destruct OK as (W & P & NC & NM & HM & HC & HA). pose proof (proj1 W) as Hn.
  unfold mass_on. rewrite total_map by (symmetry; apply P). cbn [c_vars fst snd].
  set (vars := c_vars Msys) in *. set (mult := mult_of Msys Ms) in *. set (K := children Msys ++ rest_of Msys Ms).
  assert (Hmi : incl mult vars) by (intros v Hv; apply filter_In in Hv as [Hv _]; apply parents_incl; auto).
  assert (Hper : Permutation vars (mult ++ K)).
  { unfold vars, K. rewrite (vars_split Msys). rewrite app_assoc. rewrite (Permutation_app_comm mult), <- app_assoc.
    apply Permutation_app_head. unfold mult, mult_of, rest_of. generalize (parents Msys). clear. induction l as [|v l IH]; auto.
    cbn [filter]. destruct (in_comps Ms v); cbn [negb app]; [constructor; auto|]. rewrite IH at 1. apply Permutation_middle. }
  assert (Nmk : NoDup (names (mult ++ K))) by (eapply Permutation_NoDup; [apply Permutation_map, Hper|auto]).
  assert (Nm : NoDup (names mult)).
  { apply filter_NoDup_names. unfold names, parents in *. rewrite <- skipn_map. clear - Hn. rewrite <- (firstn_skipn (c_nch Msys)) in Hn.
    apply NoDup_app_r in Hn. auto. }
  assert (Nk : forall v w, In v mult -> In w K -> v_name w <> v_name v).
  { intros v w Hv Hw Ew. assert (w = v). { apply (NoDup_names_inj (mult ++ K)); auto; apply in_or_app; auto. } subst w.
    clear - Nmk Hv Hw. unfold names in Nmk. rewrite map_app in Nmk. induction mult as [|u l IH]; [destruct Hv|].
    cbn in Nmk. inversion Nmk as [|? ? N1 N2]; subst. destruct Hv as [->|Hv]; auto. apply N1. apply in_or_app. right. apply in_map; auto. }
  assert (Lr : forall row, In row (c_C Msys) -> List.length row = List.length vars) by (intros row Hr; apply (wf_rows Msys row W Hr)).
  assert (Hcf : forall v, In v mult -> exists m, comp_for Ms v = Some m /\ In m Ms /\ comp_ok m /\ children m = [v]).
  { intros v Hv. pose proof Hv as Hv'. apply filter_In in Hv' as [_ Hc]. unfold in_comps in Hc. destruct (comp_for Ms v) as [m|] eqn:E; [|discriminate].
    exists m. split; auto. apply (comp_for_ok Msys Ms v m); auto. }
  set (F := fun (v : variable) (x : Z) => match comp_for Ms v with Some m => total (fun row => hd 0 row =? x) m | None => 0%Qc end).
  (* right side *)
  transitivity (marg mult (fun b => qsum (map (fun rp => if forallb (cell vars (fst rp) b) mult && forallb (cell vars (fst rp) b) K
        then (snd rp * qprod (map (fun v => F v (b (v_name v))) mult))%Qc else 0%Qc) (combine (c_C Msys) (c_p Msys)))) a).
  - rewrite (marg_qsum mult). apply qsum_map_ext. intros [row q] Hin. cbn [fst snd]. apply in_combine_l in Hin.
    rewrite (marg_rows vars row F mult (fun _ => q) (fun b => forallb (cell vars row b) K)); auto.
    2:{ intros b v x Hv. split; auto. apply forallb_ext_in. intros w Hw. unfold cell, set_joint.
        destruct (String.eqb_spec (v_name w) (v_name v)) as [e|]; auto. exfalso. apply (Nk v w); auto. }
    assert (EK : forallb (fun vc => negb (mem_str (v_name (fst vc)) (names (children Msys ++ rest_of Msys Ms ++ map fst cs))) ||
          mem_Z (a (v_name (fst vc))) (states_of (fst vc) (snd vc)))
          (combine (part_vars Msys Ms ++ map fst (new_conds cs (rest_of Msys Ms))) (new_row Msys Ms cs row)) = forallb (cell vars row a) K).
    { unfold new_row. rewrite combine_app by (unfold proj; rewrite map_length; auto). rewrite combine_proj, combine_fst_snd.
      rewrite forallb_app. rewrite forallb_map. cbn [fst snd].
      assert (E1 : forallb (fun vc : variable * Z => negb (mem_str (v_name (fst vc)) (names (children Msys ++ rest_of Msys Ms ++ map fst cs))) ||
          mem_Z (a (v_name (fst vc))) (states_of (fst vc) (snd vc))) (new_conds cs (rest_of Msys Ms)) = true).
      { apply forallb_forall. intros [y s] Hy. apply filter_In in Hy as [Hy _]. cbn [fst snd]. rewrite (proj2 (mem_Z_In _ _) (Ha y s Hy)). apply orb_true_r. }
      rewrite E1, andb_true_r. unfold part_vars, K. rewrite !forallb_app.
      assert (S1 : forall l, incl l K -> forallb (fun x => negb (mem_str (v_name x) (names (children Msys ++ rest_of Msys Ms ++ map fst cs))) ||
          mem_Z (a (v_name x)) (states_of x (at_ row (pos vars x)))) l = forallb (cell vars row a) l).
      { intros l Hl. apply forallb_ext_in. intros v Hv. rewrite (proj2 (mem_str_In _ _)); auto.
        rewrite app_assoc. unfold names. rewrite map_app. apply in_or_app. left. apply in_map. apply Hl; auto. }
      fold vars. rewrite (S1 (children Msys)), (S1 (rest_of Msys Ms)); [|unfold K; intros v Hv; apply in_or_app; auto|unfold K; intros v Hv; apply in_or_app; auto].
      fold mult. match goal with |- _ && ?m && _ = _ => assert (m = true) as -> end; [|rewrite andb_true_r; auto].
      apply forallb_forall. intros v Hv. destruct (mem_str _ _) eqn:Em; auto. exfalso. apply mem_str_In in Em.
      apply in_map_iff in Em as (w & Ew & Hw). rewrite app_assoc in Hw. apply in_app_or in Hw as [Hw|Hw]; [apply (Nk v w); auto|].
      apply in_map_iff in Hw as ([y s] & <- & Hy). apply (HY y s v); auto. }
    rewrite EK. destruct (forallb (cell vars row a) K); auto. f_equal. fold mult. f_equal. apply map_ext_in. intros v Hv.
    destruct (Hcf v Hv) as (m & Em & _ & Hok & Hch). unfold comp_factor, F. rewrite Em. apply comp_total_range; auto.
  - apply marg_ext_on. intros b Hb. unfold pmass. cbn [map qprod]. rewrite mass_if.
    assert (weights Msys = c_p Msys) as ->.
    { unfold weights. unfold has_p in P. destruct (c_p Msys); auto. destruct (c_C Msys); [auto|discriminate]. }
    assert (Eq : qprod (map (fun M => mass M b) (comps_for Ms mult)) = qprod (map (fun v => F v (b (v_name v))) mult)).
    { assert (Hbc : meets_conds cs b).
      { intros y s Hy. rewrite Hb; [apply Ha; auto|]. intros Hin. apply in_map_iff in Hin as (v & Ev & Hv). apply (HY y s v); auto. }
      revert Hcf. clear - HM HB HC Hbc F. induction mult as [|v l IH]; intros Hcf; auto. unfold comps_for. cbn [flat_map].
      destruct (Hcf v (or_introl eq_refl)) as (m & Em & Hin & Hok & Hch). rewrite Em. cbn [app map qprod].
      fold (comps_for Ms l). rewrite IH by (intros; apply Hcf; right; auto). f_equal. unfold F. rewrite Em.
      apply (mass_comp Ms cs); auto. }
    rewrite Eq, <- qsum_map_scale_r. apply qsum_map_ext. intros [row q] Hin. cbn [fst snd]. apply in_combine_l in Hin.
    fold vars. rewrite row_match_cells by auto.
    assert (forallb (cell vars row b) vars = forallb (cell vars row b) mult && forallb (cell vars row b) K) as ->.
    { rewrite <- forallb_app. apply eq_true_iff_eq. rewrite !forallb_forall. split; intros X v Hv; apply X.
      - eapply Permutation_in; [symmetry; exact Hper|auto]. - eapply Permutation_in; [exact Hper|auto]. }
    destruct (_ && _); ring.
Qed.

Lemma part_perm Msys Ms : Permutation (c_vars Msys) (part_vars Msys Ms).
Proof.
  unfold part_vars. rewrite (vars_split Msys) at 1. rewrite <- app_assoc. apply Permutation_app_head.
  unfold mult_of, rest_of. generalize (parents Msys). induction l as [|v l IH]; auto.
  cbn [filter]. destruct (in_comps Ms v); cbn [negb app]; [constructor; auto|]. rewrite IH at 1. apply Permutation_middle.
Qed.

Lemma prod_result_wf Msys Ms cs : prod_ok Msys Ms cs ->
  (forall y s v, In (y, s) cs -> In v (children Msys ++ mult_of Msys Ms) -> v_name y <> v_name v) ->
  wf_cpm (mkCpm (part_vars Msys Ms ++ map fst (new_conds cs (rest_of Msys Ms)))
    (List.length (children Msys ++ mult_of Msys Ms))
    (map (new_row Msys Ms cs) (c_C Msys))
    (map (fun rp => (snd rp * qprod (map (fun v => comp_factor Ms v (at_ (fst rp) (pos (c_vars Msys) v))) (mult_of Msys Ms)))%Qc)
         (combine (c_C Msys) (c_p Msys)))).
Proof.
  intros (W & P & NC & NM & HM & HC & HA) HY. split; [|split; [|split; [|split]]]; cbn [c_vars c_nch c_C c_p].
  - unfold names. rewrite map_app. apply NoDup_app_intro.
    + eapply Permutation_NoDup; [apply Permutation_map, part_perm|apply W].
    + destruct HC as [[-> _]|(y & s & -> & _)]; cbn; [constructor|]. destruct (negb _); cbn; repeat constructor; auto.
    + intros n Hn Hy. apply in_map_iff in Hy as (y & <- & Hy). apply in_map_iff in Hy as ([y' s] & E & Hy). cbn in E. subst y'.
      apply filter_In in Hy as [Hy Hr]. cbn [fst] in Hr. apply in_map_iff in Hn as (v & Ev & Hv). unfold part_vars in Hv.
      apply in_app_or in Hv as [Hv|Hv]; [apply (HY y s v); auto|]. apply negb_true_iff in Hr.
      apply not_true_iff_false in Hr. apply Hr. apply mem_str_In. rewrite <- Ev. apply in_map; auto.
  - apply Forall_app. split.
    + apply Forall_forall. intros v Hv. apply part_incl in Hv. destruct W as (_ & W & _). rewrite Forall_forall in W. auto.
    + apply Forall_forall. intros y Hy. apply in_map_iff in Hy as ([y' s] & E & Hy). cbn in E. subst y'. apply filter_In in Hy as [Hy _].
      apply (conds_code Ms cs y s); auto.
  - unfold part_vars. rewrite !app_length. lia.
  - intros row Hr. apply in_map_iff in Hr as (r & <- & Hr). unfold new_row. apply Forall2_app.
    + assert (Hi := part_incl Msys Ms). revert Hi. generalize (part_vars Msys Ms). induction l as [|v l IH]; intros Hi; constructor.
      * apply wf_cell; auto. apply Hi. left; auto.
      * apply IH. intros x Hx. apply Hi. right; auto.
    + assert (H : Forall (fun ys => code_ok (fst ys) (snd ys)) (new_conds cs (rest_of Msys Ms))).
      { apply Forall_forall. intros [y s] Hy. apply filter_In in Hy as [Hy _]. apply (conds_code Ms cs y s); auto. }
      induction H; constructor; auto.
  - right. unfold has_p in P. rewrite !map_length, combine_length. lia.
Qed.
