(** The nodes of the power-cut network. *)
From Coq Require Import ZArith List String Bool Arith Lia Permutation QArith Qcanon.
From Verif Require Import Py PyFacts Num Vari VariFacts Cpm CpmFacts SpecCpm CpmCond CpmSum CpmMarg CpmElim CpmProb SysVal SpecSys SysValFacts PropSys Bnb Power SpecPower BnetFacts.
Import ListNotations.
Open Scope string_scope.
Open Scope Z_scope.
Open Scope list_scope.

Lemma qz_le x y : (qz x <= qz y)%Qc <-> x <= y.
Proof.
  unfold qz, Qcle, Q2Qc. cbn [this]. rewrite !Qred_correct. unfold Qle. cbn. lia.
Qed.
Lemma vle_num x y : vle (VNum (qz x)) (VNum (qz y)) <-> x <= y.
Proof. cbn. apply qz_le. Qed.
Lemma vnum_inj x y : VNum (qz x) = VNum (qz y) -> x = y.
Proof. intros H. apply qz_inj. congruence. Qed.

(** * Numbered values *)
Lemma num_values_length n : List.length (num_values n) = n.
Proof. unfold num_values. rewrite map_length, zrange_length. lia. Qed.
Lemma num_values_In n v : In v (num_values n) <-> exists k, 0 <= k < Z.of_nat n /\ v = VNum (qz k).
Proof.
  unfold num_values. rewrite in_map_iff. split.
  - intros (k & <- & H). apply In_zrange in H. eauto.
  - intros (k & H & ->). exists k. split; auto. apply In_zrange. auto.
Qed.
Lemma num_values_nth n k : 0 <= k < Z.of_nat n -> nth_error (num_values n) (Z.to_nat k) = Some (VNum (qz k)).
Proof.
  intros H. unfold num_values. rewrite nth_error_map.
  assert (E : nth_error (zrange 0 (Z.of_nat n)) (Z.to_nat k) = Some k); [|rewrite E; auto].
  unfold zrange. rewrite nth_error_map. rewrite (nth_error_nth' _ 0%nat) by (rewrite seq_length; lia). cbn [option_map]. rewrite seq_nth by lia. f_equal. lia.
Qed.
Lemma num_values_NoDup n : NoDup (num_values n).
Proof. unfold num_values. apply FinFun.Injective_map_NoDup; [intros x y; apply vnum_inj|apply zrange_NoDup]. Qed.
Lemma num_values_asc n : ascending (num_values n).
Proof.
  unfold num_values. generalize 0. intros z. assert (S := zrange_sorted z (Z.of_nat n)). induction S as [|k l S IH F]; cbn; auto. split; auto.
  intros w Hw. apply in_map_iff in Hw as (j & <- & Hj). rewrite Forall_forall in F. specialize (F j Hj). split; [apply qz_le; lia|].
  intros E. apply vnum_inj in E. lia.
Qed.
Lemma vle_antisym a b : vle a b -> vle b a -> a = b.
Proof.
  destruct a as [x| |s], b as [y| |t]; cbn; intros H1 H2; try contradiction; auto.
  - f_equal. apply Qcle_antisym; auto.
  - destruct H1 as [->|H1]; auto. destruct H2 as [->|H2]; auto. exfalso.
    assert (A : String.ltb s t = true) by (unfold String.ltb; rewrite H1; auto). assert (B : String.ltb t s = true) by (unfold String.ltb; rewrite H2; auto).
    destruct v_order as (Irr & Tr & _). specialize (Irr (VStr s)). rewrite (Tr (VStr s) (VStr t) (VStr s) A B) in Irr. discriminate.
Qed.
Lemma ascending_unique l1 : forall l2, ascending l1 -> ascending l2 -> (forall v, In v l1 <-> In v l2) -> l1 = l2.
Proof.
  induction l1 as [|x l1 IH]; intros [|y l2] A1 A2 H; auto.
  - destruct (proj2 (H y)); left; auto.
  - destruct (proj1 (H x)); left; auto.
  - destruct A1 as [X1 A1], A2 as [X2 A2]. assert (x = y).
    { destruct (proj1 (H x)) as [E|E]; [left; auto|auto|]. destruct (proj2 (H y)) as [E'|E']; [left; auto|auto|].
      apply vle_antisym; [apply X1; auto|apply X2; auto]. }
    subst y. f_equal. apply IH; auto. intros v. specialize (H v). cbn in H. split; intros Hv.
    + destruct (proj1 H (or_intror Hv)) as [<-|]; auto. destruct (X1 x Hv) as [_ E]. congruence.
    + destruct (proj2 H (or_intror Hv)) as [<-|]; auto. destruct (X2 x Hv) as [_ E]. congruence.
Qed.

(** * Variables with numbered values *)
Definition full (v : variable) : Prop := v_B v = Some (gen_B (List.length (v_values v))).
Definition counts (v : variable) : Prop :=
  exists k flag, (1 <= k)%nat /\ v = mk_variable (v_name v) (num_values k) flag /\ full v.
Lemma mk_full name vals flag : vals <> [] -> ((List.length vals <= 6)%nat /\ flag = None) \/ flag = Some FStore -> full (mk_variable name vals flag).
Proof.
  intros Hne H. unfold full, mk_variable. cbn [v_B v_values]. unfold stores_B.
  replace (0 <? List.length vals)%nat with true by (symmetry; apply Nat.ltb_lt; destruct vals; [congruence|cbn; lia]).
  destruct H as [[H ->]| ->]; [|rewrite orb_true_r; auto]. replace (List.length vals <=? 6)%nat with true by (symmetry; apply Nat.leb_le; auto). auto.
Qed.
Lemma full_var_ok name vals flag : full (mk_variable name vals flag) -> var_ok (mk_variable name vals flag).
Proof. intros F. eapply mk_variable_ok. exact F. Qed.
Lemma full_code v c : full v -> 0 <= c < nvals v -> code_ok v c /\ states_of v c = [c].
Proof.
  unfold full, nvals. intros F H. split.
  - exists (gen_B (List.length (v_values v))). split; auto. rewrite gen_B_length_Z.
    pose proof (Z.pow_gt_lin_r 2 (Z.of_nat (List.length (v_values v)))). lia.
  - unfold states_of. rewrite F. destruct (Z.ltb_spec c 0); [lia|]. apply nth_error_nth with (d := []).
    rewrite gen_B_basic by lia. rewrite Z2Nat.id by lia. auto.
Qed.
Lemma counts_num v : counts v -> v_values v = num_values (List.length (v_values v)) /\ (1 <= List.length (v_values v))%nat.
Proof. intros (k & flag & Hk & E & _). rewrite E. cbn [v_values mk_variable]. rewrite num_values_length. auto. Qed.
Lemma counts_value v a : counts v -> 0 <= a (v_name v) < nvals v -> value_at a v = Some (VNum (qz (a (v_name v)))).
Proof. intros C H. destruct (counts_num v C) as [E _]. unfold value_at. rewrite E. apply num_values_nth. exact H. Qed.
Lemma counts_ok v : counts v -> var_ok v.
Proof. intros (k & flag & Hk & E & F). rewrite E in *. apply full_var_ok; auto. Qed.
Lemma counts_parents vars : vars <> [] -> NoDup (names vars) -> (forall v, In v vars -> counts v) -> parents_ok vars.
Proof.
  intros Hne ND HC. split; auto. split; auto. split.
  - intros p Hp. destruct (HC p Hp) as (k & flag & Hk & E & F). split; [exact F|]. rewrite E. cbn [v_values mk_variable]. split; [|apply num_values_NoDup].
    intros X. apply (f_equal (@List.length value)) in X. rewrite num_values_length in X. cbn in X. lia.
  - intros p q v w Hp Hq Hv Hw. destruct (HC p Hp) as (k & flag & _ & E & _), (HC q Hq) as (k' & flag' & _ & E' & _). rewrite E in Hv. rewrite E' in Hw.
    cbn [v_values mk_variable] in Hv, Hw. apply num_values_In in Hv as (i & _ & ->), Hw as (j & _ & ->). auto.
Qed.

Definition zmax (l : list Z) : Z := fold_right Z.max 0 l.
Definition zmin (l : list Z) : Z := match l with [] => 0 | x :: l' => fold_right Z.min x l' end.
Lemma zmax_ge l x : In x l -> x <= zmax l.
Proof. induction l as [|y l IH]; intros H; [destruct H|]. cbn. destruct H as [->|H]; [lia|]. specialize (IH H). unfold zmax in IH. lia. Qed.
Lemma zmax_in l : l <> [] -> (forall x, In x l -> 0 <= x) -> In (zmax l) l.
Proof.
  induction l as [|y l IH]; intros Hne H; [congruence|]. cbn. destruct l as [|z l].
  - left. cbn. specialize (H y (or_introl eq_refl)). lia.
  - assert (X : In (zmax (z :: l)) (z :: l)) by (apply IH; [discriminate|intros x Hx; apply H; right; auto]).
    change (fold_right Z.max 0 (z :: l)) with (zmax (z :: l)). destruct (Z.max_spec y (zmax (z :: l))) as [[_ ->]|[_ ->]]; auto.
Qed.
Lemma zmin_le l x : In x l -> zmin l <= x.
Proof.
  destruct l as [|y l]; intros H; [destruct H|]. cbn. assert (G : forall l, fold_right Z.min y l <= y /\ forall x, In x l -> fold_right Z.min y l <= x).
  { clear. induction l as [|z l [IH1 IH2]]; cbn; [split; [lia|intros x []]|]. split; [lia|]. intros x [->|Hx]; [lia|]. specialize (IH2 x Hx). lia. }
  destruct (G l) as [G1 G2]. destruct H as [->|H]; auto.
Qed.
Lemma zmin_in l : l <> [] -> In (zmin l) l.
Proof.
  destruct l as [|y l]; intros H; [congruence|]. cbn. clear H. induction l as [|z l IH]; cbn; auto.
  destruct (Z.min_spec z (fold_right Z.min y l)) as [[_ ->]|[_ ->]]; tauto.
Qed.

(** ** maximum and minimum *)
Definition at_vars (vars : list variable) (a : joint) : list Z := map (fun p => a (v_name p)) vars.
Lemma at_vars_ne vars a : vars <> [] -> at_vars vars a <> [].
Proof. destruct vars; [congruence|discriminate]. Qed.
Lemma at_vars_pos vars a : states_in vars a -> forall x, In x (at_vars vars a) -> 0 <= x.
Proof. intros S x H. apply in_map_iff in H as (p & <- & Hp). apply S; auto. Qed.
Lemma largest_max vars a : vars <> [] -> (forall v, In v vars -> counts v) -> states_in vars a -> largest vars a (VNum (qz (zmax (at_vars vars a)))).
Proof.
  intros Hne HC S. split.
  - assert (X := zmax_in (at_vars vars a) (at_vars_ne _ _ Hne) (at_vars_pos _ _ S)). apply in_map_iff in X as (p & E & Hp). exists p. split; auto.
    rewrite counts_value by (auto; apply S; auto). rewrite E. auto.
  - intros p v Hp Hv. rewrite counts_value in Hv by (auto; apply S; auto). injection Hv as <-. apply vle_num. apply zmax_ge.
    apply (in_map (fun q => a (v_name q))); auto.
Qed.
Lemma smallest_min vars a : vars <> [] -> (forall v, In v vars -> counts v) -> states_in vars a -> smallest vars a (VNum (qz (zmin (at_vars vars a)))).
Proof.
  intros Hne HC S. split.
  - assert (X := zmin_in (at_vars vars a) (at_vars_ne _ _ Hne)). apply in_map_iff in X as (p & E & Hp). exists p. split; auto.
    rewrite counts_value by (auto; apply S; auto). rewrite E. auto.
  - intros p v Hp Hv. rewrite counts_value in Hv by (auto; apply S; auto). injection Hv as <-. apply vle_num. apply zmin_le.
    apply (in_map (fun q => a (v_name q))); auto.
Qed.
Lemma extreme_unique vars a m m' : parents_ok vars -> largest vars a m -> largest vars a m' -> m = m'.
Proof. intros OK H1 H2. eapply ext_unique; eauto. Qed.

Definition sizes (vars : list variable) : list Z := map nvals vars.

(** what the two functions return for such parents *)
Definition ext_node (f : list Z -> Z) (name : string) (vars : list variable) (M : cpm) (w : variable) : Prop :=
  v_name w = name /\ counts w /\ c_vars M = w :: vars /\ c_nch M = 1%nat /\ wf_cpm M /\ has_p M /\ basic_in M w /\ (forall q, In q (c_p M) -> q = 1%Qc) /\
  (forall a, states_in vars a -> 0 <= f (at_vars vars a) < nvals w) /\
  (forall a, states_in (w :: vars) a -> mass M a = if a (v_name w) =? f (at_vars vars a) then 1%Qc else 0%Qc).

Lemma ext_node_intro (f : list Z -> Z) K name vars M w : vars <> [] -> NoDup (name :: names vars) -> (forall v, In v vars -> counts v) -> (1 <= K)%nat ->
  c_vars M = w :: vars -> c_nch M = 1%nat -> c_p M = map (fun _ => 1%Qc) (c_C M) -> w = mk_variable name (v_values w) (Some FStore) ->
  v_values w = num_values K -> (forall row, In row (c_C M) -> row <> []) -> (forall s r, In (s :: r) (c_C M) -> 0 <= s < nvals w /\ Forall2 code_ok vars r) ->
  (forall a, states_in vars a -> 0 <= f (at_vars vars a) < Z.of_nat K) ->
  (forall a, states_in (w :: vars) a -> (value_at a w = Some (VNum (qz (f (at_vars vars a)))) -> mass M a = 1%Qc) /\ (value_at a w <> Some (VNum (qz (f (at_vars vars a)))) -> mass M a = 0%Qc)) ->
  ext_node f name vars M w.
Proof.
  intros Hne ND HC HK HV HN HP HW HVal HR HCo HF HM.
  assert (Nw : v_name w = name) by (rewrite HW; auto).
  assert (CW : counts w).
  { exists K, (Some FStore). split; auto. split; [rewrite Nw, <- HVal; auto|]. rewrite HW. apply mk_full; [|auto]. rewrite HVal.
    intros X. apply (f_equal (@List.length value)) in X. rewrite num_values_length in X. cbn in X. lia. }
  assert (FW : full w) by (destruct CW as (k & fl & _ & _ & F); auto).
  assert (NW : nvals w = Z.of_nat K) by (unfold nvals; rewrite HVal, num_values_length; auto).
  assert (ROW : forall row, In row (c_C M) -> exists s r, row = s :: r /\ 0 <= s < nvals w /\ Forall2 code_ok vars r).
  { intros row Hr. destruct row as [|s r]; [exfalso; apply (HR [] Hr); auto|]. exists s, r. split; auto. }
  assert (HPl : has_p M) by (unfold has_p; rewrite HP, map_length; auto).
  split; auto. split; auto. split; auto. split; auto. split; [|split; auto; split; [|split; [|split]]].
  - split; [rewrite HV; cbn; rewrite Nw; auto|]. split; [rewrite HV; constructor; [apply counts_ok; auto|apply Forall_forall; intros v Hv; apply counts_ok; auto]|].
    split; [rewrite HN, HV; cbn; lia|]. split; [|right; auto]. intros row Hr. destruct (ROW row Hr) as (s & r & -> & Hs & F). rewrite HV. constructor; auto.
    apply full_code; auto.
  - intros row c Hr Hc. destruct (ROW row Hr) as (s & r & -> & Hs & F). rewrite HV in Hc. cbn [combine] in Hc. destruct Hc as [[= <-]|Hc].
    + exists s. split; auto. intros x. rewrite (proj2 (full_code w s FW Hs)). cbn. intuition.
    + exfalso. apply in_combine_l in Hc. inversion ND as [|? ? X _]. apply X. rewrite <- Nw. apply (in_map v_name); auto.
  - intros q Hq. rewrite HP in Hq. apply in_map_iff in Hq as (x & <- & _). auto.
  - intros a Sa. rewrite NW. auto.
  - intros a Sa. assert (Sv : 0 <= a (v_name w) < nvals w) by (apply Sa; left; auto). destruct (HM a Sa) as [H1 H2]. rewrite counts_value in H1, H2 by auto.
    destruct (Z.eqb_spec (a (v_name w)) (f (at_vars vars a))) as [E|E]; [apply H1; rewrite E; auto|]. apply H2. intros X. apply E. apply vnum_inj. congruence.
Qed.

Lemma max_node name vars : vars <> [] -> NoDup (name :: names vars) -> (forall v, In v vars -> counts v) ->
  exists M w, sys_max_val name vars = Ok (M, w) /\ ext_node zmax name vars M w.
Proof.
  intros Hne ND HC. assert (ND' : NoDup (names vars)) by (inversion ND; auto). assert (OK := counts_parents vars Hne ND' HC).
  destruct (sys_val_props v_ltb v_ltb name vars largest v_order v_order OK (fun a m => best_largest vars a m OK))
    as (M & w & raw & p & E & H1 & H2 & H3 & H4 & H0 & H5 & H6 & H7 & HR & HF & HS & HT & HCo).
  exists M, w. split; [exact E|]. set (K := Z.to_nat (zmax (sizes vars))).
  assert (SZ : forall v, In v vars -> 1 <= nvals v <= zmax (sizes vars)).
  { intros v Hv. split; [destruct (counts_num v (HC v Hv)) as [_ X]; unfold nvals; lia|]. apply zmax_ge. apply in_map; auto. }
  assert (TOP : exists v, In v vars /\ nvals v = zmax (sizes vars)).
  { assert (X : In (zmax (sizes vars)) (sizes vars)).
    { apply zmax_in; [destruct vars; [congruence|discriminate]|]. intros x Hx. apply in_map_iff in Hx as (v & <- & Hv). specialize (SZ v Hv). lia. }
    apply in_map_iff in X as (v & EX & Hv). eauto. }
  destruct TOP as (t & Ht & Et). assert (HK : (1 <= K)%nat) by (specialize (SZ t Ht); unfold K; lia).
  assert (RNG : forall a, states_in vars a -> 0 <= zmax (at_vars vars a) < Z.of_nat K).
  { intros a Sa. assert (X := zmax_in (at_vars vars a) (at_vars_ne _ _ Hne) (at_vars_pos _ _ Sa)). apply in_map_iff in X as (q & Eq & Hq).
    rewrite <- Eq. specialize (SZ q Hq). specialize (Sa q Hq). unfold K. lia. }
  assert (VAL : v_values w = num_values K).
  { apply ascending_unique; auto; [apply num_values_asc|]. intros v. rewrite H6, num_values_In. split.
    - intros (a & Sa & L). exists (zmax (at_vars vars a)). split; [apply RNG; auto|]. apply (extreme_unique vars a); auto. apply largest_max; auto.
    - intros (k & Hk & ->). set (a := fun n => if String.eqb n (v_name t) then k else 0). exists a.
      assert (Sa : states_in vars a).
      { intros q Hq. unfold a. destruct (String.eqb_spec (v_name q) (v_name t)) as [X|X].
        - assert (q = t) by (eapply NoDup_names_inj; eauto). subst q. unfold K in Hk. lia.
        - specialize (SZ q Hq). lia. }
      split; auto. assert (Z : zmax (at_vars vars a) = k); [|rewrite <- Z; apply largest_max; auto].
      assert (X := zmax_in (at_vars vars a) (at_vars_ne _ _ Hne) (at_vars_pos _ _ Sa)).
      assert (Y : k <= zmax (at_vars vars a)).
      { apply zmax_ge. assert (At : a (v_name t) = k) by (unfold a; rewrite String.eqb_refl; auto). rewrite <- At. apply (in_map (fun p => a (v_name p))); auto. }
      apply in_map_iff in X as (q & Eq & Hq). assert (Cq : a (v_name q) = k \/ a (v_name q) = 0) by (unfold a; destruct (String.eqb (v_name q) (v_name t)); auto). lia. }
  apply (ext_node_intro zmax K); auto. intros a Sa. assert (Sa' : states_in vars a) by (intros q Hq; apply Sa; right; auto).
  destruct (C39_nested name vars M w OK E) as [_ G].
  - intros q q' v u Hq Hq' Hv Hu [L _]. destruct (counts_num q (HC q Hq)) as [X _], (counts_num q' (HC q' Hq')) as [X' _]. rewrite X in Hv. rewrite X' in Hu |- *.
    apply num_values_In in Hv as (i & Hi & ->), Hu as (j & Hj & ->). apply (proj1 (vle_num i j)) in L. apply num_values_In. exists i. split; [lia|auto].
  - apply G; auto. apply largest_max; auto.
Qed.

Lemma min_node name vars : vars <> [] -> NoDup (name :: names vars) -> (forall v, In v vars -> counts v) ->
  exists M w, sys_min_val name vars = Ok (M, w) /\ ext_node zmin name vars M w.
Proof.
  intros Hne ND HC. assert (ND' : NoDup (names vars)) by (inversion ND; auto). assert (OK := counts_parents vars Hne ND' HC).
  destruct (sys_val_props v_gtb v_gtb name vars smallest gt_order gt_order OK (fun a m => best_smallest vars a m OK))
    as (M & w & raw & p & E & H1 & H2 & H3 & H4 & H0 & H5 & H6 & H7 & HR & HF & HS & HT & HCo).
  exists M, w. split; [exact E|]. set (K := Z.to_nat (zmin (sizes vars))).
  assert (SZ : forall v, In v vars -> zmin (sizes vars) <= nvals v) by (intros v Hv; apply zmin_le, in_map; auto).
  assert (LOW : exists v, In v vars /\ nvals v = zmin (sizes vars)).
  { assert (X : In (zmin (sizes vars)) (sizes vars)) by (apply zmin_in; destruct vars; [congruence|discriminate]). apply in_map_iff in X as (v & EX & Hv). eauto. }
  destruct LOW as (t & Ht & Et). assert (HK : (1 <= K)%nat).
  { destruct (counts_num t (HC t Ht)) as [_ X]. unfold K, nvals in *. lia. }
  assert (RNG : forall a, states_in vars a -> 0 <= zmin (at_vars vars a) < Z.of_nat K).
  { intros a Sa. assert (X := zmin_in (at_vars vars a) (at_vars_ne _ _ Hne)). split; [apply (at_vars_pos vars a Sa); auto|].
    assert (Y : zmin (at_vars vars a) <= a (v_name t)) by (apply zmin_le, (in_map (fun p => a (v_name p))); auto). specialize (Sa t Ht). unfold K. lia. }
  assert (UNI : forall a m, states_in vars a -> smallest vars a m -> m = VNum (qz (zmin (at_vars vars a)))).
  { intros a m Sa L. eapply (ext_unique vars a); eauto. right. split; eauto. apply smallest_min; auto. }
  assert (VAL : v_values w = num_values K).
  { apply ascending_unique; auto; [apply num_values_asc|]. intros v. rewrite H6, num_values_In. split.
    - intros (a & Sa & L). exists (zmin (at_vars vars a)). split; [apply RNG; auto|]. apply UNI; auto.
    - intros (k & Hk & ->). exists (fun _ => k).
      assert (Sa : states_in vars (fun _ => k)) by (intros q Hq; specialize (SZ q Hq); unfold K in Hk; lia).
      split; auto. assert (Z : zmin (at_vars vars (fun _ => k)) = k); [|assert (Y := smallest_min vars (fun _ => k) Hne HC Sa); rewrite Z in Y; auto].
      assert (X := zmin_in (at_vars vars (fun _ => k)) (at_vars_ne _ _ Hne)). apply in_map_iff in X as (q & Eq & Hq). auto. }
  apply (ext_node_intro zmin K); auto. intros a Sa. assert (Sa' : states_in vars a) by (intros q Hq; apply Sa; right; auto).
  destruct (C40_states_partial name vars M w OK E) as [_ G].
  - intros q b m (l1 & l2 & EQ & _) Sb L. rewrite (UNI b m Sb L). assert (Hq : In q vars) by (rewrite EQ; apply in_app_iff; right; left; auto).
    destruct (counts_num q (HC q Hq)) as [X _]. rewrite X. apply num_values_In. exists (zmin (at_vars vars b)). split; auto.
    split; [apply RNG; auto|]. assert (Y : zmin (at_vars vars b) <= b (v_name q)) by (apply zmin_le, (in_map (fun p => b (v_name p))); auto).
    specialize (Sb q Hq). unfold nvals in Sb. lia.
  - apply G; auto. apply smallest_min; auto.
Qed.
