(** The joint CPM of system and components is returned: for each state of the hazard every
    step succeeds, and the rows found for two states are the same. *)
From Coq Require Import ZArith List String Bool Arith Lia QArith Qcanon Permutation Sorted Relations.
From Verif Require Import Py Num Vari Cpm SpecCpm PyFacts VariFacts CpmFacts CpmCond CpmProd CpmList CpmSum CpmMarg CpmElim CpmProb CpmMean Net SpecNet NetFacts MsysProd SpecProd MsysProdFacts VeCond SpecVe VeFacts CalFacts CalJoin VeTotal.
Import ListNotations.
Open Scope string_scope.
Open Scope Z_scope.
Open Scope list_scope.

Lemma product_cnt M1 M2 M a : wf_cpm M1 -> wf_cpm M2 -> agree (c_vars M1) (c_vars M2) -> disjoint_children M1 M2 -> product M1 M2 = Ok M ->
  cnt M a = (cnt M1 a * cnt M2 a)%nat.
Proof.
  intros W1 W2 Ha Hd H. unfold product in H. destruct (ncols M2 <? ncols M1)%nat.
  - assert (Hcc : common_child M2 M1 = false) by (apply common_child_spec, disj_sym; auto).
    destruct (product_ord_inv M2 M1 Hcc M H) as (I1 & I2 & I3).
    rewrite (product_ord_spec M2 M1 W2 W1 (agree_sym _ _ Ha) Hcc I1 I2 I3) in H. injection H as <-.
    rewrite cnt_prod_result by (auto using agree_sym, disj_sym). lia.
  - assert (Hcc : common_child M1 M2 = false) by (apply common_child_spec; auto).
    destruct (product_ord_inv M1 M2 Hcc M H) as (I1 & I2 & I3).
    rewrite (product_ord_spec M1 M2 W1 W2 Ha Hcc I1 I2 I3) in H. injection H as <-.
    rewrite cnt_prod_result by auto. lia.
Qed.
Lemma cnt_rows M a : (0 < cnt M a)%nat -> c_C M <> [].
Proof. intros H Z. unfold cnt in H. rewrite Z in H. cbn in H. lia. Qed.
Lemma has_p_ne M : has_p M -> c_C M <> [] -> c_p M <> [].
Proof. intros H N Z. unfold has_p in H. rewrite Z in H. destruct (c_C M); [congruence|discriminate]. Qed.
Lemma product_rows M1 M2 M r1 r2 : wf_cpm M1 -> wf_cpm M2 -> agree (c_vars M1) (c_vars M2) -> disjoint_children M1 M2 -> product M1 M2 = Ok M ->
  In r1 (c_C M1) -> In r2 (c_C M2) -> compatible M1 M2 r1 r2 -> c_C M <> [].
Proof.
  intros W1 W2 Ha Hd H H1 H2 Cm Z. unfold product in H. destruct (ncols M2 <? ncols M1)%nat.
  - assert (Hcc : common_child M2 M1 = false) by (apply common_child_spec, disj_sym; auto).
    destruct (product_ord_inv M2 M1 Hcc M H) as (I1 & I2 & I3).
    rewrite (product_ord_spec M2 M1 W2 W1 (agree_sym _ _ Ha) Hcc I1 I2 I3) in H. injection H as <-.
    destruct (proj2 (rows_prod M2 M1 W2 W1 (agree_sym _ _ Ha) Hcc) r2 r1 H2 H1) as (row & Hr & _); [|rewrite Z in Hr; destruct Hr].
    intros v A B. specialize (Cm v B A). apply meets_spec in Cm as (x & X1 & X2). apply meets_spec. eauto.
  - assert (Hcc : common_child M1 M2 = false) by (apply common_child_spec; auto).
    destruct (product_ord_inv M1 M2 Hcc M H) as (I1 & I2 & I3).
    rewrite (product_ord_spec M1 M2 W1 W2 Ha Hcc I1 I2 I3) in H. injection H as <-.
    destruct (proj2 (rows_prod M1 M2 W1 W2 Ha Hcc) r1 r2 H1 H2 Cm) as (row & Hr & _). rewrite Z in Hr. destruct Hr.
Qed.

(** * Components conditioned on the hazard *)
Lemma comp_rows h s0 x m : cond_comp h s0 (x, m) -> c_vars m = [x; h] /\ (forall row, In row (c_C m) -> exists i, row = [i; s0] /\ 0 <= i < nvals x) /\
  (forall i, 0 <= i < nvals x -> In [i; s0] (c_C m)) /\ forall i, 0 <= i < nvals x -> In i (states_of x i).
Proof.
  intros (OK & BC & Cm & Pm & Rm). cbn [fst snd] in *. assert (Vm : c_vars m = [x; h]) by (rewrite vars_split, Cm, Pm; auto).
  destruct OK as (W & _ & _ & v & Ev & _ & _ & Hr & _). assert (v = x) by congruence. subst v.
  assert (Sh : forall row, In row (c_C m) -> exists i, row = [i; s0] /\ 0 <= i < nvals x).
  { intros row H. pose proof W as (_ & _ & _ & W4 & _). specialize (W4 row H). rewrite Vm in W4. inversion W4 as [|? i ? r1 R1 R2]; subst.
    inversion R2 as [|? c ? r2 R3 R4]; subst. inversion R4; subst. specialize (Rm _ H). cbn in Rm. injection Rm as ->. exists i. split; auto.
    apply Hr. apply in_map_iff. exists [i; s0]. auto. }
  assert (Fu : forall i, 0 <= i < nvals x -> In [i; s0] (c_C m)).
  { intros i Hi. apply Hr in Hi. apply in_map_iff in Hi as (row & <- & Hi). destruct (Sh row Hi) as (j & -> & _). auto. }
  split; [auto|]. split; [auto|]. split; [auto|]. intros i Hi. apply (BC x [i; s0] i); [rewrite Cm; left; auto|auto|reflexivity].
Qed.

Lemma comp_cnt h s0 k x m a : cond_comp h s0 (x, m) -> names_state h s0 k -> a (v_name h) = k -> 0 <= a (v_name x) < nvals x -> (0 < cnt m a)%nat.
Proof.
  intros C [_ Hs] Ha Hx. destruct (comp_rows h s0 x m C) as (V & _ & F & B). apply cnt_row. exists [a (v_name x); s0]. split; [auto|].
  rewrite V. unfold row_match. cbn [combine forallb fst snd]. rewrite andb_true_r. apply andb_true_iff. split; apply mem_Z_In; [auto|apply Hs; auto].
Qed.

Lemma comp_sim h s1 s2 k x m1 m2 : v_name x <> v_name h -> cond_comp h s1 (x, m1) -> cond_comp h s2 (x, m2) -> names_state h s2 k ->
  sim [h] (fun _ => k) m1 m2.
Proof.
  intros N C1 C2 Hs. destruct (comp_rows h s1 x m1 C1) as (V1 & R1 & F1 & B1). destruct (comp_rows h s2 x m2 C2) as (V2 & R2 & F2 & B2).
  destruct C1 as ((W1 & _ & N1 & _) & _). destruct C2 as ((W2 & _ & N2 & _) & _). cbn [fst snd] in *.
  assert (Px : pos [x; h] x = 0%nat) by (unfold pos; cbn [find_idx]; rewrite v_eqb_refl; auto).
  assert (Pp : pos [x; h] h = 1%nat) by (unfold pos; cbn [find_idx]; rewrite v_eqb_names, v_eqb_refl; auto).
  split; [split; congruence|]. split; [auto|]. split; [auto|]. split.
  - intros row v Hr Hv Hk. destruct (R2 row Hr) as (i & -> & _). rewrite V2 in *. destruct Hk as [Hk|[]].
    destruct Hv as [<-|[<-|[]]]; [exfalso; auto|]. rewrite Pp. auto.
  - intros row Hr. destruct (R1 row Hr) as (i & -> & Hi). exists [i; s2]. split; [auto|]. rewrite V1. intros v [<-|[<-|[]]] Hk; [rewrite Px; auto|].
    exfalso. apply Hk. left; auto.
Qed.

(** * Joining components *)
Section join.
Variables (sys : string) (h : variable) (S : cpm).
Notation X := (parents S).
Hypothesis WS : wf_cpm S.
Hypothesis hS : ~ In (v_name h) (names (c_vars S)).
Hypothesis sX : ~ In sys (names X).

Lemma join_eq s0 cs S' L x m : joined h s0 S cs S' L -> In (x, m) L ->
  join_sys sys (dict_of L sys S') (v_name x) =
    (P <- product S' m ;; Ok (dict_of (filter (fun xm => negb (String.eqb (v_name (fst xm)) (v_name x))) L) sys P)) /\
  wf_cpm m /\ has_p m /\ agree (c_vars S') (c_vars m) /\ disjoint_children S' m.
Proof using All.
  intros J Hm. pose proof J as (W & P & FL & NL & IL & CH & LP & PL & Q). assert (Hx : In x (map fst L)) by (apply in_map_iff; exists (x, m); auto).
  assert (sL : ~ In sys (names (map fst L))).
  { intros Z. apply sX. apply in_map_iff in Z as (v & <- & Hv). apply in_map. apply IL. auto. }
  assert (xs : v_name x <> sys). { intros Z. apply sL. rewrite <- Z. apply in_map. auto. }
  rewrite Forall_forall in FL. pose proof (FL _ Hm) as (OK & BC & Cm & Pm & Rm). cbn [fst snd] in *.
  assert (Vm : c_vars m = [x; h]) by (rewrite vars_split, Cm, Pm; auto).
  split; [|split; [apply OK|split; [apply OK|split]]].
  - unfold join_sys. rewrite dget_last by auto. cbn [bind]. rewrite (dget_pair L sys S' x m NL Hm). cbn [bind].
    destruct (product S' m); cbn [bind]; auto. rewrite dset_last by auto. rewrite ddel_pair by auto. auto.
  - rewrite Vm. intros v w Hv [<-|[<-|[]]] Z.
    + apply (NoDup_names_inj (c_vars S')); auto; [apply W|apply parents_incl; auto].
    + rewrite vars_split in Hv. apply in_app_or in Hv as [Hv|Hv]; [exfalso; apply (joined_hC h s0 S cs hS S' L v J); auto|].
      destruct (PL v Hv) as [Hv'| ->]; auto. exfalso. apply (xh h S hS v); auto.
  - intros v w Hv Hw Z. rewrite Cm in Hw. destruct Hw as [<-|[]]. assert (N := proj1 W). rewrite vars_split in N. unfold names in N. rewrite map_app in N.
    apply (NoDup_app_disj _ _ (v_name v) N); [apply in_map; auto|rewrite Z; apply in_map, LP; auto].
Qed.

Lemma vars_ne s0 cs S' L x : joined h s0 S cs S' L -> In x (map fst L) -> c_vars S' <> [].
Proof. intros (_ & _ & _ & _ & _ & _ & LP & _) Hx Z. specialize (LP x Hx). apply parents_incl in LP. rewrite Z in LP. destruct LP. Qed.

Lemma join_total s0 k cs a J : names_state h s0 k -> a (v_name h) = k -> (forall x, In x X -> 0 <= a (v_name x) < nvals x) ->
  forall S' L, joined h s0 S cs S' L -> NoDup (names J) -> incl J (map fst L) -> (0 < cnt S' a)%nat ->
  exists S'' L', foldM (join_sys sys) (names J) (dict_of L sys S') = Ok (dict_of L' sys S'') /\ joined h s0 S cs S'' L' /\
    (forall v, In v (map fst L') <-> In v (map fst L) /\ ~ In v J) /\ (0 < cnt S'' a)%nat.
Proof using All.
  intros Hs Ha HX. induction J as [|x J IH]; intros S' L HJ N I Hc; cbn [names map foldM].
  - exists S', L. split; [auto|]. split; [auto|]. split; [intros v; cbn; tauto|auto].
  - assert (Hx := I x (or_introl eq_refl)). pose proof Hx as HxL. apply in_map_iff in HxL as ([x' m] & Ex & Hm). cbn in Ex. subst x'.
    destruct (join_eq s0 cs S' L x m HJ Hm) as (EJ & Wm & Pm & Ag & Dj).
    assert (CC : cond_comp h s0 (x, m)) by (destruct HJ as (_ & _ & FL & _); rewrite Forall_forall in FL; auto).
    assert (IX : incl (map fst L) X) by apply HJ.
    assert (Cm := comp_cnt h s0 k x m a CC Hs Ha (HX x (IX x Hx))).
    assert (Cm' := cnt_rows m a Cm).
    destruct (product_total S' m (proj1 HJ) Wm Ag Dj (cnt_rows S' a Hc) Cm' (vars_ne _ _ _ _ _ HJ Hx)) as [P EP].
    { destruct (comp_rows h s0 x m CC) as (-> & _). discriminate. }
    { right. apply has_p_ne; auto. }
    rewrite EP in EJ. cbn [bind] in EJ. unfold names in EJ |- *. rewrite EJ. cbn [bind].
    destruct (join_one sys h s0 S cs WS hS sX S' L x _ HJ Hx EJ) as (S1 & E1 & J1). set (L1 := filter _ L) in *.
    assert (S1 = P). { unfold dict_of in E1. apply app_inv_head in E1. injection E1 as <-. auto. } subst S1.
    cbn in N. inversion N as [|? ? N1 N2]; subst.
    assert (NL : NoDup (names (map fst L))) by apply HJ.
    assert (FI : forall v, In v (map fst L1) <-> In v (map fst L) /\ v <> x).
    { intros v. unfold L1. rewrite filter_fst, filter_In, negb_true_iff, String.eqb_neq. split; intros [A B]; split; auto; [congruence|].
      intros Z. apply B. apply (NoDup_names_inj (map fst L)); auto. }
    destruct (IH P L1 J1 N2) as (S2 & L2 & E2 & J2 & F2 & C2).
    { intros v Hv. apply FI. split; [apply I; right; auto|]. intros ->. apply N1. apply in_map. auto. }
    { rewrite (product_cnt S' m P _ (proj1 HJ) Wm Ag Dj EP). nia. }
    exists S2, L2. split; [exact E2|]. split; [auto|]. split; [|auto]. intros v. rewrite F2, FI. cbn. intuition.
Qed.

Lemma join_sim s1 s2 k cs1 cs2 J : names_state h s2 k ->
  forall S1 L1 S2 L2 T1 K1 T2 K2, joined h s1 S cs1 S1 L1 -> joined h s2 S cs2 S2 L2 -> map fst L1 = map fst L2 -> NoDup (names J) -> incl J (map fst L1) ->
  sim [h] (fun _ => k) S1 S2 ->
  foldM (join_sys sys) (names J) (dict_of L1 sys S1) = Ok (dict_of K1 sys T1) -> foldM (join_sys sys) (names J) (dict_of L2 sys S2) = Ok (dict_of K2 sys T2) ->
  sim [h] (fun _ => k) T1 T2 /\ names (map fst K1) = names (map fst K2).
Proof using All.
  intros Hs.
  assert (DI : forall L K sys' (A B : cpm), dict_of L sys' A = dict_of K sys' B -> A = B /\ names (map fst L) = names (map fst K)).
  { intros L K sys' A B E. unfold dict_of in E. apply app_inj_tail in E as [E1 E2]. injection E2 as <-. split; auto.
    apply (f_equal (map fst)) in E1. unfold names. rewrite !map_map in *. exact E1. }
  induction J as [|x J IH]; intros S1 L1 S2 L2 T1 K1 T2 K2 J1 J2 EL N I HS H1 H2; cbn [names map foldM] in H1, H2.
  - injection H1 as H1. injection H2 as H2. apply DI in H1 as [<- <-]. apply DI in H2 as [<- <-]. rewrite EL. auto.
  - assert (Hx := I x (or_introl eq_refl)). pose proof Hx as Hx1. apply in_map_iff in Hx1 as ([x' m1] & Ex & Hm1). cbn in Ex. subst x'.
    pose proof Hx as Hx2. rewrite EL in Hx2. pose proof Hx2 as Hx3. apply in_map_iff in Hx2 as ([x' m2] & Ex & Hm2). cbn in Ex. subst x'.
    destruct (join_eq s1 cs1 S1 L1 x m1 J1 Hm1) as (E1 & _ & _ & Ag & Dj). destruct (join_eq s2 cs2 S2 L2 x m2 J2 Hm2) as (E2 & _).
    destruct (product S1 m1) as [P1|] eqn:EP1; cbn [bind] in E1; [|rewrite E1 in H1; discriminate].
    destruct (product S2 m2) as [P2|] eqn:EP2; cbn [bind] in E2; [|rewrite E2 in H2; discriminate].
    rewrite E1 in H1. rewrite E2 in H2. cbn [bind] in H1, H2.
    destruct (join_one sys h s1 S cs1 WS hS sX S1 L1 x _ J1 Hx E1) as (Q1 & F1 & J1'). destruct (join_one sys h s2 S cs2 WS hS sX S2 L2 x _ J2 Hx3 E2) as (Q2 & F2 & J2').
    apply DI in F1 as [<- _]. apply DI in F2 as [<- _].
    assert (SP : sim [h] (fun _ => k) P1 P2).
    { apply (sim_product [h] (fun _ => k) S1 m1 S2 m2); auto; [|split; auto]. destruct J1 as (_ & _ & FL1 & _ & IX & _). destruct J2 as (_ & _ & FL2 & _).
      rewrite Forall_forall in FL1, FL2. apply (comp_sim h s1 s2 k x); auto. apply (xh h S hS). apply IX. auto. }
    cbn in N. inversion N as [|? ? N1 N2]; subst.
    apply (IH _ _ _ _ _ _ _ _ J1' J2'); auto.
    + rewrite !filter_fst, EL. auto.
    + intros v Hv. rewrite filter_fst. apply filter_In. split; [apply I; right; auto|]. apply negb_true_iff, String.eqb_neq. intros Z.
      assert (NL : NoDup (names (map fst L1))) by apply J1. apply N1. rewrite <- Z. apply in_map. auto.
Qed.
End join.

(** * The product with the components that are eliminated *)
Lemma in_comps_names s1 s2 h L1 L2 v : Forall (cond_comp h s1) L1 -> Forall (cond_comp h s2) L2 -> map fst L1 = map fst L2 ->
  in_comps (map snd L1) v = in_comps (map snd L2) v.
Proof.
  intros F1. revert L2. induction F1 as [|[x m] L1 (_ & _ & C1 & _) F1 IH]; intros [|[y m2] L2] F2 E; cbn in E; try discriminate; auto.
  injection E as <- E. inversion F2 as [|? ? (_ & _ & C2 & _) F2']; subst. cbn [fst snd] in *. specialize (IH L2 F2' E).
  unfold in_comps, comp_for in *. cbn [map snd find]. rewrite C1, C2. destruct (mem_str (v_name v) (names [x])); auto.
Qed.

Lemma tail_R_at h s0 S L r v : wf_cpm S -> wf_cpm (tail_R h s0 S L) -> In r (c_C S) ->
  (In v (part_vars S (map snd L)) -> cell_of (c_vars (tail_R h s0 S L)) (new_row S (map snd L) [(h, s0)] r) v = cell_of (c_vars S) r v) /\
  (In v (map fst (new_conds [(h, s0)] (rest_of S (map snd L)))) -> v = h /\ cell_of (c_vars (tail_R h s0 S L)) (new_row S (map snd L) [(h, s0)] r) v = s0).
Proof.
  intros W WR Hr. set (cs := map snd L) in *. set (R := tail_R h s0 S L) in *.
  assert (NR := proj1 WR). assert (VR : c_vars R = part_vars S cs ++ map fst (new_conds [(h, s0)] (rest_of S cs))) by reflexivity.
  assert (Lr : List.length (new_row S cs [(h, s0)] r) = List.length (c_vars R)).
  { apply (proj1 (wf_rows R (new_row S cs [(h, s0)] r) WR (in_map (new_row S cs [(h, s0)]) _ _ Hr))). }
  assert (Np : NoDup (names (part_vars S cs))).
  { rewrite VR in NR. unfold names in NR. rewrite map_app in NR. apply NoDup_app_l in NR. auto. }
  assert (Lp : List.length (proj (c_vars S) (part_vars S cs) r) = List.length (part_vars S cs)) by (unfold proj; rewrite map_length; auto).
  assert (CB : combine (c_vars R) (new_row S cs [(h, s0)] r) =
    combine (part_vars S cs) (proj (c_vars S) (part_vars S cs) r) ++ combine (map fst (new_conds [(h, s0)] (rest_of S cs))) (map snd (new_conds [(h, s0)] (rest_of S cs)))).
  { rewrite VR. unfold new_row. apply combine_app. auto. }
  split.
  - intros Hv. assert (Y : In (v, cell_of (c_vars S) r v) (combine (c_vars R) (new_row S cs [(h, s0)] r))).
    { rewrite CB. apply in_or_app. left. apply In_combine_at; auto. split; auto. symmetry. apply proj_at; auto. }
    apply In_combine_at in Y as [_ Y]; auto.
  - intros Hv. apply in_map_iff in Hv as ([w s] & Ew & Hw). cbn in Ew. subst w.
    assert (Hin := Hw). apply filter_In in Hin as [[[= <- <-]|[]] _]. split; auto.
    assert (Y : In (h, s0) (combine (c_vars R) (new_row S cs [(h, s0)] r))).
    { rewrite CB. apply in_or_app. right. clear -Hw. induction (new_conds [(h, s0)] (rest_of S cs)) as [|z l IH]; [destruct Hw|]. cbn [map combine].
      destruct Hw as [->|Hw]; [left; auto|right; auto]. }
    apply In_combine_at in Y as [_ Y]; auto.
Qed.

Lemma tail_R_sim h s1 s2 k S1 S2 L1 L2 : names_state h s2 k -> Forall (cond_comp h s1) L1 -> Forall (cond_comp h s2) L2 -> map fst L1 = map fst L2 ->
  sim [h] (fun _ => k) S1 S2 -> wf_cpm (tail_R h s1 S1 L1) -> wf_cpm (tail_R h s2 S2 L2) ->
  sim [h] (fun _ => k) (tail_R h s1 S1 L1) (tail_R h s2 S2 L2).
Proof.
  intros Hs F1 F2 EL (Sh & W1 & W2 & P & C) WR1 WR2. destruct (shape_children _ _ Sh) as [Sc Sp].
  assert (IC : forall v, in_comps (map snd L1) v = in_comps (map snd L2) v) by (intros v; apply (in_comps_names s1 s2 h); auto).
  assert (MU : mult_of S1 (map snd L1) = mult_of S2 (map snd L2)) by (unfold mult_of; rewrite Sp; apply filter_ext; auto).
  assert (RE : rest_of S1 (map snd L1) = rest_of S2 (map snd L2)) by (unfold rest_of; rewrite Sp; apply filter_ext; intros v; rewrite IC; auto).
  assert (PV : part_vars S1 (map snd L1) = part_vars S2 (map snd L2)) by (unfold part_vars; rewrite Sc, MU, RE; auto).
  assert (NC : map fst (new_conds [(h, s1)] (rest_of S1 (map snd L1))) = map fst (new_conds [(h, s2)] (rest_of S2 (map snd L2)))).
  { rewrite RE. unfold new_conds. cbn [filter fst]. destruct (mem_str _ _); auto. }
  assert (VR : c_vars (tail_R h s1 S1 L1) = c_vars (tail_R h s2 S2 L2)) by (unfold tail_R; cbn [c_vars]; rewrite PV, NC; auto).
  split; [|split; [auto|split; [auto|split]]].
  - split; [exact VR|]. unfold tail_R. cbn [c_nch]. rewrite Sc, MU. auto.
  - intros row v Hr Hv Hk. unfold tail_R in Hr. cbn [c_C] in Hr. apply in_map_iff in Hr as (r & <- & Hr).
    destruct (tail_R_at h s2 S2 L2 r v W2 WR2 Hr) as [A B]. unfold tail_R in Hv. cbn [c_vars] in Hv. apply in_app_or in Hv as [Hv|Hv].
    + rewrite (A Hv). apply P; auto. apply part_incl in Hv. auto.
    + destruct (B Hv) as [-> ->]. auto.
  - intros row Hr. unfold tail_R in Hr. cbn [c_C] in Hr. apply in_map_iff in Hr as (r & <- & Hr). destruct (C r Hr) as (r' & Hr' & E).
    exists (new_row S2 (map snd L2) [(h, s2)] r'). split; [unfold tail_R; cbn [c_C]; apply in_map; auto|].
    intros v Hv Hk. destruct (tail_R_at h s1 S1 L1 r v W1 WR1 Hr) as [A1 B1]. destruct (tail_R_at h s2 S2 L2 r' v W2 WR2 Hr') as [A2 _].
    rewrite <- VR in A2. unfold tail_R in Hv. cbn [c_vars] in Hv. apply in_app_or in Hv as [Hv|Hv].
    + rewrite (A1 Hv), (A2 ltac:(rewrite <- PV; auto)). rewrite <- (proj1 Sh). apply E; auto. apply part_incl in Hv. auto.
    + exfalso. destruct (B1 Hv) as [-> _]. apply Hk. left; auto.
Qed.

(** * One state of the hazard, and two *)
Section steps.
Variables (cpms : dict cpm) (sys : string) (h : variable) (S Ph : cpm) (comps : list cpm) (ord : list string).
Hypothesis HN : hazard_net cpms sys h S Ph comps.
Notation X := (parents S).
Notation jnt := (jnt_vars S ord).
Notation elm := (elm_vars S ord).
Variable a0 : joint.
Hypothesis A0 : allows [S] a0.
Hypothesis NE : elm <> [].

Notation step k := (cal_step (combine (names X) comps ++ [(sys, S)]) [] sys (names jnt) (names elm) [v_name h] Ph [k]).

Definition stage (k : Z) (m1 : cpm) (L : list (variable * cpm)) (s0 : Z) (S' : cpm) (L' : list (variable * cpm)) (m' m2 m3 : cpm) : Prop :=
  (wf_cpm m1 /\ c_vars m1 = [h] /\ c_nch m1 = 1%nat /\ c_C m1 <> [] /\ forall r, In r (c_C m1) -> exists e, r = [e] /\ names_state h e k) /\
  names_state h s0 k /\ joined h s0 S (map snd L) S L /\ map fst L = X /\
  foldM (join_sys sys) (names jnt) (dict_of L sys S) = Ok (dict_of L' sys S') /\ joined h s0 S (map snd L) S' L' /\
  wf_cpm (tail_R h s0 S' L') /\ sum (tail_R h s0 S' L') (Vars elm) true = Ok m' /\
  (wf_cpm m' /\ c_C m' <> [] /\ agree (c_vars m') (c_vars m1) /\ disjoint_children m' m1) /\
  product m' m1 = Ok m2 /\ (wf_cpm m2 /\ kept m2 [h] true <> [] /\ (forall v, In v (kept m2 [h] true) <-> In v (children S'))) /\
  sum m2 (Vars [h]) true = Ok m3.

Lemma stage_ex k : In [k] (c_C Ph) -> exists m1 L s0 S' L' m' m2 m3, stage k m1 L s0 S' L' m' m2 m3 /\ step k = Ok m3.
Proof using HN A0 NE.
  intros Hk. destruct (jstep_form cpms sys h S Ph comps ord HN k Hk) as (m1 & L & e & s0 & E & (Wm1 & Pm1 & Vm1 & Nm1 & Cm1 & Rm1 & Qm1 & Bm1) & He & Hs0 & J0 & FL1 & Pc).
  rewrite E. clear E. unfold rest_step.
  assert (NX0 := NX cpms sys h S Ph comps HN). assert (hS0 := hS cpms sys h S Ph comps HN). assert (WS0 := wfS cpms sys h S Ph comps HN).
  assert (sX : ~ In sys (names X)) by apply HN.
  set (a := fun n => if String.eqb n (v_name h) then k else a0 n).
  destruct (A0 S (or_introl eq_refl)) as (row & Hr & Hm).
  assert (Out : forall v, In v (c_vars S) -> a (v_name v) = a0 (v_name v)).
  { intros v Hv. unfold a. destruct (String.eqb_spec (v_name v) (v_name h)) as [Z|]; auto. exfalso. apply hS0. rewrite <- Z. apply in_map; auto. }
  assert (Cn : (0 < cnt S a)%nat).
  { apply cnt_row. exists row. split; auto. unfold row_match in *. rewrite forallb_forall in *. intros [v c] Hv. cbn [fst snd].
    rewrite Out by (eapply in_combine_l; eauto). exact (Hm (v, c) Hv). }
  assert (Rg : forall x, In x X -> 0 <= a (v_name x) < nvals x).
  { intros x Hx. rewrite (Out x (parents_incl _ _ Hx)).
    assert (BT : basic_table x).
    { destruct HN as (_ & _ & _ & _ & _ & _ & _ & _ & _ & _ & _ & _ & _ & _ & _ & _ & F). clear -F Hx. induction F as [|y m l cs (_ & _ & B) F IH]; [destruct Hx|].
      destruct Hx as [->|Hx]; auto. }
    unfold row_match in Hm. rewrite forallb_forall in Hm. specialize (Hm (x, at_ row (pos (c_vars S) x))). cbn [fst snd] in Hm.
    destruct BT as [_ BT]. apply (BT (at_ row (pos (c_vars S) x))). apply mem_Z_In. apply Hm. apply In_combine_at; [apply WS0|apply (wf_rows S row WS0 Hr)|].
    split; [apply parents_incl; auto|auto]. }
  assert (Ah : a (v_name h) = k) by (unfold a; rewrite String.eqb_refl; auto).
  destruct (join_total sys h S WS0 hS0 sX s0 k (map snd L) a jnt Hs0 Ah Rg S L J0) as (S' & L' & EJ & J & FJ & Cn'); auto.
  { apply names_filter. auto. }
  { rewrite FL1. intros v Hv. apply filter_In in Hv. tauto. }
  rewrite EJ. cbn [bind].
  pose proof J as (W' & P' & F' & N' & I' & C' & LP' & PL' & Q').
  assert (sL' : ~ In sys (names (map fst L'))). { intros Z. apply sX. apply in_map_iff in Z as (v & <- & Hv). apply in_map. auto. }
  rewrite rest_of_dict by auto. unfold variable_elim_list. cbn [foldM bind]. rewrite dget_last by auto. cbn [bind].
  assert (FE : forall v, In v (map fst L') <-> In v elm).
  { intros v. rewrite FJ, FL1. unfold elm_vars, jnt_vars. rewrite !filter_In. destruct (mem_str (v_name v) ord); cbn; intuition discriminate. }
  assert (L0 : L' <> []).
  { intros Z. subst L'. destruct elm as [|v l] eqn:Ee; [congruence|]. apply (proj2 (FE v)). left; auto. }
  assert (NC' : children S' <> []).
  { intros Z. assert (Y : children S <> []) by apply HN. destruct (children S) as [|c l] eqn:Ec; [congruence|].
    assert (Y2 : In c (children S')) by (apply C'; left; left; auto). rewrite Z in Y2. destruct Y2. }
  assert (hL' : forall v, In v (map fst L') -> v_name v <> v_name h) by (intros v Hv; apply (xh h S hS0); auto).
  assert (hC' : forall v, In v (children S') -> v_name v <> v_name h) by (intros v Hv; exact (joined_hC h s0 S (map snd L) hS0 S' L' v J Hv)).
  assert (Nel : NoDup (names elm)) by (apply names_filter; auto).
  destruct (tail_stage1 h k e s0 Ph m1 S' L' elm Hs0 He Wm1 Pm1 Vm1 Nm1 Bm1 Qm1 W' P' NC' F' N' FE Nel LP' PL' hL' hC' L0 (cnt_rows S' a Cn'))
    as (m' & ER & WR & E1 & E1' & Wm' & Pm' & Cm' & Ch' & V' & _).
  rewrite ER. cbn [bind]. rewrite E1. cbn [bind].
  destruct (tail_stage2 h k e s0 Ph m1 S' L' elm Hs0 He Wm1 Pm1 Vm1 Nm1 Bm1 Qm1 W' P' NC' F' N' FE Nel LP' PL' hL' hC' m' Wm' Pm' Ch' V') as (Ag & Dj & G).
  destruct (product_total m' m1 Wm' Wm1 Ag Dj Cm' Cm1) as (m2 & EP).
  { intros Z. assert (Y : In h (c_vars m')) by (apply V'; auto). rewrite Z in Y. destruct Y. }
  { rewrite Vm1. discriminate. }
  { left. apply has_p_ne; auto. }
  rewrite EP. cbn [bind]. destruct (G m2 EP) as (W2 & Hp2 & Es & NK2 & K2 & V2 & Q2 & B2). rewrite Es.
  destruct (sum_spec m2 [h] true W2 ltac:(discriminate) NK2) as (m3 & E3 & _). rewrite E3.
  exists m1, L, s0, S', L', m', m2, m3. split; [|auto].
  split; [split; [auto|split; [auto|split; [auto|split; [auto|]]]]; intros r Hr'; exists e; auto|].
  split; [auto|]. split; [auto|]. split; [auto|]. split; [auto|]. split; [auto|]. split; [auto|]. split; [auto|].
  split; [auto|]. split; [auto|]. split; [auto|]. auto.
Qed.

Lemma stage_sim k1 m1 L1 s1 S1 L1' m1' m12 m13 k2 n1 L2 s2 S2 L2' n1' n12 n13 :
  stage k1 m1 L1 s1 S1 L1' m1' m12 m13 -> stage k2 n1 L2 s2 S2 L2' n1' n12 n13 ->
  sim [h] (fun _ => k2) m1' n1' /\ sim [h] (fun _ => k2) m13 n13.
Proof using HN.
  intros ((Wm & Vm & Nm & Cm & Rm) & Hs1 & J1 & E1 & F1 & K1 & WR1 & Su1 & (W1' & C1' & Ag & Dj) & P1 & (W12 & NK1 & KK1) & T1)
         ((Wn & Vn & Nn & Cn & Rn) & Hs2 & J2 & E2 & F2 & K2 & WR2 & Su2 & (W2' & C2' & _) & P2 & (W22 & NK2 & KK2) & T2).
  assert (NX0 := NX cpms sys h S Ph comps HN). assert (hS0 := hS cpms sys h S Ph comps HN). assert (WS0 := wfS cpms sys h S Ph comps HN).
  assert (sX : ~ In sys (names X)) by apply HN.
  assert (S0 : sim [h] (fun _ => k2) S S).
  { split; [split; auto|]. split; [auto|]. split; [auto|]. split.
    - intros row v _ Hv [Z|[]]. exfalso. apply hS0. cbn in Z. rewrite Z. apply in_map; auto.
    - intros row Hr. exists row. auto. }
  assert (Nj : NoDup (names jnt)) by (apply names_filter; auto).
  assert (Ij : incl jnt (map fst L1)) by (rewrite E1; intros v Hv; apply filter_In in Hv; tauto).
  destruct (join_sim sys h S WS0 hS0 sX s1 s2 k2 (map snd L1) (map snd L2) jnt Hs2 S L1 S L2 S1 L1' S2 L2' J1 J2 ltac:(congruence) Nj Ij S0 F1 F2) as [SS EN].
  assert (EL : map fst L1' = map fst L2').
  { apply (names_eq X); auto; [apply K1|apply K2]. }
  assert (SR := tail_R_sim h s1 s2 k2 S1 S2 L1' L2' Hs2 (proj1 (proj2 (proj2 K1))) (proj1 (proj2 (proj2 K2))) EL SS WR1 WR2).
  assert (SM := sim_sum [h] (fun _ => k2) _ _ _ _ _ SR Su1 Su2). split; [auto|].
  assert (SH : sim [h] (fun _ => k2) m1 n1).
  { split; [split; congruence|]. split; [auto|]. split; [auto|]. split.
    - intros row v Hr Hv _. rewrite Vn in *. destruct Hv as [<-|[]]. destruct (Rn row Hr) as (e & -> & He).
      assert (pos [h] h = 0%nat) as -> by (unfold pos; cbn; rewrite v_eqb_refl; auto). auto.
    - intros row Hr. destruct (c_C n1) as [|r l]; [congruence|]. exists r. split; [left; auto|]. rewrite Vm. intros v [<-|[]] Z. exfalso. apply Z. left; auto. }
  assert (SP := sim_product [h] (fun _ => k2) _ _ _ _ _ _ SM SH (conj Ag Dj) P1 P2).
  exact (sim_sum [h] (fun _ => k2) _ _ _ _ _ SP T1 T2).
Qed.

Lemma steps_two k k0 : In [k] (c_C Ph) -> In [k0] (c_C Ph) -> exists m m0, step k = Ok m /\ step k0 = Ok m0 /\ c_C m0 <> [] /\
  c_vars m = c_vars m0 /\ forall r, In r (c_C m) -> In r (c_C m0).
Proof using HN A0 NE.
  intros H H0. destruct (stage_ex k H) as (m1 & L & s & S' & L' & m' & m2 & m3 & G & E). destruct (stage_ex k0 H0) as (n1 & M & t & T' & M' & n' & n2 & n3 & G0 & E0).
  destruct (stage_sim _ _ _ _ _ _ _ _ _ _ _ _ _ _ _ _ _ _ G G0) as [_ (Sh & W3 & W3' & Pn & Cv)].
  destruct (stage_sim _ _ _ _ _ _ _ _ _ _ _ _ _ _ _ _ _ _ G0 G0) as [(_ & _ & _ & Pn' & _) _].
  assert (hS0 := hS cpms sys h S Ph comps HN).
  exists m3, n3. split; [auto|]. split; [auto|].
  destruct G0 as ((Wn & Vn & Nn & Cn & Rn) & Hs2 & J2 & E2 & F2 & K2 & WR2 & Su2 & (W2' & C2' & Ag & Dj) & P2 & (W22 & NK2 & KK2) & T2).
  destruct (sum_spec n2 [h] true W22 ltac:(discriminate) NK2) as (n3' & T2' & _ & V3 & _ & _ & _ & R3 & _). assert (n3' = n3) by congruence. subst n3'.
  split; [|split; [apply Sh|]].
  - assert (N2 : c_C n2 <> []).
    { destruct (c_C n') as [|r' l'] eqn:En'; [congruence|]. destruct (c_C n1) as [|r1 l1] eqn:En1; [congruence|].
      apply (product_rows n' n1 n2 r' r1 W2' Wn Ag Dj P2); [rewrite En'; left; auto|rewrite En1; left; auto|].
      intros v Hv Hv1. rewrite Vn in *. destruct Hv1 as [<-|[]]. destruct (Rn r1 (or_introl eq_refl)) as (e & -> & He).
      assert (pos [h] h = 0%nat) as -> by (unfold pos; cbn; rewrite v_eqb_refl; auto).
      specialize (Pn' r' h ltac:(rewrite En'; left; auto) Hv (or_introl eq_refl)). cbn beta in Pn'. change (at_ [e] 0) with e. rewrite (meets_state h _ k0 _ k0 Pn' He). apply Z.eqb_refl. }
    destruct (c_C n2) as [|r l] eqn:En; [congruence|]. intros Z. assert (Y : In (proj (c_vars n2) (kept n2 [h] true) r) (c_C n3)); [|rewrite Z in Y; destruct Y].
    apply R3. exists r. split; [left; auto|auto].
  - intros r Hr. destruct (Cv r Hr) as (r' & Hr' & Er). assert (r = r'); [|subst; auto].
    destruct (wf_rows m3 r W3 Hr) as [L1 _]. destruct (wf_rows n3 r' W3' Hr') as [L2 _]. rewrite <- (proj1 Sh) in L2.
    apply (nth_ext _ _ 0 0); [congruence|]. intros i Hi. rewrite L1 in Hi.
    destruct (nth_error (c_vars m3) i) as [v|] eqn:Ev; [|apply nth_error_None in Ev; lia].
    assert (Hv := nth_error_In _ _ Ev). assert (Pv : pos (c_vars m3) v = i) by (unfold pos; rewrite (find_idx_pos (c_vars m3) v i (proj1 W3) Ev); auto).
    specialize (Er v Hv). rewrite Pv in Er. unfold at_ in Er. symmetry. apply Er. intros [Z|[]].
    assert (Y : In v (kept n2 [h] true)) by (rewrite <- V3, <- (proj1 Sh); auto). apply KK2 in Y.
    apply (joined_hC h t S (map snd M) hS0 T' M' v K2 Y). auto.
Qed.
End steps.

(** * All states of the hazard *)
Theorem jcal_total cpms varis sys h S Ph comps ord : hazard_net cpms sys h S Ph comps -> ~ In sys ord -> elm_vars S ord <> [] -> (exists a, allows [S] a) ->
  exists M, cal_msys cpms varis [v_name h] ord sys = Ok M.
Proof.
  intros HN NO NE (a0 & A0). pose proof HN as (DS & WS & _ & _ & _ & _ & hNS & sX & DP & WP & PP & VP & NP & _ & _ & CP & F).
  assert (NX0 := NX cpms sys h S Ph comps HN).
  assert (FX : forall x, In x (names (parents S)) -> exists m, dfind cpms x = Some m).
  { intros x Hx. apply in_map_iff in Hx as (p & <- & Hp). clear -F Hp. induction F as [|p0 m l cs H F IH]; [destruct Hp|]. destruct Hp as [->|Hp]; [exists m; tauto|auto]. }
  unfold cal_msys. destruct (inf_main cpms [sys] (Some ord)) as [(out & E & H1 & _)|(E & v & Hv & Hn)].
  2:{ exfalso. destruct (hazard_relevant _ _ _ _ _ _ _ HN Hv) as [->|[Hx| ->]]; [congruence| |congruence]. destruct (FX v Hx) as (m & Hm). congruence. }
  rewrite E. cbn [bind]. assert (dget cpms sys = Ok S) as -> by (apply dget_ok; auto). cbn [bind].
  rewrite (no_ve cpms sys h S Ph comps ord HN out NO (fun x Hx => proj1 (H1 x) Hx)).
  cbn [filter mapM bind]. rewrite jnt_names, (elm_names cpms sys h S Ph comps ord HN). cbn [app].
  destruct (inf_dict cpms sys h S Ph comps ord HN) as (ms & MS & MD). rewrite MS. cbn [bind]. rewrite MD.
  cbn [mapM]. assert (dget cpms (v_name h) = Ok Ph) as -> by (apply dget_ok; auto). cbn [bind product_list foldM].
  assert (HR := row_of_P cpms sys h S Ph comps HN).
  set (step := cal_step (combine (names (parents S)) comps ++ [(sys, S)]) [] sys (names (jnt_vars S ord)) (names (elm_vars S ord)) [v_name h] Ph).
  assert (ST : forall row row0, In row (c_C Ph) -> In row0 (c_C Ph) -> exists m m0, step row = Ok m /\ step row0 = Ok m0 /\ c_C m0 <> [] /\
     c_vars m = c_vars m0 /\ forall r, In r (c_C m) -> In r (c_C m0)).
  { intros row row0 Hr Hr0. destruct (HR row Hr) as (k & -> & _). destruct (HR row0 Hr0) as (k0 & -> & _). exact (steps_two cpms sys h S Ph comps ord HN a0 A0 NE k k0 Hr Hr0). }
  assert (SO : forall row m, In row (c_C Ph) -> step row = Ok m -> wf_cpm m /\ has_p m).
  { intros row m Hr Em. destruct (HR row Hr) as (k & -> & _). destruct (jstep_sound cpms sys h S Ph comps ord HN k m Hr Em) as (A & B & _). auto. }
  destruct (c_C Ph) as [|row rows] eqn:EC; [congruence|].
  destruct (ST row row (or_introl eq_refl) (or_introl eq_refl)) as (_ & M0 & _ & E0 & C0 & _). rewrite E0. cbn [bind].
  destruct (SO row M0 (or_introl eq_refl) E0) as [W0' P0].
  assert (LP : forall rs acc, incl rs (row :: rows) -> wf_cpm acc -> has_p acc -> c_vars acc = c_vars M0 -> c_C acc = c_C M0 ->
     exists M, foldM (fun acc r => m <- step r ;; merge acc m) rs acc = Ok M).
  { induction rs as [|r rs IH]; intros acc I Wa Pa Va Ra; cbn [foldM]; [eauto|].
    destruct (ST r row (I r (or_introl eq_refl)) (or_introl eq_refl)) as (m & M0' & Em & E0' & _ & Vm & Rm). assert (M0' = M0) by congruence. subst M0'.
    rewrite Em. cbn [bind]. destruct (SO r m (I r (or_introl eq_refl)) Em) as [Wm Pm].
    destruct (merge_ok acc m Wa (has_p_ne acc Pa ltac:(congruence)) Pm ltac:(congruence) ltac:(intros r' Hr'; rewrite Ra; auto)) as (M & EM & WM & VM & _ & CM & _).
    destruct (merge_inv acc m M Wa Pa Pm ltac:(congruence) EM) as (_ & PM & _). rewrite EM. cbn [bind].
    apply IH; auto; try congruence. intros y Hy. apply I. right; auto. }
  apply LP; auto. intros y Hy. right; auto.
Qed.

(** If every component is kept nothing is returned. *)
Theorem jcal_needs cpms varis sys h S Ph comps ord M : hazard_net cpms sys h S Ph comps -> ~ In sys ord ->
  cal_msys cpms varis [v_name h] ord sys = Ok M -> elm_vars S ord <> [].
Proof.
  intros HN NO H NE. pose proof HN as (DS & WS & _ & _ & _ & _ & hNS & sX & DP & WP & PP & VP & NP & _ & _ & CP & F).
  assert (NX0 := NX cpms sys h S Ph comps HN).
  unfold cal_msys in H. destruct (get_inf_vars cpms [sys] (Some ord)) as [out|] eqn:E; cbn [bind] in H; [|discriminate].
  assert (H1 : forall x, In x out -> relevant cpms [sys] x).
  { destruct (inf_main cpms [sys] (Some ord)) as [(out' & E' & H1 & _)|(E' & _)]; [|congruence]. rewrite E in E'. injection E' as <-. intros x Hx. apply H1. auto. }
  assert (dget cpms sys = Ok S) as DG by (apply dget_ok; auto). rewrite DG in H. cbn [bind] in H.
  rewrite (no_ve cpms sys h S Ph comps ord HN out NO H1) in H.
  cbn [filter mapM bind] in H. rewrite jnt_names, (elm_names cpms sys h S Ph comps ord HN) in H. cbn [app] in H.
  destruct (inf_dict cpms sys h S Ph comps ord HN) as (ms & MS & MD). rewrite MS in H. cbn [bind] in H. rewrite MD in H.
  cbn [mapM] in H. assert (dget cpms (v_name h) = Ok Ph) as DGh by (apply dget_ok; auto). rewrite DGh in H. cbn [bind product_list foldM] in H.
  destruct (c_C Ph) as [|row rows] eqn:EC; [congruence|]. assert (Hr : In row (c_C Ph)) by (rewrite EC; left; auto).
  destruct (row_of_P cpms sys h S Ph comps HN row Hr) as (k & -> & _).
  destruct (jstep_form cpms sys h S Ph comps ord HN k Hr) as (m1 & L & e & s0 & E1 & _ & _ & _ & J0 & FL1 & _). rewrite E1 in H. clear E1.
  destruct (foldM (join_sys sys) (names (jnt_vars S ord)) (dict_of L sys S)) as [d|] eqn:EJ; cbn [bind] in H; [|discriminate].
  destruct (join_all sys h s0 S (map snd L) WS hNS sX (jnt_vars S ord) S L d J0) as (S' & L' & -> & J & FJ); auto.
  { apply names_filter. auto. }
  { rewrite FL1. intros v Hv. apply filter_In in Hv. tauto. }
  assert (L' = []).
  { destruct L' as [|xm l]; auto. exfalso. destruct (proj1 (FJ (fst xm)) (or_introl eq_refl)) as [A B]. rewrite FL1 in A.
    assert (Y : In (fst xm) (elm_vars S ord)); [|rewrite NE in Y; destruct Y]. unfold elm_vars. apply filter_In. split; auto.
    destruct (mem_str (v_name (fst xm)) ord) eqn:Em; auto. exfalso. apply B. unfold jnt_vars. apply filter_In. rewrite Em. auto. }
  subst L'. unfold rest_step in H. rewrite rest_of_dict in H by (cbn; tauto). unfold variable_elim_list in H. cbn [map foldM bind] in H.
  rewrite dget_last in H by (cbn; tauto). cbn [bind] in H. assert (PE : prod_sys S' [] = Err IndexError) by reflexivity. rewrite PE in H. discriminate.
Qed.
