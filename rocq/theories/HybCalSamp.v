(** The samples of [cal_Msys_by_cond_VE] for a hazard network: facts. *)
From Coq Require Import ZArith List String Bool Arith Lia QArith Qcanon Permutation.
From Verif Require Import Py Num Vari Cpm SpecCpm PyFacts VariFacts CpmFacts CpmCond CpmProd CpmList CpmSum CpmMarg CpmElim CpmProb CpmMean Net SpecNet NetFacts MsysProd SpecProd MsysProdFacts VeCond SpecVe VeFacts CalFacts Hybrid SpecHyb HybFacts HybEst HybProd SpecHybProd HybProdFacts HybCal SpecHybCal HybCalFacts.
Import ListNotations.
Open Scope string_scope.
Open Scope Z_scope.
Open Scope list_scope.

Lemma seq_list (l : list Qc) n f : List.length l = n -> (forall i, (i < n)%nat -> nth i l 0%Qc = f i) -> l = map f (seq 0 n).
Proof.
  intros L H. rewrite <- (nth_seq l 0%Qc), L. apply map_ext_in. intros i Hi. apply in_seq in Hi. apply H. lia.
Qed.

Lemma sampled_comp_pos X cs x m : NoDup (names X) -> Forall2 (fun x m => children (h_c m) = [x]) X cs -> In (x, m) (combine X cs) -> sampled_comp cs x = Some m.
Proof.
  intros N F. induction F as [|y c X cs H F IH]; [intros []|]. cbn in N. inversion N as [|? ? N1 N2]; subst.
  unfold sampled_comp. cbn [combine find]. rewrite H. cbn [names map mem_str]. intros [[= -> ->]|Hin].
  - assert (X0 : mem_str (v_name x) [v_name x] = true) by (apply mem_str_In; left; auto). rewrite X0. auto.
  - assert (X0 : mem_str (v_name x) [v_name y] = false).
    { rewrite <- not_true_iff_false, mem_str_In. intros [E|[]]. apply N1. rewrite E. apply in_map. eapply in_combine_l; eauto. }
    rewrite X0. apply IH; auto.
Qed.
Lemma sampled_comps_all X cs : NoDup (names X) -> Forall2 (fun x m => children (h_c m) = [x]) X cs -> sampled_comps cs X = cs.
Proof.
  intros N F. assert (G : forall x m, In (x, m) (combine X cs) -> sampled_comp cs x = Some m) by (intros x m; apply sampled_comp_pos; auto).
  assert (L : List.length X = List.length cs) by (pose proof F as F'; apply Forall2_length in F'; auto). clear F N.
  enough (H : forall cs0 X cs, (forall x m, In (x, m) (combine X cs) -> sampled_comp cs0 x = Some m) -> List.length X = List.length cs -> sampled_comps cs0 X = cs) by (apply H; auto).
  clear. intros cs0. unfold sampled_comps. induction X as [|x X IH]; intros [|c cs] G L; cbn in L; try lia; auto.
  cbn [flat_map]. rewrite (G x c (or_introl eq_refl)). cbn [app]. f_equal. apply IH; [|lia]. intros y m H. apply G. right. auto.
Qed.

Lemma h_sum_names M vs flag : NoDup (names (c_vars (h_c M))) -> incl vs (c_vars (h_c M)) -> h_sum M (Names (names vs)) flag = h_sum M (Vars vs) flag.
Proof. intros N I. unfold h_sum. rewrite sum_names by auto. reflexivity. Qed.
Lemma h_sum_ps M vs flag M' : h_sum M vs flag = Ok M' -> no_samples M = false -> h_ps M' = h_ps M.
Proof.
  unfold h_sum. destruct (sum _ _ _); cbn [bind]; [|discriminate]. intros H N. rewrite N in H. unfold mk_h in H.
  destruct (check_Cs _ _); cbn [bind] in H; [|discriminate]. destruct (check_len _ (h_q M)); cbn [bind] in H; [|discriminate].
  destruct (check_len _ (h_ps M)); cbn [bind] in H; [|discriminate]. destruct (check_len _ (h_idx M)); cbn [bind] in H; [|discriminate].
  injection H as <-. reflexivity.
Qed.

Section samp.
Variables (hc : dict hcpm) (sys : string) (h : variable) (HS HP : hcpm) (Hc : list hcpm).
Hypothesis HN : hazard_net (rows_of hc) sys h (h_c HS) (h_c HP) (map h_c Hc).
Hypothesis PC : plain_codes h.
Variables (I : list Z) (G : list joint).
Hypothesis NI : NoDup I.
Hypothesis LI : List.length I = List.length G.
Hypothesis NG : G <> [].
Hypothesis HR : forall M, In M (HS :: HP :: Hc) -> sampled I G M /\ basic_samples G (c_vars (h_c M)).
Notation S := (h_c HS).
Notation Ph := (h_c HP).
Notation X := (parents S).

Lemma product_ps M1 M2 M c : wf_cpm (h_c M1) -> wf_cpm (h_c M2) -> fit (h_c M1) (h_c M2) -> sampled I G M1 -> sampled I G M2 ->
  basic_samples G (c_vars (h_c M1)) -> basic_samples G (c_vars (h_c M2)) -> c_vars (h_c M1) <> [] -> c_vars (h_c M2) <> [] ->
  product (h_c M1) (h_c M2) = Ok c -> h_product M1 M2 = Ok M -> List.length (h_ps M) = List.length G.
Proof using NI LI NG.
  intros W1 W2 [A D] S1 S2 B1 B2 V1 V2 P E. unfold product in P. unfold h_product in E.
  pose proof (target_length _ _ _ S1) as T1. pose proof (target_length _ _ _ S2) as T2.
  destruct (ncols (h_c M2) <? ncols (h_c M1))%nat.
  - assert (E' : h_product_ord M2 M1 = Ok (mkH c (map (row_at (c_vars c)) G) (times (h_q M1) (h_q M2)) (times (target_of M1) (target_of M2)) I)).
    { apply h_product_ord_ok; auto using agree_sym. apply common_child_spec, disj_sym; auto. }
    rewrite E in E'. injection E' as ->. cbn [h_ps]. rewrite times_length; lia.
  - assert (E' : h_product_ord M1 M2 = Ok (mkH c (map (row_at (c_vars c)) G) (times (h_q M2) (h_q M1)) (times (target_of M2) (target_of M1)) I)).
    { apply h_product_ord_ok; auto. apply common_child_spec; auto. }
    rewrite E in E'. injection E' as ->. cbn [h_ps]. rewrite times_length; lia.
Qed.

Section row.
Variable k : Z.
Hypothesis Hk : In [k] (c_C Ph).

Lemma kst : names_state h k k /\ 0 <= k < nvals h.
Proof using HN Hk. destruct (row_of_P _ _ _ _ _ _ HN [k] Hk) as (k' & [= <-] & A & B). auto. Qed.
Lemma kbasic : basic_state h k.
Proof using HN Hk. destruct kst as [[_ A] B]. split; auto. Qed.
Lemma kcode : new_code h k k = k.
Proof using HN Hk PC.
  destruct kst as [A B]. destruct (new_state h k k k (okh _ _ _ _ _ _ HN) A A) as [C D]. apply PC; auto.
Qed.
Lemma kev scope : NoDup (names scope) -> (In h scope \/ ~ In (v_name h) (names scope)) -> basic_ev scope [h] [k].
Proof using HN Hk.
  intros N H. split; [reflexivity|]. split; [repeat constructor; intros []|]. split.
  - intros v w [<-|[]] Hw E. destruct H as [H|H]; [apply (NoDup_names_inj scope); auto|exfalso; apply H; rewrite E; apply in_map; auto].
  - intros v c [[= <- <-]|[]] _. apply kbasic.
Qed.

(** state [k] in sample [i] *)
Definition ak (i : nat) : joint := set_joint (nth i G (fun _ => 0)) h k.

Lemma hcomp_ok : exists Hc', mapM (fun kM => M <- h_condition (snd kM) (Vars [h]) [SI k] ;; Ok (fst kM, M)) (combine (names X) Hc) = Ok (combine (names X) Hc') /\
  Forall2 (fun x m => comp_ok (h_c m) /\ basic_child (h_c m) /\ children (h_c m) = [x] /\ parents (h_c m) = [h] /\ forall row, In row (c_C (h_c m)) -> nth_error row 1 = Some k) X Hc' /\
  Forall2 (fun m m' => h_q m' = h_q m /\ sampled I G m' /\ basic_samples G (c_vars (h_c m')) /\
    forall i, (i < List.length G)%nat -> nth i (target_of m') 0%Qc = mass (h_c m) (ak i)) Hc Hc'.
Proof using HN PC Hk LI NG HR.
  assert (F : Forall2 (fun x m => dfind (rows_of hc) (v_name x) = Some m /\ cpt m x h /\ basic_table x) X (map h_c Hc)) by apply HN.
  assert (R : forall M, In M Hc -> sampled I G M /\ basic_samples G (c_vars (h_c M))) by (intros M HM; apply HR; right; right; auto).
  assert (KS := kst). assert (KC := kcode). assert (KE := kev). clear HR. revert F R. generalize X as l0. generalize Hc as cs0. clear HN.
  induction cs0 as [|m cs IH]; intros l0 F R; inversion F as [|x ? X0 ? (D & C & T) F']; subst.
  { exists []. split; [reflexivity|]. split; constructor. }
  destruct (IH X0 F' ltac:(intros M HM; apply R; right; auto)) as (cs' & E & F1 & F2). clear IH.
  destruct (R m (or_introl eq_refl)) as [Sm Bm]. pose proof C as (Wm & Pm & Vm & Nm & _).
  destruct (cpt_condition (h_c m) x h k k C T (proj1 KS) (proj2 KS)) as (c' & Em & A1 & A2 & A3 & A4 & A5 & A6). rewrite KC in A5.
  destruct (h_condition_basic I G m [h] [k] Wm Pm) as (c2 & ps & E1 & E2 & L & Q); auto.
  { apply KE; [apply Wm|left; rewrite Vm; right; left; auto]. }
  { rewrite Vm. discriminate. }
  cbn [map] in E1, E2. rewrite Em in E1. injection E1 as <-. exists (mkH c' (h_Cs m) (h_q m) ps (h_idx m) :: cs').
  assert (Vc : c_vars c' = c_vars (h_c m)) by (rewrite (vars_split c'), A3, A4, Vm; reflexivity).
  split.
  { cbn [names map combine mapM fst snd]. rewrite E2. cbn [bind]. unfold names in E. rewrite E. reflexivity. }
  split; [constructor; [cbn [h_c]; auto|exact F1]|]. constructor; [|exact F2]. cbn [h_c h_q].
  split; [reflexivity|]. split; [|split].
  - destruct Sm as (S1 & S2 & S3 & S4). split; [exact S1|]. cbn [h_Cs h_c h_q h_ps]. rewrite Vc. auto.
  - rewrite Vc. exact Bm.
  - intros i Hi. specialize (Q i Hi). cbv zeta in Q. unfold target_of. cbn [h_ps h_q]. destruct ps as [|p0 ps0] eqn:Ep; [cbn in L; lia|]. rewrite Q.
    assert (T1 : touches [h] (children (h_c m)) = false).
    { unfold children. rewrite Vm, Nm. cbn. assert (Nn := cpt_names _ _ _ C). destruct (String.eqb_spec (v_name x) (v_name h)); [congruence|reflexivity]. }
    assert (T2 : touches [h] (c_vars (h_c m)) = true).
    { rewrite Vm. cbn. rewrite String.eqb_refl. destruct (String.eqb (v_name x) (v_name h)); reflexivity. }
    rewrite T1, T2. reflexivity.
Qed.

Lemma step_samples : exists m c, h_cal_step (combine (names X) Hc ++ [(sys, HS)]) [] sys [] (names X) [v_name h] HP [k] = Ok m /\
  cal_step (combine (names X) (map h_c Hc) ++ [(sys, S)]) [] sys [] (names X) [v_name h] Ph [k] = Ok c /\ (forall v, In v (c_vars c) -> In v (children S)) /\
  holds I G m c (joint_q (HP :: HS :: Hc)) (state_weight G h HS HP Hc k) /\ List.length (h_ps m) = List.length G.
Proof using HN PC NI LI NG HR Hk.
  destruct (m1_ok _ _ _ _ _ _ HN k Hk) as (m1 & E1 & Wm1 & Pm1 & Vm1 & Nm1 & Cm1 & Rm1 & _ & _). rewrite kcode in Rm1.
  assert (VP : c_vars Ph = [h]) by exact (varsP _ _ _ _ _ _ HN).
  destruct (HR HP ltac:(right; left; auto)) as [SP BP]. destruct (HR HS ltac:(left; auto)) as [SS BS].
  assert (WP : wf_cpm Ph) by apply HN. assert (WS : wf_cpm S) by apply HN. assert (PP : has_p Ph) by apply HN. assert (PS : has_p S) by apply HN.
  destruct (h_condition_basic I G HP [h] [k] WP PP) as (c1 & ps1 & D1 & D2 & L1 & Q1); auto.
  { apply kev; auto; [apply WP|rewrite VP; left; left; auto]. }
  { rewrite VP. discriminate. }
  rewrite VP in E1. rewrite E1 in D1. injection D1 as <-.
  assert (T1 : touches [h] (children Ph) = true).
  { unfold children. rewrite VP. assert (c_nch Ph = 1%nat) as -> by apply HN. cbn. rewrite String.eqb_refl. reflexivity. }
  rewrite T1 in Q1. set (M1 := mkH m1 (h_Cs HP) (h_q HP) ps1 (h_idx HP)) in *.
  assert (HM1 : holds I G M1 m1 (fun i => nth i (h_q HP) 0%Qc) (fun i => (mass Ph (ak i) * nth i (h_q HP) 0)%Qc)).
  { split; [reflexivity|]. destruct SP as (P1 & P2 & P3 & P4). split.
    - split; [exact P1|]. cbn [M1 h_Cs h_c h_q h_ps]. rewrite Vm1, <- VP. auto.
    - intros i Hi. split; [reflexivity|]. unfold target_of. cbn [M1 h_ps]. destruct ps1; [cbn in L1; lia|]. exact (Q1 i Hi). }
  assert (BM1 : basic_samples G (c_vars m1)) by (rewrite Vm1, <- VP; auto).
  destruct hcomp_ok as (Hc' & Ec & Fc & Fq).
  (* the system *)
  assert (nS : ~ In (v_name h) (names (c_vars S))) by apply HN.
  assert (NCS : children S <> []) by apply HN.
  assert (nvS : c_vars S <> []).
  { rewrite (vars_split S). destruct (children S); [congruence|discriminate]. }
  destruct (h_condition_basic I G HS [h] [k] WS PS) as (c2 & ps2 & D3 & D4 & L2 & Q2); auto.
  { apply kev; auto. apply WS. }
  cbn [map] in D3, D4. rewrite (condition_out S h k WS nS) in D3. injection D3 as <-.
  assert (TT : forall l, incl l (c_vars S) -> touches [h] l = false).
  { intros l Hl. unfold touches. rewrite <- not_true_iff_false. intros Z. apply existsb_exists in Z as (v & Hv & Z). apply mem_str_In in Z.
    destruct Z as [Z|[]]. apply nS. rewrite Z. apply in_map. auto. }
  rewrite (TT (children S)) in Q2 by (intros v Hv; apply children_incl; auto). rewrite (TT (c_vars S)) in Q2 by (intros v; auto).
  set (HS' := mkH S (h_Cs HS) (h_q HS) ps2 (h_idx HS)) in *.
  assert (SS' : sampled I G HS') by (destruct SS as (P1 & P2 & P3 & P4); split; [exact P1|]; cbn [HS' h_Cs h_c h_q h_ps]; auto).
  assert (TS : forall i, (i < List.length G)%nat -> nth i (target_of HS') 0%Qc = nth i (h_q HS) 0%Qc).
  { intros i Hi. unfold target_of. cbn [HS' h_ps]. destruct ps2; [cbn in L2; lia|]. exact (Q2 i Hi). }
  (* conditioning *)
  unfold h_cal_step, cal_step. rewrite VP. cbn [map] in *. rewrite D2, E1. cbn [bind]. cbn [M1 h_c]. destruct (c_C m1) as [|r1 C1] eqn:EC; [congruence|].
  assert (r1 = [k]) by (apply Rm1; left; auto). subst r1. rewrite Vm1. cbn [map].
  assert (MA : forall d d', mapM (fun kM : string * hcpm => M <- h_condition (snd kM) (Vars [h]) [SI k] ;; Ok (fst kM, M)) d = Ok d' ->
     mapM (fun kM : string * hcpm => M <- h_condition (snd kM) (Vars [h]) [SI k] ;; Ok (fst kM, M)) (d ++ [(sys, HS)]) = Ok (d' ++ [(sys, HS')])).
  { intros d. induction d as [|kM d IH]; intros d' H; cbn [mapM app] in *.
    - injection H as <-. cbn [fst snd]. rewrite D4. reflexivity.
    - destruct (h_condition (snd kM) (Vars [h]) [SI k]); cbn [bind] in *; [|discriminate]. destruct (mapM _ d) as [d1|]; cbn [bind] in *; [|discriminate].
      injection H as <-. rewrite (IH d1 eq_refl). reflexivity. }
  assert (EV := MA _ _ Ec). assert (EV' := rows_condition _ _ _ _ EV).
  assert (RO : forall (l : list hcpm) M, rows_of (combine (names X) l ++ [(sys, M)]) = combine (names X) (map h_c l) ++ [(sys, h_c M)]).
  { intros l M. unfold rows_of. rewrite map_app. cbn [map fst snd]. f_equal. generalize (names X) as ns. induction l as [|c l IH]; intros [|n ns]; cbn; auto. f_equal. apply IH. }
  rewrite !RO in EV'. rewrite EV, EV'. clear MA EV EV' Ec. cbn [HS' h_c]. cbn [bind foldM]. unfold h_cal_ve. cbn [foldM bind].
  assert (Lc : List.length X = List.length Hc') by (pose proof Fc as F'; apply Forall2_length in F'; auto).
  assert (sX : ~ In sys (names X)) by apply HN.
  assert (FI : forall (A : Type) (l : list A) M, List.length X = List.length l -> map snd (filter (fun kM => negb (String.eqb (fst kM) sys)) (combine (names X) l ++ [(sys, M)])) = l).
  { intros A l M L. rewrite filter_app, map_app. cbn [filter fst]. rewrite String.eqb_refl. cbn [negb map]. rewrite app_nil_r.
    clear -L sX. revert l L sX. induction X as [|x X0 IH]; intros [|c cs] L N; cbn in L; try lia; auto.
    cbn [names map combine filter fst]. assert (String.eqb (v_name x) sys = false) as ->.
    { apply String.eqb_neq. intros Z. apply N. left. auto. }
    cbn [negb map snd]. f_equal. apply IH; [lia|]. intros Z. apply N. right. auto. }
  rewrite (FI _ Hc' HS') by auto. rewrite (FI _ (map h_c Hc') S) by (rewrite map_length; auto). clear FI. unfold variable_elim_list. cbn [foldM bind].
  assert (DG : forall (A : Type) (l : list A) M, dget (combine (names X) l ++ [(sys, M)]) sys = Ok M).
  { intros A l M. apply dget_ok. clear -sX. revert l sX. induction (names X) as [|n ns IH]; intros [|c cs] N; cbn; try (rewrite String.eqb_refl; auto; fail).
    destruct (String.eqb_spec sys n) as [->|]; [exfalso; apply N; left; auto|]. apply IH. intros Z. apply N. right; auto. }
  rewrite !DG. cbn [bind]. clear DG.
  (* product with the components *)
  set (cps := map h_c Hc') in *.
  assert (Fc2 : Forall2 (fun x m => comp_ok m /\ basic_child m /\ children m = [x] /\ parents m = [h] /\ forall row, In row (c_C m) -> nth_error row 1 = Some k) X cps).
  { unfold cps. clear -Fc. induction Fc; cbn [map]; constructor; auto. }
  assert (NXX : NoDup (names X)) by exact (NX _ _ _ _ _ _ HN).
  assert (Ch : Forall2 (fun x m => children m = [x]) X cps) by (eapply Forall2_impl; [|exact Fc2]; cbn; intros; tauto).
  assert (Ch' : Forall2 (fun x m => children (h_c m) = [x]) X Hc') by (eapply Forall2_impl; [|exact Fc]; cbn; intros; tauto).
  destruct (comps_for_all X cps NXX Ch) as [CF IC].
  assert (Mu : mult_of S cps = X).
  { unfold mult_of. clear -IC. induction X as [|x l IH]; auto. cbn [filter]. rewrite IC by (left; auto). f_equal. apply IH. intros; apply IC; right; auto. }
  assert (Re : rest_of S cps = []).
  { unfold rest_of. clear -IC. induction X as [|x l IH]; auto. cbn [filter]. rewrite IC by (left; auto). cbn. apply IH. intros; apply IC; right; auto. }
  assert (HM : forall m, In m cps -> exists x, In x X /\ comp_ok m /\ basic_child m /\ children m = [x] /\ parents m = [h] /\ forall row, In row (c_C m) -> nth_error row 1 = Some k).
  { intros m Hm. clear -Fc2 Hm. induction Fc2 as [|x c l cs H F IH]; [destruct Hm|]. destruct Hm as [<-|Hm]; [exists x; split; [left; auto|tauto]|].
    destruct (IH Hm) as (y & Hy & H'). exists y. split; [right; auto|auto]. }
  assert (hXX := hX _ _ _ _ _ _ HN). assert (hCC := hC _ _ _ _ _ _ HN). assert (XCC := XC _ _ _ _ _ _ HN).
  assert (PO : prod_ok S cps [(h, k)]).
  { split; [apply WS|]. split; [apply HN|]. split; [apply HN|]. split.
    { intros Z. assert (Lc' : List.length cps = 0%nat) by (rewrite Z; auto). unfold cps in Lc'. rewrite map_length in Lc'. rewrite Lc' in Lc.
      destruct HN as (_ & _ & _ & _ & _ & NX0 & _). destruct X; [congruence|discriminate]. }
    split; [apply Forall_forall; intros m Hm; destruct (HM m Hm) as (x & _ & H & _); auto|]. split.
    - right. exists h, k. split; auto. intros m Hm. destruct (HM m Hm) as (x & _ & _ & _ & _ & H & H'). auto.
    - intros m Hm. destruct (HM m Hm) as (x & Hx & _ & _ & H1 & H2 & _). intros v1 v2 H3 H4 E. rewrite vars_split, H1, H2 in H4.
      destruct H4 as [<-|[<-|[]]].
      + apply (NoDup_names_inj (c_vars S)); auto; [apply WS|apply parents_incl; auto].
      + exfalso. apply nS. rewrite <- E. apply in_map. auto. }
  assert (Dis : forall y s v, In (y, s) [(h, k)] -> In v (children S ++ mult_of S cps) -> v_name y <> v_name v).
  { intros y s v [[= <- <-]|[]] Hv. rewrite Mu in Hv. apply in_app_or in Hv as [Hv|Hv]; apply not_eq_sym; [apply hCC|apply hXX]; auto. }
  assert (NC : new_conds [(h, k)] (rest_of S cps) = [(h, k)]) by (rewrite Re; reflexivity).
  assert (ER := prod_sys_spec S cps [(h, k)] PO).
  destruct (h_prod_sys_ok I G NI LI NG HS' Hc' [(h, k)] PO) as (R' & EH & ER' & WR & SR & BR & QR).
  { intros M [<-|HM']; [split; auto|]. clear -Fq HM'. induction Fq as [|m m' l l' (_ & H1 & H2 & _) F IH]; [destruct HM'|]. destruct HM' as [<-|HM']; auto. }
  { exact nvS. }
  { exact Dis. }
  { cbn [HS' h_c]. fold cps. rewrite Re. intros v []. }
  { left. cbn [HS' h_c]. fold cps. rewrite Mu. apply HN. }
  cbn [HS' h_c] in ER', QR. fold cps in ER', QR. rewrite Mu in QR.
  rewrite (sampled_comps_all X Hc' NXX Ch') in QR.
  rewrite EH, ER'. cbn [bind]. rewrite ER in ER'. assert (OI : forall a b : cpm, Ok a = Ok b -> a = b) by (intros a b H; injection H; auto). assert (EQR := OI _ _ ER').
  assert (VR : c_vars (h_c R') = children S ++ X ++ [h]).
  { rewrite <- EQR. cbn [c_vars]. unfold part_vars. rewrite NC, Mu, Re, app_nil_r. cbn [map fst]. rewrite <- app_assoc. reflexivity. }
  assert (CR : children (h_c R') = children S ++ X /\ parents (h_c R') = [h]).
  { unfold children at 1, parents at 2. rewrite VR. rewrite <- EQR. cbn [c_nch]. rewrite Mu, app_assoc. split.
    - rewrite firstn_app, firstn_all, Nat.sub_diag. cbn. apply app_nil_r.
    - rewrite skipn_app, skipn_all, Nat.sub_diag. reflexivity. }
  destruct CR as [CR PR].
  (* elimination of the components *)
  assert (KR : kept (h_c R') X true = children S ++ [h]).
  { unfold kept. rewrite CR, PR, filter_app. f_equal.
    assert (F1 : filter (kept_child X true) (children S) = children S).
    { assert (GG : forall v, In v (children S) -> kept_child X true v = true).
      { intros v Hv. unfold kept_child. apply negb_true_iff. rewrite <- not_true_iff_false. intros Z. apply existsb_exists in Z as (w & Hw & Z). apply v_eqb_eq in Z.
        apply (XCC w v); auto. }
      clear -GG. induction (children S) as [|v l IH]; auto. cbn [filter]. rewrite GG by (left; auto). f_equal. apply IH. intros; apply GG; right; auto. }
    assert (F2 : filter (kept_child X true) X = []).
    { assert (GG : forall v, In v X -> kept_child X true v = false).
      { intros v Hv. unfold kept_child. apply negb_false_iff. apply existsb_exists. exists v. split; auto. apply v_eqb_refl. }
      assert (G2 : forall l, (forall v, In v l -> kept_child X true v = false) -> filter (kept_child X true) l = []); [|apply G2; auto].
      clear. induction l as [|v l IH]; auto. intros GG. cbn [filter]. rewrite GG by (left; auto). apply IH. intros; apply GG; right; auto. }
    rewrite F1, F2, app_nil_r. reflexivity. }
  assert (NKR : kept (h_c R') X true <> []) by (rewrite KR; destruct (children S); discriminate).
  assert (IX : incl X (c_vars (h_c R'))) by (intros v Hv; rewrite VR, !in_app_iff; auto).
  rewrite (h_sum_names R' X true (proj1 WR) IX), (sum_names (h_c R') X true (proj1 WR) IX).
  destruct (sum_spec (h_c R') X true WR ltac:(discriminate) NKR) as (c' & E' & W' & V' & C' & P' & _ & RW' & _ & Pn' & Q').
  assert (HRR : holds I G R' (h_c R') (joint_q (HS' :: Hc')) (joint_t (HS' :: Hc'))) by (split; [reflexivity|]; split; [exact SR|exact QR]).
  assert (NVR : c_vars (h_c R') <> []) by (rewrite VR; destruct (children S); [congruence|discriminate]).
  destruct (h_sum_ok I G LI NG R' c' X true _ _ WR ltac:(discriminate) HRR BR NVR NKR E') as (m' & F' & Hm'). rewrite E', F'. cbn [bind]. rewrite KR in V'.
  assert (Em' : h_c m' = c') by apply Hm'. rewrite <- Em' in *.
  assert (C'' : children (h_c m') = children S).
  { rewrite C', CR. rewrite filter_app. unfold kept in KR. rewrite CR, PR, filter_app in KR. apply app_inv_tail in KR. exact KR. }
  rewrite PR in P'.
  (* product with the hazard *)
  assert (Lt : (ncols m1 <? ncols (h_c m'))%nat = true).
  { unfold ncols. rewrite Vm1, V', app_length. apply Nat.ltb_lt. cbn. destruct (children S); [congruence|cbn; lia]. }
  assert (Ag : agree (c_vars m1) (c_vars (h_c m'))).
  { rewrite Vm1, V'. intros v w [<-|[]] Hw E. apply in_app_or in Hw as [Hw|[<-|[]]]; auto. exfalso. apply (hCC w); auto. }
  assert (Ch1 : children m1 = [h]) by (unfold children; rewrite Vm1, Nm1; auto).
  assert (Pa1 : parents m1 = []) by (unfold parents; rewrite Vm1, Nm1; auto).
  assert (Dj : disjoint_children m1 (h_c m')).
  { intros v w Hv Hw. rewrite Ch1 in Hv. destruct Hv as [<-|[]]. rewrite C'' in Hw. apply not_eq_sym. apply hCC. auto. }
  assert (Cc : common_child m1 (h_c m') = false) by (apply common_child_spec; auto).
  assert (EP : product (h_c m') m1 = Ok (CpmProd.prod_result m1 (h_c m'))).
  { unfold product. rewrite Lt. apply product_ord_spec; auto; [rewrite EC; discriminate|rewrite Vm1; discriminate|].
    left. intros Z. unfold has_p in Pm1. rewrite Z, EC in Pm1. discriminate. }
  assert (BM' : basic_samples G (c_vars (h_c m'))).
  { intros a v Ha Hv. apply (BR a v Ha). rewrite VR. rewrite V' in Hv. apply in_app_or in Hv. rewrite !in_app_iff. tauto. }
  assert (NVm : c_vars (h_c m') <> []) by (rewrite V'; destruct (children S); discriminate).
  assert (FT : fit (h_c m') (h_c M1)) by (split; [apply agree_sym; exact Ag|apply disj_sym; exact Dj]).
  assert (NV1 : c_vars (h_c M1) <> []) by (cbn [M1 h_c]; rewrite Vm1; discriminate).
  destruct (h_product_ok I G NI LI NG m' M1 _ _ _ _ _ W' Wm1 FT Hm' HM1 BM' BM1 NVm NV1 EP) as (m2 & E2 & H2).
  assert (LP2 := product_ps m' M1 m2 _ W' Wm1 FT (proj1 (proj2 Hm')) (proj1 (proj2 HM1)) BM' BM1 NVm NV1 EP E2).
  rewrite EP, E2. cbn [bind].
  assert (Em2 : h_c m2 = CpmProd.prod_result m1 (h_c m')) by apply H2. rewrite <- Em2 in *.
  assert (EP' := product_ok (h_c m') m1 (h_c m2) W' Wm1 (agree_sym _ _ Ag) (disj_sym _ _ Dj) EP). destruct EP' as (W2 & _ & V2 & C2 & N2).
  assert (Ihh : incl [h] (c_vars (h_c m2))) by (intros v [<-|[]]; apply V2; right; rewrite Vm1; left; auto).
  change [v_name h] with (names [h]). rewrite (h_sum_names m2 [h] true (proj1 W2) Ihh), (sum_names (h_c m2) [h] true (proj1 W2) Ihh).
  assert (CH2 : children (h_c m2) = W0 h S /\ parents (h_c m2) = fst (setdiff [h] (W0 h S))).
  { rewrite Em2. unfold CpmProd.prod_result, children, parents. cbn [c_vars c_nch]. unfold n_vars. rewrite firstn_app, firstn_all, Nat.sub_diag, skipn_app, skipn_all, Nat.sub_diag.
    cbn [firstn skipn app]. rewrite app_nil_r. unfold n_child. fold (children m1) (children (h_c m')) (parents m1) (parents (h_c m')). rewrite Ch1, C'', Pa1, P'. auto. }
  destruct CH2 as [CH2 PA2].
  assert (K2 : kept (h_c m2) [h] true = V0 h S) by (unfold kept, V0; rewrite CH2, PA2; auto).
  assert (V0In := V0_In _ _ _ _ _ _ HN).
  assert (NV0 : V0 h S <> []).
  { intros Z. destruct (children S) as [|c cs] eqn:Ecs; [congruence|]. assert (Y : In c (V0 h S)) by (apply V0In; left; auto). rewrite Z in Y. destruct Y. }
  assert (NK2 : kept (h_c m2) [h] true <> []) by (rewrite K2; auto).
  destruct (sum_spec (h_c m2) [h] true W2 ltac:(discriminate) NK2) as (c3 & E3 & W3 & V3 & _ & _ & _ & R3 & _ & Pn3 & _). rewrite K2 in V3.
  assert (B2 : basic_samples G (c_vars (h_c m2))).
  { intros a v Ha Hv. apply V2 in Hv as [Hv|Hv]; [apply BM'|apply BM1]; auto. }
  assert (NVm2 : c_vars (h_c m2) <> []) by (intros Z; rewrite Z in Ihh; exact (Ihh h (or_introl eq_refl))).
  destruct (h_sum_ok I G LI NG m2 c3 [h] true _ _ W2 ltac:(discriminate) H2 B2 NVm2 NK2 E3) as (m3 & F3 & H3).
  exists m3, c3. split; [exact F3|]. split; [exact E3|]. split; [intros v Hv; rewrite V3 in Hv; apply V0In; exact Hv|]. split.
  - eapply holds_ext; [exact H3|]. intros i Hi. cbv beta. unfold joint_q, joint_t, state_weight. cbn [map qprod fold_right]. rewrite TS by auto. cbn [HS' h_q].
    assert (Qq : qprod (map (fun M => nth i (h_q M) 0%Qc) Hc') = qprod (map (fun M => nth i (h_q M) 0%Qc) Hc)).
    { clear -Fq. induction Fq as [|m m' l l' (E & _) F IH]; auto. cbn [map qprod fold_right] in *. rewrite E. f_equal. exact IH. }
    assert (Qt : qprod (map (fun M => nth i (target_of M) 0%Qc) Hc') = qprod (map (fun m => mass (h_c m) (ak i)) Hc)).
    { clear -Fq Hi. induction Fq as [|m m' l l' (_ & _ & _ & E) F IH]; auto. cbn [map qprod fold_right] in *. rewrite (E i Hi). f_equal. exact IH. }
    unfold qprod in *. rewrite Qq, Qt. split.
    + ring.
    + fold (ak i). ring.
  - rewrite (h_sum_ps _ _ _ _ F3); auto. apply (no_samples_spec I G); auto. apply H2.
Qed.
End row.
End samp.

(** * All states of the hazard *)
Lemma h_dset_fresh (d : dict hcpm) n M : ~ In n (keys d) -> dset d n M = d ++ [(n, M)].
Proof.
  induction d as [|[k a] d IH]; intros H; auto. cbn in *. destruct (String.eqb_spec n k) as [->|]; [tauto|]. rewrite IH; auto.
Qed.
Lemma h_fold_dset ms : NoDup (map fst ms) -> fold_left (fun (d : dict hcpm) kM => dset d (fst kM) (snd kM)) ms [] = ms.
Proof.
  enough (G : forall d, NoDup (keys d ++ map fst ms) -> fold_left (fun (d : dict hcpm) kM => dset d (fst kM) (snd kM)) ms d = d ++ ms) by (intros; apply (G []); auto).
  induction ms as [|[k M] ms IH]; intros d N; cbn [fold_left]; [rewrite app_nil_r; auto|]. cbn [map fst snd] in *.
  rewrite h_dset_fresh by (intros H; apply (NoDup_app_disj _ _ k N H); left; auto).
  rewrite IH.
  - rewrite <- app_assoc. reflexivity.
  - unfold keys in *. rewrite map_app, <- app_assoc. exact N.
Qed.
Lemma copies_snoc {A} (l : list (list Z)) (f : list Z -> list A) r : List.concat (map f (l ++ [r])) = List.concat (map f l) ++ f r.
Proof. rewrite map_app, concat_app. cbn. rewrite app_nil_r. reflexivity. Qed.
Lemma copies_len {A B} (l : list (list Z)) (f : list Z -> list A) (g : list Z -> list B) : (forall r, List.length (f r) = List.length (g r)) ->
  List.length (List.concat (map f l)) = List.length (List.concat (map g l)).
Proof. intros H. induction l as [|r l IH]; auto. cbn [map List.concat]. rewrite !app_length, H, IH. reflexivity. Qed.

Theorem cal_samples hc varis sys h HS HP Hc ord I G :
  hazard_net (rows_of hc) sys h (h_c HS) (h_c HP) (map h_c Hc) -> dfind hc sys = Some HS -> dfind hc (v_name h) = Some HP ->
  Forall2 (fun x m => dfind hc (v_name x) = Some m) (parents (h_c HS)) Hc -> plain_codes h ->
  NoDup I -> List.length I = List.length G -> G <> [] ->
  (forall M, In M (HS :: HP :: Hc) -> sampled I G M /\ basic_samples G (c_vars (h_c M))) ->
  incl (names (parents (h_c HS))) ord -> ~ In sys ord ->
  exists M, h_cal_msys hc varis [v_name h] ord sys = Ok M /\ incl (c_vars (h_c M)) (children (h_c HS)) /\
    sampled (List.concat (map (fun _ => I) (c_C (h_c HP)))) (List.concat (map (fun _ => G) (c_C (h_c HP)))) M /\
    h_q M = List.concat (map (fun _ => map (joint_q (HP :: HS :: Hc)) (seq 0 (List.length G))) (c_C (h_c HP))) /\
    h_ps M = List.concat (map (fun r => map (state_weight G h HS HP Hc (hd 0 r)) (seq 0 (List.length G))) (c_C (h_c HP))).
Proof.
  intros HN DHS DHP DHc PC NI LI NG HR IO NO. pose proof HN as (DS & WS & _ & _ & _ & _ & hNS & sX & DP & WP & PP & VP & NP & _ & _ & CP & F).
  set (S := h_c HS) in *. set (Ph := h_c HP) in *. set (comps := map h_c Hc) in *.
  assert (NX0 := NX _ sys h S Ph comps HN). set (cpms := rows_of hc) in *.
  assert (FX : forall x, In x (names (parents S)) -> exists m, dfind cpms x = Some m).
  { intros x Hx. apply in_map_iff in Hx as (p & <- & Hp). clear -F Hp. induction F as [|p0 m l cs H F IH]; [destruct Hp|]. destruct Hp as [->|Hp]; [exists m; tauto|auto]. }
  unfold h_cal_msys. fold cpms. destruct (inf_main cpms [sys] (Some ord)) as [(out & E & H1 & _)|(E & v & Hv & Hn)].
  2:{ exfalso. destruct (hazard_relevant _ _ _ _ _ _ _ HN Hv) as [->|[Hx| ->]]; [congruence| |congruence]. destruct (FX v Hx) as (m & Hm). congruence. }
  rewrite E. cbn [bind]. assert (dget hc sys = Ok HS) as -> by (apply dget_ok; auto). cbn [bind]. fold S.
  assert (VE : filter (fun x => mem_str x ord && negb (mem_str x [v_name h]) && negb (mem_str x (names (parents S)))) out = []).
  { assert (GG : forall x, In x out -> mem_str x ord && negb (mem_str x [v_name h]) && negb (mem_str x (names (parents S))) = false).
    { intros x Hx. apply H1 in Hx. destruct (hazard_relevant _ _ _ _ _ _ _ HN Hx) as [->|[Hy| ->]].
      - assert (mem_str sys ord = false) as -> by (apply mem_str_false; auto). auto.
      - apply mem_str_In in Hy. rewrite Hy. cbn. apply andb_false_r.
      - assert (Z : mem_str (v_name h) [v_name h] = true) by (apply mem_str_In; left; auto). rewrite Z. cbn. rewrite andb_false_r. auto. }
    clear -GG. induction out as [|x l IH]; auto. cbn [filter]. rewrite GG by (left; auto). apply IH. intros; apply GG; right; auto. }
  rewrite VE. cbn [filter mapM bind].
  assert (JN : filter (fun x => negb (mem_str x ord)) (names (parents S)) = []).
  { clear -IO. induction (names (parents S)) as [|x l IH]; auto. cbn [filter]. assert (mem_str x ord = true) as -> by (apply mem_str_In; apply IO; left; auto).
    cbn. apply IH. intros y Hy. apply IO. right; auto. }
  rewrite JN. assert (EL : filter (fun x => negb (mem_str x [])) (names (parents S)) = names (parents S)).
  { clear. induction (names (parents S)) as [|x l IH]; auto. cbn in *. rewrite IH. auto. }
  rewrite EL. cbn [app]. rewrite app_nil_r.
  assert (MS : mapM (fun v => M <- dget hc v ;; Ok (v, M)) (names (parents S)) = Ok (combine (names (parents S)) Hc)).
  { clear -DHc. induction DHc as [|x m l cs D F IH]; auto. cbn [names map mapM combine]. apply dget_ok in D. rewrite D. cbn [bind]. unfold names in IH. rewrite IH. auto. }
  rewrite MS. cbn [bind].
  assert (Lc : List.length (names (parents S)) = List.length Hc) by (unfold names; rewrite map_length; pose proof DHc as F'; apply Forall2_length in F'; auto).
  assert (FS : map fst (combine (names (parents S)) Hc) = names (parents S)).
  { clear -Lc. revert Hc Lc. induction (names (parents S)) as [|x l IH]; intros [|c cs] L; cbn in L; try lia; auto. cbn. rewrite IH by lia. auto. }
  rewrite h_fold_dset by (rewrite FS; auto). rewrite h_dset_fresh by (unfold keys; rewrite FS; auto).
  cbn [mapM]. assert (dget hc (v_name h) = Ok HP) as -> by (apply dget_ok; auto). cbn [bind h_product_list foldM]. fold Ph.
  assert (ST : forall row, In row (c_C Ph) -> exists m, h_cal_step (combine (names (parents S)) Hc ++ [(sys, HS)]) [] sys [] (names (parents S)) [v_name h] HP row = Ok m /\
     wf_cpm (h_c m) /\ has_p (h_c m) /\ c_C (h_c m) <> [] /\ c_vars (h_c m) = V0 h S /\ (forall r, In r (c_C (h_c m)) <-> has_codes S (V0 h S) r) /\ sampled I G m /\
     h_q m = map (joint_q (HP :: HS :: Hc)) (seq 0 (List.length G)) /\ h_ps m = map (state_weight G h HS HP Hc (hd 0 row)) (seq 0 (List.length G))).
  { intros row Hr. destruct (row_of_P _ _ _ _ _ _ HN row Hr) as (k & -> & _).
    destruct (step_ok _ sys h S Ph comps HN k Hr _ _ eq_refl eq_refl) as (c & Ec & A1 & A2 & A3 & A4 & A5 & _).
    destruct (step_samples hc sys h HS HP Hc HN PC I G NI LI NG HR k Hr) as (m & c' & Em & Ec' & _ & (B1 & B2 & B3) & B4).
    fold S Ph in Em, Ec'. fold comps in Ec'. rewrite Ec in Ec'. injection Ec' as <-. exists m. rewrite B1. do 7 (split; [auto; fail|]). split.
    - apply seq_list; [apply B2|]. intros i Hi. apply (B3 i Hi).
    - apply seq_list; [exact B4|]. intros i Hi. cbn [hd]. destruct (B3 i Hi) as [_ T]. unfold target_of in T.
      destruct (h_ps m) eqn:Ep; [cbn in B4; lia|exact T]. }
  assert (BG : forall rs, basic_samples (List.concat (map (fun _ : list Z => G) rs)) (V0 h S)).
  { intros rs a v Ha Hv. apply in_concat in Ha as (l & Hl & Ha). apply in_map_iff in Hl as (r & <- & _).
    destruct (HR HS ltac:(left; auto)) as [_ B]. apply B; auto. apply children_incl. apply (V0_In _ _ _ _ _ _ HN). exact Hv. }
  assert (NV0 : V0 h S <> []).
  { assert (NCS : children S <> []) by apply HN. intros Z. destruct (children S) as [|c cs] eqn:Ecs; [congruence|].
    assert (Y : In c (V0 h S)) by (apply (V0_In _ _ _ _ _ _ HN); rewrite Ecs; left; auto). rewrite Z in Y. destruct Y. }
  destruct (c_C Ph) as [|row rows] eqn:EC; [congruence|].
  destruct (ST row (or_introl eq_refl)) as (M0 & E0 & W0' & P0 & C0 & V0' & R0 & S0 & Q0 & T0). rewrite E0. cbn [bind].
  assert (LP : forall rs done acc, done <> [] -> incl rs (c_C Ph) -> wf_cpm (h_c acc) -> has_p (h_c acc) -> c_C (h_c acc) <> [] -> c_vars (h_c acc) = V0 h S -> (forall r, In r (c_C (h_c acc)) <-> has_codes S (V0 h S) r) ->
     sampled (List.concat (map (fun _ => I) done)) (List.concat (map (fun _ => G) done)) acc ->
     h_q acc = List.concat (map (fun _ => map (joint_q (HP :: HS :: Hc)) (seq 0 (List.length G))) done) ->
     h_ps acc = List.concat (map (fun r => map (state_weight G h HS HP Hc (hd 0 r)) (seq 0 (List.length G))) done) ->
     exists M, foldM (fun acc r => m <- h_cal_step (combine (names (parents S)) Hc ++ [(sys, HS)]) [] sys [] (names (parents S)) [v_name h] HP r ;; h_merge acc m) rs acc = Ok M /\
       c_vars (h_c M) = V0 h S /\ sampled (List.concat (map (fun _ => I) (done ++ rs))) (List.concat (map (fun _ => G) (done ++ rs))) M /\
       h_q M = List.concat (map (fun _ => map (joint_q (HP :: HS :: Hc)) (seq 0 (List.length G))) (done ++ rs)) /\
       h_ps M = List.concat (map (fun r => map (state_weight G h HS HP Hc (hd 0 r)) (seq 0 (List.length G))) (done ++ rs))).
  { induction rs as [|r rs IH]; intros done acc ND IN Wa Pa Ca Va Ra Sa Qa Ta; cbn [foldM].
    - exists acc. rewrite app_nil_r. auto.
    - destruct (ST r) as (m & Em & Wm & Pm & Cm & Vm & Rm & Sm & Qm & Tm); [rewrite <- EC; apply IN; left; auto|]. rewrite Em. cbn [bind].
      assert (NP' : c_p (h_c acc) <> []) by (intros Z; unfold has_p in Pa; rewrite Z in Pa; destruct (c_C (h_c acc)); [congruence|discriminate]).
      destruct (merge_ok (h_c acc) (h_c m) Wa NP' Pm ltac:(congruence) ltac:(intros r' Hr'; apply Ra, Rm; auto)) as (c & EM & WM & VM & _ & CM & _).
      assert (PM : has_p c) by (destruct (merge_inv (h_c acc) (h_c m) c Wa Pa Pm ltac:(congruence) EM) as (_ & Z & _); auto).
      pose proof Sa as (I1 & G1 & _ & _). pose proof Sm as (I2 & G2 & _ & _).
      assert (NGd : List.concat (map (fun _ : list Z => G) done) <> []).
      { destruct done as [|d0 ds]; [congruence|]. cbn [map List.concat]. destruct G; [congruence|discriminate]. }
      assert (EH : h_merge acc m = Ok (mkH c (map (row_at (V0 h S)) (List.concat (map (fun _ => G) (done ++ [r]))))
          (List.concat (map (fun _ => map (joint_q (HP :: HS :: Hc)) (seq 0 (List.length G))) (done ++ [r])))
          (List.concat (map (fun r => map (state_weight G h HS HP Hc (hd 0 r)) (seq 0 (List.length G))) (done ++ [r])))
          (List.concat (map (fun _ => I) (done ++ [r]))))).
      { unfold h_merge. rewrite EM. cbn [bind]. rewrite (no_samples_spec _ _ _ Sa NGd), (no_samples_spec _ _ _ Sm NG) by congruence. cbn [Bool.eqb negb].
        rewrite G1, G2, Va, Vm, <- map_app, I1, I2, Qa, Qm, Ta, Tm.
        rewrite (copies_snoc done (fun _ => G)), (copies_snoc done (fun _ => I)), (copies_snoc done (fun _ => map (joint_q (HP :: HS :: Hc)) (seq 0 (List.length G)))),
          (copies_snoc done (fun r => map (state_weight G h HS HP Hc (hd 0 r)) (seq 0 (List.length G)))).
        unfold mk_h. rewrite VM, Va. rewrite check_Cs_ok.
        2:{ rewrite <- (copies_snoc done (fun _ => G) r). apply BG. }
        cbn [bind]. rewrite !check_len_ok; auto; right; rewrite map_length, !app_length; f_equal; try (rewrite map_length, seq_length; auto); auto;
          apply copies_len; intros; rewrite ?map_length, ?seq_length; auto. }
      rewrite EH. cbn [bind]. destruct (IH (done ++ [r]) (mkH c (map (row_at (V0 h S)) (List.concat (map (fun _ => G) (done ++ [r]))))
          (List.concat (map (fun _ => map (joint_q (HP :: HS :: Hc)) (seq 0 (List.length G))) (done ++ [r])))
          (List.concat (map (fun r => map (state_weight G h HS HP Hc (hd 0 r)) (seq 0 (List.length G))) (done ++ [r])))
          (List.concat (map (fun _ => I) (done ++ [r]))))) as (M & EM' & A1 & A2 & A3 & A4); cbn [h_c h_q h_ps]; try congruence; auto.
      + destruct done; discriminate.
      + intros y Hy. apply IN. right; auto.
      + intros r'. rewrite CM. apply Ra.
      + split; [reflexivity|]. cbn [h_Cs h_c h_q h_ps]. rewrite VM, Va. split; [reflexivity|]. split; [|right]; apply copies_len; intros; rewrite map_length, seq_length; auto.
      + exists M. split; [exact EM'|]. rewrite <- app_assoc in *. auto. }
  destruct (LP rows [row] M0) as (M & EM & VM & SM & QM & TM); auto.
  { discriminate. }
  { rewrite EC. intros y Hy. right; auto. }
  { cbn [map List.concat]. rewrite !app_nil_r. exact S0. }
  { cbn [map List.concat]. rewrite app_nil_r. exact Q0. }
  { cbn [map List.concat]. rewrite app_nil_r. exact T0. }
  exists M. split; [exact EM|]. split; [intros v Hv; rewrite VM in Hv; apply (V0_In _ _ _ _ _ _ HN); exact Hv|]. auto.
Qed.
