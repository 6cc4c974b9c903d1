(** Elimination of all components but one from a system CPM that gives each component vector
    one state (continues SysEvent.v). *)
From Coq Require Import ZArith List String Bool QArith Qcanon Lia Permutation.
From Verif Require Import Py PyFacts Num Vari VariFacts Brc SpecBrc BrcFacts BrcProb BrcRun BrcMisc BrcMain.
From Verif Require Import Cpm SpecCpm CpmFacts CpmCond CpmProd CpmList CpmSum CpmMarg CpmElim CpmProb Model ModelFacts SysEvent.
Import ListNotations.
Open Scope string_scope.
Open Scope Z_scope.
Open Scope list_scope.

(** * Elimination keeps what it needs for variables that are not eliminated *)
Lemma elim_list_rest vars rest : forall l l', ve_ok l (vars ++ rest) -> variable_elim_list l vars = Ok l' -> ve_ok l' rest.
Proof.
  unfold variable_elim_list. induction vars as [|v vars IH]; intros l l' V H; cbn [foldM app] in *; [injection H as <-; auto|].
  destruct (elim_step l v) as [l1|] eqn:E; cbn [bind] in H; [|congruence].
  destruct (elim_step_ok l v (vars ++ rest) l1 V E) as (V1 & _). eauto.
Qed.
Lemma ve_ok_app_l l vars rest : ve_ok l (vars ++ rest) -> ve_ok l vars.
Proof.
  intros (F & P & B & C & N). split; auto. split; auto. split; [intros v Hv; apply B, in_or_app; auto|]. split; [intros v Hv; apply C, in_or_app; auto|].
  unfold names in *. rewrite map_app in N. clear - N. induction (map v_name vars) as [|x l IH]; [constructor|]. cbn [app] in N. inversion N as [|? ? N1 N2]; subst.
  constructor; auto. intros X. apply N1. apply in_or_app. auto.
Qed.
Lemma elim_list_keep vars : forall l l' M, variable_elim_list l vars = Ok l' -> In M l -> (forall v, In v vars -> in_scope v M = false) -> In M l'.
Proof.
  unfold variable_elim_list. induction vars as [|v vars IH]; intros l l' M H HM Hn; cbn [foldM] in H; [injection H as <-; auto|].
  destruct (elim_step l v) as [l1|] eqn:E; cbn [bind] in H; [|congruence]. apply (IH l1); auto; [|intros w Hw; apply Hn; right; auto].
  unfold elim_step in E. destruct (product_list _) as [m|]; cbn [bind] in E; [|congruence]. destruct (sum m _ _) as [Ms|]; cbn [bind] in E; [|congruence].
  injection E as <-. right. apply filter_In. split; auto. rewrite (Hn v); auto. left; auto.
Qed.
Lemma product_children M1 M2 M : wf_cpm M1 -> wf_cpm M2 -> agree (c_vars M1) (c_vars M2) -> disjoint_children M1 M2 ->
  product M1 M2 = Ok M -> exists X, children M = sort_vars X.
Proof.
  intros W1 W2 Ha Hd H. unfold product in H.
  assert (G : forall A B, children (prod_result A B) = n_child A B).
  { intros A B. unfold children. cbn [prod_result c_vars c_nch]. unfold n_vars. rewrite firstn_app, Nat.sub_diag, firstn_all, firstn_O, app_nil_r. auto. }
  destruct (ncols M2 <? ncols M1)%nat.
  - assert (Hcc : common_child M2 M1 = false) by (apply common_child_spec, disj_sym; auto).
    destruct (product_ord_inv M2 M1 Hcc M H) as (I1 & I2 & I3).
    rewrite (product_ord_spec M2 M1 W2 W1 (agree_sym _ _ Ha) Hcc I1 I2 I3) in H. injection H as <-. rewrite G. unfold n_child. eauto.
  - assert (Hcc : common_child M1 M2 = false) by (apply common_child_spec; auto).
    destruct (product_ord_inv M1 M2 Hcc M H) as (I1 & I2 & I3).
    rewrite (product_ord_spec M1 M2 W1 W2 Ha Hcc I1 I2 I3) in H. injection H as <-. rewrite G. unfold n_child. eauto.
Qed.
Lemma product_list_children l M : fit_list l -> product_list l = Ok M -> (2 <= List.length l)%nat -> exists X, children M = sort_vars X.
Proof.
  destruct l as [|M0 l]; [cbn; lia|]. intros [HW [HP1 HP2]] H Hl. cbn [product_list] in H. inversion HW as [|? ? W0 HW']; subst.
  assert (G : forall l M0, wf_cpm M0 -> (forall M', In M' l -> fit M0 M') -> fit_list l -> (1 <= List.length l)%nat ->
    forall M, foldM product l M0 = Ok M -> exists X, children M = sort_vars X).
  { clear. induction l as [|M1 l IH]; intros M0 W0 HF [HW HP] Hl M H; cbn [foldM List.length] in *; [lia|].
    destruct (product M0 M1) as [M01|] eqn:E; cbn [bind] in H; [|congruence]. inversion HW as [|? ? W1 HW']; subst. destruct HP as [HP1 HP2].
    destruct (HF M1 (or_introl eq_refl)) as [F1 F2].
    destruct l as [|M2 l]; [cbn in H; injection H as <-; apply (product_children M0 M1); auto|].
    destruct (product_ok M0 M1 M01 W0 W1 F1 F2 E) as (Wm & _ & Vm & Cm). apply (IH M01); auto; [|split; auto|cbn; lia].
    intros M' HM. destruct (HF M' (or_intror HM)) as [G1 G2]. destruct (HP1 M' HM) as [G3 G4]. split.
    - intros x y Hx Hy Exy. apply Vm in Hx as [Hx|Hx]; auto.
    - intros x y Hx Hy. apply Cm in Hx as [Hx|Hx]; auto. }
  apply (G l M0); auto; [split; auto|cbn in Hl; lia].
Qed.

Lemma perm_two {A} (a b : A) X : Permutation X [a; b] -> X = [a; b] \/ X = [b; a].
Proof.
  intros P. destruct X as [|x [|y [|z X]]]; try (apply Permutation_length in P; discriminate).
  assert (Hx : In x [a; b]) by (apply (Permutation_in _ P); left; auto). destruct Hx as [<-|[<-|[]]].
  - apply Permutation_cons_inv in P. apply Permutation_length_1_inv in P. injection P as <-. auto.
  - right. f_equal. assert (P' : Permutation [b; y] [b; a]) by (rewrite P; constructor). apply Permutation_cons_inv in P'. apply Permutation_length_1 in P'. f_equal. auto.
Qed.

Section Joint.
Context (varis : dict variable) (probs : prob_dict) (Hw : wf_varis varis) (Hp : wf_probs varis probs).
Context (Hst : forall k v, In (k, v) varis -> v_name v = k /\ stored v).
Context (vsys : variable).
Context (Hsn : ~ In (v_name vsys) (keys varis)) (Hsb : basic_table vsys) (Hsv : var_ok vsys).
Context (rows : list (list Z)) (phi : dict Z -> Z).
Notation sp := (space (comps_of varis)).
Context (Hcode : forall row, In row rows -> Forall2 code_ok (vsys :: map snd varis) row).
Context (Hrange : forall x, In x sp -> 0 <= phi x < nvals vsys).
Context (Hmass : forall x a, In x sp -> (forall k, In k (keys varis) -> a k = coord x k) ->
  mass (sys_M varis vsys rows) a = if a (v_name vsys) =? phi x then 1%Qc else 0%Qc).
Notation sysM := (sys_M varis vsys rows).
Notation allM := (map (comp_M probs) varis ++ [sysM]).
(** the system states of the rows are basic *)
Context (Hbs : forall c row, In (c :: row) rows -> 0 <= c < nvals vsys).
Context (kept : string) (vk : variable) (Hkp : In (kept, vk) varis).
Definition other_varis : dict variable := filter (fun kv => negb (String.eqb (fst kv) kept)) varis.
Notation others := (map snd other_varis).

Lemma others_perm : Permutation (map snd varis) (vk :: others).
Proof.
  unfold other_varis. pose proof (proj1 Hw) as N. revert N Hkp. generalize varis as l. induction l as [|[k v] l IH]; intros N H; [destruct H|]. cbn [filter fst].
  cbn [keys map fst] in N. inversion N as [|? ? N1 N2]; subst. destruct H as [E|H].
  - injection E as -> ->. rewrite String.eqb_refl. cbn [negb map snd]. apply perm_skip.
    assert (F : filter (fun kv : string * variable => negb (String.eqb (fst kv) kept)) l = l).
    { clear - N1. induction l as [|[k v] l IH]; auto. cbn [filter fst]. destruct (String.eqb_spec k kept) as [->|Ne]; [exfalso; apply N1; left; auto|].
      cbn [negb]. f_equal. apply IH. intros X. apply N1. right. auto. }
    rewrite F. auto.
  - destruct (String.eqb_spec k kept) as [->|Ne]; [exfalso; apply N1; eapply In_keys; eauto|]. cbn [negb map snd].
    rewrite (IH N2 H). apply perm_swap.
Qed.
Lemma basic_sys : basic_in sysM vsys.
Proof.
  intros row c Hr Hc. cbn [sys_M c_C c_vars] in *. destruct row as [|c0 row]; [destruct Hc|]. cbn [combine] in Hc. destruct Hc as [E|Hc].
  - injection E as <-. exists c0. pose proof (Hbs c0 row Hr) as R. split; auto. apply basic_code; auto.
  - exfalso. apply in_combine_l in Hc. apply Hsn. rewrite <- (vnames varis Hst). apply names_In. auto.
Qed.

Lemma sj_ve_ok : ve_ok allM (others ++ [vk; vsys]).
Proof.
  destruct (se_ve_ok varis probs Hw Hst vsys Hsn Hsv rows Hcode) as (F & P & B & C & N).
  assert (P1 : Permutation (others ++ [vk; vsys]) (vsys :: map snd varis)).
  { rewrite others_perm. change [vk; vsys] with ([vk] ++ [vsys]). rewrite app_assoc. rewrite Permutation_app_comm. cbn [app]. apply perm_skip.
    rewrite Permutation_app_comm. reflexivity. }
  split; auto. split; auto. split; [|split].
  - intros v Hv. apply (Permutation_in _ P1) in Hv. destruct Hv as [<-|Hv]; auto.
    exists sysM. split; [apply (se_in varis probs); auto|]. split; [left; auto|apply basic_sys].
  - intros v Hv. apply (Permutation_in _ P1) in Hv. destruct Hv as [<-|Hv]; auto.
    exists sysM. split; [apply (se_in varis probs); auto|]. left; auto.
  - unfold names. eapply Permutation_NoDup; [apply Permutation_sym, Permutation_map, P1|]. apply (vars_nodup varis Hw Hst vsys Hsn).
Qed.

Lemma sj_elim_mass a : 0 <= a kept < nvals vk ->
  marg others (pmass allM) a = prob_event varis probs (fun x => (coord x kept =? a kept) && (phi x =? a (v_name vsys))).
Proof.
  intros Ra. destruct (Hst kept vk Hkp) as [Nk _].
  set (f := fun b : joint => if b kept =? a kept then pmass allM b else 0%Qc).
  assert (Xf : ext f). { intros b c E. unfold f. rewrite (E kept). destruct (c kept =? a kept); auto. apply pmass_ext. auto. }
  transitivity (marg (vk :: others) f a).
  { cbn [marg]. assert (Xo : forall b, b kept = a kept -> marg others f b = marg others (pmass allM) b).
    { assert (Ho : forall v, In v others -> v_name v <> kept).
      { intros v Hv E. assert (N : NoDup (names (vk :: others))) by (unfold names; eapply Permutation_NoDup; [apply Permutation_map, others_perm|]; fold (names (map snd varis)); rewrite (vnames varis Hst); apply Hw).
        cbn [names map] in N. inversion_clear N as [|? ? N1 N2]. apply N1. rewrite Nk, <- E. apply in_map. auto. }
      revert Ho. generalize others as l. induction l as [|v l IH]; intros Ho b Hb; cbn [marg].
      - unfold f. rewrite Hb, Z.eqb_refl. auto.
      - f_equal. apply map_ext. intros x. apply IH; [intros w Hw'; apply Ho; right; auto|]. unfold set_joint.
        destruct (String.eqb_spec kept (v_name v)) as [E|]; auto. exfalso. apply (Ho v (or_introl eq_refl)). auto. }
    assert (Zo : forall b, b kept <> a kept -> marg others f b = 0%Qc).
    { assert (Ho : forall v, In v others -> v_name v <> kept).
      { intros v Hv E. assert (N : NoDup (names (vk :: others))) by (unfold names; eapply Permutation_NoDup; [apply Permutation_map, others_perm|]; fold (names (map snd varis)); rewrite (vnames varis Hst); apply Hw).
        cbn [names map] in N. inversion_clear N as [|? ? N1 N2]. apply N1. rewrite Nk, <- E. apply in_map. auto. }
      revert Ho. generalize others as l. induction l as [|v l IH]; intros Ho b Hb; cbn [marg].
      - unfold f. apply Z.eqb_neq in Hb. rewrite Hb. auto.
      - apply qsum_map_zero. intros x _. apply IH; [intros w Hw'; apply Ho; right; auto|]. unfold set_joint.
        destruct (String.eqb_spec kept (v_name v)) as [E|]; auto. exfalso. apply (Ho v (or_introl eq_refl)). auto. }
    assert (Xa : marg others (pmass allM) a = marg others f (set_joint a vk (a kept))).
    { rewrite Xo by (unfold set_joint; rewrite Nk, String.eqb_refl; auto). apply marg_ext_a; [apply pmass_ext|]. intros n. unfold set_joint.
      destruct (String.eqb_spec n (v_name vk)) as [->|]; [rewrite Nk|]; auto. }
    rewrite Xa. symmetry.
    transitivity (qsum (map (fun x => if x =? a kept then marg others f (set_joint a vk (a kept)) else 0%Qc) (zrange 0 (nvals vk)))).
    { f_equal. apply map_ext. intros x. destruct (Z.eqb_spec x (a kept)) as [->|Ne]; auto. apply Zo. unfold set_joint. rewrite Nk, String.eqb_refl. auto. }
    apply qsum_single; [apply zrange_NoDup|]. apply zrange_In. auto. }
  rewrite <- (marg_perm (map snd varis) (vk :: others)); [|auto|apply others_perm|rewrite (vnames varis Hst); apply Hw].
  rewrite (marg_space varis) by (try apply Xf; try apply Hw; intros k v H; apply (Hst k v H)).
  unfold prob_event. rewrite qsum_filter. apply qsum_map_ext. intros x Hx. unfold f.
  assert (Kk : In kept (keys varis)) by (eapply In_keys; eauto). rewrite (over_coord varis) by auto.
  destruct (coord x kept =? a kept); cbn [andb]; auto.
  rewrite (se_pmass varis probs Hw Hst vsys rows phi Hmass x) by (auto; intros; apply (over_coord varis); auto).
  rewrite (se_sys varis vsys Hsn x a Hx), Z.eqb_sym. destruct (phi x =? a (v_name vsys)); ring.
Qed.

Lemma sj_result : exists M X, variable_elim allM others = Ok M /\ wf_cpm M /\ has_p M /\
  Permutation X [vsys; vk] /\ c_vars M = sort_vars X /\ basic_in M vsys /\ basic_in M vk /\
  forall a, 0 <= a kept < nvals vk -> mass M a = prob_event varis probs (fun x => (coord x kept =? a kept) && (phi x =? a (v_name vsys))).
Proof.
  destruct (Hst kept vk Hkp) as [Nk _].
  pose proof (ve_ok_app_l _ _ _ sj_ve_ok) as V0.
  assert (Po : forall v, In v others -> In v (map snd varis)) by (intros v Hv; apply (Permutation_in _ (Permutation_sym others_perm)); right; auto).
  assert (Nd : NoDup (names (vk :: others))).
  { unfold names. eapply Permutation_NoDup; [apply Permutation_map, others_perm|]. fold (names (map snd varis)). rewrite (vnames varis Hst). apply Hw. }
  assert (Vs : forall v, In v (map snd varis) -> v_name v <> v_name vsys).
  { intros v Hv E. apply Hsn. rewrite <- E, <- (vnames varis Hst). apply names_In. auto. }
  destruct (se_alive varis probs Hw Hp Hst vsys Hsn rows phi Hcode Hmass) as [a0 Ha0].
  destruct (variable_elim_total allM others a0 vsys sysM) as [M HM]; auto.
  - apply (se_in varis probs). auto.
  - left; auto.
  - intros X. apply in_map_iff in X as (v & E & Hv). apply (Vs v); auto.
  - intros v Hv. right. auto.
  - assert (HM' := HM). unfold variable_elim in HM'. destruct (variable_elim_list allM others) as [l'|] eqn:El; cbn [bind] in HM'; [|congruence].
    pose proof (elim_list_rest others [vk; vsys] _ _ sj_ve_ok El) as (F' & P' & B' & C' & N').
    destruct (variable_elim_ok _ _ _ V0 HM) as (W & Ma & Sc & Cc).
    destruct (elim_list_ok others allM l' V0 El) as (_ & _ & Sv & Sch).
    assert (Kc : In (comp_M probs (kept, vk)) l').
    { apply (elim_list_keep others allM); auto; [apply (se_in varis probs); left; eauto|]. intros v Hv.
      destruct (in_scope v (comp_M probs (kept, vk))) eqn:Is; auto. apply in_scope_name in Is. cbn [comp_M c_vars names map snd] in Is. destruct Is as [E|[]].
      exfalso. cbn [names map] in Nd. inversion_clear Nd as [|? ? N1 N2]. apply N1. rewrite E. apply in_map. auto. }
    destruct (B' vsys) as (Ms & HMs & Vms & Bms); [right; left; auto|].
    assert (L2 : (2 <= List.length l')%nat).
    { destruct l' as [|m1 [|m2 l']]; [destruct Kc| |cbn; lia]. exfalso. destruct Kc as [Kc|[]], HMs as [HMs|[]]. subst m1. rewrite <- HMs in Vms.
      cbn [comp_M c_vars] in Vms. destruct Vms as [E|[]]. cbn [snd] in E. apply (Vs vk); [apply in_map_iff; exists (kept, vk); auto|congruence]. }
    destruct (product_list_children l' M F' HM' L2) as [X EX].
    assert (Iv : forall w, In w (c_vars M) <-> w = vsys \/ w = vk).
    { intros w. rewrite Sc. split.
      - intros [(Q & HQ & Hv) Hn]. apply se_in in HQ as [(kv & Hk & ->)| ->].
        + destruct Hv as [<-|[]]. right. assert (In (snd kv) (map snd varis)) by (apply in_map; auto). apply (Permutation_in _ others_perm) in H. destruct H as [H|H]; auto. contradiction.
        + destruct Hv as [<-|Hv]; auto. apply (Permutation_in _ others_perm) in Hv. destruct Hv as [H|H]; auto. contradiction.
      - intros [->| ->].
        + split; [exists sysM; split; [apply (se_in varis probs); auto|left; auto]|]. intros H. apply (Vs vsys); auto.
        + split; [exists sysM; split; [apply (se_in varis probs); auto|right; apply in_map_iff; exists (kept, vk); auto]|].
          intros H. inversion_clear Nd as [|? ? N1 N2]. apply N1. apply in_map. auto. }
    assert (Ic : forall w, In w (children M) <-> w = vsys \/ w = vk).
    { intros w. split; [intros H; apply Iv, children_incl; auto|]. intros H. apply Cc. split.
      - destruct H as [->| ->]; [exists sysM; split; [apply (se_in varis probs); auto|left; auto]|].
        exists (comp_M probs (kept, vk)). split; [apply (se_in varis probs); left; eauto|left; auto].
      - intros H'. assert (H2 : In w (c_vars M)) by (apply Iv; auto). apply Sc in H2 as [_ H2]. contradiction. }
    assert (Ep : parents M = []).
    { pose proof (proj1 W) as Nm. rewrite (children_parents M) in Nm. unfold names in Nm. rewrite map_app in Nm. destruct (parents M) as [|w pw] eqn:E; auto. exfalso.
      assert (Hc : In w (children M)) by (apply Ic, Iv, parents_incl; rewrite E; left; auto).
      clear - Nm Hc. induction (children M) as [|x ch IH]; [destruct Hc|]. cbn [map app] in Nm. inversion Nm as [|? ? N1 N2]; subst.
      destruct Hc as [->|Hc]; auto. apply N1. apply in_or_app. right. left. auto. }
    assert (Ev : c_vars M = children M) by (rewrite (children_parents M) at 1; rewrite Ep, app_nil_r; auto).
    exists M, X. split; auto. split; auto. split; [apply (elim_has_p vsys _ _ _ V0 HM)|]. split; [|split; [congruence|]].
    { apply Permutation_trans with (sort_vars X); [apply Permutation_sym, sort_vars_perm|]. rewrite <- EX, <- Ev. apply NoDup_Permutation.
      - apply NoDup_map_inv with (f := v_name). apply W.
      - apply NoDup_map_inv with (f := v_name). cbn [map]. repeat constructor; cbn; [|tauto]. intros [E|[]]. apply (Vs vk); auto. apply in_map_iff. exists (kept, vk). auto.
      - intros w. rewrite Iv. cbn. intuition. }
    destruct (B' vk) as (Mk & HMk & Vmk & Bmk); [left; auto|].
    split; [apply (product_list_keep l' M vsys F' HM'); eauto|]. split; [apply (product_list_keep l' M vk F' HM'); eauto|].
    intros a Ra. rewrite Ma. apply sj_elim_mass. auto.
Qed.
End Joint.

(** * Elimination succeeds if every vector of components has a system state *)
Section Total.
Context (varis : dict variable) (probs : prob_dict) (Hw : wf_varis varis) (Hp : wf_probs varis probs).
Context (Hst : forall k v, In (k, v) varis -> v_name v = k /\ stored v).
Context (vsys : variable) (Hsn : ~ In (v_name vsys) (keys varis)) (Hsv : var_ok vsys) (rows : list (list Z)).
Context (Hcode : forall row, In row rows -> Forall2 code_ok (vsys :: map snd varis) row).
Context (Hpos : forall x, In x (space (comps_of varis)) -> exists s, forall a, (forall k, In k (keys varis) -> a k = coord x k) -> a (v_name vsys) = s ->
  (0 < mass (sys_M varis vsys rows) a)%Qc).
Notation sysM := (sys_M varis vsys rows).
Notation allM := (map (comp_M probs) varis ++ [sysM]).

Lemma tot_alive : exists a, alive allM a.
Proof.
  destruct (positive_vector varis probs Hp) as (x & Hx & Hq). destruct (Hpos x Hx) as [s Hs].
  set (a := over x (fun _ => s)). exists a.
  assert (Ha : forall k, In k (keys varis) -> a k = coord x k) by (intros; apply (over_coord varis); auto).
  assert (As : a (v_name vsys) = s) by (unfold a; rewrite (se_sys varis vsys Hsn); auto).
  assert (Nn : forall M c, (forall q, In q (weights M) -> 0 <= q)%Qc -> (0 <= mass M c)%Qc).
  { intros M c H. rewrite mass_if. apply qsum_nonneg. intros q Hq'. apply in_map_iff in Hq' as ([r p] & <- & HI). cbn [fst snd].
    destruct (row_match _ _ _); [apply H; eapply in_combine_r; eauto|qc_lra]. }
  intros M HM. apply se_in in HM as [(kv & H & ->)| ->].
  - split; [|split; [|cbn; congruence]].
    + intros c. apply Nn. intros q Hq'. destruct kv as [k v]. rewrite weights_p in Hq'.
      * cbn [comp_M c_p fst snd] in Hq'. apply in_map_iff in Hq' as (z & <- & Hz). apply In_zrange in Hz. apply (pget_pr varis probs Hp k v z H Hz).
      * cbn [comp_M c_p fst snd]. pose proof (proj2 Hw k v H). rewrite zrange_cons by lia. cbn. congruence.
    + rewrite (comp_M_mass varis) by auto. destruct kv as [k v]. cbn [fst snd]. rewrite Ha by (eapply In_keys; eauto).
      pose proof (sp_coord varis Hw x k v Hx H).
      destruct ((0 <=? coord x k) && (coord x k <? nvals v)) eqn:B; [|lia]. apply (factor_pos varis probs Hw Hp x (k, v)); auto.
  - split; [|split; [|cbn; congruence]].
    + intros c. apply Nn. intros q Hq'. unfold weights in Hq'. cbn [sys_M c_p c_C] in Hq'.
      assert (E : q = 1%Qc); [|subst q; qc_lra]. destruct rows as [|r rs]; [destruct Hq'|]. cbn [map] in Hq'. destruct Hq' as [<-|Hq']; auto.
      apply in_map_iff in Hq' as (? & <- & _). auto.
    + apply Hs; auto.
Qed.

Lemma tot_elim kept : exists M, variable_elim allM (map snd (other_varis varis kept)) = Ok M.
Proof.
  destruct tot_alive as [a0 Ha0].
  assert (Io : forall v, In v (map snd (other_varis varis kept)) -> In v (map snd varis)).
  { intros v Hv. apply in_map_iff in Hv as (kv & <- & Hv). apply filter_In in Hv as [Hv _]. apply in_map. auto. }
  destruct (se_ve_ok varis probs Hw Hst vsys Hsn Hsv rows Hcode) as (F & P & B & C & N).
  assert (V0 : ve_ok allM (map snd (other_varis varis kept))).
  { split; auto. split; auto. split; [auto|]. split; [auto|]. clear - N. unfold names, other_varis in *. induction varis as [|kv l IH]; cbn [filter map]; [constructor|].
    cbn [map] in N. inversion_clear N as [|? ? N1 N2]. destruct (negb _); auto. cbn [map]. constructor; auto. intros X. apply N1.
    apply in_map_iff in X as (v & E & Hv). rewrite <- E. apply in_map. apply in_map_iff in Hv as (kv' & <- & Hv). apply filter_In in Hv as [Hv _]. apply in_map. auto. }
  apply (variable_elim_total allM _ a0 vsys sysM); auto.
  - apply (se_in varis probs). auto.
  - left; auto.
  - intros X. apply in_map_iff in X as (v & E & Hv). apply Io in Hv. apply Hsn. rewrite <- E, <- (vnames varis Hst). apply names_In. auto.
  - intros v Hv. right. auto.
Qed.
End Total.
