(** The exact rows of [cal_Msys_by_cond_VE] on CPMs with samples (operation.py 699-751). *)
From Coq Require Import ZArith List String Bool Arith QArith Qcanon Lia.
From Verif Require Import Py Num Vari Cpm Net VeCond MsysProd Hybrid HybProd HybCal.
Import ListNotations.
Open Scope string_scope.
Open Scope Z_scope.
Open Scope list_scope.

(** * Rows *)
Lemma mk_h_c c Cs q ps idx M : mk_h c Cs q ps idx = Ok M -> h_c M = c.
Proof.
  unfold mk_h. destruct (check_Cs (c_vars c) Cs); cbn [bind]; [|discriminate]. destruct (check_len Cs q); cbn [bind]; [|discriminate].
  destruct (check_len Cs ps); cbn [bind]; [|discriminate]. destruct (check_len Cs idx); cbn [bind]; [|discriminate]. intros [= <-]. reflexivity.
Qed.
Lemma h_condition_c M vs sts M' : h_condition M vs sts = Ok M' -> condition (h_c M) vs sts = Ok (h_c M').
Proof.
  unfold h_condition. destruct (condition (h_c M) vs sts) as [c|] eqn:E; cbn [bind]; [|discriminate].
  destruct (no_samples M); [intros [= <-]; reflexivity|].
  destruct (resolve (h_c M) vs) as [vl|]; cbn [bind]; [|discriminate]. destruct (cond_states vl sts) as [sl|]; cbn [bind]; [|discriminate].
  match goal with |- bind ?e _ = _ -> _ => destruct e as [ps|]; cbn [bind]; [|discriminate] end.
  intros H. apply mk_h_c in H. congruence.
Qed.
Lemma h_sum_c M vs flag M' : h_sum M vs flag = Ok M' -> sum (h_c M) vs flag = Ok (h_c M').
Proof.
  unfold h_sum. destruct (sum (h_c M) vs flag) as [c|] eqn:E; cbn [bind]; [|discriminate].
  destruct (no_samples M); [intros [= <-]; reflexivity|]. intros H. apply mk_h_c in H. congruence.
Qed.
Lemma h_merge_c M1 M2 M' : h_merge M1 M2 = Ok M' -> merge (h_c M1) (h_c M2) = Ok (h_c M').
Proof.
  unfold h_merge. destruct (merge (h_c M1) (h_c M2)) as [c|] eqn:E; cbn [bind]; [|discriminate].
  destruct (negb _); [discriminate|]. intros H. apply mk_h_c in H. congruence.
Qed.
Lemma h_prod_sys_c S Ms M' : h_prod_sys S Ms = Ok M' -> prod_sys (h_c S) (map h_c Ms) = Ok (h_c M').
Proof.
  unfold h_prod_sys. destruct (prod_sys (h_c S) (map h_c Ms)) as [c|] eqn:E; cbn [bind]; [|discriminate].
  destruct (existsb no_samples (S :: Ms)); [intros [= <-]; reflexivity|].
  destruct (cond_of (map h_c Ms)) as [cs|]; cbn [bind]; [|discriminate].
  match goal with |- bind ?e _ = _ -> _ => destruct e as [ms|]; cbn [bind]; [|discriminate] end.
  match goal with |- bind ?e _ = _ -> _ => destruct e as [R|]; cbn [bind]; [|discriminate] end.
  match goal with |- bind ?e _ = _ -> _ => destruct e as [idx|]; cbn [bind]; [|discriminate] end.
  intros H. apply mk_h_c in H. congruence.
Qed.
Lemma h_product_ord_c M1 M2 M' c : h_product_ord M1 M2 = Ok M' -> product_ord (h_c M1) (h_c M2) = Ok c -> h_c M' = c.
Proof.
  unfold h_product_ord. intros H P. assert (Pc := P). unfold product_ord in Pc.
  destruct (common_child (h_c M1) (h_c M2)); [discriminate|]. cbv zeta in H.
  destruct (c_C (h_c M1)) as [|r C] eqn:EC; [discriminate|]. destruct (c_vars (h_c M1)) as [|v l] eqn:EV; [discriminate|]. clear Pc.
  match type of H with bind (bind ?e _) _ = _ => destruct e as [x|]; cbn [bind] in H; [|discriminate] end.
  rewrite P in H. cbn [bind] in H. destruct (no_samples M1 || no_samples M2); [injection H as <-; reflexivity|].
  match type of H with bind ?e _ = _ => destruct e as [rows|]; cbn [bind] in H; [|discriminate] end.
  apply mk_h_c in H. exact H.
Qed.
Lemma h_product_c M1 M2 M' c : h_product M1 M2 = Ok M' -> product (h_c M1) (h_c M2) = Ok c -> h_c M' = c.
Proof. unfold h_product, product. destruct (ncols (h_c M2) <? ncols (h_c M1))%nat; apply h_product_ord_c. Qed.
Lemma h_product_list_c l M' c : h_product_list l = Ok M' -> product_list (map h_c l) = Ok c -> h_c M' = c.
Proof.
  destruct l as [|M l]; [discriminate|]. cbn [h_product_list product_list map]. 
  assert (G : forall l M0 c0, h_c M0 = c0 -> foldM h_product l M0 = Ok M' -> foldM product (map h_c l) c0 = Ok c -> h_c M' = c); [|apply G; reflexivity].
  clear. induction l as [|N l IH]; intros M0 c0 E; cbn [foldM map].
  - intros [= <-] [= <-]. exact E.
  - destruct (h_product M0 N) as [M1|] eqn:E1; cbn [bind]; [|discriminate]. destruct (product c0 (h_c N)) as [c1|] eqn:E2; cbn [bind]; [|discriminate].
    apply IH. subst c0. exact (h_product_c _ _ _ _ E1 E2).
Qed.
Lemma filter_h_c (f : cpm -> bool) l : filter f (map h_c l) = map h_c (filter (fun M => f (h_c M)) l).
Proof. induction l as [|M l IH]; auto. cbn [map filter]. destruct (f (h_c M)); cbn [map]; rewrite IH; reflexivity. Qed.
Lemma h_elim_step_c l v l' c : h_elim_step l v = Ok l' -> elim_step (map h_c l) v = Ok c -> map h_c l' = c.
Proof.
  unfold h_elim_step, elim_step. rewrite !filter_h_c. destruct (h_product_list _) as [M1|] eqn:E1; cbn [bind]; [|discriminate].
  destruct (product_list _) as [c1|] eqn:E2; cbn [bind]; [|discriminate]. assert (E := h_product_list_c _ _ _ E1 E2). subst c1.
  destruct (h_sum M1 (Vars [v]) true) as [M2|] eqn:E3; cbn [bind]; [|discriminate]. rewrite (h_sum_c _ _ _ _ E3). cbn [bind].
  intros [= <-] [= <-]. reflexivity.
Qed.
Lemma h_elim_c vars : forall l l' c, foldM h_elim_step vars l = Ok l' -> foldM elim_step vars (map h_c l) = Ok c -> map h_c l' = c.
Proof.
  induction vars as [|v vars IH]; intros l l' c; cbn [foldM]; [intros [= <-] [= <-]; reflexivity|].
  destruct (h_elim_step l v) as [l1|] eqn:E1; cbn [bind]; [|discriminate]. destruct (elim_step (map h_c l) v) as [c1|] eqn:E2; cbn [bind]; [|discriminate].
  assert (E := h_elim_step_c _ _ _ _ E1 E2). subst c1. apply IH.
Qed.

Lemma rows_get d k : dget (rows_of d) k = match dget d k with Ok M => Ok (h_c M) | Err e => Err e end.
Proof.
  unfold dget. assert (E : dfind (rows_of d) k = option_map h_c (dfind d k)); [|rewrite E; destruct (dfind d k); reflexivity].
  induction d as [|[n M] d IH]; auto. cbn. destruct (String.eqb k n); auto.
Qed.
Lemma rows_set d k M : rows_of (dset d k M) = dset (rows_of d) k (h_c M).
Proof. induction d as [|[n N] d IH]; auto. cbn. destruct (String.eqb k n); auto. cbn. f_equal. exact IH. Qed.
Lemma rows_del d k : rows_of (ddel d k) = ddel (rows_of d) k.
Proof. unfold ddel. induction d as [|[n N] d IH]; auto. cbn. destruct (String.eqb n k); cbn; [exact IH|]. f_equal. exact IH. Qed.
Lemma rows_fold ms : forall d, rows_of (fold_left (fun d kM => dset d (fst kM) (snd kM)) ms d) =
  fold_left (fun d kM => dset d (fst kM) (snd kM)) (rows_of ms) (rows_of d).
Proof. induction ms as [|[n N] ms IH]; intros d; auto. cbn [fold_left rows_of map fst snd]. rewrite IH, rows_set. reflexivity. Qed.
Lemma rows_others d sys : map snd (filter (fun kM => negb (String.eqb (fst kM) sys)) (rows_of d)) = map h_c (map snd (filter (fun kM => negb (String.eqb (fst kM) sys)) d)).
Proof. induction d as [|[n N] d IH]; auto. cbn. destruct (String.eqb n sys); cbn; [exact IH|]. f_equal. exact IH. Qed.
Lemma rows_mapM cpms l : mapM (fun v => M <- dget (rows_of cpms) v ;; Ok (v, M)) l =
  match mapM (fun v => M <- dget cpms v ;; Ok (v, M)) l with Ok ms => Ok (rows_of ms) | Err e => Err e end.
Proof.
  induction l as [|v l IH]; auto. cbn [mapM]. rewrite rows_get. destruct (dget cpms v) as [M|]; cbn [bind]; auto.
  rewrite IH. destruct (mapM (fun v => M <- dget cpms v ;; Ok (v, M)) l); reflexivity.
Qed.
Lemma rows_gets cpms l : mapM (dget (rows_of cpms)) l = match mapM (dget cpms) l with Ok ms => Ok (map h_c ms) | Err e => Err e end.
Proof.
  induction l as [|v l IH]; auto. cbn [mapM]. rewrite rows_get. destruct (dget cpms v) as [M|]; cbn [bind]; auto.
  rewrite IH. destruct (mapM (dget cpms) l); reflexivity.
Qed.
Lemma rows_condition vs sts d : forall d', mapM (fun kM => M <- h_condition (snd kM) vs sts ;; Ok (fst kM, M)) d = Ok d' ->
  mapM (fun kM => M <- condition (snd kM) vs sts ;; Ok (fst kM, M)) (rows_of d) = Ok (rows_of d').
Proof.
  induction d as [|[n M] d IH]; intros d'; cbn [mapM rows_of map fst snd]; [intros [= <-]; reflexivity|].
  destruct (h_condition M vs sts) as [M'|] eqn:E; cbn [bind]; [|discriminate]. rewrite (h_condition_c _ _ _ _ E). cbn [bind].
  destruct (mapM _ d) as [ds|]; cbn [bind]; [|discriminate]. specialize (IH ds eq_refl). unfold rows_of in IH. rewrite IH. cbn [bind]. intros [= <-]. reflexivity.
Qed.
Lemma h_join_c sys l : forall d d' c, foldM (h_join_sys sys) l d = Ok d' -> foldM (join_sys sys) l (rows_of d) = Ok c -> rows_of d' = c.
Proof.
  induction l as [|x l IH]; intros d d' c; cbn [foldM]; [intros [= <-] [= <-]; reflexivity|].
  unfold h_join_sys at 1, join_sys at 1. rewrite !rows_get. destruct (dget d sys) as [S|]; cbn [bind]; [|discriminate].
  destruct (dget d x) as [X|]; cbn [bind]; [|discriminate]. destruct (h_product S X) as [P|] eqn:E1; cbn [bind]; [|discriminate].
  destruct (product (h_c S) (h_c X)) as [p|] eqn:E2; cbn [bind]; [|discriminate]. assert (E := h_product_c _ _ _ _ E1 E2). subst p.
  rewrite <- rows_set, <- rows_del. apply IH.
Qed.
Lemma h_cal_step_c inf vars sys jnt elm cond Mc row M c :
  h_cal_step inf vars sys jnt elm cond Mc row = Ok M -> cal_step (rows_of inf) vars sys jnt elm cond (h_c Mc) row = Ok c -> h_c M = c.
Proof.
  unfold h_cal_step, cal_step. destruct (h_condition Mc _ _) as [m1|] eqn:E1; cbn [bind]; [|discriminate]. rewrite (h_condition_c _ _ _ _ E1). cbn [bind].
  destruct (c_C (h_c m1)) as [|r1 C1]; [discriminate|]. destruct (mapM _ inf) as [VE|] eqn:E2; cbn [bind]; [|discriminate].
  rewrite (rows_condition _ _ _ _ E2). cbn [bind]. unfold h_cal_ve. destruct (foldM (h_join_sys sys) jnt VE) as [VE'|] eqn:E3; cbn [bind]; [|discriminate].
  destruct (foldM (join_sys sys) jnt (rows_of VE)) as [ve'|] eqn:E4; cbn [bind]; [|discriminate]. assert (E := h_join_c _ _ _ _ _ E3 E4). subst ve'.
  rewrite rows_others. unfold variable_elim_list. destruct (foldM h_elim_step vars _) as [comps|] eqn:E5; cbn [bind]; [|discriminate].
  destruct (foldM elim_step vars _) as [cs|] eqn:E6; cbn [bind]; [|discriminate]. assert (E := h_elim_c _ _ _ _ E5 E6). subst cs.
  rewrite rows_get. destruct (dget VE' sys) as [S|]; cbn [bind]; [|discriminate]. destruct (h_prod_sys S comps) as [m|] eqn:E7; cbn [bind]; [|discriminate].
  rewrite (h_prod_sys_c _ _ _ E7). cbn [bind]. destruct (h_sum m (Names elm) true) as [m'|] eqn:E8; cbn [bind]; [|discriminate].
  rewrite (h_sum_c _ _ _ _ E8). cbn [bind]. destruct (h_product m' m1) as [m''|] eqn:E9; cbn [bind]; [|discriminate].
  destruct (product (h_c m') (h_c m1)) as [p|] eqn:E10; cbn [bind]; [|discriminate]. assert (E := h_product_c _ _ _ _ E9 E10). subst p.
  intros H1 H2. apply h_sum_c in H1. congruence.
Qed.
Theorem h_cal_rows cpms varis cond ord sys M c : h_cal_msys cpms varis cond ord sys = Ok M -> cal_msys (rows_of cpms) varis cond ord sys = Ok c -> h_c M = c.
Proof.
  unfold h_cal_msys, cal_msys. destruct (get_inf_vars (rows_of cpms) [sys] (Some ord)) as [inf|]; cbn [bind]; [|discriminate].
  rewrite rows_get. destruct (dget cpms sys) as [S|]; cbn [bind]; [|discriminate]. destruct (mapM (dget varis) _) as [vv|]; cbn [bind]; [|discriminate].
  rewrite rows_mapM. destruct (mapM _ (_ ++ _ ++ _)) as [ms|]; cbn [bind]; [|discriminate]. rewrite rows_gets.
  destruct (mapM (dget cpms) cond) as [cc|]; cbn [bind]; [|discriminate]. destruct (h_product_list cc) as [Mc|] eqn:E1; cbn [bind]; [|discriminate].
  destruct (product_list (map h_c cc)) as [mc|] eqn:E2; cbn [bind]; [|discriminate]. assert (E := h_product_list_c _ _ _ E1 E2). subst mc.
  destruct (c_C (h_c Mc)) as [|row rows]; [discriminate|]. change (@nil (string * cpm)) with (rows_of []). rewrite <- rows_fold, <- rows_set.
  destruct (h_cal_step _ _ _ _ _ _ _ row) as [M0|] eqn:E3; cbn [bind]; [|discriminate].
  destruct (cal_step _ _ _ _ _ _ _ row) as [c0|] eqn:E4; cbn [bind]; [|discriminate]. assert (E := h_cal_step_c _ _ _ _ _ _ _ _ _ _ E3 E4). clear E3 E4. revert M0 c0 E.
  induction rows as [|r rows IH]; intros M0 c0 E; cbn [foldM]; [intros [= <-] [= <-]; exact E|].
  destruct (h_cal_step _ _ _ _ _ _ _ r) as [m|] eqn:E3; cbn [bind]; [|discriminate].
  destruct (cal_step _ _ _ _ _ _ _ r) as [c1|] eqn:E4; cbn [bind]; [|discriminate]. assert (E' := h_cal_step_c _ _ _ _ _ _ _ _ _ _ E3 E4).
  destruct (h_merge M0 m) as [M1|] eqn:E5; cbn [bind]; [|discriminate]. apply h_merge_c in E5. subst c0 c1. rewrite E5. cbn [bind]. apply IH. reflexivity.
Qed.

(** * CPMs without samples *)
Definition bare_of (c : cpm) : hcpm := mkH c [] [] [] [].
Definition bares (d : dict cpm) : dict hcpm := map (fun kM => (fst kM, bare_of (snd kM))) d.

(** both fail, or both succeed with results related by [R] *)
Definition both {A B} (R : A -> B -> Prop) (ra : res A) (rb : res B) : Prop :=
  match ra, rb with Ok a, Ok b => R a b | Err _, Err _ => True | _, _ => False end.
Lemma both_bind {A B A' B'} (R : A -> B -> Prop) (R' : A' -> B' -> Prop) ra rb f g : both R ra rb -> (forall a b, R a b -> both R' (f a) (g b)) ->
  both R' (bind ra f) (bind rb g).
Proof. destruct ra, rb; cbn; intros H G; try contradiction; auto. Qed.
Lemma both_refl {A} (r : res A) : both eq r r.
Proof. destruct r; cbn; auto. Qed.
Lemma both_foldM {A B X Y} (R : A -> B -> Prop) (f : A -> X -> res A) (g : B -> Y -> res B) (h : Y -> X) l :
  (forall a b y, R a b -> both R (f a (h y)) (g b y)) -> forall a b, R a b -> both R (foldM f (map h l) a) (foldM g l b).
Proof.
  intros H. induction l as [|y l IH]; intros a b Hab; cbn [map foldM]; [exact Hab|]. apply (both_bind R); auto.
Qed.
Definition isb (M : hcpm) (c : cpm) : Prop := M = bare_of c.

Lemma bare_none c : no_samples (bare_of c) = true.
Proof. reflexivity. Qed.
Lemma bare_condition c vs sts : both isb (h_condition (bare_of c) vs sts) (condition c vs sts).
Proof. unfold h_condition. cbn [h_c bare_of]. destruct (condition c vs sts); reflexivity. Qed.
Lemma bare_sum c vs flag : both isb (h_sum (bare_of c) vs flag) (sum c vs flag).
Proof. unfold h_sum. cbn [h_c bare_of]. destruct (sum c vs flag); reflexivity. Qed.
Lemma bare_merge c c' : both isb (h_merge (bare_of c) (bare_of c')) (merge c c').
Proof. unfold h_merge. cbn [h_c bare_of]. destruct (merge c c'); reflexivity. Qed.
Lemma map_bare l : map h_c (map bare_of l) = l.
Proof. rewrite map_map. cbn. apply map_id. Qed.
Lemma bare_prod_sys S Ms : both isb (h_prod_sys (bare_of S) (map bare_of Ms)) (prod_sys S Ms).
Proof. unfold h_prod_sys. rewrite map_bare. cbn [h_c bare_of]. destruct (prod_sys S Ms); reflexivity. Qed.
Lemma bare_product_ord c1 c2 : both isb (h_product_ord (bare_of c1) (bare_of c2)) (product_ord c1 c2).
Proof.
  destruct (product_ord c1 c2) as [c|e] eqn:P.
  - unfold h_product_ord. cbn [h_c bare_of]. assert (Q := P). unfold product_ord in Q. destruct (common_child c1 c2); [discriminate|]. cbv zeta in *.
    destruct (c_C c1) as [|r C] eqn:EC; [discriminate|]. destruct (c_vars c1) as [|v l] eqn:EV; [discriminate|]. rewrite <- EC, <- EV in *.
    match type of Q with bind ?e _ = _ => destruct e as [m2|] eqn:Em; cbn [bind] in Q; [|discriminate] end.
    assert (m2 = mkCpm (c_vars c2) (c_nch c2) (c_C c2) match c_p c1 with [] => c_p c2 | _ :: _ => match c_p c2 with [] => map (fun _ => 1%Qc) (c_C c2) | _ :: _ => c_p c2 end end) as E2.
    { unfold mk_cpm in Em. destruct (_ <=? _)%nat; [|discriminate]. destruct (check_C _ _); cbn [bind] in Em; [|discriminate].
      destruct (check_p _ _); cbn [bind] in Em; [|discriminate]. injection Em as <-. destruct (c_p c1), (c_p c2); reflexivity. }
    match type of Q with bind ?e _ = _ => destruct e as [parts|] eqn:Ep; cbn [bind] in Q; [|discriminate] end. clear Q.
    match goal with |- context [bind (mapM ?f ?l) _] => assert (G : exists ys, mapM f l = Ok ys) end.
    { clear -Ep E2. revert parts Ep. generalize (c_C c1) as L. induction L as [|r1 L IH]; intros parts Ep; [eexists; reflexivity|]. cbn [mapM] in *.
      destruct (condition m2 _ _) as [mc|] eqn:Ec; cbn [bind] in Ep; [|discriminate].
      destruct (mapM _ L) as [ps|] eqn:El; cbn [bind] in Ep; [|discriminate]. destruct (IH ps eq_refl) as (ys & Y).
      assert (B := bare_condition m2 (Vars (select (c_vars c1) (map is_some (ismember (c_vars c1) (c_vars c2))))) (map SI (select r1 (map is_some (ismember (c_vars c1) (c_vars c2)))))).
      rewrite Ec in B. subst m2. unfold bare_of in *. cbn [h_Cs h_q h_ps h_idx] in *.
      replace (match c_p c1 with [] => c_p c2 | _ :: _ => match c_p c2 with [] => map (fun _ => 1%Qc) (c_C c2) | _ :: _ => c_p c2 end end)
        with (match c_p c1 with [] => c_p c2 | _ :: _ => match c_p c2 with [] => map (fun _ => 1%Qc) (c_C c2) | q :: l => q :: l end end) in *
        by (destruct (c_p c1), (c_p c2); reflexivity).
      destruct (h_condition _ _ _) as [x|]; [|contradiction]. cbn [bind]. rewrite Y. cbn [bind]. eexists. reflexivity. }
    destruct G as (ys & G). rewrite G. cbn [bind]. rewrite P. cbn [bind]. rewrite bare_none. reflexivity.
  - destruct (h_product_ord (bare_of c1) (bare_of c2)) as [M|] eqn:H; [|exact I]. exfalso. unfold h_product_ord in H. cbn [h_c bare_of] in H.
    destruct (common_child c1 c2); [discriminate|]. cbv zeta in H. rewrite P, bare_none in H. 
    destruct (c_C c1); [discriminate|]. destruct (c_vars c1); [discriminate|].
    match type of H with bind (bind ?e _) _ = _ => destruct e; discriminate end.
Qed.
Lemma bare_product c1 c2 : both isb (h_product (bare_of c1) (bare_of c2)) (product c1 c2).
Proof. unfold h_product, product. cbn [h_c bare_of]. destruct (ncols c2 <? ncols c1)%nat; apply bare_product_ord. Qed.
Lemma bare_product_list l : both isb (h_product_list (map bare_of l)) (product_list l).
Proof.
  destruct l as [|c l]; [exact I|]. cbn [map h_product_list product_list]. apply both_foldM; [|reflexivity]. intros a b y ->. apply bare_product.
Qed.
Lemma filter_bare (f : cpm -> bool) l : filter (fun M => f (h_c M)) (map bare_of l) = map bare_of (filter f l).
Proof. induction l as [|c l IH]; auto. cbn [map filter h_c bare_of]. destruct (f c); cbn [map]; rewrite IH; reflexivity. Qed.
Definition isbs (l : list hcpm) (l' : list cpm) : Prop := l = map bare_of l'.
Lemma bare_elim vars l : both isbs (foldM h_elim_step vars (map bare_of l)) (foldM elim_step vars l).
Proof.
  rewrite <- (map_id vars) at 1. apply both_foldM; [|reflexivity]. intros a b v ->. unfold h_elim_step, elim_step.
  rewrite (filter_bare (in_scope v)), (filter_bare (fun M => negb (in_scope v M))).
  apply (both_bind isb); [apply bare_product_list|]. intros M c ->. apply (both_bind isb); [apply bare_sum|]. intros M' c' ->. reflexivity.
Qed.
Definition isbd (d : dict hcpm) (d' : dict cpm) : Prop := d = bares d'.
Lemma bares_get d k : both isb (dget (bares d) k) (dget d k).
Proof.
  unfold dget. assert (E : dfind (bares d) k = option_map bare_of (dfind d k)); [|rewrite E; destruct (dfind d k); reflexivity].
  induction d as [|[n M] d IH]; auto. cbn. destruct (String.eqb k n); auto.
Qed.
Lemma bares_set d k M : bares (dset d k M) = dset (bares d) k (bare_of M).
Proof. induction d as [|[n N] d IH]; auto. cbn. destruct (String.eqb k n); auto. cbn. f_equal. exact IH. Qed.
Lemma bares_del d k : bares (ddel d k) = ddel (bares d) k.
Proof. unfold ddel. induction d as [|[n N] d IH]; auto. cbn. destruct (String.eqb n k); cbn; [exact IH|]. f_equal. exact IH. Qed.
Lemma bares_fold ms : forall d, bares (fold_left (fun d kM => dset d (fst kM) (snd kM)) ms d) =
  fold_left (fun d kM => dset d (fst kM) (snd kM)) (bares ms) (bares d).
Proof. induction ms as [|[n N] ms IH]; intros d; auto. cbn [fold_left bares map fst snd]. rewrite IH, bares_set. reflexivity. Qed.
Lemma bares_others d sys : map snd (filter (fun kM => negb (String.eqb (fst kM) sys)) (bares d)) = map bare_of (map snd (filter (fun kM => negb (String.eqb (fst kM) sys)) d)).
Proof. induction d as [|[n N] d IH]; auto. cbn. destruct (String.eqb n sys); cbn; [exact IH|]. f_equal. exact IH. Qed.
Lemma rows_bares d : rows_of (bares d) = d.
Proof. induction d as [|[n N] d IH]; auto. cbn. f_equal. exact IH. Qed.
Lemma bares_mapM cpms l : both isbd (mapM (fun v => M <- dget (bares cpms) v ;; Ok (v, M)) l) (mapM (fun v => M <- dget cpms v ;; Ok (v, M)) l).
Proof.
  induction l as [|v l IH]; [reflexivity|]. cbn [mapM]. apply (both_bind (fun a b => a = (fst b, bare_of (snd b)))).
  - apply (both_bind isb); [apply bares_get|]. intros M c ->. reflexivity.
  - intros a b ->. apply (both_bind isbd); [exact IH|]. intros d d' ->. reflexivity.
Qed.
Lemma bares_gets cpms l : both isbs (mapM (dget (bares cpms)) l) (mapM (dget cpms) l).
Proof.
  induction l as [|v l IH]; [reflexivity|]. cbn [mapM]. apply (both_bind isb); [apply bares_get|]. intros M c ->.
  apply (both_bind isbs); [exact IH|]. intros d d' ->. reflexivity.
Qed.
Lemma bares_condition vs sts d : both isbd (mapM (fun kM => M <- h_condition (snd kM) vs sts ;; Ok (fst kM, M)) (bares d))
  (mapM (fun kM => M <- condition (snd kM) vs sts ;; Ok (fst kM, M)) d).
Proof.
  induction d as [|[n M] d IH]; [reflexivity|]. cbn [mapM bares map fst snd]. apply (both_bind (fun a b => a = (fst b, bare_of (snd b)))).
  - apply (both_bind isb); [apply bare_condition|]. intros M' c ->. reflexivity.
  - intros a b ->. apply (both_bind isbd); [exact IH|]. intros e e' ->. reflexivity.
Qed.
Lemma bares_join sys l d : both isbd (foldM (h_join_sys sys) l (bares d)) (foldM (join_sys sys) l d).
Proof.
  rewrite <- (map_id l) at 1. apply both_foldM; [|reflexivity]. intros a b x ->. unfold h_join_sys, join_sys.
  apply (both_bind isb); [apply bares_get|]. intros S c ->. apply (both_bind isb); [apply bares_get|]. intros X x' ->.
  apply (both_bind isb); [apply bare_product|]. intros P p ->. cbn. unfold isbd. rewrite bares_del, bares_set. reflexivity.
Qed.
Lemma bare_cal_step inf vars sys jnt elm cond Mc row :
  both isb (h_cal_step (bares inf) vars sys jnt elm cond (bare_of Mc) row) (cal_step inf vars sys jnt elm cond Mc row).
Proof.
  unfold h_cal_step, cal_step. cbn [h_c bare_of]. apply (both_bind isb); [apply bare_condition|]. intros m1 c1 H. unfold isb in H. subst m1. cbn [h_c bare_of].
  destruct (c_C c1) as [|r1 C1]; [exact I|]. apply (both_bind isbd); [apply bares_condition|]. intros VE ve ->. unfold h_cal_ve.
  apply (both_bind isbd); [apply bares_join|]. intros VE' ve' H. unfold isbd in H. subst VE'. rewrite bares_others. unfold variable_elim_list.
  apply (both_bind isbs); [apply bare_elim|]. intros comps cs ->. apply (both_bind isb); [apply bares_get|]. intros S s ->.
  apply (both_bind isb); [apply bare_prod_sys|]. intros m c ->. apply (both_bind isb); [apply bare_sum|]. intros m' c' ->.
  apply (both_bind isb); [apply bare_product|]. intros m'' c'' ->. apply bare_sum.
Qed.
Theorem bare_cal cpms varis cond ord sys : both isb (h_cal_msys (bares cpms) varis cond ord sys) (cal_msys cpms varis cond ord sys).
Proof.
  unfold h_cal_msys, cal_msys. rewrite rows_bares. apply (both_bind eq); [apply both_refl|]. intros inf ? <-.
  apply (both_bind isb); [apply bares_get|]. intros S s H. unfold isb in H. subst S. cbn [h_c bare_of]. cbv zeta. apply (both_bind eq); [apply both_refl|]. intros vv ? <-.
  apply (both_bind isbd); [apply bares_mapM|]. intros ms ms' H. unfold isbd in H. subst ms. apply (both_bind isbs); [apply bares_gets|]. intros cc cc' ->.
  apply (both_bind isb); [apply bare_product_list|]. intros Mc mc H. unfold isb in H. subst Mc. cbn [h_c bare_of]. destruct (c_C mc) as [|row rows]; [exact I|].
  change (@nil (string * hcpm)) with (bares []). rewrite <- bares_fold, <- bares_set. apply (both_bind isb); [apply bare_cal_step|]. intros M0 c0 H. unfold isb in H. subst M0.
  rewrite <- (map_id rows) at 1. apply both_foldM; [|reflexivity]. intros a b r ->. apply (both_bind isb); [apply bare_cal_step|]. intros m c ->. apply bare_merge.
Qed.
