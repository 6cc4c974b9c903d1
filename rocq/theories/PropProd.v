(** Final theorems about the product of a system CPM with component CPMs (C41). *)
From Coq Require Import ZArith List String Bool Arith Lia Permutation QArith Qcanon.
From Verif Require Import Py PyFacts Num Vari VariFacts Cpm CpmFacts SpecCpm CpmSum CpmMarg CpmElim CpmProb MsysProd SpecProd MsysProdFacts PropCpm.
Import ListNotations.
Open Scope string_scope.
Open Scope Z_scope.
Open Scope list_scope.

(** * C41 *)

(** Each row of the result is a row of the system CPM with its columns in the order
    children, parents that have a component, other parents, and with the states of new
    conditional variables appended; its probability is that of the row times, for each
    parent with a component, the probability that this component is in one of the
    row's states. *)
Theorem C41_rows :
  forall Msys Ms cs, prod_ok Msys Ms cs ->
    exists R, prod_sys Msys Ms = Ok R /\
      children R = children Msys ++ mult_of Msys Ms /\
      parents R = rest_of Msys Ms ++ map fst (new_conds cs (rest_of Msys Ms)) /\
      List.length (c_C R) = List.length (c_C Msys) /\ has_p R /\
      forall k row p row' p', nth_error (c_C Msys) k = Some row -> nth_error (c_p Msys) k = Some p ->
        nth_error (c_C R) k = Some row' -> nth_error (c_p R) k = Some p' ->
        (exists r, row' = r ++ map snd (new_conds cs (rest_of Msys Ms)) /\
           restricts (c_vars Msys) row (children Msys ++ mult_of Msys Ms ++ rest_of Msys Ms) r) /\
        p' = (p * qprod (map (fun vc => comp_factor Ms (fst vc) (snd vc))
                             (filter (fun vc => in_comps Ms (fst vc)) (skipn (c_nch Msys) (combine (c_vars Msys) row)))))%Qc.
Proof.
  intros Msys Ms cs OK. eexists. split; [apply (prod_sys_spec _ _ cs OK)|]. destruct OK as (W & P & _).
  unfold children at 1, parents at 1. cbn [c_vars c_nch c_C c_p]. unfold part_vars at 1 2.
  split; [|split; [|split; [|split]]].
  - rewrite <- app_assoc, firstn_app, Nat.sub_diag, firstn_all. cbn [firstn]. rewrite app_nil_r. auto.
  - rewrite <- app_assoc, skipn_app, Nat.sub_diag, skipn_all. auto.
  - apply map_length.
  - unfold has_p in *. cbn [c_C c_p]. rewrite !map_length, combine_length. lia.
  - intros k row p row' p' E1 E2 E3 E4. rewrite nth_error_map, E1 in E3. cbn in E3. injection E3 as <-.
    assert (Hr : In row (c_C Msys)) by (eapply nth_error_In; eauto). pose proof (proj1 W) as N.
    assert (L : List.length row = List.length (c_vars Msys)) by apply (wf_rows Msys row W Hr).
    split.
    + exists (proj (c_vars Msys) (part_vars Msys Ms) row). split; auto.
      rewrite restricts_proj; auto; [unfold part_vars; rewrite app_assoc; auto|].
      intros v Hv. apply (part_incl Msys Ms). unfold part_vars. rewrite <- app_assoc. auto.
    + rewrite nth_error_map in E4.
      assert (Ec : nth_error (combine (c_C Msys) (c_p Msys)) k = Some (row, p)).
      { clear - E1 E2. revert k E1 E2. generalize (c_p Msys). induction (c_C Msys) as [|r C IH]; intros [|q l] [|k] E1 E2; cbn in *; try congruence. auto. }
      rewrite Ec in E4. cbn in E4. injection E4 as <-. f_equal. f_equal.
      rewrite combine_pos by auto. rewrite skipn_map. fold (parents Msys). unfold mult_of.
      generalize (parents Msys). induction l as [|v l IH]; auto. cbn [map filter fst]. destruct (in_comps Ms v); cbn [map fst snd]; rewrite IH; auto.
Qed.
Print Assumptions C41_rows.

(** Summed over the states of the multiplied components, the result is the product of
    the system CPM with their CPMs, for joint states that meet the conditions. *)
Theorem C41_product :
  forall Msys Ms cs R a, prod_ok Msys Ms cs -> Forall basic_child Ms ->
    (forall y s v, In (y, s) cs -> In v (mult_of Msys Ms) -> v_name y <> v_name v) ->
    prod_sys Msys Ms = Ok R -> meets_conds cs a ->
    mass_on (children Msys ++ rest_of Msys Ms ++ map fst cs) R a =
    marg (mult_of Msys Ms) (pmass (Msys :: comps_for Ms (mult_of Msys Ms))) a.
Proof. exact prod_sys_mass. Qed.
Print Assumptions C41_product.

(** The result can be used in further operations. *)
Theorem C41_wf :
  forall Msys Ms cs R, prod_ok Msys Ms cs ->
    (forall y s v, In (y, s) cs -> In v (children Msys ++ mult_of Msys Ms) -> v_name y <> v_name v) ->
    prod_sys Msys Ms = Ok R -> wf_cpm R.
Proof.
  intros Msys Ms cs R OK HY E. rewrite (prod_sys_spec _ _ cs OK) in E. injection E as <-. apply prod_result_wf; auto.
Qed.
Print Assumptions C41_wf.

(** ** Examples: three variables as in PropCpm.v, and a condition h *)
Definition vh := ex_g "h".
Definition Hx := mkCpm [vx; vh] 1 [[0; 1]; [1; 1]] [q 1 4; q 3 4].
Definition Hy := mkCpm [vy; vh] 1 [[1; 1]; [0; 1]; [2; 1]] [q 1 2; q 1 4; q 1 4].
Definition Mh := mkCpm [vs; vx; vh; vy] 1 [[0; 0; 0; 4]; [1; 1; 1; 5]; [0; 1; 2; 6]] [q 1 1; q 1 2; q 1 3].

Definition nodup_Z (l : list Z) : bool := (List.length (nodup Z.eq_dec l) =? List.length l)%nat.
Definition comp_b (m : cpm) : bool :=
  match children m, c_C m with
  | [v], _ :: _ =>
      wf_b m && (c_nch m =? 1)%nat && nodup_Z (map (hd 0) (c_C m)) &&
      forallb (fun k => (0 <=? k) && (k <? nvals v)) (map (hd 0) (c_C m)) &&
      forallb (fun k => mem_Z k (map (hd 0) (c_C m))) (zrange 0 (nvals v)) &&
      match v_B v with Some B => forallb (fun e => nodup_Z e && forallb (fun x => (0 <=? x) && (x <? nvals v)) e) B | None => true end
  | _, _ => false
  end.
Lemma nodup_Z_ok l : nodup_Z l = true -> NoDup l.
Proof.
  unfold nodup_Z. rewrite Nat.eqb_eq. intros H. apply (@NoDup_incl_NoDup _ (nodup Z.eq_dec l)).
  - apply NoDup_nodup.
  - lia.
  - intros x Hx. apply nodup_In in Hx. auto.
Qed.
Lemma comp_b_ok m : Forall var_ok (c_vars m) -> comp_b m = true -> comp_ok m.
Proof.
  unfold comp_b. intros V. destruct (children m) as [|v [|]] eqn:Ec; try discriminate. destruct (c_C m) as [|r C] eqn:EC; try discriminate.
  rewrite <- EC. rewrite !andb_true_iff. intros (((((H1 & H2) & H3) & H4) & H5) & H6).
  split; [apply wf_b_ok; auto|]. split; [apply has_p_b; auto|]. split; [apply Nat.eqb_eq; auto|]. exists v. split; auto.
  split; [congruence|]. split; [apply nodup_Z_ok; auto|]. rewrite forallb_forall in H4, H5. split.
  - intros k. split; intros Hk.
    + apply mem_Z_In, H5, In_zrange. auto.
    + specialize (H4 k Hk). lia.
  - intros c. unfold states_of. destruct (v_B v) as [B|]; [|split; [constructor|intros x []]].
    destruct (c <? 0); [split; [constructor|intros x []]|].
    destruct (Nat.lt_ge_cases (Z.to_nat c) (List.length B)) as [L|L].
    + rewrite forallb_forall in H6. specialize (H6 _ (nth_In B [] L)). apply andb_true_iff in H6 as [A D]. split; [apply nodup_Z_ok; auto|].
      rewrite forallb_forall in D. intros x Hx. specialize (D x Hx). lia.
    + rewrite nth_overflow by auto. split; [constructor|intros x []].
Qed.
Definition basic_child_b (m : cpm) : bool :=
  forallb (fun v => forallb (fun row => match states_of v (hd 0 row) with [x] => x =? hd 0 row | _ => false end) (c_C m)) (children m).
Lemma basic_child_b_ok m : basic_child_b m = true -> basic_child m.
Proof.
  unfold basic_child_b, basic_child. rewrite forallb_forall. intros H v row x Hv Hr. specialize (H v Hv). rewrite forallb_forall in H.
  specialize (H row Hr). destruct (states_of v (hd 0 row)) as [|y [|]]; try discriminate. apply Z.eqb_eq in H. subst y. cbn. intuition.
Qed.
Ltac ex_all := repeat (constructor; [apply ex_g_ok || reflexivity|]); constructor.
Lemma ex_prod_ok Msys Ms cs : Forall (fun v => v = ex_g (v_name v)) (c_vars Msys) ->
  Forall (fun m => Forall (fun v => v = ex_g (v_name v)) (c_vars m)) Ms ->
  wf_b Msys = true -> forallb comp_b Ms = true -> c_C Msys <> [] -> Ms <> [] -> conditioned Ms cs -> prod_ok Msys Ms cs.
Proof.
  intros G1 G2 W1 W2 N1 N2 HC.
  assert (V : forall l, Forall (fun v => v = ex_g (v_name v)) l -> Forall var_ok l).
  { intros l H. eapply Forall_impl; [|exact H]. intros v ->. apply ex_g_ok. }
  split; [apply wf_b_ok; auto|]. split; [apply has_p_b; auto|]. split; [auto|]. split; [auto|].
  rewrite forallb_forall in W2. rewrite Forall_forall in G2. split; [|split; auto].
  - apply Forall_forall. intros m Hm. apply comp_b_ok; auto.
  - intros m Hm. apply (agree_g ex_g); auto.
Qed.

Lemma ex_prod : prod_ok Ms [Py; Px] [].
Proof.
  apply ex_prod_ok; try discriminate; try (vm_compute; reflexivity).
  - ex_all.
  - repeat (constructor; [ex_all|]); constructor.
  - left. split; auto. intros m [<-|[<-|[]]]; reflexivity.
Qed.
Lemma ex_prod_cond : prod_ok Mh [Hx; Hy] [(vh, 1)].
Proof.
  apply ex_prod_ok; try discriminate; try (vm_compute; reflexivity).
  - ex_all.
  - repeat (constructor; [ex_all|]); constructor.
  - right. exists vh, 1. split; auto. intros m [<-|[<-|[]]]; (split; [reflexivity|]); intros row Hr; cbn in Hr; intuition (subst; reflexivity).
Qed.
Lemma ex_prod_new : prod_ok Ms [Hy; Hx] [(vh, 1)].
Proof.
  apply ex_prod_ok; try discriminate; try (vm_compute; reflexivity).
  - ex_all.
  - repeat (constructor; [ex_all|]); constructor.
  - right. exists vh, 1. split; auto. intros m [<-|[<-|[]]]; (split; [reflexivity|]); intros row Hr; cbn in Hr; intuition (subst; reflexivity).
Qed.

Definition jt (s x y h : Z) : joint := fun n =>
  if String.eqb n "s" then s else if String.eqb n "x" then x else if String.eqb n "y" then y else h.

Example C41_ex :
  prod_ok Ms [Py; Px] [] /\ Forall basic_child [Py; Px] /\
  view (prod_sys Ms [Py; Px]) = Ok ([vs; vx; vy], 3%nat, [[0; 0; 6]; [0; 1; 0]; [1; 1; 5]], [1 # 10; 9 # 50; 18 # 25]%Q) /\
  (** only y has a component: x moves behind y *)
  view (prod_sys Ms [Py]) = Ok ([vs; vy; vx], 2%nat, [[0; 6; 0]; [0; 0; 1]; [1; 5; 1]], [1; 1 # 5; 4 # 5]%Q) /\
  (** conditional components: h is added *)
  prod_ok Ms [Hy; Hx] [(vh, 1)] /\ Forall basic_child [Hy; Hx] /\ meets_conds [(vh, 1)] (jt 0 0 0 1) /\
  (forall y s v, In (y, s) [(vh, 1)] -> In v (children Ms ++ mult_of Ms [Hy; Hx]) -> v_name y <> v_name v) /\
  view (prod_sys Ms [Hy; Hx]) =
    Ok ([vs; vx; vy; vh], 3%nat, [[0; 0; 6; 1]; [0; 1; 0; 1]; [1; 1; 5; 1]], [1 # 4; 3 # 16; 9 # 16]%Q).
Proof.
  assert (B : forall l, forallb basic_child_b l = true -> Forall basic_child l).
  { intros l H. rewrite forallb_forall in H. apply Forall_forall. intros m Hm. apply basic_child_b_ok; auto. }
  split; [apply ex_prod|]. split; [apply B; vm_compute; reflexivity|]. split; [vm_compute; reflexivity|]. split; [vm_compute; reflexivity|].
  split; [apply ex_prod_new|]. split; [apply B; vm_compute; reflexivity|].
  split; [intros y s [[= <- <-]|[]]; vm_compute; auto|]. split; [|vm_compute; reflexivity].
  intros y s v [[= <- <-]|[]] Hv. assert (E : children Ms ++ mult_of Ms [Hy; Hx] = [vs; vx; vy]) by (vm_compute; reflexivity).
  rewrite E in Hv. destruct Hv as [<-|[<-|[<-|[]]]]; discriminate.
Qed.

(** When the condition is on a parent of the system, rows of the system for other states
    of that parent are multiplied as well, so that the result is not the product. *)
Theorem C41_condition_refuted :
  exists Msys Ms cs R a, prod_ok Msys Ms cs /\ Forall basic_child Ms /\
    (forall y s v, In (y, s) cs -> In v (mult_of Msys Ms) -> v_name y <> v_name v) /\
    prod_sys Msys Ms = Ok R /\
    mass_on (children Msys ++ rest_of Msys Ms ++ map fst cs) R a <>
    marg (mult_of Msys Ms) (pmass (Msys :: comps_for Ms (mult_of Msys Ms))) a.
Proof.
  destruct (C41_rows _ _ _ ex_prod_cond) as (R & E & _).
  exists Mh, [Hx; Hy], [(vh, 1)], R, (jt 0 0 0 0). split; [apply ex_prod_cond|]. split.
  { constructor; [|constructor; [|constructor]]; apply basic_child_b_ok; vm_compute; reflexivity. }
  split.
  { intros y s v [[= <- <-]|[]] Hv. assert (M : mult_of Mh [Hx; Hy] = [vx; vy]) by (vm_compute; reflexivity).
    rewrite M in Hv. destruct Hv as [<-|[<-|[]]]; discriminate. }
  split; auto. intros X.
  assert (ER : match prod_sys Mh [Hx; Hy] with Ok R => this (mass_on (children Mh ++ rest_of Mh [Hx; Hy] ++ map fst [(vh, 1)]) R (jt 0 0 0 0)) | Err _ => 0%Q end = (3 # 8)%Q)
    by (vm_compute; reflexivity).
  rewrite E, X in ER. vm_compute in ER. discriminate.
Qed.
Print Assumptions C41_condition_refuted.

(** With two conditional variables no call succeeds: the truth value of an array of two
    comparisons is asked for. *)
Theorem C41_two_conditions_refuted :
  forall Msys M0 Ms u v w l, c_nch M0 = 1%nat -> c_vars M0 = u :: v :: w :: l -> c_C M0 <> [] -> wf_cpm M0 ->
    exists e, prod_sys Msys (M0 :: Ms) = Err e.
Proof.
  intros Msys M0 Ms u v w l N V C W. unfold prod_sys. destruct (negb _); [eauto|]. destruct (mapM comp_name (M0 :: Ms)) as [ns|e]; [|cbn; eauto].
  cbn [bind]. unfold cond_of. rewrite N, V. cbn [skipn]. destruct (negb _); [cbn; eauto|].
  destruct (c_C M0) as [|r0 C0] eqn:EC; [congruence|]. destruct r0; cbn; eauto.
Qed.
Print Assumptions C41_two_conditions_refuted.
Definition vg := ex_g "g".
Definition Hxg := mkCpm [vx; vh; vg] 1 [[0; 1; 0]; [1; 1; 0]] [q 1 4; q 3 4].
Example C41_two_conditions_refuted_ex :
  wf_cpm Hxg /\ prod_sys Ms [Hxg] = Err ValueError.
Proof. split; [apply wf_b_ok; [ex_all|vm_compute; reflexivity]|vm_compute; reflexivity]. Qed.

(** Without rows in the system CPM the local variables C and p are never set. *)
Theorem C41_no_rows_refuted :
  forall Msys Ms cs, c_C Msys = [] -> Ms <> [] -> Forall comp_ok Ms -> conditioned Ms cs ->
    prod_sys Msys Ms = Err UnboundLocalError.
Proof.
  intros Msys Ms cs E N HM HC. unfold prod_sys.
  assert (forallb (fun x => (c_nch x =? 1)%nat) Ms = true) as ->.
  { apply forallb_forall. intros m Hm. rewrite Forall_forall in HM. destruct (HM m Hm) as (_ & _ & -> & _). auto. }
  cbn [negb]. rewrite comp_names_ok by auto. cbn [bind]. rewrite (cond_of_ok Ms cs) by auto. cbn [bind]. rewrite E. auto.
Qed.
Print Assumptions C41_no_rows_refuted.
Example C41_exceptions :
  prod_sys (mkCpm [vs; vx] 1 [] []) [Px] = Err UnboundLocalError /\
  (** no components *)
  prod_sys Ms [] = Err IndexError /\
  (** a component with two children, a component that lacks a state, conditions on different states *)
  prod_sys Ms [Pxy] = Err AssertionError /\
  prod_sys Ms [mkCpm [vx] 1 [[0]] [q 1 1]] = Err ValueError /\
  prod_sys Ms [Hx; mkCpm [vy; vh] 1 [[0; 0]; [1; 0]; [2; 0]] [q 1 2; q 1 4; q 1 4]] = Err AssertionError.
Proof. repeat split; vm_compute; reflexivity. Qed.
