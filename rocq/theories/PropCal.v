(** Final theorems about the system CPM of a network conditioned on a hazard (C65, C66). *)
From Coq Require Import ZArith List String Bool Arith Lia Permutation QArith Qcanon.
From Verif Require Import Py PyFacts Num Vari VariFacts Cpm CpmFacts SpecCpm CpmCond CpmProd CpmSum CpmMarg CpmElim CpmProb MsysProd SpecProd VeCond SpecVe VeFacts CalFacts CalJoin CalTotal PropCpm PropProd PropVe.
Import ListNotations.
Open Scope string_scope.
Open Scope Z_scope.
Open Scope list_scope.

(** * C65 *)

(** The result exists, has the variables of the system, and its value is the product of all CPMs
    of the network summed over hazard and components. *)
Theorem C65_system_cpm :
  forall cpms varis sys h S Ph comps ord, hazard_net cpms sys h S Ph comps -> incl (names (parents S)) ord -> ~ In sys ord ->
    exists M, cal_msys cpms varis [v_name h] ord sys = Ok M /\ wf_cpm M /\ (forall v, In v (c_vars M) <-> In v (children S)) /\
      forall a, mass M a = marg (h :: parents S) (pmass (Ph :: S :: comps)) a.
Proof. exact cal_main. Qed.
Print Assumptions C65_system_cpm.

Definition nodup_rows (l : list (list Z)) : bool := (List.length (nodup (list_eq_dec Z.eq_dec) l) =? List.length l)%nat.
Lemma nodup_rows_ok l : nodup_rows l = true -> NoDup l.
Proof.
  unfold nodup_rows. rewrite Nat.eqb_eq. intros H. apply (@NoDup_incl_NoDup _ (nodup (list_eq_dec Z.eq_dec) l)).
  - apply NoDup_nodup.
  - lia.
  - intros x Hx. apply nodup_In in Hx. auto.
Qed.
Definition lists_b (M : cpm) : bool :=
  forallb (fun row => forallb (fun vc => (0 <=? snd vc) && (snd vc <? nvals (fst vc)) &&
    match states_of (fst vc) (snd vc) with [x] => x =? snd vc | _ => false end) (combine (c_vars M) row)) (c_C M).
Lemma lists_b_ok M : lists_b M = true -> lists_states M.
Proof.
  unfold lists_b. rewrite forallb_forall. intros H row v c Hr Hin. specialize (H row Hr). rewrite forallb_forall in H. specialize (H (v, c) Hin).
  cbn [fst snd] in H. rewrite !andb_true_iff in H. destruct H as [[H1 H2] H3]. split; [lia|]. destruct (states_of v c) as [|x [|]]; try discriminate.
  intros y. cbn. rewrite Z.eqb_eq in H3. subst. intuition.
Qed.
Definition cpt_b (m : cpm) (x h : variable) : bool :=
  wf_b m && (c_nch m =? 1)%nat && lists_b m && nodup_rows (c_C m) &&
  forallb (fun i => forallb (fun k => existsb (fun r => if list_eq_dec Z.eq_dec r [i; k] then true else false) (c_C m)) (zrange 0 (nvals h))) (zrange 0 (nvals x)).
Lemma cpt_b_ok m x h : c_vars m = [x; h] -> Forall var_ok (c_vars m) -> cpt_b m x h = true -> cpt m x h.
Proof.
  intros V O. unfold cpt_b. rewrite !andb_true_iff. intros [[[[H1 H2] H3] H4] H5]. split; [apply wf_b_ok; auto|]. split; [apply has_p_b; auto|].
  split; [auto|]. split; [apply Nat.eqb_eq; auto|]. split; [apply lists_b_ok; auto|]. split; [apply nodup_rows_ok; auto|].
  intros i k Hi Hk. rewrite forallb_forall in H5. specialize (H5 i ltac:(apply zrange_In; lia)). rewrite forallb_forall in H5.
  specialize (H5 k ltac:(apply zrange_In; lia)). apply existsb_exists in H5 as (r & Hr & H5). destruct (list_eq_dec Z.eq_dec r [i; k]); [subst; auto|discriminate].
Qed.
Definition table_b (v : variable) : bool :=
  (0 <? nvals v) && match v_B v with Some B => forallb (fun e => nodup_Z e && forallb (fun x => (0 <=? x) && (x <? nvals v)) e) B | None => true end.
Lemma table_b_ok v : table_b v = true -> basic_table v.
Proof.
  unfold table_b. rewrite andb_true_iff. intros [H0 H]. split; [lia|]. intros c. unfold states_of. destruct (v_B v) as [B|]; [|split; [constructor|intros x []]].
  destruct (c <? 0); [split; [constructor|intros x []]|]. destruct (nth_in_or_default (Z.to_nat c) B []) as [Hi|Hi]; [|rewrite Hi; split; [constructor|intros x []]].
  rewrite forallb_forall in H. specialize (H _ Hi). apply andb_true_iff in H as [A B']. split; [apply nodup_Z_ok; auto|].
  intros x Hx. rewrite forallb_forall in B'. specialize (B' x Hx). lia.
Qed.

Definition net1 : dict cpm := [("h", Ph); ("x", Fx); ("y", Fy); ("s", Ms)].
Definition vars1 : dict variable := [("h", vh); ("x", vx); ("y", vy); ("s", vs)].
Example C65_ex :
  hazard_net net1 "s" vh Ms Ph [Fx; Fy] /\ incl (names (parents Ms)) ["x"; "y"; "h"] /\ ~ In "s" ["x"; "y"; "h"] /\
  view (cal_msys net1 vars1 ["h"] ["x"; "y"; "h"] "s") = view (Ok (mkCpm [vs] 1 [[0]; [1]] [q 77 200; q 123 200])).
Proof.
  split; [|split; [|split; [|vm_compute; reflexivity]]].
  - split; [reflexivity|]. split; [apply wf_b_ok; [ex_all|vm_compute; reflexivity]|]. split; [reflexivity|]. split; [discriminate|]. split; [discriminate|].
    split; [discriminate|]. split; [cbn; intuition discriminate|]. split; [cbn; intuition discriminate|]. split; [reflexivity|].
    split; [apply wf_b_ok; [ex_all|vm_compute; reflexivity]|]. split; [reflexivity|]. split; [reflexivity|]. split; [reflexivity|].
    split; [apply lists_b_ok; vm_compute; reflexivity|]. split; [apply nodup_rows_ok; vm_compute; reflexivity|]. split; [discriminate|].
    constructor; [|constructor; [|constructor]]; (split; [reflexivity|]; split; [apply cpt_b_ok; [reflexivity|ex_all|vm_compute; reflexivity]|apply table_b_ok; vm_compute; reflexivity]).
  - intros n [<-|[<-|[]]]; cbn; auto.
  - cbn. intuition discriminate.
Qed.

(** Components that depend on two hazards: the product with the system CPM fails. *)
Definition Pg := mkCpm [vg] 1 [[0]; [1]] [q 1 2; q 1 2].
Definition Fxg := mkCpm [vx; vh; vg] 1 [[0; 0; 0]; [1; 0; 0]; [0; 1; 0]; [1; 1; 0]; [0; 0; 1]; [1; 0; 1]; [0; 1; 1]; [1; 1; 1]]
  [q 1 10; q 9 10; q 1 2; q 1 2; q 1 5; q 4 5; q 3 5; q 2 5].
Definition Sx := mkCpm [vs; vx] 1 [[0; 0]; [1; 1]] [q 1 1; q 1 1].
Theorem C65_two_hazards_refuted :
  exists cpms varis cond ord S, dfind cpms "s" = Some S /\ incl (names (parents S)) ord /\ incl cond ord /\
    fit_list (map snd cpms) /\ Forall has_p (map snd cpms) /\ Forall lists_states (map snd cpms) /\
    (exists M, variable_elim (map snd cpms) [vx; vh; vg] = Ok M) /\
    cal_msys cpms varis cond ord "s" = Err ValueError.
Proof.
  exists [("h", Ph); ("g", Pg); ("x", Fxg); ("s", Sx)], [("h", vh); ("g", vg); ("x", vx); ("s", vs)], ["h"; "g"], ["x"; "h"; "g"], Sx.
  split; [reflexivity|]. split; [intros n [<-|[]]; cbn; auto|]. split; [intros n [<-|[<-|[]]]; cbn; auto|].
  split; [apply (fit_list_g ex_g); [ex_vars|reflexivity|reflexivity]|]. split; [repeat (constructor; [reflexivity|]); constructor|].
  split; [repeat (constructor; [apply lists_b_ok; vm_compute; reflexivity|]); constructor|].
  split; [|vm_compute; reflexivity].
  destruct (variable_elim (map snd [("h", Ph); ("g", Pg); ("x", Fxg); ("s", Sx)]) [vx; vh; vg]) as [M|e] eqn:E; [eauto|vm_compute in E; discriminate E].
Qed.
Print Assumptions C65_two_hazards_refuted.

(** A component whose table leaves out impossible states: the same. *)
Theorem C65_sparse_table_refuted :
  exists cpms varis cond ord S, dfind cpms "s" = Some S /\ incl (names (parents S)) ord /\ incl cond ord /\
    fit_list (map snd cpms) /\ Forall has_p (map snd cpms) /\ Forall lists_states (map snd cpms) /\
    (exists M, variable_elim (map snd cpms) [vx; vh] = Ok M) /\
    cal_msys cpms varis cond ord "s" = Err ValueError.
Proof.
  exists [("h", Ph); ("x", Gx); ("s", Sx)], [("h", vh); ("x", vx); ("s", vs)], ["h"], ["x"; "h"], Sx.
  split; [reflexivity|]. split; [intros n [<-|[]]; cbn; auto|]. split; [intros n [<-|[]]; cbn; auto|].
  split; [apply (fit_list_g ex_g); [ex_vars|reflexivity|reflexivity]|]. split; [repeat (constructor; [reflexivity|]); constructor|].
  split; [repeat (constructor; [apply lists_b_ok; vm_compute; reflexivity|]); constructor|].
  split; [|vm_compute; reflexivity].
  destruct (variable_elim (map snd [("h", Ph); ("x", Gx); ("s", Sx)]) [vx; vh]) as [M|e] eqn:E; [eauto|vm_compute in E; discriminate E].
Qed.
Print Assumptions C65_sparse_table_refuted.

(** * C66 *)

(** Components that are not in the elimination order stay: whatever is returned is the joint
    CPM of the system and those components. *)
Theorem C66_result :
  forall cpms varis sys h S Ph comps ord M, hazard_net cpms sys h S Ph comps -> ~ In sys ord -> cal_msys cpms varis [v_name h] ord sys = Ok M ->
    wf_cpm M /\
    (forall v, In v (c_vars M) <-> In v (children S) \/ (In v (parents S) /\ ~ In (v_name v) ord)) /\
    exists E, NoDup (names E) /\ (forall v, In v E <-> In v (parents S) /\ In (v_name v) ord) /\
      forall a, mass M a = marg (h :: E) (pmass (Ph :: S :: comps)) a.
Proof.
  intros cpms varis sys h S Ph comps ord M HN NO E. destruct (jcal_sound cpms sys h S Ph comps ord HN varis M NO E) as (W & V & Q).
  split; [auto|]. split.
  - intros v. rewrite V. unfold jnt_vars. rewrite filter_In, negb_true_iff, <- not_true_iff_false, mem_str_In. tauto.
  - exists (elm_vars S ord). split; [apply names_filter, (NX cpms sys h S Ph comps HN)|]. split; [|exact Q].
    intros v. unfold elm_vars. rewrite filter_In, mem_str_In. tauto.
Qed.
Print Assumptions C66_result.

(** It is returned if a component is in the order and the system CPM allows some joint state. *)
Theorem C66_joint :
  forall cpms varis sys h S Ph comps ord, hazard_net cpms sys h S Ph comps -> ~ In sys ord ->
    (exists v, In v (parents S) /\ In (v_name v) ord) -> (exists a, allows [S] a) ->
    exists M, cal_msys cpms varis [v_name h] ord sys = Ok M /\ wf_cpm M /\
    (forall v, In v (c_vars M) <-> In v (children S) \/ (In v (parents S) /\ ~ In (v_name v) ord)) /\
    exists E, NoDup (names E) /\ (forall v, In v E <-> In v (parents S) /\ In (v_name v) ord) /\
      forall a, mass M a = marg (h :: E) (pmass (Ph :: S :: comps)) a.
Proof.
  intros cpms varis sys h S Ph comps ord HN NO (v & Hv & Ho) A. destruct (jcal_total cpms varis sys h S Ph comps ord HN NO) as [M E]; [|auto|].
  - intros Z. assert (X : In v (elm_vars S ord)) by (unfold elm_vars; rewrite filter_In, mem_str_In; auto). rewrite Z in X. destruct X.
  - exists M. split; [exact E|]. exact (C66_result cpms varis sys h S Ph comps ord M HN NO E).
Qed.
Print Assumptions C66_joint.

(** It is never returned if every component is kept. *)
Theorem C66_needs_component :
  forall cpms varis sys h S Ph comps ord M, hazard_net cpms sys h S Ph comps -> ~ In sys ord ->
    cal_msys cpms varis [v_name h] ord sys = Ok M -> exists v, In v (parents S) /\ In (v_name v) ord.
Proof.
  intros cpms varis sys h S Ph comps ord M HN NO E. assert (X := jcal_needs cpms varis sys h S Ph comps ord M HN NO E).
  destruct (elm_vars S ord) as [|v l] eqn:Ev; [congruence|]. exists v. assert (Hv : In v (elm_vars S ord)) by (rewrite Ev; left; auto).
  unfold elm_vars in Hv. rewrite filter_In, mem_str_In in Hv. auto.
Qed.
Print Assumptions C66_needs_component.

Lemma net1_hazard : hazard_net net1 "s" vh Ms Ph [Fx; Fy].
Proof. apply C65_ex. Qed.
Example C66_joint_ex :
  hazard_net net1 "s" vh Ms Ph [Fx; Fy] /\ ~ In "s" ["x"; "h"] /\
  (exists v, In v (parents Ms) /\ In (v_name v) ["x"; "h"]) /\ (exists a, allows [Ms] a) /\
  view (cal_msys net1 vars1 ["h"] ["x"; "h"] "s") =
    view (Ok (mkCpm [vs; vy] 2 [[0; 0]; [0; 1]; [1; 1]; [0; 2]; [1; 2]] [q 1 4; q 29 400; q 101 400; q 1 16; q 29 80])) /\
  view (cal_msys net1 vars1 ["h"] ["y"; "h"] "s") = view (Ok (mkCpm [vs; vx] 2 [[0; 0]; [0; 1]; [1; 1]] [q 1 5; q 37 200; q 123 200])).
Proof.
  split; [exact net1_hazard|]. split; [cbn; intuition discriminate|]. split; [exists vx; split; [cbn; auto|left; auto]|].
  split; [|split; vm_compute; reflexivity].
  exists (fun _ => 0). intros N [<-|[]]. exists [0; 0; 6]. split; [left; auto|vm_compute; reflexivity].
Qed.

(** If every component stays, the list of components to multiply is empty: [Mcomps_list[0]]. *)
Theorem C66_all_joint_refuted :
  exists cpms varis sys h S Ph comps ord, hazard_net cpms sys h S Ph comps /\ ~ In sys ord /\ In (v_name h) ord /\
    (exists M, variable_elim (Ph :: S :: comps) [h] = Ok M) /\ cal_msys cpms varis [v_name h] ord sys = Err IndexError.
Proof.
  exists net1, vars1, "s", vh, Ms, Ph, [Fx; Fy], ["h"]. split; [exact net1_hazard|]. split; [cbn; intuition discriminate|]. split; [left; auto|].
  split; [|vm_compute; reflexivity].
  destruct (variable_elim (Ph :: Ms :: [Fx; Fy]) [vh]) as [M|e] eqn:E; [eauto|vm_compute in E; discriminate E].
Qed.
Print Assumptions C66_all_joint_refuted.
