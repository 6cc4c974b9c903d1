(** The probability that the system is not in a state, [compute_prob] with flag=False
    (continues SysEvent.v). *)
From Coq Require Import ZArith List String Bool QArith Qcanon Lia Permutation.
From Verif Require Import Py PyFacts Num Vari VariFacts Brc SpecBrc BrcFacts BrcProb BrcRun BrcMisc BrcMain.
From Verif Require Import Cpm SpecCpm CpmFacts CpmCond CpmProd CpmList CpmSum CpmMarg CpmElim CpmProb Model ModelFacts SysEvent SysJoint.
Import ListNotations.
Open Scope string_scope.
Open Scope Z_scope.
Open Scope list_scope.

Section NotIn.
Context (varis : dict variable) (probs : prob_dict) (Hw : wf_varis varis) (Hp : wf_probs varis probs).
Context (Hst : forall k v, In (k, v) varis -> v_name v = k /\ stored v).
Context (vsys : variable).
Context (Hsn : ~ In (v_name vsys) (keys varis)) (Hsb : basic_table vsys) (Hsv : var_ok vsys).
Context (rows : list (list Z)) (phi : dict Z -> Z).
Notation sp := (space (comps_of varis)).
Context (Hcode : forall row, In row rows -> Forall2 code_ok (vsys :: map snd varis) row).
Context (Hrange : forall x, In x sp -> 0 <= phi x < nvals vsys).
Context (Hmass : forall x a, In x sp -> (forall k, In k (keys varis) -> a k = coord x k) ->
  mass (sys_M varis vsys rows) a = if a (v_name vsys) =? phi x then 1%Qc else 0%Qc).
Notation sysM := (sys_M varis vsys rows).
Notation allM := (map (comp_M probs) varis ++ [sysM]).
Context (Hbs : forall c row, In (c :: row) rows -> 0 <= c < nvals vsys).

Lemma sn_ve_ok : ve_ok allM (map snd varis ++ [vsys]).
Proof.
  destruct (se_ve_ok varis probs Hw Hst vsys Hsn Hsv rows Hcode) as (F & P & B & C & N).
  split; auto. split; auto. split; [|split].
  - intros v Hv. apply in_app_iff in Hv as [Hv|[<-|[]]]; auto.
    exists sysM. split; [apply (se_in varis probs); auto|]. split; [left; auto|]. apply (basic_sys varis Hst vsys Hsn Hsb rows Hbs).
  - intros v Hv. apply in_app_iff in Hv as [Hv|[<-|[]]]; auto.
    exists sysM. split; [apply (se_in varis probs); auto|]. left; auto.
  - eapply Permutation_NoDup; [|apply (vars_nodup varis Hw Hst vsys Hsn)]. unfold names. apply Permutation_map. apply Permutation_cons_append.
Qed.

Lemma sn_basic M : variable_elim allM (map snd varis) = Ok M -> basic_in M vsys.
Proof.
  intros HM. unfold variable_elim in HM. destruct (variable_elim_list allM (map snd varis)) as [l'|] eqn:El; cbn [bind] in HM; [|congruence].
  pose proof (elim_list_rest _ [vsys] _ _ sn_ve_ok El) as (F' & P' & B' & C' & N').
  apply (product_list_keep l' M vsys F' HM). destruct (B' vsys) as (Ms & H1 & H2 & H3); [left; auto|]. eauto.
Qed.

Lemma sn_total M : variable_elim allM (map snd varis) = Ok M -> wf_cpm M -> has_p M -> c_vars M = [vsys] ->
  (forall b, mass M b = prob_event varis probs (fun x => phi x =? b (v_name vsys))) -> qsum (c_p M) = 1%Qc.
Proof.
  intros E W P V Ma. pose proof (sn_basic M E) as B.
  assert (Ev : ev_ok (c_vars M) [] []).
  { split; [auto|]. split; [constructor|]. split; [intros v1 v2 []|intros v c []]. }
  assert (Bv : forall v, In v (c_vars M) -> basic_in M v) by (rewrite V; intros v [<-|[]]; auto).
  assert (T := event_sum M [] [] W P Ev Bv (fun _ => 0)).
  assert (Q : total (fun row => hits (c_vars M) row [] []) M = qsum (c_p M)).
  { rewrite <- (total_complement (fun _ => true) M W). cbn [Bool.eqb]. rewrite (total_ext _ (fun _ => true) M) by (intros r; reflexivity).
    unfold total at 3. replace (filter _ _) with (@nil (list Z * Qc)) by (induction (combine (c_C M) (c_p M)); auto). cbn. ring. }
  rewrite <- Q, <- T, V. cbn [marg].
  transitivity (qsum (map (fun s => prob_event varis probs (fun x => phi x =? s)) (zrange 0 (nvals vsys)))).
  { apply qsum_map_ext. intros s _. rewrite Ma. unfold set_joint. rewrite String.eqb_refl. reflexivity. }
  rewrite <- (prob_total varis probs Hp). unfold prob_event.
  transitivity (qsum (map (fun s => qsum (map (fun x => if phi x =? s then prob_of probs x else 0%Qc) sp)) (zrange 0 (nvals vsys)))).
  { apply qsum_map_ext. intros s _. apply qsum_filter. }
  rewrite qsum_swap. rewrite qsum_filter. apply qsum_map_ext. intros x Hx.
  rewrite (qsum_map_ext _ (fun s => if s =? phi x then prob_of probs x else 0%Qc)) by (intros s _; rewrite Z.eqb_sym; auto).
  apply qsum_single; [apply zrange_NoDup|]. apply zrange_In. auto.
Qed.

Lemma sn_compute cpms vd : mapM (dget cpms) (keys varis ++ [v_name vsys]) = Ok allM -> mapM (dget vd) (keys varis) = Ok (map snd varis) ->
  dget vd (v_name vsys) = Ok vsys ->
  exists M, forall s, 0 <= s < nvals vsys ->
    compute_prob cpms vd (keys varis) (v_name vsys) (SI s) true = Ok (prob_event varis probs (fun x => phi x =? s), M) /\
    compute_prob cpms vd (keys varis) (v_name vsys) (SI s) false = Ok (prob_event varis probs (fun x => negb (phi x =? s)), M).
Proof.
  intros L1 L2 L3. destruct (se_result varis probs Hw Hp Hst vsys Hsn Hsv rows phi Hcode Hmass) as (M & E & V & W & P & Ma). exists M. intros s Hs.
  assert (T := sn_total M E W P V Ma). assert (G := se_state_prob vsys Hsb Hsv M s W P V Hs). unfold compute_prob.
  rewrite L1. cbn [bind]. rewrite L2. cbn [bind]. rewrite E. cbn [bind]. rewrite L3. cbn [bind].
  assert (H : get_prob M (Vars [vsys]) [SI s] false = Ok (prob_event varis probs (fun x => negb (phi x =? s)))).
  { destruct (basic_code vsys s Hsb Hs) as [Hc Hss].
    assert (Ev : ev_ok (c_vars M) [vsys] [s]).
    { rewrite V. split; auto. split; [cbn; constructor; [intros []|constructor]|]. split.
      + intros v1 v2 [<-|[]] [<-|[]]; auto.
      + intros v c [H|[]] _. injection H as <- <-. auto. }
    assert (Sm : codes_small [vsys] [s]).
    { intros v c [H|[]]. injection H as <- <-. destruct Hsv as (B & HB & Hlen & _). destruct Hc as (B' & HB' & Hc).
      rewrite HB in HB'. injection HB' as <-. lia. }
    change [SI s] with (map SI [s]) in *. rewrite get_prob_spec in G |- * by (auto; congruence). injection G as G. apply (f_equal Ok).
    pose proof (total_complement (fun row => hits (c_vars M) row [vsys] [s]) M W) as C. cbv beta in C. rewrite G, T, Ma in C.
    pose proof (prob_event_compl varis probs Hp (fun x => phi x =? s)) as C2.
    cbv beta in C. clear - C C2. set (p := prob_event varis probs (fun x => phi x =? s)) in *. clearbody p.
    match goal with |- ?x = ?y => replace x with (1 - p)%Qc by (rewrite <- C; ring); rewrite <- C2; ring end. }
  rewrite G, H. cbn [bind]. rewrite Ma. auto.
Qed.
End NotIn.
