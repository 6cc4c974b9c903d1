(** The update with the probabilities of the map itself gives the bounds of the map. *)
From Coq Require Import ZArith List String Bool Arith QArith Qcanon Lia Permutation.
From Verif Require Import Py PyFacts Num Vari VariFacts Brc SpecBrc BrcFacts BrcDecomp BrcProb BrcRun BrcMisc BrcMain BrcProper.
From Verif Require Import Cpm SpecCpm CpmFacts CpmMarg CpmSum CpmCond CpmElim CpmProb Model ModelFacts SysEvent SysJoint MsysProd SpecProd PropProd SysProd.
From Verif Require Import Bnb SpecBnb Trans SpecTrans TransFacts NetSys Config SpecConfig ConfigFacts ConfigSetup.
From Verif Require Import PfMap SpecMap PfMapGeom PfMapFacts PfMapMain PfMapRun PfMapTable PropBrc PropBrc2 PropModel PropTrans PostMap TwoNet PostRun PostUpd.
Import ListNotations.
Open Scope string_scope.
Open Scope Z_scope.
Open Scope list_scope.

Section Same.
Variables (np_sqrt np_log : Qc -> Qc) (norm_cdf : Qc -> Qc -> Qc -> Qc) (gm_ln_sa : Qc -> Qc -> Qc) (gm_std_al : Qc -> Qc) (gm_std_ep : Qc -> Qc -> Qc).
Hypothesis Hroot : forall a, (0 < a)%Qc -> (0 < np_sqrt a)%Qc.
Hypothesis Hcdf : forall x m s, (0 < s)%Qc -> (0 <= norm_cdf x m s)%Qc /\ (norm_cdf x m s <= 1)%Qc.
Hypothesis Hal : forall m, gm_std_al m <> 0%Qc.
Notation edge_dist := (cal_edge_dist np_sqrt np_log norm_cdf gm_ln_sa gm_std_al gm_std_ep).
Variable f : mapfile.
Hypothesis Hf : map_ok f.
Notation K := (keys (pm_roads f)).
Notation V := (map_varis np_sqrt f).
Variables (name : string) (pf mean : dict Qc) (cov : list (list Qc)).
Hypothesis Hed : edge_dist f name = Ok (pf, mean, cov).
Notation knd brs := (kind (arc_states K) (arc_prob (road_scen pf)) brs in_branch).

Lemma saved_kinds n brs rows : In n (keys (pm_nodes f)) -> told np_sqrt f n brs rows ->
  exists M, forall l, compute_prob (map (fun kv => (fst kv, comp_M (pm_probs pf) kv)) V ++ [(n, sys_M V (node_var n) rows)]) (V ++ [(n, node_var n)]) K n (SI (conv3 l)) true = Ok (knd brs l, M).
Proof.
  intros Hn (Nb & Bx & Pt & Fr & _).
  assert (Wp := probs_wf np_sqrt np_log norm_cdf gm_ln_sa gm_std_al gm_std_ep Hroot Hcdf Hal f Hf name pf mean cov Hed).
  assert (Fr2 : Forall2 (row_ok V conv3 V) (map (reprob np_sqrt f pf) brs) rows) by (clear - Fr; induction Fr; cbn; constructor; auto).
  destruct (compute_ok V (pm_probs pf) (PfMapMain.V_wf np_sqrt f Hf) Wp (V_st np_sqrt f) (node_var n) conv3 (nv_new np_sqrt f Hf n Hn) (nv_basic n) (nv_ok n) (nv_range n)
    ltac:(intros [] [] X; cbn in X; auto; discriminate) (map (reprob np_sqrt f pf) brs) rows) as (M & HM); auto.
  { intros b Hb. apply in_map_iff in Hb as (b' & <- & Hb). apply (Bx b' Hb). }
  { intros x Hx. rewrite <- (Pt x Hx). clear. induction brs as [|b l IH]; auto. cbn [map filter]. change (in_branch (reprob np_sqrt f pf b) x) with (in_branch b x). destruct (in_branch b x); cbn [List.length]; rewrite IH; auto. }
  { intros b Hb. apply in_map_iff in Hb as (b' & <- & Hb). reflexivity. }
  exists M. intros l. specialize (HM l). change (v_name (node_var n)) with n in HM. rewrite (PfMapMain.V_keys np_sqrt f) in HM. rewrite HM. do 2 f_equal.
  unfold kind. pose proof (event_wt np_sqrt np_log norm_cdf gm_ln_sa gm_std_al gm_std_ep Hroot Hcdf Hal f Hf name pf mean cov Hed) as Ew. clear - Ew. induction brs as [|b bs IH]; auto.
  cbn [map filter]. change (br_label (reprob np_sqrt f pf b)) with (br_label b). destruct (st_eqb (br_label b) l); auto. cbn [map qsum]. rewrite IH. f_equal. cbn [reprob b_p]. apply Ew.
Qed.
End Same.
