(** The CPMs of the path-based model: lemmas. *)
From Coq Require Import ZArith List String Bool Arith QArith Qcanon Lia Permutation Sorting.
From Verif Require Import Py PyFacts Num Vari VariFacts Brc SpecBrc BrcFacts BrcProb BrcMisc Cpm SpecCpm CpmFacts CpmCond CpmProd CpmList CpmSum CpmMarg CpmElim CpmProb Model ModelFacts SysEvent.
From Verif Require Import Bnb SpecBnb BnbFacts PathModel PathFacts.
Import ListNotations.
Open Scope string_scope.
Open Scope Z_scope.
Open Scope list_scope.

Section Model.
Context (edges : list string) (ds : list value) (Nn : NoDup edges) (Hds : List.length ds = 2%nat).
Definition arc_var (k : string) : variable := mk_variable k ds None.
Definition arc_vars : dict variable := map (fun k => (k, arc_var k)) edges.

Lemma arc_B k : v_B (arc_var k) = Some [[0]; [1]; [0; 1]].
Proof. unfold arc_var, mk_variable. rewrite Hds. reflexivity. Qed.
Lemma arc_n k : nvals (arc_var k) = 2.
Proof. unfold arc_var, nvals, mk_variable. cbn [v_values]. rewrite Hds. auto. Qed.
Lemma arc_stored k : stored (arc_var k).
Proof. unfold stored. rewrite arc_B. unfold arc_var, mk_variable. cbn [v_values]. rewrite Hds. auto. Qed.
Lemma arc_keys : keys arc_vars = edges.
Proof. unfold keys, arc_vars. rewrite map_map. apply map_id. Qed.
Lemma arc_in k v : In (k, v) arc_vars <-> In k edges /\ v = arc_var k.
Proof.
  unfold arc_vars. rewrite in_map_iff. split.
  - intros (k' & E & H). injection E as <- <-. auto.
  - intros [H ->]. eauto.
Qed.
Lemma arc_wf : wf_varis arc_vars.
Proof. split; [rewrite arc_keys; auto|]. intros k v H. apply arc_in in H as [_ ->]. rewrite arc_n. lia. Qed.
Lemma arc_space : space (comps_of arc_vars) = arc_states edges.
Proof.
  unfold arc_states, comps_of, arc_vars. f_equal. rewrite map_map. apply map_ext. intros k. cbn [fst snd]. rewrite arc_n. auto.
Qed.

Definition jcode (lo up : Z) : Z := if lo =? up then lo else 2.
Lemma join_ok k lo up : lo = 0 \/ lo = 1 -> up = 0 \/ up = 1 -> lo <= up -> join_code (arc_var k) lo up = Ok (jcode lo up).
Proof. intros [->| ->] [->| ->] L; try lia; unfold join_code; rewrite arc_B; reflexivity. Qed.
Lemma jcode_ok k lo up : lo = 0 \/ lo = 1 -> up = 0 \/ up = 1 -> lo <= up -> code_ok (arc_var k) (jcode lo up) /\
  forall s, s = 0 \/ s = 1 -> mem_Z s (states_of (arc_var k) (jcode lo up)) = (lo <=? s) && (s <=? up).
Proof.
  intros H1 H2 L. split.
  - exists [[0]; [1]; [0; 1]]. split; [apply arc_B|]. destruct H1 as [->| ->], H2 as [->| ->]; try lia; cbn; lia.
  - unfold states_of. rewrite arc_B. intros s [->| ->]; destruct H1 as [->| ->], H2 as [->| ->]; try lia; reflexivity.
Qed.

Definition brow (b : bb) : list Z := fl b :: map (fun k => jcode (coord (lower b) k) (coord (upper b) k)) edges.
Definition box_ok (b : bb) : Prop := In (lower b) (arc_states edges) /\ In (upper b) (arc_states edges) /\
  (forall k, In k edges -> coord (lower b) k <= coord (upper b) k) /\ fl b = fu b.

Lemma brow_ok b : box_ok b -> branch_row arc_vars b = Ok (brow b).
Proof.
  intros (H1 & H2 & H3 & H4). unfold branch_row. rewrite H4, Z.eqb_refl. cbn [negb].
  rewrite (mapM_ok _ (fun kv => jcode (coord (lower b) (fst kv)) (coord (upper b) (fst kv)))).
  - cbn [bind]. unfold brow, arc_vars. rewrite map_map. cbn [fst]. rewrite H4. auto.
  - intros [k v] Hin. apply arc_in in Hin as [Hk ->]. cbn [fst snd]. unfold dget. rewrite !(as_find edges) by auto. cbn [bind].
    apply join_ok; auto; apply (as_coord edges); auto.
Qed.
Lemma cmat_ok brs : (forall b, In b brs -> box_ok b) ->
  exists rows, get_cmat_from_branches brs arc_vars = Ok rows /\ Permutation rows (map brow brs).
Proof.
  intros H. unfold get_cmat_from_branches. rewrite (mapM_ok _ brow) by (intros b Hb; apply brow_ok; auto). cbn [bind].
  eexists. split; [reflexivity|]. apply sort_desc_perm.
Qed.

Context (vsys : variable) (Hsb : basic_table vsys) (brs : list bb) (Hbr : forall b, In b brs -> box_ok b).
Context (Hfl : forall b, In b brs -> 0 <= fl b < nvals vsys).
Context (rows : list (list Z)) (Hrows : Permutation rows (map brow brs)).

Lemma snd_vars : map snd arc_vars = map arc_var edges.
Proof. unfold arc_vars. rewrite map_map. auto. Qed.

Lemma rows_code row : In row rows -> Forall2 code_ok (vsys :: map snd arc_vars) row.
Proof.
  intros H. apply (Permutation_in _ Hrows) in H. apply in_map_iff in H as (b & <- & Hb). destruct (Hbr b Hb) as (H1 & H2 & H3 & _).
  unfold brow. constructor; [apply basic_code; auto|]. rewrite snd_vars.
  assert (G : forall l, incl l edges -> Forall2 code_ok (map arc_var l) (map (fun k => jcode (coord (lower b) k) (coord (upper b) k)) l)).
  { induction l as [|k l IH]; intros I; cbn [map]; constructor.
    - assert (Hk : In k edges) by (apply I; left; auto). apply jcode_ok; auto; apply (as_coord edges); auto.
    - apply IH. intros x Hx. apply I. right; auto. }
  apply G. intros x Hx; auto.
Qed.

Lemma brow_match b x a : In b brs -> In x (arc_states edges) -> (forall k, In k edges -> a k = coord x k) ->
  row_match (vsys :: map snd arc_vars) (brow b) a = (a (v_name vsys) =? fl b) && in_bb b x.
Proof.
  intros Hb Hx Ha. destruct (Hbr b Hb) as (H1 & H2 & H3 & _). unfold row_match, brow. cbn [combine forallb fst snd]. f_equal.
  - destruct (basic_code vsys (fl b) Hsb (Hfl b Hb)) as [_ X]. destruct (Z.eqb_spec (a (v_name vsys)) (fl b)) as [E|E].
    + apply mem_Z_In, X. auto.
    + destruct (mem_Z _ _) eqn:Y; auto. apply mem_Z_In, X in Y. congruence.
  - rewrite snd_vars. apply eq_true_iff_eq. unfold in_bb. rewrite (in_box_spec edges) by auto.
    assert (G : forall l, incl l edges -> 
      (forallb (fun vc : variable * Z => mem_Z (a (v_name (fst vc))) (states_of (fst vc) (snd vc)))
         (combine (map arc_var l) (map (fun k => jcode (coord (lower b) k) (coord (upper b) k)) l)) = true <->
       forall k, In k l -> coord (lower b) k <= coord x k <= coord (upper b) k)).
    { induction l as [|k l IH]; intros I; cbn [map combine forallb fst snd]; [split; auto; intros _ k []|].
      assert (Hk : In k edges) by (apply I; left; auto). rewrite andb_true_iff, IH by (intros y Hy; apply I; right; auto).
      change (v_name (arc_var k)) with k. rewrite Ha by auto.
      destruct (jcode_ok k (coord (lower b) k) (coord (upper b) k)) as [_ J]; auto; try (apply (as_coord edges); auto).
      rewrite J by (apply (as_coord edges); auto). rewrite andb_true_iff, !Z.leb_le. split.
      - intros [A B] k' [<-|Hk']; auto.
      - intros A. split; [apply A; left; auto|]. intros k' Hk'. apply A. right; auto. }
    apply G. intros y Hy; auto.
Qed.

Context (phi : dict Z -> Z) (Hcov : forall x, In x (arc_states edges) -> covered brs x = 1%nat).
Context (Hphi : forall x b, In x (arc_states edges) -> In b brs -> in_bb b x = true -> phi x = fl b).

Lemma rows_mass x a : In x (space (comps_of arc_vars)) -> (forall k, In k (keys arc_vars) -> a k = coord x k) ->
  mass (sys_M arc_vars vsys rows) a = if a (v_name vsys) =? phi x then 1%Qc else 0%Qc.
Proof.
  rewrite arc_space, arc_keys. intros Hx Ha. rewrite mass_if. cbn [sys_M c_vars c_C].
  assert (Ew : weights (sys_M arc_vars vsys rows) = map (fun _ => 1%Qc) rows) by (unfold weights; cbn [sys_M c_p c_C]; destruct rows; reflexivity).
  rewrite Ew.
  assert (E : combine rows (map (fun _ => 1%Qc) rows) = map (fun r => (r, 1%Qc)) rows) by (clear; induction rows; cbn; congruence).
  rewrite E, map_map. cbn [fst snd].
  rewrite (qsum_perm _ (map (fun r => if row_match (vsys :: map snd arc_vars) r a then 1%Qc else 0%Qc) (map brow brs)))
    by (apply Permutation_map; exact Hrows).
  rewrite map_map.
  rewrite (qsum_map_ext _ (fun b => if in_bb b x then (if a (v_name vsys) =? phi x then 1%Qc else 0%Qc) else 0%Qc)).
  - generalize (Hcov x Hx). clear. generalize (if a (v_name vsys) =? phi x then 1%Qc else 0%Qc). intros c.
    assert (G : forall n, covered brs x = n -> qsum (map (fun b => if in_bb b x then c else 0%Qc) brs) = (qz (Z.of_nat n) * c)%Qc).
    { induction brs as [|b l IH]; intros n H; [cbn in H; subst n; cbn; change (qz 0) with 0%Qc; ring|].
      rewrite covered_cons in H. cbn [map qsum]. destruct (in_bb b x); cbn [covb] in H.
      - rewrite (IH (covered l x) eq_refl). subst n. cbn [Nat.add]. rewrite Nat2Z.inj_succ. unfold qz.
        apply Qc_is_canon. qc_push. unfold Q2Qc. cbn [this]. rewrite !Qred_correct. unfold Z.succ. rewrite inject_Z_plus. ring.
      - rewrite (IH n) by auto. ring. }
    intros H. rewrite (G 1%nat H). change (qz (Z.of_nat 1)) with 1%Qc. ring.
  - intros b Hb. rewrite (brow_match b x a Hb Hx Ha). destruct (in_bb b x) eqn:I; [|rewrite andb_false_r; auto].
    rewrite andb_true_r, (Hphi x b Hx Hb I). auto.
Qed.
End Model.

(** ** the model *)
Definition scen_ok (scen : dict (list Qc)) : Prop :=
  NoDup (keys scen) /\ forall k p, In (k, p) scen -> List.length p = 2%nat /\ (forall q, In q p -> 0 <= q)%Qc /\ qsum p = 1%Qc.
Definition probs_of (scen : dict (list Qc)) : prob_dict := map (fun kv => (fst kv, PList (snd kv))) scen.

Lemma probs_find scen k : dfind (probs_of scen) k = option_map PList (dfind scen k).
Proof. unfold probs_of. induction scen as [|[k' p] l IH]; auto. cbn [map dfind fst snd]. destruct (String.eqb k k'); auto. Qed.

Section Scen.
Context (scen : dict (list Qc)) (Hs : scen_ok scen) (ds : list value) (Hds : List.length ds = 2%nat).

Lemma scen_two k p : In (k, p) scen -> exists a b, p = [a; b] /\ (0 <= a)%Qc /\ (0 <= b)%Qc /\ (a + b = 1)%Qc /\
  pr (probs_of scen) k 0 = a /\ pr (probs_of scen) k 1 = b.
Proof.
  intros H. destruct Hs as [N Hp]. destruct (Hp k p H) as (L & P & T). destruct p as [|a [|b [|c p]]]; try discriminate.
  exists a, b. split; auto. split; [apply P; left; auto|]. split; [apply P; right; left; auto|].
  split; [cbn in T; rewrite <- T; ring|]. unfold pr. rewrite probs_find, (In_dfind _ _ _ N H). split; reflexivity.
Qed.

Lemma scen_probs edges : incl edges (keys scen) -> wf_probs (arc_vars edges ds) (probs_of scen).
Proof.
  intros I k v H. apply arc_in in H as [Hk ->]. rewrite (arc_n ds Hds). apply I in Hk. apply dfind_keys in Hk as [p Ep].
  destruct (scen_two k p (dfind_In _ _ _ Ep)) as (a & b & -> & A & B & T & E0 & E1). split.
  - exists (PList [a; b]). split; [rewrite probs_find, Ep; auto|]. intros x Hx. assert (X : x = 0 \/ x = 1) by lia.
    destruct X as [->| ->]; [exists a|exists b]; split; auto.
  - change (zrange 0 2) with [0; 1]. cbn [map qsum]. rewrite E0, E1, <- T. ring.
Qed.

Lemma scen_M k p : In (k, p) scen -> arc_cpm ds (k, p) = Ok (comp_M (probs_of scen) (k, arc_var ds k)).
Proof.
  intros H. assert (K : In (k, arc_var ds k) (arc_vars (keys scen) ds)) by (apply arc_in; split; auto; eapply In_keys; eauto).
  assert (W : wf_cpm (comp_M (probs_of scen) (k, arc_var ds k))).
  { apply (comp_M_wf (arc_vars (keys scen) ds)); auto; [apply arc_wf; auto; apply Hs|].
    intros k' v' H'. apply arc_in in H' as [_ ->]. split; [reflexivity|apply arc_stored; auto]. }
  destruct (scen_two k p H) as (a & b & -> & _ & _ & _ & E0 & E1).
  assert (E : comp_M (probs_of scen) (k, arc_var ds k) = mkCpm [arc_var ds k] 1 [[0]; [1]] [a; b]).
  { unfold comp_M. cbn [fst snd]. rewrite (arc_n ds Hds). change (zrange 0 2) with [0; 1]. cbn [map]. rewrite E0, E1. auto. }
  rewrite E in *. destruct W as (W1 & W2 & W3 & W4 & W5). cbn [c_vars c_nch c_C c_p] in *.
  unfold arc_cpm. cbn [fst snd List.length]. change (zrange 0 (Z.of_nat 2)) with [0; 1]. cbn [map]. apply mk_cpm_ok; auto.
Qed.

Lemma event_eq edges E : incl edges (keys scen) -> prob_event (arc_vars edges ds) (probs_of scen) E = event_prob edges scen E.
Proof.
  intros I. unfold prob_event, event_prob. rewrite (arc_space edges ds Hds). apply qsum_map_ext. intros x Hx. apply filter_In in Hx as [Hx _].
  unfold prob_of, arc_prob. f_equal. apply map_ext_in. intros [k s] Hk. cbn [fst snd].
  assert (Ke : In k edges).
  { assert (Q : In k (keys x)) by (eapply In_keys; eauto). rewrite (space_keys _ _ Hx) in Q. unfold keys in Q. rewrite map_map in Q. cbn in Q. rewrite map_id in Q. auto. }
  assert (Sr : 0 <= s < 2).
  { assert (G : forall l y, In y (space (map (fun k : string => (k, 2)) l)) -> forall k s, In (k, s) y -> 0 <= s < 2).
    { clear. induction l as [|k l IH]; cbn [map space]; intros y Hy; [destruct Hy as [<-|[]]; intros k s []|].
      apply in_flat_map in Hy as (v & Hv & Hy). apply in_map_iff in Hy as (z & <- & Hz). apply In_zrange in Hv.
      intros k' s [X|X]; [injection X as <- <-; auto|]. eapply IH; eauto. }
    eapply G; eauto. }
  apply I in Ke. apply dfind_keys in Ke as [p Ep]. rewrite Ep.
  destruct (scen_two k p (dfind_In _ _ _ Ep)) as (a & b & -> & _ & _ & _ & E0 & E1).
  assert (X : s = 0 \/ s = 1) by lia. destruct X as [->| ->]; [rewrite E0|rewrite E1]; reflexivity.
Qed.

Context (edges : list string) (Nn : NoDup edges) (I : incl edges (keys scen)) (od : string) (Hod : ~ In od (keys scen)).

Lemma model_ok pt brs rows M :
  get_cmat_from_branches brs (arc_vars edges ds) = Ok rows ->
  mk_cpm (od_var od pt :: map snd (arc_vars edges ds)) 1 rows (map (fun _ => 1%Qc) rows) = Ok M ->
  exists cpms vd, model_given_od_scen edges ds scen od pt brs = Ok (cpms, vd) /\
    mapM (dget cpms) (edges ++ [od]) = Ok (map (comp_M (probs_of scen)) (arc_vars edges ds) ++ [M]) /\
    mapM (dget vd) edges = Ok (map snd (arc_vars edges ds)) /\ dget vd od = Ok (od_var od pt).
Proof.
  intros Ec Em. unfold model_given_od_scen.
  rewrite (mapM_ok _ (fun kv => (fst kv, comp_M (probs_of scen) (fst kv, arc_var ds (fst kv))))).
  2:{ intros [k p] H. rewrite (scen_M k p H). auto. }
  cbn [bind]. set (vd := dset _ od (od_var od pt)). set (cp := map _ scen).
  assert (FV : forall k, In k edges -> dget vd k = Ok (arc_var ds k)).
  { intros k Hk. unfold dget, vd. rewrite dfind_dset. destruct (String.eqb_spec k od) as [->|]; [exfalso; apply Hod, I, Hk|].
    apply I in Hk. clear - Hk. induction scen as [|[k' p] l IH]; [destruct Hk|]. cbn [map dfind fst].
    destruct (String.eqb_spec k k') as [->|Ne]; auto. apply IH. destruct Hk as [Hk|Hk]; auto. cbn in Hk. congruence. }
  assert (FC : forall k, In k edges -> dget (dset cp od M) k = Ok (comp_M (probs_of scen) (k, arc_var ds k))).
  { intros k Hk. unfold dget, cp. rewrite dfind_dset. destruct (String.eqb_spec k od) as [->|]; [exfalso; apply Hod, I, Hk|].
    apply I in Hk. generalize (probs_of scen). intros pb. clear - Hk. induction scen as [|[k' p] l IH]; [destruct Hk|]. cbn [map dfind fst].
    destruct (String.eqb_spec k k') as [->|Ne]; auto. apply IH. destruct Hk as [Hk|Hk]; auto. cbn in Hk. congruence. }
  rewrite (mapM_ok _ (fun k => (k, arc_var ds k))) by (intros k Hk; rewrite FV by auto; auto). cbn [bind].
  fold (arc_vars edges ds). rewrite Ec. cbn [bind]. rewrite Em. cbn [bind].
  eexists. eexists. split; [reflexivity|]. split; [|split].
  - assert (A : mapM (dget (dset cp od M)) edges = Ok (map (comp_M (probs_of scen)) (arc_vars edges ds))).
    { rewrite (mapM_ok _ (fun k => comp_M (probs_of scen) (k, arc_var ds k))) by auto. unfold arc_vars. rewrite map_map. auto. }
    assert (Bq : dget (dset cp od M) od = Ok M) by (unfold dget; rewrite dfind_dset, String.eqb_refl; auto).
    clear - A Bq. revert A. generalize (map (comp_M (probs_of scen)) (arc_vars edges ds)). induction edges as [|k l IH]; intros r A.
    + cbn in A. injection A as <-. cbn [app mapM]. rewrite Bq. auto.
    + cbn [app mapM] in *. destruct (dget (dset cp od M) k) as [c|]; cbn [bind] in *; [|discriminate].
      destruct (mapM _ l) as [r'|]; cbn [bind] in *; [|discriminate]. injection A as <-. rewrite (IH r' eq_refl). auto.
  - rewrite (mapM_ok _ (arc_var ds)) by auto. rewrite snd_vars. auto.
  - unfold dget, vd. rewrite dfind_dset, String.eqb_refl. auto.
Qed.
End Scen.
