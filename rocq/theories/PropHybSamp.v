(** C116: the samples that [cal_Msys_by_cond_VE] (/repo/BNS_JT/operation.py 699-751) returns for a
    hazard network, and the estimate from them. *)
From Coq Require Import ZArith List String Bool Arith Lia QArith Qcanon Permutation.
From Verif Require Import Py Num Vari Cpm SpecCpm PyFacts VariFacts CpmFacts CpmSum CpmMarg CpmElim CpmProb PropCpm PropNet Net SpecNet VeCond SpecVe CalFacts CalJoin PropCal Hybrid SpecHyb HybFacts HybEst PropHyb HybProd SpecHybProd HybCal SpecHybCal HybCalFacts HybCalSamp SpecTest TestCpm TestOp PropHybCal.
Import ListNotations.
Open Scope string_scope.
Open Scope Z_scope.
Open Scope list_scope.

(** the parts of a hazard network with samples: the CPMs [HS] of the system, [HP] of the hazard
    [h] and [Hc] of the components, all with the samples [G] with the numbers [I] *)
Definition hazard_samples (hc : dict hcpm) (sys : string) (h : variable) (HS HP : hcpm) (Hc : list hcpm) (I : list Z) (G : list joint) : Prop :=
  hazard_net (map (fun kM => (fst kM, h_c (snd kM))) hc) sys h (h_c HS) (h_c HP) (map h_c Hc) /\
  dfind hc sys = Some HS /\ dfind hc (v_name h) = Some HP /\
  Forall2 (fun x m => dfind hc (v_name x) = Some m) (parents (h_c HS)) Hc /\ plain_codes h /\
  NoDup I /\ List.length I = List.length G /\ G <> [] /\
  (forall M, In M (HS :: HP :: Hc) -> sampled I G M /\ basic_samples G (c_vars (h_c M))).

(** Once all components and the hazard are eliminated, the rows have the exact probabilities, and
    the samples are there once for every state of the hazard.  Their sampling weights are the
    products of all sampling weights; their target weights have the probabilities of the
    components and the hazard in that state. *)
Theorem C116_samples :
  forall hc varis sys h HS HP Hc ord I G, hazard_samples hc sys h HS HP Hc I G ->
    incl (names (parents (h_c HS))) ord -> ~ In sys ord ->
    exists M, h_cal_msys hc varis [v_name h] ord sys = Ok M /\ wf_cpm (h_c M) /\
      (forall v, In v (c_vars (h_c M)) <-> In v (children (h_c HS))) /\
      (forall a, mass (h_c M) a = marg (h :: parents (h_c HS)) (pmass (h_c HP :: h_c HS :: map h_c Hc)) a) /\
      sampled (List.concat (map (fun _ => I) (c_C (h_c HP)))) (List.concat (map (fun _ => G) (c_C (h_c HP)))) M /\
      h_q M = List.concat (map (fun _ => map (joint_q (HP :: HS :: Hc)) (seq 0 (List.length G))) (c_C (h_c HP))) /\
      h_ps M = List.concat (map (fun r => map (state_weight G h HS HP Hc (hd 0 r)) (seq 0 (List.length G))) (c_C (h_c HP))).
Proof.
  intros * (HN & D1 & D2 & F & PC & NI & L & NG & HM) IO NO.
  destruct (cal_samples hc varis sys h HS HP Hc ord I G HN D1 D2 F PC NI L NG HM IO NO) as (M & E & _ & S & Q & P).
  destruct (cal_main _ varis sys h _ _ _ ord HN IO NO) as (c & E' & W & V & X).
  assert (H := h_cal_rows _ _ _ _ _ _ _ E E'). subst c. exists M. auto 10.
Qed.
Print Assumptions C116_samples.

Lemma concat_nil {A B} (l : list A) (f : A -> list B) : l <> [] -> (forall x, f x <> []) -> List.concat (map f l) <> [].
Proof. destruct l as [|x l]; [congruence|]. intros _ H E. cbn in E. apply app_eq_nil in E as [E _]. exact (H x E). Qed.
Lemma concat_length {A B} (l : list A) (f : A -> list B) n : (forall x, In x l -> List.length (f x) = n) -> List.length (List.concat (map f l)) = (List.length l * n)%nat.
Proof. intros H. induction l as [|x l IH]; auto. cbn. rewrite app_length, H, IH; [auto| |left; auto]. intros y Hy. apply H. right. auto. Qed.
Lemma seq_add k m : forall s, map (fun i => (k + i)%nat) (seq s m) = seq (k + s) m.
Proof. induction m as [|m IH]; intros s; [reflexivity|]. cbn [seq map]. rewrite IH. do 2 f_equal. lia. Qed.
(** blocks of [n] weights, one for each row *)
Lemma block_sum (C : list (list Z)) (G : list joint) (f : list Z -> nat -> Qc) (g : nat -> Qc) (t : joint -> bool) :
  let GG := List.concat (map (fun _ => G) C) in
  let P := List.concat (map (fun r => map (f r) (seq 0 (List.length G))) C) in
  let Q := List.concat (map (fun _ => map g (seq 0 (List.length G))) C) in
  qsum (map (fun i => if t (nth i GG (fun _ => 0)) then (nth i P 0 / nth i Q 0)%Qc else 0%Qc) (seq 0 (List.length GG))) =
  qsum (map (fun r => qsum (map (fun i => if t (nth i G (fun _ => 0)) then (f r i / g i)%Qc else 0%Qc) (seq 0 (List.length G)))) C).
Proof.
  cbv zeta. induction C as [|r C IH]; [reflexivity|]. cbn [map List.concat qsum]. rewrite app_length, seq_app, map_app, qsum_app. f_equal.
  - f_equal. apply map_ext_in. intros i Hi. apply in_seq in Hi. assert (Hi' : (i < List.length G)%nat) by lia.
    rewrite !app_nth1 by (rewrite ?map_length, ?seq_length; lia).
    rewrite (nth_indep (map (f r) _) 0%Qc (f r 0%nat)), (nth_indep (map g _) 0%Qc (g 0%nat)) by (rewrite map_length, seq_length; lia).
    rewrite !map_nth, seq_nth by lia. reflexivity.
  - rewrite <- IH. f_equal. set (m := List.length (List.concat _)). replace (seq (0 + List.length G) m) with (map (fun i => (List.length G + i)%nat) (seq 0 m)).
    + rewrite map_map. apply map_ext. intros i. rewrite !app_nth2 by (rewrite ?map_length, ?seq_length; lia). rewrite !map_length, !seq_length.
      replace (List.length G + i - List.length G)%nat with i by lia. reflexivity.
    + rewrite seq_add. f_equal. lia.
Qed.

(** The estimate of an event of the system: its probability among the rows, plus the probability
    of no row times the mean over the samples in the event of their weights, added up over the
    states of the hazard. *)
Theorem C116_estimate :
  forall hc varis sys h HS HP Hc ord I G vs codes flag, hazard_samples hc sys h HS HP Hc I G ->
    incl (names (parents (h_c HS))) ord -> ~ In sys ord ->
    (forall i, (i < List.length G)%nat -> joint_q (HP :: HS :: Hc) i <> 0%Qc) ->
    ev_ok (children (h_c HS)) vs codes -> vs <> [] -> codes_small vs codes ->
    exists M cov2, h_cal_msys hc varis [v_name h] ord sys = Ok M /\
      get_prob_and_cov M vs (map SI codes) MLE flag (List.length G) =
      Ok ((total (fun row => Bool.eqb (hits (c_vars (h_c M)) row vs codes) flag) (h_c M) +
           (1 - qsum (c_p (h_c M))) *
           (qsum (map (fun r => qsum (map (fun i => if Bool.eqb flag (ev_match (c_vars (h_c M)) vs codes (nth i G (fun _ => 0%Z)))
                                            then (state_weight G h HS HP Hc (hd 0%Z r) i / joint_q (HP :: HS :: Hc) i)%Qc else 0%Qc)
                                 (seq 0 (List.length G)))) (c_C (h_c HP))) / qz (Z.of_nat (List.length G))))%Qc, cov2).
Proof.
  intros * HS0 IO NO NZ EV NV CS. destruct (C116_samples _ varis _ _ _ _ _ ord _ _ HS0 IO NO) as (M & E & W & V & _ & S & Q & P).
  destruct HS0 as (HN & _ & _ & _ & _ & _ & L & NG & HM). destruct HN as (_ & _ & _ & _ & _ & _ & _ & _ & _ & _ & _ & _ & _ & _ & _ & CP & _).
  assert (LN : List.length G <> O) by (destruct G; cbn; congruence).
  assert (GN : List.concat (map (fun _ => G) (c_C (h_c HP))) <> []) by (apply concat_nil; auto).
  assert (PN : h_ps M <> []).
  { rewrite P. apply concat_nil; auto. intros x H. apply (f_equal (@List.length _)) in H. rewrite map_length, seq_length in H. cbn in H. congruence. }
  destruct (mle_ok _ _ M vs codes flag (List.length G) (List.length (c_C (h_c HP))) (List.length G) W S) as (cov2 & H); auto.
  - intros a v Ha Hv. apply in_concat in Ha as (l & Hl & Ha). apply in_map_iff in Hl as (r & <- & _).
    apply (proj2 (HM HS (or_introl eq_refl))); auto. apply V in Hv. unfold children in Hv. rewrite <- (firstn_skipn (c_nch (h_c HS)) (c_vars (h_c HS))). apply in_or_app. auto.
  - destruct EV as (E1 & E2 & E3 & E4). split; [auto|]. split; [auto|]. split.
    + intros v w Hv Hw. apply E3; auto. apply V. auto.
    + intros v c Hin Hv. apply E4; auto. apply V. auto.
  - intros x Hx. rewrite Q in Hx. apply in_concat in Hx as (l & Hl & Hx). apply in_map_iff in Hl as (r & <- & _). apply in_map_iff in Hx as (i & <- & Hi).
    apply in_seq in Hi. apply NZ. lia.
  - right. split; [auto|]. split; [auto|]. apply concat_length. auto.
  - exists M, cov2. split; [auto|]. rewrite H. do 2 f_equal. f_equal. f_equal. f_equal.
    unfold votes, counted, wt, target_of. destruct (h_ps M) as [|p0 ps0] eqn:EP; [congruence|]. rewrite P, Q.
    apply (block_sum (c_C (h_c HP)) G (fun r => state_weight G h HS HP Hc (hd 0 r)) (joint_q (HP :: HS :: Hc)) (fun a => Bool.eqb flag (ev_match (c_vars (h_c M)) vs codes a))).
Qed.
Print Assumptions C116_estimate.

(** ** the weights make up for sampling the components in another state of the hazard *)
Lemma marg_ext_range K f g a : NoDup (names K) -> (forall b, (forall v, In v K -> 0 <= b (v_name v) < nvals v) -> f b = g b) -> marg K f a = marg K g a.
Proof.
  intros N H. assert (G : forall b, (forall n, ~ In n (names K) -> b n = a n) -> (forall v, In v K -> 0 <= b (v_name v) < nvals v) -> f b = g b) by auto.
  clear H. revert a G. induction K as [|v K IH]; intros a H; cbn [marg]; [apply H; auto; intros v []|]. cbn in N. inversion N as [|? ? N1 N2]; subst.
  f_equal. apply map_ext_in. intros x Hx. apply zrange_In in Hx. apply IH; auto. intros b Hb Hr. apply H.
  - intros n Hn. rewrite Hb by (intros X; apply Hn; right; auto). unfold set_joint. destruct (String.eqb_spec n (v_name v)) as [->|]; auto. exfalso. apply Hn. left. auto.
  - intros w [<-|Hw]; auto. rewrite Hb by auto. unfold set_joint. rewrite String.eqb_refl. auto.
Qed.

(** If the samples are drawn from the network itself, the components in positive probability, the
    mean of [f] times the weight is the mean of [f], for every [f] that does not look at the
    hazard: an event of the components that no row has, say. *)
Theorem C116_unbiased :
  forall h X Ph comps (f : joint -> Qc) z, NoDup (names (h :: X)) ->
    (forall a b, (forall n, a n = b n) -> f a = f b) -> (forall a x, f (set_joint a h x) = f a) ->
    (forall a, qsum (map (fun k => mass Ph (set_joint a h k)) (zrange 0 (nvals h))) = 1%Qc) ->
    (forall b, (forall v, In v (h :: X) -> 0 <= b (v_name v) < nvals v) -> pmass comps b <> 0%Qc) ->
    marg (h :: X) (fun b => (pmass (Ph :: comps) b *
                             (f b * (qsum (map (fun k => pmass (Ph :: comps) (set_joint b h k)) (zrange 0 (nvals h))) / pmass comps b)))%Qc) z =
    marg (h :: X) (fun b => (pmass (Ph :: comps) b * f b)%Qc) z.
Proof.
  intros h X Ph comps f z N EF IF T1 NZ.
  assert (EM : ext (marg [h] (pmass (Ph :: comps)))) by (apply marg_ext_a, pmass_ext).
  assert (IM : ignores h (marg [h] (pmass (Ph :: comps)))).
  { intros a x. cbn [marg]. f_equal. apply map_ext. intros k. apply pmass_ext. intros n. unfold set_joint. destruct (String.eqb n (v_name h)); auto. }
  transitivity (marg (h :: X) (fun b => (mass Ph b * (f b * marg [h] (pmass (Ph :: comps)) b))%Qc) z).
  { apply marg_ext_range; auto. intros b Hb. specialize (NZ b Hb). unfold pmass at 1. cbn [map qprod marg]. fold (pmass comps b). field. auto. }
  assert (P : Permutation (h :: X) (X ++ [h])) by apply Permutation_cons_append.
  rewrite (marg_perm (h :: X) (X ++ [h])); [|intros a b E; rewrite (EF a b E), (EM a b E); f_equal; apply mass_ext; auto|auto|auto].
  rewrite (marg_perm (h :: X) (X ++ [h]) (fun b => (pmass (Ph :: comps) b * f b)%Qc)); [|intros a b E; rewrite (EF a b E); f_equal; apply pmass_ext; auto|auto|auto].
  rewrite !marg_app. apply marg_ext. intros b. rewrite marg_factor by (intros a x; rewrite IF, IM; auto). rewrite marg_factor by exact IF.
  cbn [marg]. rewrite T1. ring.
Qed.
Print Assumptions C116_unbiased.

Lemma sum_listed (F : Z -> Qc) ks L : NoDup ks -> NoDup L -> incl ks L -> (forall k, In k L -> ~ In k ks -> F k = 0%Qc) -> qsum (map F ks) = qsum (map F L).
Proof.
  intros N1 N2 I Z. assert (P : Permutation L (ks ++ filter (fun k => negb (mem_Z k ks)) L)).
  { apply NoDup_Permutation; auto.
    - apply NoDup_app_intro; auto; [apply NoDup_filter; auto|]. intros x Hx Hf. apply filter_In in Hf as [_ Hf]. apply mem_Z_In in Hx. rewrite Hx in Hf. discriminate.
    - intros x. rewrite in_app_iff, filter_In. split; [intros Hx|intros [Hx|[Hx _]]; auto]. destruct (mem_Z x ks) eqn:E; [left; apply mem_Z_In; auto|right; auto]. }
  rewrite (qsum_perm _ _ (Permutation_map F P)), map_app, qsum_app.
  replace (qsum (map F (filter _ L))) with 0%Qc; [ring|]. symmetry.
  assert (H : forall k, In k (filter (fun k => negb (mem_Z k ks)) L) -> F k = 0%Qc).
  { intros k Hk. apply filter_In in Hk as [H1 H2]. apply Z; auto. intros H. apply mem_Z_In in H. rewrite H in H2. discriminate. }
  clear -H. induction (filter _ L) as [|k l IH]; auto. cbn [map qsum]. rewrite (H k), IH; [ring| |left; auto]. intros k' Hk'. apply H. right. auto.
Qed.

(** If the sampling weights of a sample are its probabilities, and the system has none, its weights
    add up over the states of the hazard to that ratio. *)
Theorem C116_weight :
  forall hc sys h HS HP Hc I G i, hazard_samples hc sys h HS HP Hc I G -> (i < List.length G)%nat ->
    let g := nth i G (fun _ => 0) in
    nth i (h_q HS) 0%Qc = 1%Qc -> nth i (h_q HP) 0%Qc = mass (h_c HP) g -> (forall m, In m Hc -> nth i (h_q m) 0%Qc = mass (h_c m) g) ->
    mass (h_c HP) g <> 0%Qc ->
    qsum (map (fun r => (state_weight G h HS HP Hc (hd 0%Z r) i / joint_q (HP :: HS :: Hc) i)%Qc) (c_C (h_c HP))) =
    (qsum (map (fun k => pmass (h_c HP :: map h_c Hc) (set_joint g h k)) (zrange 0 (nvals h))) / pmass (map h_c Hc) g)%Qc.
Proof.
  intros * (HN & _) Hi. cbv zeta. set (g := nth i G (fun _ => 0)). intros Q1 Q2 Q3 NZ.
  destruct HN as (_ & _ & _ & _ & _ & _ & _ & _ & _ & WP & PP & VP & NP & LP & NC & CP & _).
  assert (JQ : joint_q (HP :: HS :: Hc) i = (mass (h_c HP) g * pmass (map h_c Hc) g)%Qc).
  { unfold joint_q, pmass. cbn [map qprod]. rewrite Q1, Q2, map_map. rewrite (map_ext_in (fun M => nth i (h_q M) 0%Qc) (fun M => mass (h_c M) g)) by auto. ring. }
  rewrite JQ. transitivity (qsum (map (fun k => (pmass (h_c HP :: map h_c Hc) (set_joint g h k) * / pmass (map h_c Hc) g)%Qc) (map (hd 0) (c_C (h_c HP))))).
  { rewrite map_map. f_equal. apply map_ext. intros r. unfold state_weight. fold g. rewrite Q1, Q2. unfold pmass. cbn [map qprod]. rewrite !map_map.
    set (a := set_joint g h (hd 0 r)). unfold Qcdiv. rewrite Qcinv_mult_distr.
    transitivity (qprod (map (fun x => mass (h_c x) a) Hc) * mass (h_c HP) a * (mass (h_c HP) g * / mass (h_c HP) g) * / qprod (map (fun x => mass (h_c x) g) Hc))%Qc; [ring|].
    rewrite Qcmult_inv_r by auto. ring. }
  unfold Qcdiv. rewrite <- qsum_map_scale_r.
  assert (R : forall r, In r (c_C (h_c HP)) -> exists k, r = [k] /\ 0 <= k < nvals h /\ forall x, In x (states_of h k) <-> x = k).
  { intros r Hr. assert (L := proj1 (wf_rows _ _ WP Hr)). rewrite VP in L. destruct r as [|k [|]]; try discriminate L. exists k. split; auto.
    apply (LP [k]); auto. rewrite VP. left. auto. }
  apply sum_listed; [| apply zrange_NoDup| |].
  - clear -R NC. induction (c_C (h_c HP)) as [|r C IH]; [constructor|]. inversion NC as [|? ? N1 N2]; subst. cbn [map]. constructor.
    + intros H. apply in_map_iff in H as (r' & E & H). destruct (R r (or_introl eq_refl)) as (k & -> & _), (R r' (or_intror H)) as (k' & -> & _). cbn in E. subst. auto.
    + apply IH; auto. intros r' H. apply R. right. auto.
  - intros k Hk. apply in_map_iff in Hk as (r & <- & Hr). destruct (R r Hr) as (k & -> & Hk & _). apply zrange_In. cbn. lia.
  - intros k _ Hk. replace (pmass _ (set_joint g h k)) with 0%Qc; [ring|]. symmetry. unfold pmass. cbn [map qprod].
    replace (mass (h_c HP) (set_joint g h k)) with 0%Qc; [ring|]. symmetry. unfold mass.
    assert (FN : filter (fun rp => row_match (c_vars (h_c HP)) (fst rp) (set_joint g h k)) (combine (c_C (h_c HP)) (weights (h_c HP))) = []); [|rewrite FN; reflexivity].
    apply filter_none. intros [r p] Hin. apply in_combine_l in Hin. cbn [fst]. destruct (R r Hin) as (k' & -> & _ & B). rewrite VP. unfold row_match. cbn [combine forallb fst snd].
    rewrite andb_true_r. apply not_true_is_false. rewrite mem_Z_In, B. unfold set_joint. rewrite String.eqb_refl. intros ->. apply Hk. apply in_map_iff. exists [k']. auto.
Qed.
Print Assumptions C116_weight.

(** the samples of the test network, test_operation.py 766-804 *)
Definition test_sample (h x0 x1 s : Z) : joint := fun n =>
  if String.eqb n "haz" then h else if String.eqb n "x0" then x0 else if String.eqb n "x1" then x1 else s.
Definition G5 : list joint := [test_sample 0 0 1 0; test_sample 0 1 0 1; test_sample 0 1 0 1; test_sample 1 0 1 0; test_sample 0 1 0 1].
Lemma two_ok n l : List.length l = 2%nat -> var_ok (tv n l).
Proof. destruct l as [|a [|b [|]]]; try discriminate. intros _. eapply mk_variable_ok. vm_compute. reflexivity. Qed.
Ltac tv_all := repeat (constructor; [apply two_ok; reflexivity|]); constructor.
Lemma haz_plain : plain_codes haz.
Proof.
  intros c k (B & EB & Hc) H. vm_compute in EB. injection EB as <-. cbn [List.length Z.of_nat] in Hc.
  assert (D : c = 0 \/ c = 1 \/ c = 2) by lia. destruct D as [->|[->| ->]].
  - apply H. vm_compute. auto.
  - apply H. vm_compute. auto.
  - assert (0 = k) by (apply H; vm_compute; auto). assert (1 = k) by (apply H; vm_compute; auto). lia.
Qed.
Lemma test_samples : hazard_samples scpms "sys" haz Ssys Shaz [Sx0; Sx1] idx5 G5.
Proof.
  split; [|split; [reflexivity|]; split; [reflexivity|]; split; [repeat constructor|]; split; [exact haz_plain|]; split; [|split; [reflexivity|]; split; [discriminate|]]].
  - split; [reflexivity|]. split; [apply wf_b_ok; [tv_all|vm_compute; reflexivity]|]. split; [reflexivity|]. split; [discriminate|]. split; [discriminate|].
    split; [discriminate|]. split; [cbn; intuition discriminate|]. split; [cbn; intuition discriminate|]. split; [reflexivity|].
    split; [apply wf_b_ok; [tv_all|vm_compute; reflexivity]|]. split; [reflexivity|]. split; [reflexivity|]. split; [reflexivity|].
    split; [apply lists_b_ok; vm_compute; reflexivity|]. split; [apply nodup_rows_ok; vm_compute; reflexivity|]. split; [discriminate|].
    constructor; [|constructor; [|constructor]]; (split; [reflexivity|]; split; [apply cpt_b_ok; [reflexivity|tv_all|vm_compute; reflexivity]|apply table_b_ok; vm_compute; reflexivity]).
  - repeat constructor; cbn; intuition lia.
  - intros M [<-|[<-|[<-|[<-|[]]]]]; (split; [ex_sampled|apply basic_samples_b; vm_compute; reflexivity]).
Qed.
Example C116_ex :
  hazard_samples scpms "sys" haz Ssys Shaz [Sx0; Sx1] idx5 G5 /\ incl (names (parents (h_c Ssys))) ["haz"; "x0"; "x1"] /\ ~ In "sys" ["haz"; "x0"; "x1"] /\
  (forall i, (i < 5)%nat -> joint_q [Shaz; Ssys; Sx0; Sx1] i <> 0%Qc) /\
  ev_ok (children (h_c Ssys)) [hz "sys"] [0] /\ codes_small [hz "sys"] [0] /\
  map (state_weight G5 haz Ssys Shaz [Sx0; Sx1] 0) (seq 0 5) = [d4 343; d4 1323; d4 1323; d4 147; d4 1323] /\
  map (state_weight G5 haz Ssys Shaz [Sx0; Sx1] 1) (seq 0 5) = [d4 252; d4 672; d4 672; d4 108; d4 672] /\
  (exists cov2, (M <- h_cal_msys scpms hvaris ["haz"] ["haz"; "x0"; "x1"] "sys" ;; get_prob_and_cov M [hz "sys"] (map SI [0]) MLE true 5) =
     Ok (Q2Qc (15731 # 84000), cov2)).
Proof.
  split; [exact test_samples|]. split; [intros n [<-|[<-|[]]]; cbn; auto|]. split; [cbn; intuition discriminate|].
  split; [intros [|[|[|[|[|i]]]]] Hi; try (intros E; apply (f_equal this) in E; vm_compute in E; discriminate E); lia|].
  split.
  { split; [reflexivity|]. split; [repeat constructor; intros []|]. split.
    - intros v w [<-|[]] [<-|[]] _. reflexivity.
    - intros v c [[= <- <-]|[]] _. ex_code. }
  split; [intros v c [[= <- <-]|[]]; vm_compute; reflexivity|]. do 2 (split; [cbn [map seq]; repeat (apply (f_equal2 (@cons Qc)); [apply Qc_is_canon; vm_compute; reflexivity|]); reflexivity|]).
  destruct (M <- _ ;; get_prob_and_cov M _ _ MLE true 5) as [[p c]|] eqn:E; [|vm_compute in E; discriminate E].
  exists c. do 2 f_equal. apply Qc_is_canon. vm_compute in E. injection E as <- _. vm_compute. reflexivity.
Qed.

(** The weights of the first sample of the test network, and the hypotheses on its tables; [f] is the
    event that the sample's states of the components have. *)
Example C116_weight_ex :
  (0 < List.length G5)%nat /\ nth 0 (h_q Ssys) 0%Qc = 1%Qc /\ nth 0 (h_q Shaz) 0%Qc = mass Hhaz (test_sample 0 0 1 0) /\
  (forall m, In m [Sx0; Sx1] -> nth 0 (h_q m) 0%Qc = mass (h_c m) (test_sample 0 0 1 0)) /\ mass Hhaz (test_sample 0 0 1 0) <> 0%Qc /\
  qsum (map (fun r => (state_weight G5 haz Ssys Shaz [Sx0; Sx1] (hd 0%Z r) 0 / joint_q [Shaz; Ssys; Sx0; Sx1] 0)%Qc) (c_C Hhaz)) = Q2Qc (85 # 70).
Proof.
  split; [cbn; lia|]. split; [reflexivity|]. split; [apply Qc_is_canon; vm_compute; reflexivity|].
  split; [intros m [<-|[<-|[]]]; apply Qc_is_canon; vm_compute; reflexivity|]. split; [intros E; apply (f_equal this) in E; vm_compute in E; discriminate E|].
  apply Qc_is_canon. vm_compute. reflexivity.
Qed.
Definition fail_one (a : joint) : Qc := if (a "x0" =? 0) && (a "x1" =? 1) then 1%Qc else 0%Qc.
Example C116_unbiased_ex :
  NoDup (names [haz; hz "x0"; hz "x1"]) /\ (forall a b, (forall n, a n = b n) -> fail_one a = fail_one b) /\
  (forall a x, fail_one (set_joint a haz x) = fail_one a) /\
  (forall a, qsum (map (fun k => mass Hhaz (set_joint a haz k)) (zrange 0 (nvals haz))) = 1%Qc) /\
  (forall b, (forall v, In v [haz; hz "x0"; hz "x1"] -> 0 <= b (v_name v) < nvals v) -> pmass [Hx0; Hx1] b <> 0%Qc) /\
  marg [haz; hz "x0"; hz "x1"] (fun b => (pmass [Hhaz; Hx0; Hx1] b * fail_one b)%Qc) (fun _ => 0) = Q2Qc (85 # 1000).
Proof.
  split; [repeat constructor; cbn; intuition discriminate|]. split; [intros a b E; unfold fail_one; rewrite !E; auto|]. split; [reflexivity|].
  split; [intros a; apply Qc_is_canon; vm_compute; reflexivity|]. split; [|apply Qc_is_canon; vm_compute; reflexivity].
  intros b Hb. assert (B0 := Hb haz (or_introl eq_refl)). assert (B1 := Hb (hz "x0") (or_intror (or_introl eq_refl))).
  assert (B2 := Hb (hz "x1") (or_intror (or_intror (or_introl eq_refl)))). clear Hb. cbn in B0, B1, B2.
  assert (E : pmass [Hx0; Hx1] b = pmass [Hx0; Hx1] (test_sample (b "haz") (b "x0") (b "x1") 0)).
  { unfold pmass. cbn [map]. rewrite (mass_ext Hx0 b (test_sample (b "haz") (b "x0") (b "x1") 0)), (mass_ext Hx1 b (test_sample (b "haz") (b "x0") (b "x1") 0)); auto;
      intros v [<-|[<-|[]]]; reflexivity. }
  rewrite E. clear E. assert (D0 : b "haz" = 0 \/ b "haz" = 1) by lia. assert (D1 : b "x0" = 0 \/ b "x0" = 1) by lia. assert (D2 : b "x1" = 0 \/ b "x1" = 1) by lia.
  destruct D0 as [-> | ->], D1 as [-> | ->], D2 as [-> | ->]; intros E; apply (f_equal this) in E; vm_compute in E; discriminate E.
Qed.
