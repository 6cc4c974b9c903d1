(** Final theorems about the product of a system CPM with component CPMs, with samples (C91). *)
From Coq Require Import ZArith List String Bool Arith Lia QArith Qcanon Permutation.
From Verif Require Import Py PyFacts Num Vari VariFacts Cpm CpmFacts SpecCpm CpmProb MsysProd SpecProd MsysProdFacts Mcs SpecMcs Hybrid SpecHyb HybFacts HybEst HybProd SpecHybProd HybProdFacts PropCpm PropProd PropVe PropHyb.
Import ListNotations.
Open Scope string_scope.
Open Scope Z_scope.
Open Scope list_scope.

(** * C91 *)
(** The rows are those of C41.  The samples are the joint samples, with one column for each
    variable of the result, in its order; the weights are the products of the weights in the
    system CPM and in the CPMs of the multiplied components. *)
Theorem C91_samples :
  forall I G Msys Ms cs, NoDup I -> List.length I = List.length G -> G <> [] ->
    prod_ok (h_c Msys) (map h_c Ms) cs ->
    (forall M, In M (Msys :: Ms) -> sampled I G M /\ basic_samples G (c_vars (h_c M))) -> c_vars (h_c Msys) <> [] ->
    (forall y s v, In (y, s) cs -> In v (children (h_c Msys) ++ mult_of (h_c Msys) (map h_c Ms)) -> v_name y <> v_name v) ->
    (forall v, In v (rest_of (h_c Msys) (map h_c Ms)) -> In (v_name v) (names (map fst cs))) ->
    mult_of (h_c Msys) (map h_c Ms) <> [] \/ new_conds cs (rest_of (h_c Msys) (map h_c Ms)) = [] ->
    exists R, h_prod_sys Msys Ms = Ok R /\ prod_sys (h_c Msys) (map h_c Ms) = Ok (h_c R) /\ wf_cpm (h_c R) /\
      sampled I G R /\ basic_samples G (c_vars (h_c R)) /\
      forall i, (i < List.length G)%nat -> let l := Msys :: sampled_comps Ms (mult_of (h_c Msys) (map h_c Ms)) in
        nth i (h_q R) 0%Qc = joint_q l i /\ nth i (target_of R) 0%Qc = joint_t l i.
Proof. intros I G Msys Ms cs NI LI NG OK HS NV HY HR HN. exact (h_prod_sys_ok I G NI LI NG Msys Ms cs OK HS NV HY HR HN). Qed.
Print Assumptions C91_samples.

(** The estimate from the result: the probability of the rows in the event, and of the rest the
    mean over the samples of the ratio of the target and sampling weights of system and components. *)
Theorem C91_estimate :
  forall I G Msys Ms cs R es codes, NoDup I -> List.length I = List.length G -> G <> [] ->
    prod_ok (h_c Msys) (map h_c Ms) cs ->
    (forall M, In M (Msys :: Ms) -> sampled I G M /\ basic_samples G (c_vars (h_c M))) -> c_vars (h_c Msys) <> [] ->
    (forall y s v, In (y, s) cs -> In v (children (h_c Msys) ++ mult_of (h_c Msys) (map h_c Ms)) -> v_name y <> v_name v) ->
    (forall v, In v (rest_of (h_c Msys) (map h_c Ms)) -> In (v_name v) (names (map fst cs))) ->
    mult_of (h_c Msys) (map h_c Ms) <> [] \/ new_conds cs (rest_of (h_c Msys) (map h_c Ms)) = [] ->
    (forall M x, In M (Msys :: Ms) -> In x (h_q M) -> x <> 0%Qc) ->
    h_prod_sys Msys Ms = Ok R -> ev_ok (c_vars (h_c R)) es codes -> es <> [] -> codes_small es codes ->
    let l := Msys :: sampled_comps Ms (mult_of (h_c Msys) (map h_c Ms)) in
    let w := fun i => if ev_match (c_vars (h_c R)) es codes (nth i G (fun _ => 0)) then (joint_t l i / joint_q l i)%Qc else 0%Qc in
    exists cov2, get_prob_and_cov R es (map SI codes) MLE true 0 =
      Ok ((total (fun row => hits (c_vars (h_c R)) row es codes) (h_c R) +
           (1 - qsum (c_p (h_c R))) * (qsum (map w (seq 0 (List.length G))) / qz (Z.of_nat (List.length G))))%Qc, cov2).
Proof.
  intros I G Msys Ms cs R es codes NI LI NG OK HS NV HY HR HN NZ ER EV NE CS l w.
  destruct (h_prod_sys_ok I G NI LI NG Msys Ms cs OK HS NV HY HR HN) as (R' & ER' & _ & WR & SR & BR & HW).
  assert (R' = R) by congruence. subst R'. clear ER'.
  assert (NQ : forall i, (i < List.length G)%nat -> joint_q l i <> 0%Qc).
  { intros i Hi. unfold joint_q. assert (K : forall M, In M l -> nth i (h_q M) 0%Qc <> 0%Qc).
    { intros M HM. assert (HM' : In M (Msys :: Ms)).
      { destruct HM as [HM|HM]; [left; auto|right]. apply in_flat_map in HM as (v & _ & HM). destruct (sampled_comp Ms v) as [m|] eqn:E; [|destruct HM].
        destruct HM as [<-|[]]. apply find_some in E. tauto. }
      apply (NZ M); auto. destruct (HS M HM') as [(_ & _ & L & _) _]. apply nth_In. lia. }
    clear -K. induction l as [|M l' IH]; cbn [map qprod]; [discriminate|]. intros X. apply Qcmult_integral in X as [X|X].
    - apply (K M); auto. left; auto.
    - apply IH; auto. intros M' HM'. apply K. right; auto. }
  destruct (mle_ok I G R es codes true O 1%nat (List.length G)) as (cov2 & E); auto.
  - intros x Hx X. subst x. apply (In_nth _ _ 0%Qc) in Hx as (i & Hi & E). destruct SR as (_ & _ & L & _). rewrite L in Hi.
    apply (NQ i Hi). destruct (HW i Hi) as [Q _]. cbv zeta in Q. fold l in Q. congruence.
  - exists cov2. rewrite E. do 2 f_equal. f_equal.
    + unfold total. f_equal. f_equal. apply filter_ext. intros rp. destruct (hits _ _ _ _); reflexivity.
    + f_equal. f_equal. unfold votes. f_equal. apply map_ext_in. intros i Hi. apply in_seq in Hi. unfold counted, w, wt.
      destruct (HW i) as [Q T]; [lia|]. cbv zeta in Q, T. fold l in Q, T. rewrite Q, T. destruct (ev_match _ _ _ _); reflexivity.
Qed.
Print Assumptions C91_estimate.

(** A parent of the system that is neither a component nor a condition is accepted without
    samples (C41), and is an AssertionError with them. *)
Theorem C91_missing :
  forall I G Msys Ms cs v, G <> [] -> prod_ok (h_c Msys) (map h_c Ms) cs ->
    (forall M, In M (Msys :: Ms) -> sampled I G M /\ basic_samples G (c_vars (h_c M))) -> c_vars (h_c Msys) <> [] ->
    In v (rest_of (h_c Msys) (map h_c Ms)) -> ~ In (v_name v) (names (map fst cs)) ->
    (exists c, prod_sys (h_c Msys) (map h_c Ms) = Ok c) /\ h_prod_sys Msys Ms = Err AssertionError.
Proof.
  intros I G Msys Ms cs v NG OK HS NV Hv Hn. split; [|exact (h_prod_sys_missing I G NG Msys Ms cs OK HS NV v Hv Hn)].
  eexists. apply (prod_sys_spec _ _ cs OK).
Qed.
Print Assumptions C91_missing.

(** If one of the CPMs has no samples, the result has none. *)
Theorem C91_dropped :
  forall Msys Ms M c, In M (Msys :: Ms) -> no_samples M = true -> prod_sys (h_c Msys) (map h_c Ms) = Ok c ->
    h_prod_sys Msys Ms = Ok (mkH c [] [] [] []).
Proof. exact h_prod_sys_dropped. Qed.
Print Assumptions C91_dropped.

(** ** Examples: three samples, of which the system rows of [Mt] know the first *)
Definition G5 : list joint := [j 1 0 0 0; j 1 1 2 1; j 1 1 1 1].
Definition KMt := sampled_at G5 Mt [q 1 1; q 1 1; q 1 1].
Definition KPx := sampled_at G5 Px [q 1 10; q 9 10; q 9 10].
Definition KPy := mkH Py (map (row_at [vy]) G5) [q 1 5; q 1 2; q 3 10] [q 1 5; q 1 4; q 3 5] [0; 1; 2].
Definition KHx := sampled_at G5 Hx [q 1 4; q 3 4; q 3 4].
Definition KHy := sampled_at G5 Hy [q 1 4; q 1 4; q 1 2].

Lemma ex_mt Ms' cs : Forall (fun m => Forall (fun v => v = ex_g (v_name v)) (c_vars m)) Ms' -> forallb comp_b Ms' = true -> Ms' <> [] -> conditioned Ms' cs ->
  prod_ok Mt Ms' cs.
Proof. intros H1 H2 H3 H4. apply ex_prod_ok; auto; try discriminate; try (vm_compute; reflexivity); ex_all. Qed.

Example C91_ex :
  prod_ok (h_c KMt) (map h_c [KPy; KPx]) [] /\ prod_ok (h_c KMt) (map h_c [KHy; KHx]) [(vh, 1)] /\
  (forall M, In M [KMt; KPy; KPx; KHy; KHx] -> sampled I3 G5 M /\ basic_samples G5 (c_vars (h_c M))) /\
  mult_of Mt [Py; Px] = [vx; vy] /\ rest_of Mt [Py; Px] = [] /\ mult_of Mt [Hy; Hx] = [vx; vy] /\ rest_of Mt [Hy; Hx] = [] /\
  (forall M x, In M [KMt; KPy; KPx] -> In x (h_q M) -> x <> 0%Qc) /\
  hview (h_prod_sys KMt [KPy; KPx]) =
    Ok ([vs; vx; vy], [[0; 0; 6]], [1 # 10]%Q, ([[0; 0; 0]; [1; 1; 2]; [1; 1; 1]], [1 # 50; 9 # 20; 27 # 100]%Q, [1 # 50; 9 # 40; 27 # 50]%Q, I3)) /\
  (** conditional components: h comes last, with its samples *)
  hview (h_prod_sys KMt [KHy; KHx]) =
    Ok ([vs; vx; vy; vh], [[0; 0; 6; 1]], [1 # 4]%Q, ([[0; 0; 0; 1]; [1; 1; 2; 1]; [1; 1; 1; 1]], [1 # 16; 3 # 16; 3 # 8]%Q, [1 # 16; 3 # 16; 3 # 8]%Q, I3)) /\
  (** the estimate of the failure: 1/10 is known, the samples have the weights 1, 1/2 and 2 *)
  pview (R <- h_prod_sys KMt [KPy; KPx] ;; get_prob_and_cov R [vs] [SI 0] MLE true 0) = Ok ((2 # 5)%Q, (3 # 8)%Q) /\
  (** x has no component *)
  rest_of Mt [Py] = [vx] /\ view (prod_sys Mt [Py]) = Ok ([vs; vy; vx], 2%nat, [[0; 6; 0]], [1]%Q) /\ hview (h_prod_sys KMt [KPy]) = Err AssertionError /\
  (** no samples for x *)
  hview (h_prod_sys KMt [KPy; mkH Px [] [] [] []]) = Ok ([vs; vx; vy], [[0; 0; 6]], [1 # 10]%Q, ([], [], [], [])).
Proof.
  split. { apply ex_mt; [repeat (constructor; [ex_all|]); constructor|vm_compute; reflexivity|discriminate|]. left. split; auto. intros m [<-|[<-|[]]]; reflexivity. }
  split. { apply ex_mt; [repeat (constructor; [ex_all|]); constructor|vm_compute; reflexivity|discriminate|].
    right. exists vh, 1. split; auto. intros m [<-|[<-|[]]]; (split; [reflexivity|]); intros row Hr; cbn in Hr; intuition (subst; reflexivity). }
  split. { intros M HM. repeat (destruct HM as [<-|HM]; [split; [split; [reflexivity|]; split; [reflexivity|]; split; [reflexivity|]; (left; reflexivity) || (right; reflexivity)|apply basic_samples_b; vm_compute; reflexivity]|]). destruct HM. }
  do 4 (split; [vm_compute; reflexivity|]).
  split. { intros M x HM Hx. repeat (destruct HM as [<-|HM]; [cbn in Hx; repeat (destruct Hx as [<-|Hx]; [discriminate|]); destruct Hx|]). destruct HM. }
  repeat (split; [vm_compute; reflexivity|]). vm_compute. reflexivity.
Qed.
