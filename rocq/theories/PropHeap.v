(** Final theorems C100: side effects of the CPM operations (cpm.py) on the
    objects they are given. *)
From Coq Require Import ZArith List String Bool Arith Lia QArith Qcanon.
From Verif Require Import Py Num Vari Cpm SpecCpm PyFacts VariFacts CpmFacts CpmProb Heap SpecHeap HeapFacts PropCpm.
Import ListNotations.
Open Scope string_scope.
Open Scope Z_scope.
Open Scope list_scope.

(** Programs that do not use an object after [merge] was called on it: same
    outcome and same CPMs as with values. *)
Theorem C100_programs :
  forall l ops s' r env' r', Forall has_p l -> once [] ops ->
    run_h (store_of l) ops = (s', r) -> run_values l ops = (env', r') ->
    r = r' /\ List.length (s_objs s') = List.length env' /\
    forall k, (forall o, In o ops -> ~ In k (merged o)) -> load s' k = nth_error env' k.
Proof.
  intros l ops s' r env' r' P O H H'. assert (S := run_sim ops (store_of l) l [] (store_of_inv l P) O). rewrite H, H' in S.
  destruct S as [E (L & _ & V & _)]. split; auto. split; auto. intros k Hk. apply V. cbn [app]. intros X. apply in_flat_map in X as (o & Ho & X).
  apply (Hk o Ho X).
Qed.
Print Assumptions C100_programs.

(** values are never changed, only added *)
Lemma run_values_prefix ops : forall env, exists more, fst (run_values env ops) = env ++ more.
Proof.
  induction ops as [|o ops IH]; intros env; cbn [run_values]; [exists []; cbn; rewrite app_nil_r; auto|].
  destruct (value_of env o) as [M|e]; [|exists []; cbn; rewrite app_nil_r; auto].
  destruct (IH (env ++ [M])) as (more & ->). exists (M :: more). rewrite <- app_assoc. reflexivity.
Qed.
(** without [merge] every object keeps its value *)
Theorem C100_kept :
  forall l ops s' r, Forall has_p l -> (forall o, In o ops -> merged o = []) -> run_h (store_of l) ops = (s', r) ->
    forall k M, nth_error l k = Some M -> load s' k = Some M.
Proof.
  intros l ops s' r P N H k M HM. destruct (run_values l ops) as [env' r'] eqn:E.
  assert (O : forall gone, gone = [] -> once gone ops).
  { clear -N. induction ops as [|o ops IH]; intros gone ->; cbn [once]; auto. split; [intros i _ []|]. rewrite (N o (or_introl eq_refl)).
    apply IH; auto. intros o' Ho. apply N. right; auto. }
  destruct (C100_programs l ops s' r env' r' P (O [] eq_refl) H E) as (_ & _ & V). rewrite V.
  - destruct (run_values_prefix ops l) as (more & X). rewrite E in X. cbn in X. subst env'. rewrite nth_error_app1; auto.
    apply nth_error_Some. congruence.
  - intros o Ho. rewrite (N o Ho). intros [].
Qed.
Print Assumptions C100_kept.

(** [merge] makes the object it is called on equal to its result, for good: both
    have the same array *)
Theorem C100_merge_self :
  forall s i j s' M1 M2, (forall o, In o (s_objs s) -> (o_arr o < List.length (s_arrs s))%nat) ->
    load s i = Some M1 -> load s j = Some M2 -> step_h s (Merge i j) = (s', Ok tt) ->
    exists M, merge M1 M2 = Ok M /\ load s' i = Some M /\ load s' (List.length (s_objs s)) = Some M /\
      exists o o', nth_error (s_objs s') i = Some o /\ nth_error (s_objs s') (List.length (s_objs s)) = Some o' /\ o_arr o = o_arr o'.
Proof.
  intros s i j s' M1 M2 B H1 H2 H. cbn [step_h] in H. unfold merge_h in H. rewrite H1, H2 in H. unfold load in H1.
  destruct (nth_error (s_objs s) i) as [o|] eqn:Eo; [|discriminate H1]. cbn in H1. injection H1 as H1.
  assert (Ha : (o_arr o < List.length (s_arrs s))%nat) by (apply B; eapply nth_error_In; eauto).
  assert (Hi : (i < List.length (s_objs s))%nat) by (apply nth_error_Some; congruence).
  unfold merge. destruct (_ && _); [|discriminate H].
  destruct (merge_loop_spec (c_C M1) (combine (c_C M2) (c_p M2)) s (o_arr o) Ha) as [S1 S2].
  assert (Ep : nth (o_arr o) (s_arrs s) [] = c_p M1) by (rewrite <- H1; reflexivity). rewrite Ep in S1, S2.
  destruct (foldM (merge_row (c_C M1)) (combine (c_C M2) (c_p M2)) (c_p M1)) as [p'|e].
  - rewrite (S1 p' eq_refl) in H. injection H as <-. eexists. split; [reflexivity|].
    assert (L : load (mkStore (s_objs s ++ [o]) (put (s_arrs s) (o_arr o) p')) i = Some (mkCpm (c_vars M1) (c_nch M1) (c_C M1) p')).
    { unfold load. cbn [s_objs s_arrs]. rewrite nth_error_app1 by auto. rewrite Eo. cbn. f_equal. rewrite <- H1. unfold view_obj. cbn.
      f_equal. apply nth_put_same; auto. }
    cbn [s_objs s_arrs] in *. split; [exact L|]. split.
    + unfold load. cbn [s_objs s_arrs]. rewrite nth_error_app2, Nat.sub_diag by auto. unfold load in L. cbn [s_objs s_arrs] in L.
      rewrite nth_error_app1, Eo in L by auto. exact L.
    + exists o, o. rewrite nth_error_app1, nth_error_app2, Nat.sub_diag by auto. auto.
  - destruct (S2 e eq_refl) as (p' & X). rewrite X in H. discriminate H.
Qed.
Print Assumptions C100_merge_self.

(** hence merging twice counts twice, also in the first result; and an exception
    leaves a part of the second CPM in the first *)
Definition Pm1 := mkCpm [vx] 1 [[0]; [1]] [q 1 10; q 1 5].
Definition Pm2 := mkCpm [vx] 1 [[0]] [q 1 2].
Definition Pm3 := mkCpm [vx] 1 [[0]; [2]] [q 1 2; q 1 5].
Definition looks (s : store) : list (list Q) := map (fun i => match load s i with Some M => map this (c_p M) | None => [] end) (seq 0 (List.length (s_objs s))).
Theorem C100_merge_refuted :
  ~ (forall l i j s', step_h (store_of l) (Merge i j) = (s', Ok tt) -> load s' i = nth_error l i).
Proof.
  intros H. specialize (H [Pm1; Pm2] 0%nat 1%nat (fst (step_h (store_of [Pm1; Pm2]) (Merge 0 1)))).
  assert (X : step_h (store_of [Pm1; Pm2]) (Merge 0 1) = (fst (step_h (store_of [Pm1; Pm2]) (Merge 0 1)), Ok tt)) by (vm_compute; reflexivity).
  apply H in X. assert (Y : option_map (fun M => map this (c_p M)) (load (fst (step_h (store_of [Pm1; Pm2]) (Merge 0 1))) 0) = Some [(3 # 5); (1 # 5)]%Q) by (vm_compute; reflexivity).
  rewrite X in Y. vm_compute in Y. discriminate Y.
Qed.
Print Assumptions C100_merge_refuted.
Example C100_merge_twice_ex :
  looks (fst (run_h (store_of [Pm1; Pm2]) [Merge 0 1])) = [[(3 # 5); (1 # 5)]; [(1 # 2)]; [(3 # 5); (1 # 5)]]%Q /\
  looks (fst (run_h (store_of [Pm1; Pm2]) [Merge 0 1; Merge 0 1])) =
    [[(11 # 10); (1 # 5)]; [(1 # 2)]; [(11 # 10); (1 # 5)]; [(11 # 10); (1 # 5)]]%Q /\
  snd (run_h (store_of [Pm1; Pm3]) [Merge 0 1]) = Err ValueError /\
  looks (fst (run_h (store_of [Pm1; Pm3]) [Merge 0 1])) = [[(3 # 5); (1 # 5)]; [(1 # 2); (1 # 5)]]%Q.
Proof. do 3 (split; [vm_compute; reflexivity|]). vm_compute. reflexivity. Qed.

(** [product] may give its operands an array of ones, which means the same ... *)
Theorem C100_product_operands :
  forall s i j s' r k M, (forall o, In o (s_objs s) -> (o_arr o < List.length (s_arrs s))%nat) ->
    step_h s (Product i j) = (s', r) -> load s k = Some M ->
    exists M', load s' k = Some M' /\ c_vars M' = c_vars M /\ c_nch M' = c_nch M /\ c_C M' = c_C M /\ weights M' = weights M /\
      (c_p M <> [] -> M' = M).
Proof.
  intros s i j s' r k M B H HM. cbn [step_h] in H.
  assert (R : forall i N, load s i = Some N -> c_p N = [] ->
    (forall o, In o (s_objs (rebind s i (map (fun _ => 1%Qc) (c_C N)))) -> (o_arr o < List.length (s_arrs (rebind s i (map (fun _ => 1%Qc) (c_C N)))))%nat) /\
    List.length (s_objs (rebind s i (map (fun _ => 1%Qc) (c_C N)))) = List.length (s_objs s) /\
    exists M', load (rebind s i (map (fun _ => 1%Qc) (c_C N))) k = Some M' /\ c_vars M' = c_vars M /\ c_nch M' = c_nch M /\ c_C M' = c_C M /\
      weights M' = weights M /\ (c_p M <> [] -> M' = M)).
  { clear H i j. intros i N HN EN. unfold load in HN. unfold rebind. destruct (nth_error (s_objs s) i) as [o|] eqn:Eo; [|discriminate HN].
    cbn in HN. injection HN as HN. assert (Hi : (i < List.length (s_objs s))%nat) by (apply nth_error_Some; congruence). split; [|split].
    - cbn [s_objs s_arrs]. intros x H. rewrite app_length. cbn [List.length]. unfold put in H. apply in_app_or in H as [H|[<-|H]].
      + assert (H' := B x ltac:(rewrite <- (firstn_skipn i (s_objs s)); apply in_or_app; left; auto)). lia.
      + cbn. lia.
      + assert (H' := B x ltac:(rewrite <- (firstn_skipn (S i) (s_objs s)); apply in_or_app; right; auto)). lia.
    - cbn [s_objs]. apply put_length. auto.
    - unfold load. cbn [s_objs s_arrs]. destruct (Nat.eq_dec k i) as [->|Nk].
      + rewrite put_same by auto. unfold load in HM. rewrite Eo in HM. cbn in HM. injection HM as HM. rewrite HN in HM. subst M.
        eexists. split; [reflexivity|]. unfold view_obj. cbn. rewrite app_nth2 by lia. rewrite Nat.sub_diag. cbn.
        assert (F1 : o_vars o = c_vars N) by (rewrite <- HN; reflexivity). assert (F2 : o_nch o = c_nch N) by (rewrite <- HN; reflexivity).
        assert (F3 : o_C o = c_C N) by (rewrite <- HN; reflexivity). do 3 (split; [auto|]). split; [|intros X; exfalso; auto].
        unfold weights. cbn [c_p c_C]. rewrite EN, F3. destruct (c_C N); reflexivity.
      + rewrite put_other by auto. unfold load in HM. destruct (nth_error (s_objs s) k) as [x|] eqn:Ex; [|discriminate HM]. cbn in HM.
        injection HM as <-. exists (view_obj (s_arrs s) x). split; [cbn; f_equal; apply view_old, B; eapply nth_error_In; eauto|]. auto 8. }
  assert (A : forall s1 N M', load s1 k = Some M' -> (forall o, In o (s_objs s1) -> (o_arr o < List.length (s_arrs s1))%nat) -> load (alloc s1 N) k = Some M').
  { clear. intros s1 N M' H B. unfold load in *. unfold alloc. cbn [s_objs s_arrs]. destruct (nth_error (s_objs s1) k) as [x|] eqn:Ex; [|discriminate H].
    rewrite nth_error_app1 by (apply nth_error_Some; congruence). rewrite Ex. cbn in *. injection H as <-. f_equal. apply view_old, B. eapply nth_error_In; eauto. }
  assert (P : forall i j N1 N2 s' r, load s i = Some N1 -> load s j = Some N2 -> product_ord_h s i j N1 N2 = (s', r) ->
    exists M', load s' k = Some M' /\ c_vars M' = c_vars M /\ c_nch M' = c_nch M /\ c_C M' = c_C M /\ weights M' = weights M /\ (c_p M <> [] -> M' = M)).
  { clear H i j s' r. intros i j N1 N2 s' r H1 H2 H. unfold product_ord_h in H. destruct (common_child N1 N2); [injection H as <- <-; exists M; auto 8|].
    set (s1 := match c_p N1, c_p N2 with [], _ :: _ => _ | _, _ => _ end) in H.
    assert (X : (forall o, In o (s_objs s1) -> (o_arr o < List.length (s_arrs s1))%nat) /\
      exists M', load s1 k = Some M' /\ c_vars M' = c_vars M /\ c_nch M' = c_nch M /\ c_C M' = c_C M /\ weights M' = weights M /\ (c_p M <> [] -> M' = M)).
    { unfold s1. destruct (c_p N1) eqn:E1, (c_p N2) eqn:E2; try (split; [exact B|exists M; auto 8]).
      - destruct (R i N1 H1 E1) as (X1 & _ & X2). auto.
      - destruct (R j N2 H2 E2) as (X1 & _ & X2). auto. }
    destruct X as [X1 (M' & X2 & X3)]. destruct (product_ord N1 N2); injection H as <- <-; exists M'; (split; [|exact X3]); auto. }
  unfold product_h in H. destruct (load s i) as [N1|] eqn:E1; [|injection H as <- <-; exists M; auto 8].
  destruct (load s j) as [N2|] eqn:E2; [|injection H as <- <-; exists M; auto 8].
  destruct (ncols N2 <? ncols N1)%nat; [eapply (P j i); eauto|eapply (P i j); eauto].
Qed.
Print Assumptions C100_product_operands.

(** ... except to [get_prob], which adds up the array: the probability of an event
    of a CPM without probabilities changes from zero to the number of its rows *)
Definition Pn := mkCpm [vy] 1 [[0]; [1]; [2]] [].
Example C100_product_operands_ex :
  match load (fst (run_h (store_of [Px; Pn]) [Product 0 1])) 1 with Some M => map this (c_p M) | None => [] end = [1; 1; 1]%Q /\
  val (get_prob Pn (Vars [vy]) [SI 5] true) = Ok 0%Q /\
  match load (fst (run_h (store_of [Px; Pn]) [Product 0 1])) 1 with Some M => val (get_prob M (Vars [vy]) [SI 5] true) | None => Err NameError end = Ok 2%Q.
Proof. do 2 (split; [vm_compute; reflexivity|]). vm_compute. reflexivity. Qed.

(** a program with two merges: the product of x and y, conditioned on y = 0 and on
    y in {1, 2}, summed over y, and put together again *)
Definition prog : list op :=
  [Product 0 1; Condition 2 (Names ["y"]) [SI 0]; Sum 3 (Names ["y"]) true; Condition 2 (Names ["y"]) [SI 5]; Sum 5 (Names ["y"]) true;
   Merge 4 6; Merge 7 6].
Example C100_programs_ex :
  Forall has_p [Px; Py] /\ once [] prog /\ snd (run_h (store_of [Px; Py]) prog) = Ok tt /\
  looks (fst (run_h (store_of [Px; Py]) prog)) =
    [[1#10; 9#10]; [1#5; 3#10; 1#2]; [1#50; 9#50; 3#100; 27#100; 1#20; 9#20]; [1#50; 9#50]; [9#50; 81#50]; [3#100; 27#100; 1#20; 9#20]; [2#25; 18#25]; [9#50; 81#50]; [9#50; 81#50]]%Q /\
  map (fun M => map this (c_p M)) (fst (run_values [Px; Py] prog)) =
    [[1#10; 9#10]; [1#5; 3#10; 1#2]; [1#50; 9#50; 3#100; 27#100; 1#20; 9#20]; [1#50; 9#50]; [1#50; 9#50]; [3#100; 27#100; 1#20; 9#20]; [2#25; 18#25]; [1#10; 9#10]; [9#50; 81#50]]%Q.
Proof.
  split; [repeat constructor|]. split; [cbn; intuition (subst; discriminate)|]. do 2 (split; [vm_compute; reflexivity|]). vm_compute. reflexivity.
Qed.
