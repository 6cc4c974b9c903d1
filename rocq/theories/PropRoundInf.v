(** C105: inference in rounded arithmetic. *)
From Coq Require Import ZArith List String Bool Arith Lia QArith Qcanon Permutation.
From Verif Require Import Py Num Vari Cpm SpecCpm CpmFacts CpmElim Brc Round SpecRound RoundFacts PropRound McsFacts RoundInf SpecRoundInf RoundInfFacts PropCpm.
Import ListNotations.
Open Scope string_scope.
Open Scope Z_scope.
Open Scope list_scope.

Section Main.
Variables (u : Qc) (k : nat) (mul : Qc -> Qc -> Qc) (tot : list Qc -> Qc).
Hypothesis (u0 : (0 <= u)%Qc) (u1 : (u <= 1)%Qc) (Hm : product_within u k mul) (Ht : sum_within u tot).

Lemma rr {A B} (R : A -> B -> Prop) x y : rrel R x y ->
  match x with Err e => y = Err e | Ok a => exists b, y = Ok b /\ R a b end.
Proof. destruct x, y; cbn; intros H; try contradiction; eauto. congruence. Qed.

Theorem product_c n m M1 M1' M2 M2' : alike u n M1 M1' -> alike u m M2 M2' ->
  match product M1 M2 with
  | Err e => ri_product mul M1' M2' = Err e
  | Ok M => exists M', ri_product mul M1' M2' = Ok M' /\ alike u (n + m + k) M M'
  end.
Proof. intros A B. apply (rr _ _ _ (product_near u k mul u0 u1 Hm n m M1 M1' M2 M2' A B)). Qed.
Theorem sum_c n M M' vs flag : alike u n M M' ->
  match sum M vs flag with
  | Err e => ri_sum tot M' vs flag = Err e
  | Ok N => exists N', ri_sum tot M' vs flag = Ok N' /\ alike u (n + nrows M) N N'
  end.
Proof. intros A. apply (rr _ _ _ (sum_near_cpm u tot u0 u1 Ht n M M' vs flag A)). Qed.
Theorem prob_c n M M' vs sts flag : alike u n M M' ->
  match get_prob M vs sts flag with
  | Err e => ri_get_prob tot M' vs sts flag = Err e
  | Ok x => exists y, ri_get_prob tot M' vs sts flag = Ok y /\ (0 <= x)%Qc /\ near u (n + nrows M) x y
  end.
Proof. intros A. apply (rr _ _ _ (get_prob_near u tot u0 u1 Ht n M M' vs sts flag A)). Qed.
Theorem elim_c n cpms cpms' vars : Forall2 (alike u n) cpms cpms' ->
  match variable_elim cpms vars with
  | Err e => ri_variable_elim mul tot cpms' vars = Err e
  | Ok M => exists M', ri_variable_elim mul tot cpms' vars = Ok M' /\ alike u (elim_errors k n cpms vars) M M'
  end.
Proof. intros A. apply (rr _ _ _ (variable_elim_near u k mul tot u0 u1 Hm Ht n cpms cpms' vars A)). Qed.
End Main.

(** Each operation ends as the exact one does, with the same rows, and its probabilities have
    the errors of the operands and those of the operation. *)
Theorem C105_product u k mul n m M1 M1' M2 M2' :
  (0 <= u)%Qc -> (u <= 1)%Qc -> product_within u k mul -> alike u n M1 M1' -> alike u m M2 M2' ->
  match product M1 M2 with
  | Err e => ri_product mul M1' M2' = Err e
  | Ok M => exists M', ri_product mul M1' M2' = Ok M' /\ alike u (n + m + k) M M'
  end.
Proof. intros u0 u1 Hm. apply product_c; auto. Qed.
Theorem C105_sum u tot n M M' vs flag :
  (0 <= u)%Qc -> (u <= 1)%Qc -> sum_within u tot -> alike u n M M' ->
  match sum M vs flag with
  | Err e => ri_sum tot M' vs flag = Err e
  | Ok N => exists N', ri_sum tot M' vs flag = Ok N' /\ alike u (n + nrows M) N N'
  end.
Proof. intros u0 u1 Ht. apply sum_c; auto. Qed.
Theorem C105_get_prob u tot n M M' vs sts flag :
  (0 <= u)%Qc -> (u <= 1)%Qc -> sum_within u tot -> alike u n M M' ->
  match get_prob M vs sts flag with
  | Err e => ri_get_prob tot M' vs sts flag = Err e
  | Ok x => exists y, ri_get_prob tot M' vs sts flag = Ok y /\ (0 <= x)%Qc /\ near u (n + nrows M) x y
  end.
Proof. intros u0 u1 Ht. apply prob_c; auto. Qed.
Theorem C105_variable_elim u k mul tot n cpms cpms' vars :
  (0 <= u)%Qc -> (u <= 1)%Qc -> product_within u k mul -> sum_within u tot -> Forall2 (alike u n) cpms cpms' ->
  match variable_elim cpms vars with
  | Err e => ri_variable_elim mul tot cpms' vars = Err e
  | Ok M => exists M', ri_variable_elim mul tot cpms' vars = Ok M' /\ alike u (elim_errors k n cpms vars) M M'
  end.
Proof. intros u0 u1 Hm Ht. apply elim_c; auto. Qed.

(** The computed table is the marginal of the product of the given tables, up to these
    errors, at every joint state. *)
Lemma filter_F2 {A} (R : A -> A -> Prop) f g l l' : Forall2 R l l' -> (forall a b, R a b -> f a = g b) -> Forall2 R (filter f l) (filter g l').
Proof. intros H K. induction H as [|a b l l' Hab H IH]; cbn; [constructor|]. rewrite (K a b Hab). destruct (g b); [constructor; auto|auto]. Qed.
Lemma mass_near u n M M' a : (0 <= u)%Qc -> (u <= 1)%Qc -> alike u n M M' -> near u n (mass M a) (mass M' a).
Proof.
  intros u0 u1 (E1 & E2 & E3 & F). unfold mass. rewrite <- E1, <- E3.
  assert (W : Forall2 (nn u n) (weights M) (weights M')).
  { unfold weights. rewrite <- E3. destruct F; [apply F2_ones; auto|constructor; auto]. }
  assert (X := pr_snd _ _ _ (filter_F2 _ (fun rp => row_match (c_vars M) (fst rp) a) (fun rp => row_match (c_vars M) (fst rp) a) _ _ (combine_pr (nn u n) (c_C M) _ _ W) ltac:(intros x y [-> _]; reflexivity))).
  apply (nn_sum u u0 u1 n _ _ X).
Qed.
Theorem C105_marginal u k mul tot n cpms cpms' vars M :
  (0 <= u)%Qc -> (u <= 1)%Qc -> product_within u k mul -> sum_within u tot -> Forall2 (alike u n) cpms cpms' ->
  ve_ok cpms vars -> ri_variable_elim mul tot cpms' vars = Ok M ->
  forall a, near u (elim_errors k n cpms vars) (marg vars (pmass cpms) a) (mass M a).
Proof.
  intros u0 u1 Hm Ht A V E a. pose proof (C105_variable_elim u k mul tot n cpms cpms' vars u0 u1 Hm Ht A) as C.
  destruct (variable_elim cpms vars) as [M0|e] eqn:E0; [|congruence]. destruct C as (M' & EM & AM). assert (M' = M) by congruence. subst M'.
  destruct (variable_elim_ok cpms vars M0 V E0) as (_ & H & _). rewrite <- (H a). apply mass_near; auto.
Qed.

(** The probability of an event after elimination *)
Theorem C105_query u k mul tot n cpms cpms' vars vs sts flag :
  (0 <= u)%Qc -> (u <= 1)%Qc -> product_within u k mul -> sum_within u tot -> Forall2 (alike u n) cpms cpms' ->
  match bind (variable_elim cpms vars) (fun M => get_prob M vs sts flag) with
  | Err e => ri_query mul tot cpms' vars vs sts flag = Err e
  | Ok x => exists y, ri_query mul tot cpms' vars vs sts flag = Ok y /\ (0 <= x)%Qc /\ near u (elim_errors k n cpms vars + rows_left cpms vars) x y
  end.
Proof.
  intros u0 u1 Hm Ht A. pose proof (C105_variable_elim u k mul tot n cpms cpms' vars u0 u1 Hm Ht A) as C. unfold ri_query, rows_left.
  destruct (variable_elim cpms vars) as [M|e]; [|rewrite C; reflexivity]. destruct C as (M' & -> & AM). cbn [bind].
  apply C105_get_prob; auto.
Qed.

(** In absolute terms: at most two units for each error. *)
Lemma near_abs u n x y : (0 <= u)%Qc -> (u <= 1)%Qc -> (0 <= x)%Qc -> (x <= 1)%Qc -> near u n x y ->
  let t := (qz (Z.of_nat n) * u)%Qc in (t <= Q2Qc (1 # 2))%Qc -> (qabs (y - x) <= t + t)%Qc.
Proof.
  intros u0 u1 x0 x1 [A B] t T. pose proof (low_bound u u0 u1 n) as L. pose proof (high_twice u u0 n T) as H.
  fold t in L, H. assert (T0 : (0 <= t)%Qc) by (apply qcmult_nonneg; auto; apply qz_nonneg).
  set (lo := ((1 - u) ^ n)%Qc) in *. set (hi := ((1 + u) ^ n)%Qc) in *. clearbody lo hi t. apply qabs_le.
  - assert (X : (x * hi <= x * (1 + t + t))%Qc) by (apply qcmult_le_l; auto).
    assert (Y : (x * (t + t) <= 1 * (t + t))%Qc) by (apply Qcmult_le_compat_r; auto; qc_lra).
    replace (x * (1 + t + t))%Qc with (x + x * (t + t))%Qc in X by ring. replace (1 * (t + t))%Qc with (t + t)%Qc in Y by ring.
    set (z := (x * (t + t))%Qc) in *. set (w := (x * hi)%Qc) in *. clearbody z w. clear - B X Y. qc_lra.
  - assert (X : (x * (1 - t) <= x * lo)%Qc) by (apply qcmult_le_l; auto).
    assert (Y : (x * t <= 1 * t)%Qc) by (apply Qcmult_le_compat_r; auto).
    replace (x * (1 - t))%Qc with (x - x * t)%Qc in X by ring. replace (1 * t)%Qc with t in Y by ring.
    set (z := (x * t)%Qc) in *. set (w := (x * lo)%Qc) in *. clearbody z w. clear - A X Y T0.
    replace (- (y - x))%Qc with (x - y)%Qc by ring. qc_lra.
Qed.
Theorem C105_absolute u k mul tot n cpms cpms' vars vs sts flag x :
  (0 <= u)%Qc -> (u <= 1)%Qc -> product_within u k mul -> sum_within u tot -> Forall2 (alike u n) cpms cpms' ->
  bind (variable_elim cpms vars) (fun M => get_prob M vs sts flag) = Ok x -> (x <= 1)%Qc ->
  let t := (qz (Z.of_nat (elim_errors k n cpms vars + rows_left cpms vars)) * u)%Qc in
  (t <= Q2Qc (1 # 2))%Qc ->
  exists y, ri_query mul tot cpms' vars vs sts flag = Ok y /\ (qabs (y - x) <= t + t)%Qc.
Proof.
  intros u0 u1 Hm Ht A E X1 t T. pose proof (C105_query u k mul tot n cpms cpms' vars vs sts flag u0 u1 Hm Ht A) as C.
  rewrite E in C. destruct C as (y & Ey & X0 & N). exists y. split; [exact Ey|]. apply near_abs with (n := (elim_errors k n cpms vars + rows_left cpms vars)%nat); auto.
Qed.

(** Without errors it is the inference of Cpm.v. *)
Theorem C105_exact cpms vars vs sts flag :
  ri_query Qcmult qsum cpms vars vs sts flag = bind (variable_elim cpms vars) (fun M => get_prob M vs sts flag).
Proof.
  assert (L : forall fuel M, ri_sum_loop qsum fuel M = sum_loop fuel M).
  { induction fuel as [|f IH]; intros M; cbn [ri_sum_loop sum_loop]; [reflexivity|]. destruct (c_C M); [reflexivity|]. destruct (c_vars M); [reflexivity|].
    destruct (mt_iscompatible _ _ _ _ _); cbn [bind]; [|reflexivity]. destruct (get_subset _ _ _); cbn [bind]; [rewrite IH|]; auto. }
  assert (S : forall M a f, ri_sum qsum M a f = sum M a f).
  { intros M a f. unfold ri_sum, sum. destruct (resolve M a); cbn [bind]; [|reflexivity]. destruct (if f then _ else _). destruct (mk_cpm _ _ _ _); cbn [bind]; [rewrite L|]; auto. }
  assert (V : forall vars l, foldM (ri_elim_step Qcmult qsum) vars l = foldM elim_step vars l).
  { assert (St : forall l v, ri_elim_step Qcmult qsum l v = elim_step l v).
    { intros l v. unfold ri_elim_step, elim_step. change (ri_product_list Qcmult) with product_list. destruct (product_list _); cbn [bind]; [rewrite S|]; reflexivity. }
    induction vars0 as [|v vs0 IH]; intros l; cbn [foldM]; [reflexivity|]. rewrite St. destruct (elim_step l v); cbn [bind]; [apply IH|reflexivity]. }
  unfold ri_query, ri_variable_elim, variable_elim, variable_elim_list. rewrite V. reflexivity.
Qed.

(** Rounded operations are such functions: multiplication followed by a rounding, and rounded
    additions in any order and grouping (as of [np.sum]). *)
Theorem C105_rounded_product u rnd : (0 <= u)%Qc -> (u <= 1)%Qc -> rounding u rnd -> product_within u 1 (fun a b => rnd (a * b)%Qc).
Proof. intros u0 u1 R a b A B. apply near_rnd; auto; [apply qcmult_nonneg; auto|apply near_refl]. Qed.
Lemma qsum_perm l l' : Permutation l l' -> qsum l = qsum l'.
Proof. induction 1; cbn [qsum]; try congruence; ring. Qed.
Lemma qsum_cat l l' : qsum (l ++ l') = (qsum l + qsum l')%Qc.
Proof. induction l as [|a l IH]; cbn [qsum app]; [ring|]. rewrite IH. ring. Qed.
Lemma added_near u rnd l x : (0 <= u)%Qc -> (u <= 1)%Qc -> rounding u rnd -> added rnd l x -> (forall y, In y l -> 0 <= y)%Qc ->
  nn u (List.length l - 1) (qsum l) x.
Proof.
  intros u0 u1 R. induction 1 as [|x|l r x y Nl Nr Hl IHl Hr IHr|l l' x P H IH]; intros Pos; cbn [List.length Nat.sub].
  - split; [apply Qcle_refl|apply near_refl].
  - cbn [qsum]. replace (x + 0)%Qc with x by ring. split; [apply Pos; cbn; auto|apply near_refl].
  - specialize (IHl ltac:(intros; apply Pos; apply in_or_app; auto)). specialize (IHr ltac:(intros; apply Pos; apply in_or_app; auto)).
    rewrite app_length, qsum_cat. destruct l as [|a l]; [congruence|]. destruct r as [|b r]; [congruence|]. cbn [List.length] in *.
    set (m := (List.length l + List.length r)%nat).
    assert (A : nn u m (qsum (a :: l)) x) by (eapply nn_more; [auto|auto| |exact IHl]; unfold m; lia).
    assert (B : nn u m (qsum (b :: r)) y) by (eapply nn_more; [auto|auto| |exact IHr]; unfold m; lia).
    destruct A as [A1 A2], B as [B1 B2]. split; [set (p := qsum (a :: l)) in *; set (p' := qsum (b :: r)) in *; clearbody p p'; clear - A1 B1; qc_lra|].
    replace (S (List.length l) + S (List.length r) - 1)%nat with (S m) by (unfold m; lia).
    apply near_rnd; auto; [|apply near_plus; auto]. set (p := qsum (a :: l)) in *; set (p' := qsum (b :: r)) in *; clearbody p p'; clear - A1 B1; qc_lra.
  - rewrite <- (Permutation_length P), <- (qsum_perm _ _ P). apply IH. intros y Hy. apply Pos. eapply Permutation_in; eauto.
Qed.
Theorem C105_rounded_sum u rnd tot : (0 <= u)%Qc -> (u <= 1)%Qc -> rounding u rnd -> (forall l, added rnd l (tot l)) -> sum_within u tot.
Proof.
  intros u0 u1 R A l Pos. destruct (added_near u rnd l (tot l) u0 u1 R (A l) Pos) as [N0 N]. apply near_more with (List.length l - 1)%nat; auto. lia.
Qed.

(** * Examples *)
(** numbers of three bits; sums from the left *)
Definition c3_mul (a b : Qc) : Qc := chop 3 (a * b)%Qc.
Fixpoint sum_from (rnd : Qc -> Qc) (a : Qc) (l : list Qc) : Qc := match l with [] => a | x :: l' => sum_from rnd (rnd (a + x)%Qc) l' end.
Definition left_sum (rnd : Qc -> Qc) (l : list Qc) : Qc := match l with [] => 0%Qc | x :: l' => sum_from rnd x l' end.
(** halves first, as numpy does for long arrays *)
Fixpoint pair_sum (rnd : Qc -> Qc) (fuel : nat) (l : list Qc) : Qc :=
  match fuel with
  | O => left_sum rnd l
  | S f => match l with
           | [] | [_] => left_sum rnd l
           | _ => let h := (List.length l / 2)%nat in rnd (pair_sum rnd f (firstn h l) + pair_sum rnd f (skipn h l))%Qc
           end
  end.
Lemma sum_from_added rnd : forall l pre a, pre <> [] -> added rnd pre a -> added rnd (pre ++ l) (sum_from rnd a l).
Proof.
  induction l as [|x l IH]; intros pre a N A; cbn [sum_from]; [rewrite app_nil_r; auto|].
  replace (pre ++ x :: l) with ((pre ++ [x]) ++ l) by (rewrite <- app_assoc; reflexivity). apply IH; [destruct pre; discriminate|].
  apply add_two; auto; [discriminate|constructor].
Qed.
Lemma left_added rnd l : added rnd l (left_sum rnd l).
Proof. destruct l as [|x l]; cbn [left_sum]; [constructor|]. apply (sum_from_added rnd l [x] x); [discriminate|constructor]. Qed.
Lemma pair_added rnd : forall fuel l, added rnd l (pair_sum rnd fuel l).
Proof.
  induction fuel as [|f IH]; intros l; cbn [pair_sum]; [apply left_added|]. destruct l as [|x [|y l]]; [constructor|constructor|].
  set (h := (List.length (x :: y :: l) / 2)%nat). cbv zeta.
  assert (H : (1 <= h < List.length (x :: y :: l))%nat).
  { unfold h. split; [apply Nat.div_le_lower_bound; cbn; lia|apply Nat.div_lt; cbn; lia]. }
  rewrite <- (firstn_skipn h (x :: y :: l)) at 1. apply add_two; auto.
  - intros X. apply (f_equal (@List.length Qc)) in X. rewrite firstn_length in X. cbn [List.length] in *. lia.
  - intros X. apply (f_equal (@List.length Qc)) in X. rewrite skipn_length in X. cbn [List.length] in *. lia.
Qed.
Definition quarter : Qc := (/ qz (2 ^ (3 - 1)))%Qc.
Lemma c3_rounding : rounding quarter (chop 3).
Proof. apply chop_rounding. lia. Qed.
Lemma quarter_ok : (0 <= quarter)%Qc /\ (quarter <= 1)%Qc.
Proof. split; vm_compute; discriminate. Qed.
Lemma c3_mul_ok : product_within quarter 1 c3_mul.
Proof. apply C105_rounded_product; try apply quarter_ok. apply c3_rounding. Qed.
Lemma c3_sum_ok : sum_within quarter (pair_sum (chop 3) 8).
Proof. apply (C105_rounded_sum quarter (chop 3)); try apply quarter_ok; [apply c3_rounding|]. intros l. apply pair_added. Qed.
Lemma alike_self u n M : (0 <= u)%Qc -> (u <= 1)%Qc -> nonneg M -> alike u n M M.
Proof.
  intros u0 u1 H. repeat split. unfold nonneg in H. induction (c_p M) as [|x p IH]; constructor; [|apply IH; intros; apply H; cbn; auto].
  assert (X : (0 <= x)%Qc) by (apply H; cbn; auto). split; auto. apply near_more with 0%nat; auto; [lia|apply near_refl].
Qed.
Lemma nonneg_b M : forallb (fun x => negb (qc_ltb x 0)) (c_p M) = true -> nonneg M.
Proof. intros H x Hx. rewrite forallb_forall in H. specialize (H x Hx). apply negb_true_iff in H. apply qc_ltb_ge in H. auto. Qed.
Lemma ex_alike : Forall2 (alike quarter 0) [Px; Py; Ms] [Px; Py; Ms].
Proof. repeat (constructor; [apply alike_self; try apply quarter_ok; apply nonneg_b; vm_compute; reflexivity|]). constructor. Qed.

(** The network of the examples of C33, three bits for every product and sum: the system
    fails with probability 7/25, computed is 1/4, with at most the 13 errors counted. *)
Example C105_ex :
  Forall2 (alike quarter 0) [Px; Py; Ms] [Px; Py; Ms] /\ product_within quarter 1 c3_mul /\ sum_within quarter (pair_sum (chop 3) 8) /\
  ve_ok [Px; Py; Ms] [vx; vy] /\
  val (ri_query c3_mul (pair_sum (chop 3) 8) [Px; Py; Ms] [vx; vy] (Names ["s"]) [SI 0] true) = Ok (1 # 4)%Q /\
  val (bind (variable_elim [Px; Py; Ms] [vx; vy]) (fun M => get_prob M (Names ["s"]) [SI 0] true)) = Ok (7 # 25)%Q /\
  elim_errors 1 0 [Px; Py; Ms] [vx; vy] = 11%nat /\ rows_left [Px; Py; Ms] [vx; vy] = 2%nat /\
  view (ri_variable_elim c3_mul (pair_sum (chop 3) 8) [Px; Py; Ms] [vx; vy]) = Ok ([vs], 1%nat, [[0]; [1]], [(1 # 4)%Q; (11 # 16)%Q]).
Proof.
  split; [exact ex_alike|]. split; [exact c3_mul_ok|]. split; [exact c3_sum_ok|]. split; [apply C33_variable_elim_ex|].
  do 4 (split; [vm_compute; reflexivity|]). vm_compute; reflexivity.
Qed.

(** With the 53 bits of a float the result is within 26 units of the last place. *)
Definition f_mul (a b : Qc) : Qc := chop 53 (a * b)%Qc.
Definition ulp : Qc := (/ qz (2 ^ (53 - 1)))%Qc.
Example C105_float_ex :
  exists y, ri_query f_mul (left_sum (chop 53)) [Px; Py; Ms] [vx; vy] (Names ["s"]) [SI 0] true = Ok y /\
    this y <> (7 # 25)%Q /\ (qabs (y - q 7 25) <= qz 26 * ulp)%Qc.
Proof.
  assert (U : (0 <= ulp)%Qc /\ (ulp <= 1)%Qc) by (split; vm_compute; discriminate). destruct U as [U0 U1].
  assert (Rd : rounding ulp (chop 53)) by (apply (chop_rounding 53); lia).
  assert (E : val (bind (variable_elim [Px; Py; Ms] [vx; vy]) (fun M => get_prob M (Names ["s"]) [SI 0] true)) = Ok (7 # 25)%Q) by (vm_compute; reflexivity).
  assert (Nq : match ri_query f_mul (left_sum (chop 53)) [Px; Py; Ms] [vx; vy] (Names ["s"]) [SI 0] true with Ok y => Qeq_bool (this y) (7 # 25) = false | Err _ => False end) by (vm_compute; reflexivity).
  assert (T : (qz (Z.of_nat 13) * ulp <= Q2Qc (1 # 2))%Qc) by (vm_compute; discriminate).
  assert (Nn : (elim_errors 1 0 [Px; Py; Ms] [vx; vy] + rows_left [Px; Py; Ms] [vx; vy])%nat = 13%nat) by (vm_compute; reflexivity).
  assert (A : Forall2 (alike ulp 0) [Px; Py; Ms] [Px; Py; Ms]).
  { repeat (constructor; [apply alike_self; [exact U0|exact U1|apply nonneg_b; vm_compute; reflexivity]|]). constructor. }
  assert (C := fun x => C105_absolute ulp 1 f_mul (left_sum (chop 53)) 0 [Px; Py; Ms] [Px; Py; Ms] [vx; vy] (Names ["s"]) [SI 0] true x U0 U1
    (C105_rounded_product ulp (chop 53) U0 U1 Rd) (C105_rounded_sum ulp (chop 53) _ U0 U1 Rd (left_added (chop 53))) A).
  rewrite Nn in C. clear Nn A. revert C E Nq.
  generalize (bind (variable_elim [Px; Py; Ms] [vx; vy]) (fun M => get_prob M (Names ["s"]) [SI 0] true)).
  generalize (ri_query f_mul (left_sum (chop 53)) [Px; Py; Ms] [vx; vy] (Names ["s"]) [SI 0] true). intros r [x|e] C E Nq; [|discriminate].
  assert (Ex : x = q 7 25) by (apply Qc_is_canon; injection E as E; rewrite E; vm_compute; reflexivity). subst x.
  destruct (C (q 7 25) eq_refl ltac:(vm_compute; discriminate) T) as (y & -> & B). exists y. split; [auto|]. split.
  - intros X. rewrite X in Nq. discriminate.
  - eapply Qcle_trans; [exact B|]. vm_compute. discriminate.
Qed.

(** Without the sign condition no number of errors is enough: of 1, 1/32 and -1 the sum is
    1/32, and adding with three bits gives 0. *)
Definition Mneg : cpm := mkCpm [vy; vs] 2 [[0; 0]; [1; 0]; [2; 0]] [q 1 1; q 1 32; q (-1) 1].
Lemma pow_pos u n : (u < 1)%Qc -> (0 < (1 - u) ^ n)%Qc.
Proof.
  intros H. induction n as [|n IH]; [vm_compute; reflexivity|]. rewrite pow_s. assert (P : (0 < 1 - u)%Qc) by qc_lra.
  replace 0%Qc with (0 * (1 - u) ^ n)%Qc by ring. apply Qcmult_lt_compat_r; auto.
Qed.
Theorem C105_negative_refuted :
  exists u tot M N N', (0 <= u)%Qc /\ (u < 1)%Qc /\ sum_within u tot /\
    sum M (Names ["y"]) true = Ok N /\ ri_sum tot M (Names ["y"]) true = Ok N' /\
    forall n, ~ Forall2 (near u n) (c_p N) (c_p N').
Proof.
  exists quarter, (left_sum (chop 3)), Mneg.
  assert (E : view (sum Mneg (Names ["y"]) true) = Ok ([vs], 1%nat, [[0]], [(1 # 32)%Q])) by (vm_compute; reflexivity).
  assert (E' : view (ri_sum (left_sum (chop 3)) Mneg (Names ["y"]) true) = Ok ([vs], 1%nat, [[0]], [0%Q])) by (vm_compute; reflexivity).
  assert (W : sum_within quarter (left_sum (chop 3))).
  { apply (C105_rounded_sum quarter (chop 3) _ (proj1 quarter_ok) (proj2 quarter_ok) c3_rounding (left_added (chop 3))). }
  revert E E'. generalize (sum Mneg (Names ["y"]) true) (ri_sum (left_sum (chop 3)) Mneg (Names ["y"]) true). intros [N|] [N'|] E E'; try discriminate.
  exists N, N'. split; [apply quarter_ok|]. split; [vm_compute; reflexivity|]. split; [exact W|]. split; [auto|]. split; [auto|]. intros n H.
  cbn in E, E'. injection E as _ _ _ E. injection E' as _ _ _ E'. destruct (c_p N) as [|x [|? ?]]; try discriminate. destruct (c_p N') as [|y [|? ?]]; try discriminate.
  injection E as E. injection E' as E'. inversion H as [|a b l l' [B _] _]. subst.
  assert (X : x = q 1 32) by (apply Qc_is_canon; rewrite E; vm_compute; reflexivity).
  assert (Y : y = 0%Qc) by (apply Qc_is_canon; rewrite E'; vm_compute; reflexivity). subst x y. clear - B.
  assert (P := pow_pos quarter n ltac:(vm_compute; reflexivity)). set (w := ((1 - quarter) ^ n)%Qc) in *. clearbody w.
  assert (Q : (0 * q 1 32 < w * q 1 32)%Qc) by (apply Qcmult_lt_compat_r; [vm_compute; reflexivity|auto]).
  replace (0 * q 1 32)%Qc with 0%Qc in Q by ring. rewrite (Qcmult_comm w) in Q. apply (Qclt_not_le _ _ Q B).
Qed.
