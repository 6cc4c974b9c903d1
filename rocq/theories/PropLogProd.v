(** C111: adding logarithms multiplies. *)
From Coq Require Import List Arith Reals Lra QArith Qcanon Qreals.
From Verif Require Import Py Num LogProd.
Import ListNotations.
Open Scope R_scope.

Lemma prod_entry_mult a b : prod_entry a b = a * b.
Proof.
  unfold prod_entry, np_log. destruct (Req_EM_T (Rabs a) 0) as [A|A]; [|destruct (Req_EM_T (Rabs b) 0) as [B|B]]; cbn [ext_add np_exp].
  - assert (a = 0) as -> by (destruct (Req_dec a 0) as [E|E]; [auto|exfalso; apply (Rabs_no_R0 a); auto]). ring.
  - assert (b = 0) as -> by (destruct (Req_dec b 0) as [E|E]; [auto|exfalso; apply (Rabs_no_R0 b); auto]). ring.
  - pose proof (Rabs_pos a). pose proof (Rabs_pos b). rewrite exp_plus, !exp_ln by lra. rewrite <- Rabs_mult. unfold np_sign.
    destruct (Rlt_dec (a * b) 0) as [L|L]; [rewrite Rabs_left by auto; ring|]. destruct (Rlt_dec 0 (a * b)) as [G|G]; [rewrite Rabs_right by lra; ring|].
    assert (a * b = 0) as -> by lra. ring.
Qed.

(** Every entry of [get_prod] is the product of an entry of each operand, also for 0 and
    negative numbers; it is refused exactly if the lengths differ. *)
Theorem C111_product A B :
  match get_prod A B with
  | Ok R => fst (left_rows A) = List.length (right_vec B) /\ List.length R = List.length (snd (left_rows A)) /\
      forall i row, nth_error (snd (left_rows A)) i = Some row -> exists row', nth_error R i = Some row' /\
        forall j a b, nth_error row j = Some a -> nth_error (right_vec B) j = Some b -> nth_error row' j = Some (a * b)
  | Err e => e = AssertionError /\ fst (left_rows A) <> List.length (right_vec B)
  end.
Proof.
  unfold get_prod. destruct (Nat.eqb_spec (fst (left_rows A)) (List.length (right_vec B))) as [E|E]; [|auto]. split; [auto|]. split; [apply map_length|].
  intros i row Hi. rewrite nth_error_map, Hi. cbn. eexists. split; [reflexivity|]. generalize (right_vec B). clear.
  induction row as [|x row IH]; intros l [|j] a b Ha Hb; cbn in Ha; try discriminate; destruct l as [|y l]; cbn in Hb; try discriminate; cbn.
  - injection Ha as <-. injection Hb as <-. rewrite prod_entry_mult. auto.
  - apply IH; auto.
Qed.

(** The column of probabilities times one probability, as in [Cpm.product]. *)
Lemma real_mult (p q : Qc) : Q2R (this (p * q)%Qc) = Q2R (this p) * Q2R (this q).
Proof. rewrite <- Q2R_mult. apply Qeq_eqR. cbn. apply Qred_correct. Qed.
Theorem C111_column ps q :
  get_prod (Two 1 (map (fun p : Qc => [Q2R (this p)]) ps)) (Vec [Q2R (this q)]) = Ok (map (fun p : Qc => [Q2R (this (p * q)%Qc)]) ps) /\
  get_prod (One (map (fun p : Qc => Q2R (this p)) ps)) (Scal (Q2R (this q))) = Ok (map (fun p : Qc => [Q2R (this (p * q)%Qc)]) ps).
Proof.
  unfold get_prod. cbn [left_rows right_vec fst snd List.length Nat.eqb]. rewrite !map_map.
  split; f_equal; apply map_ext; intros p; cbn [combine map fst snd]; rewrite prod_entry_mult, real_mult; auto.
Qed.

(** The probability of a sample is the product of those of its rows; row by row it is each. *)
Lemma scalar_fold : forall rest a, 0 <= a -> (forall p, In p rest -> 0 <= p) ->
  np_exp (fold_left (fun acc p => ext_add acc (np_log p)) rest (np_log a)) = fold_left Rmult rest a.
Proof.
  assert (E : forall a, 0 <= a -> np_exp (np_log a) = a).
  { intros a H. unfold np_log. destruct (Req_EM_T a 0); cbn; [auto|]. apply exp_ln. lra. }
  assert (M : forall a b, 0 <= a -> 0 <= b -> ext_add (np_log a) (np_log b) = np_log (a * b)).
  { intros a b Ha Hb. unfold np_log. destruct (Req_EM_T a 0) as [->|A]; [rewrite Rmult_0_l; destruct (Req_EM_T 0 0); [auto|congruence]|].
    destruct (Req_EM_T b 0) as [->|B]; [rewrite Rmult_0_r; destruct (Req_EM_T 0 0); [auto|congruence]|]. destruct (Req_EM_T (a * b) 0) as [C|C].
    - apply Rmult_integral in C. tauto.
    - cbn. rewrite ln_mult by lra. auto. }
  induction rest as [|p rest IH]; intros a Ha H; cbn [fold_left]; [auto|]. rewrite M by (auto; apply H; left; auto). apply IH; [apply Rmult_le_pos; auto; apply H; left; auto|intros; apply H; right; auto].
Qed.
Theorem C111_sample (fs : list Qc) : fs <> [] -> (forall p, In p fs -> (0 <= p)%Qc) ->
  prob_scalar (map (fun p : Qc => Q2R (this p)) fs) = Some (Q2R (this (qprod fs))) /\
  prob_vector (map (fun p : Qc => Q2R (this p)) fs) = Some (map (fun p : Qc => Q2R (this p)) fs).
Proof.
  intros N H. assert (P : forall p : Qc, (0 <= p)%Qc -> 0 <= Q2R (this p)).
  { intros p Hp. replace 0 with (Q2R 0) by (unfold Q2R; cbn; lra). apply Qle_Rle. exact Hp. }
  destruct fs as [|f fs]; [congruence|]. cbn [map prob_scalar prob_vector]. split.
  - rewrite scalar_fold; [|apply P, H; left; auto|intros p Hp; apply in_map_iff in Hp as (x & <- & Hx); apply P, H; right; auto]. f_equal. cbn [qprod].
    rewrite real_mult. generalize (Q2R (this f)). clear. induction fs as [|g fs IH]; intros a; cbn [map fold_left qprod].
    + change (this 1%Qc) with 1%Q. replace (Q2R 1) with 1 by (unfold Q2R; cbn [Qnum Qden]; rewrite Rinv_1; ring). ring.
    + rewrite IH, real_mult. ring.
  - f_equal. assert (L : forall p : Qc, In p (f :: fs) -> np_exp (np_log (Q2R (this p))) = Q2R (this p)).
    { intros p Hp. specialize (P p (H p Hp)). unfold np_log. destruct (Req_EM_T (Q2R (this p)) 0); cbn; [auto|]. apply exp_ln. lra. }
    cbn [map]. f_equal; [apply L; left; auto|]. rewrite map_map. apply map_ext_in. intros p Hp. apply L. right; auto.
Qed.
Theorem C111_no_sample : prob_scalar [] = None /\ prob_vector [] = None.
Proof. auto. Qed.

Example C111_ex :
  get_prod (Two 2 [[3; 0]; [-2; 5]]) (Vec [2; -4]) = Ok [[6; 0]; [-4; -20]] /\
  get_prod (One [3; 0]) (Scal 2) = Ok [[6]; [0]] /\ get_prod (One [3]) (Vec [1; 2]) = Err AssertionError /\
  [Q2Qc (1 # 2); Q2Qc (1 # 5)] <> [] /\ (forall p, In p [Q2Qc (1 # 2); Q2Qc (1 # 5)] -> (0 <= p)%Qc) /\
  prob_scalar [1 / 2; 1 / 5] = Some (1 / 10).
Proof.
  unfold get_prod. cbn [left_rows right_vec fst snd List.length Nat.eqb map combine]. rewrite !prod_entry_mult. split; [repeat f_equal; lra|]. split; [repeat f_equal; lra|]. split; [auto|].
  split; [discriminate|]. split; [intros p [<-|[<-|[]]]; vm_compute; discriminate|]. unfold prob_scalar. rewrite scalar_fold; [cbn; f_equal; lra|lra|intros p [<-|[]]; lra].
Qed.
Print Assumptions C111_product.
Print Assumptions C111_column.
Print Assumptions C111_sample.
