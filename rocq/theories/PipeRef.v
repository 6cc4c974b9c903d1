(** A reference for [scipy.optimize.milp] that meets [milp_ok]: linear programs bound the variables, then all integral
    points within the bounds are tried. *)
From Coq Require Import ZArith List String Bool Arith Lia QArith Qcanon Qround.
From Verif Require Import Py PyFacts Num Vari VariFacts Pipe SpecPipe Lp FlowRef PipeFacts.
Import ListNotations.
Open Scope Z_scope.
Open Scope list_scope.

Definition row_cons (r : list Qc * Qc * Qc) : list con := [(fst (fst r), snd r); (map Qcopp (fst (fst r)), (- snd (fst r))%Qc)].
Definition base_cons (n : nat) (A : list (list Qc * Qc * Qc)) : list con :=
  flat_map row_cons A ++ map (fun i => (unit_row i (-(1))%Qc, 0%Qc)) (seq 0 n).
(** [v <= y_i] for the last variable [v] *)
Definition link (n i : nat) : list Qc := set_nat (set_nat (zeros (S n)) i (-(1))%Qc) n 1%Qc.
Definition bound (n : nat) (A : list (list Qc * Qc * Qc)) (i : nat) : Qc := last (solve n (base_cons n A ++ [(link n i, 0%Qc)])) 0%Qc.
Fixpoint box (bs : list Z) : list (list Z) :=
  match bs with [] => [[]] | b :: bs' => flat_map (fun z => map (cons z) (box bs')) (zrange 0 (b + 1)) end.
Definition row_okb (y : list Qc) (r : list Qc * Qc * Qc) : bool := qc_leb (snd (fst r)) (dot (fst (fst r)) y) && qc_leb (dot (fst (fst r)) y) (snd r).
Fixpoint best (c : list Qc) (l : list (list Z)) (z : list Z) : list Z :=
  match l with [] => z | z' :: l' => best c l' (if qc_ltb (dot c (map zq z')) (dot c (map zq z)) then z' else z) end.
Definition milp_ref (c : list Qc) (A : list (list Qc * Qc * Qc)) : option (Qc * list Qc) :=
  let n := List.length c in
  match filter (fun z => forallb (row_okb (map zq z)) A) (box (map (fun i => Qfloor (this (bound n A i))) (seq 0 n))) with
  | [] => None
  | z :: l => let z := best c l z in Some (dot c (map zq z), map zq z)
  end.

Lemma row_okb_ok y r : row_okb y r = true <-> row_ok y r.
Proof. unfold row_okb, row_ok. rewrite andb_true_iff, !qc_leb_le. tauto. Qed.
Lemma zq_le a b : (zq a <= zq b)%Qc <-> a <= b.
Proof.
  unfold Qcle. change (this (zq a)) with (Qred (inject_Z a)). change (this (zq b)) with (Qred (inject_Z b)). rewrite !Qred_correct. rewrite <- Zle_Qle. tauto.
Qed.
Lemma zq_floor z (b : Qc) : (zq z <= b)%Qc -> z <= Qfloor (this b).
Proof.
  intros H. unfold Qcle in H. change (this (zq z)) with (Qred (inject_Z z)) in H. rewrite Qred_correct in H. apply Qfloor_resp_le in H. rewrite Qfloor_Z in H. auto.
Qed.
Lemma in_box bs : forall z, In z (box bs) <-> Forall2 (fun b a => 0 <= a <= b) bs z.
Proof.
  induction bs as [|b bs IH]; intros z; cbn [box].
  - split; [intros [<-|[]]; constructor|]. intros H. inversion H. left. auto.
  - rewrite in_flat_map. split.
    + intros (a & I & J). apply in_map_iff in J as (z' & <- & J). apply In_zrange in I. constructor; [lia|apply IH; auto].
    + intros H. inversion H as [|? a ? z' H1 H2]; subst. exists a. split; [apply In_zrange; lia|]. apply in_map. apply IH. auto.
Qed.
Lemma best_ok c l : forall z, In (best c l z) (z :: l) /\ (dot c (map zq (best c l z)) <= dot c (map zq z))%Qc /\ forall z', In z' l -> (dot c (map zq (best c l z)) <= dot c (map zq z'))%Qc.
Proof.
  induction l as [|z0 l IH]; intros z; cbn [best]; [split; [left; auto|split; [apply Qcle_refl|intros ? []]]|].
  destruct (qc_ltb _ _) eqn:C; [apply qc_ltb_lt in C; destruct (IH z0) as (I & L & M)|apply qc_ltb_ge in C; destruct (IH z) as (I & L & M)].
  - split; [right; auto|]. split; [apply Qcle_trans with (dot c (map zq z0)); auto; apply Qclt_le_weak; auto|]. intros z' [<-|J]; auto.
  - split; [destruct I as [I|I]; [left; auto|right; right; auto]|]. split; auto. intros z' [<-|J]; auto. apply Qcle_trans with (dot c (map zq z)); auto.
Qed.
Lemma dot_longer a y v : List.length a = List.length y -> dot a (y ++ v) = dot a y.
Proof. revert y. induction a as [|a0 a IH]; intros [|y0 y] L; try discriminate L; cbn [app dot]; [destruct v; auto|]. rewrite IH by (injection L; auto). auto. Qed.
Lemma sat_base n A y v : (forall r, In r A -> List.length (fst (fst r)) = n) -> List.length y = n -> (sat (base_cons n A) (y ++ [v]) <-> feasible n A y).
Proof.
  intros H L. unfold sat, base_cons, feasible. rewrite Forall_app, Forall_flat_map, Forall_map. rewrite !Forall_forall. split.
  - intros [F1 F2]. split; auto. split.
    + intros a I. apply (In_nth _ _ 0%Qc) in I as (i & Li & <-). assert (X := F2 i). unfold holds_c in X. cbn [fst snd] in X. rewrite dot_unit, app_nth1 in X by lia.
      assert (Y : (- (1) * nth i y 0 <= 0)%Qc) by (apply X; apply in_seq; lia). qc_lra.
    + intros r I. specialize (F1 r I). specialize (H r I). unfold row_cons in F1. inversion F1 as [|? ? Q1 Q2]; subst. inversion Q2 as [|? ? Q3 _]; subst.
      unfold holds_c in Q1, Q3. cbn [fst snd] in Q1, Q3. rewrite dot_opp in Q3. rewrite dot_longer in Q1, Q3 by congruence. split; auto. qc_lra.
  - intros (_ & P & F). split.
    + intros r I. destruct (F r I) as [Q1 Q2]. specialize (H r I). unfold row_cons. constructor; [|constructor; [|constructor]]; unfold holds_c; cbn [fst snd]; rewrite ?dot_opp, dot_longer by congruence; auto. qc_lra.
    + intros i I. apply in_seq in I. unfold holds_c. cbn [fst snd]. rewrite dot_unit, app_nth1 by lia. assert (X : (0 <= nth i y 0)%Qc) by (apply P; apply nth_In; lia). qc_lra.
Qed.
Lemma dot_link n i y v : (i < n)%nat -> List.length y = n -> dot (link n i) (y ++ [v]) = (v - nth i y 0)%Qc.
Proof.
  intros Li L. unfold link. rewrite dot_set by (rewrite set_nat_length, zeros_length; lia). rewrite dot_set by (rewrite zeros_length; lia).
  rewrite nth_set_nat by (rewrite zeros_length; lia). destruct (Nat.eqb_spec n i); [lia|]. rewrite !nth_zeros, dot_zeros, app_nth1 by lia. rewrite app_nth2 by lia. rewrite L, Nat.sub_diag. cbn [nth]. ring.
Qed.
Lemma bound_ok n A i K y : (forall r, In r A -> List.length (fst (fst r)) = n) -> (forall y, feasible n A y -> forall a, In a y -> (a <= K)%Qc) -> (i < n)%nat -> feasible n A y ->
  (nth i y 0 <= bound n A i)%Qc.
Proof.
  intros H B Li F. assert (L : List.length y = n) by apply F.
  assert (X : forall y v, List.length y = n -> (sat (base_cons n A ++ [(link n i, 0%Qc)]) (y ++ [v]) <-> feasible n A y /\ (v <= nth i y 0)%Qc)).
  { intros y' v L'. unfold sat. rewrite Forall_app. fold (sat (base_cons n A) (y' ++ [v])). rewrite sat_base by auto. split.
    - intros [F1 F2]. split; auto. inversion F2 as [|? ? Q _]; subst. unfold holds_c in Q. cbn [fst snd] in Q. rewrite dot_link in Q by auto. qc_lra.
    - intros [F1 F2]. split; auto. constructor; [|constructor]. unfold holds_c. cbn [fst snd]. rewrite dot_link by auto. qc_lra. }
  destruct (solve_ok n (base_cons n A ++ [(link n i, 0%Qc)]) (y ++ [nth i y 0%Qc]) K) as [_ S].
  - rewrite app_length, L. cbn. lia.
  - apply X; auto. split; auto. apply Qcle_refl.
  - intros z Lz Sz. destruct (exists_last (l := z)) as (z' & v & ->); [intros ->; discriminate Lz|]. rewrite last_last. rewrite app_length in Lz. cbn in Lz.
    apply X in Sz as [F' V]; [|lia]. apply Qcle_trans with (nth i z' 0%Qc); auto. apply (B z' F'). apply nth_In. lia.
  - rewrite last_last in S. auto.
Qed.
Lemma milp_ref_ok : milp_ok milp_ref.
Proof.
  intros c A H (K & B) (z0 & F0). set (n := List.length c) in *. unfold milp_ref. fold n.
  set (bx := box (map (fun i => Qfloor (this (bound n A i))) (seq 0 n))).
  assert (In_bx : forall z, feasible n A (map zq z) -> In z bx).
  { intros z F. assert (L : List.length z = n) by (destruct F as [L _]; rewrite map_length in L; auto). apply in_box.
    apply FlowFacts.Forall2_nth_error; [rewrite map_length, seq_length; auto|]. intros i b a E1 E2.
    assert (Li : (i < n)%nat) by (rewrite <- L; apply nth_error_Some; congruence).
    rewrite nth_error_map in E1. rewrite (nth_error_nth' (seq 0 n) 0%nat) in E1 by (rewrite seq_length; auto). rewrite seq_nth in E1 by auto. cbn in E1. injection E1 as <-.
    assert (N : nth i (map zq z) 0%Qc = zq a) by (apply nth_error_nth; rewrite nth_error_map, E2; auto). split.
    - apply zq_le. rewrite zq0, <- N. apply F. apply nth_In. rewrite map_length. lia.
    - apply zq_floor. rewrite <- N. apply (bound_ok n A i K); auto. }
  assert (Fb : forall z, In z (filter (fun z => forallb (row_okb (map zq z)) A) bx) <-> feasible n A (map zq z)).
  { intros z. rewrite filter_In. split.
    - intros [I J]. rewrite forallb_forall in J. unfold bx in I. apply in_box in I. split; [|split].
      + apply Forall2_length in I. rewrite map_length, seq_length in I. rewrite map_length. auto.
      + intros a Ia. apply in_map_iff in Ia as (q & <- & Ia). rewrite <- zq0. apply zq_le. clear - I Ia. induction I as [|b a l l' Q I IH]; [destruct Ia|]. destruct Ia as [->|Ia]; auto. lia.
      + apply Forall_forall. intros r Ir. apply row_okb_ok. auto.
    - intros F. split; auto. apply forallb_forall. intros r Ir. apply row_okb_ok. destruct F as (_ & _ & F). rewrite Forall_forall in F. auto. }
  destruct (filter _ bx) as [|z l] eqn:E.
  - apply Fb in F0. destruct F0.
  - destruct (best_ok c l z) as (I & L & M). exists (best c l z). split; auto. split; [apply Fb; auto|].
    intros z' F'. apply Fb in F' as [<-|J]; auto.
Qed.
