(** Linear programs over the rationals, solved by Fourier-Motzkin elimination.  Not a model of
    code in /repo: it supplies a reference for library routines that find optimal flows. *)
From Coq Require Import ZArith List Bool Arith Lia QArith Qcanon.
From Verif Require Import Py Num.
Import ListNotations.
Open Scope Qc_scope.
Open Scope list_scope.

(** coefficients and bound of [a . x <= b]; missing entries are zero *)
Definition con : Type := (list Qc * Qc).
Fixpoint dot (a x : list Qc) : Qc := match a, x with a0 :: a', x0 :: x' => a0 * x0 + dot a' x' | _, _ => 0 end.
Definition holds_c (x : list Qc) (c : con) : Prop := dot (fst c) x <= snd c.
Definition sat (cs : list con) (x : list Qc) : Prop := Forall (holds_c x) cs.

Fixpoint vsub (a b : list Qc) : list Qc :=
  match a, b with
  | [], _ => map Qcopp b
  | _, [] => a
  | a0 :: a', b0 :: b' => (a0 - b0) :: vsub a' b'
  end.
Definition head (c : con) : Qc := hd 0 (fst c).
(** [c] solved for the first variable: [x0 <= b - a . x'] or [x0 >= b - a . x'] *)
Definition solved (c : con) : con := (map (fun a => a / head c) (tl (fst c)), snd c / head c).
Definition uppers (cs : list con) : list con := map solved (filter (fun c => qc_ltb 0 (head c)) cs).
Definition lowers (cs : list con) : list con := map solved (filter (fun c => qc_ltb (head c) 0) cs).
Definition frees (cs : list con) : list con :=
  map (fun c => (tl (fst c), snd c)) (filter (fun c => negb (qc_ltb 0 (head c)) && negb (qc_ltb (head c) 0)) cs).
Definition elim1 (cs : list con) : list con :=
  frees cs ++ flat_map (fun p => map (fun n => (vsub (fst p) (fst n), snd p - snd n)) (lowers cs)) (uppers cs).

Definition at_sol (x : list Qc) (c : con) : Qc := snd c - dot (fst c) x.
Fixpoint qleast (l : list Qc) (x : Qc) : Qc := match l with [] => x | y :: l' => qleast l' (if qc_ltb y x then y else x) end.
Fixpoint qgreatest (l : list Qc) (x : Qc) : Qc := match l with [] => x | y :: l' => qgreatest l' (if qc_ltb x y then y else x) end.
Definition pick (cs : list con) (x : list Qc) : Qc :=
  match map (at_sol x) (uppers cs), map (at_sol x) (lowers cs) with
  | u :: us, _ => qleast us u
  | [], l :: ls => qgreatest ls l
  | [], [] => 0
  end.

(** a solution with the greatest last variable, of [n + 1] variables *)
Fixpoint solve (n : nat) (cs : list con) : list Qc :=
  match n with
  | O => [pick cs []]
  | S n' => let x := solve n' (elim1 cs) in pick cs x :: x
  end.

Lemma dot_nil_r a : dot a [] = 0.
Proof. destruct a; auto. Qed.
Lemma dot_opp b x : dot (map Qcopp b) x = - dot b x.
Proof. revert x. induction b as [|b0 b IH]; intros [|x0 x]; cbn [map dot]; try ring. rewrite IH. ring. Qed.
Lemma dot_vsub a b x : dot (vsub a b) x = dot a x - dot b x.
Proof.
  revert b x. induction a as [|a0 a IH]; intros b x.
  - cbn [vsub]. rewrite dot_opp. cbn [dot]. ring.
  - destruct b as [|b0 b]; [cbn [vsub]; destruct x; cbn [dot]; ring|]. destruct x as [|x0 x]; cbn [vsub dot]; [ring|]. rewrite IH. ring.
Qed.
Lemma dot_div a h x : dot (map (fun y => y / h) a) x = dot a x / h.
Proof. revert x. induction a as [|a0 a IH]; intros [|x0 x]; cbn [map dot]; unfold Qcdiv in *; try ring. rewrite IH. ring. Qed.
Lemma dot_cons a x0 x : dot a (x0 :: x) = hd 0 a * x0 + dot (tl a) x.
Proof. destruct a as [|a0 a]; cbn [dot hd tl]; [cbn; ring|auto]. Qed.


Lemma qc_le_mul h x y : 0 < h -> (h * x <= h * y <-> x <= y).
Proof.
  intros H. split; intros L.
  - rewrite !(Qcmult_comm h) in L. apply Qcmult_lt_0_le_reg_r in L; auto.
  - rewrite !(Qcmult_comm h). apply Qcmult_le_compat_r; auto. apply Qclt_le_weak; auto.
Qed.
Lemma at_solved c x : head c <> 0 -> head c * at_sol x (solved c) = snd c - dot (tl (fst c)) x.
Proof. intros H. unfold at_sol, solved. cbn [fst snd]. rewrite dot_div. field. auto. Qed.
Lemma solved_upper c x0 x : 0 < head c -> (holds_c (x0 :: x) c <-> x0 <= at_sol x (solved c)).
Proof.
  intros H. assert (N : head c <> 0) by (intros E; rewrite E in H; qc_lra). assert (E := at_solved c x N).
  unfold holds_c. rewrite dot_cons. fold (head c). rewrite <- (qc_le_mul (head c) x0 _ H), E. split; intros; qc_lra.
Qed.
Lemma solved_lower c x0 x : head c < 0 -> (holds_c (x0 :: x) c <-> at_sol x (solved c) <= x0).
Proof.
  intros H. assert (N : head c <> 0) by (intros E; rewrite E in H; qc_lra). assert (E := at_solved c x N).
  unfold holds_c. rewrite dot_cons. fold (head c).
  assert (P : 0 < - head c) by qc_lra. rewrite <- (qc_le_mul (- head c) _ x0 P).
  set (y := at_sol x (solved c)) in *. replace (- head c * y) with (- (head c * y)) by ring. replace (- head c * x0) with (- (head c * x0)) by ring.
  rewrite E. generalize (head c * x0). clear. intros z. replace (- (snd c - dot (tl (fst c)) x)) with (dot (tl (fst c)) x - snd c) by ring. split; intros; qc_lra.
Qed.
Lemma free_holds c x0 x : ~ 0 < head c -> ~ head c < 0 -> (holds_c (x0 :: x) c <-> holds_c x (tl (fst c), snd c)).
Proof.
  intros H1 H2. assert (E : head c = 0). { destruct (Qclt_le_dec 0 (head c)); [contradiction|]. destruct (Qclt_le_dec (head c) 0); [contradiction|]. qc_lra. }
  unfold holds_c. rewrite dot_cons. fold (head c). rewrite E. cbn [fst snd]. replace (0 * x0 + dot (tl (fst c)) x) with (dot (tl (fst c)) x) by ring. tauto.
Qed.

(** the constraints on [x0 :: x]: bounds of [x0] and the constraints without it *)
Lemma sat_split cs x0 x : sat cs (x0 :: x) <->
  (forall u, In u (map (at_sol x) (uppers cs)) -> x0 <= u) /\ (forall l, In l (map (at_sol x) (lowers cs)) -> l <= x0) /\ sat (frees cs) x.
Proof.
  unfold sat, uppers, lowers, frees. rewrite !Forall_forall. split.
  - intros H. split; [|split].
    + intros u Hu. apply in_map_iff in Hu as (c & <- & Hc). apply in_map_iff in Hc as (d & <- & Hd). apply filter_In in Hd as [Hd Hp].
      apply qc_ltb_lt in Hp. apply solved_upper; auto.
    + intros u Hu. apply in_map_iff in Hu as (c & <- & Hc). apply in_map_iff in Hc as (d & <- & Hd). apply filter_In in Hd as [Hd Hp].
      apply qc_ltb_lt in Hp. apply solved_lower; auto.
    + intros c Hc. apply in_map_iff in Hc as (d & <- & Hd). apply filter_In in Hd as [Hd Hp]. apply andb_true_iff in Hp as [P1 P2].
      apply free_holds with (x0 := x0); auto; rewrite <- qc_ltb_lt; [destruct (qc_ltb 0 (head d))|destruct (qc_ltb (head d) 0)]; discriminate.
  - intros (H1 & H2 & H3) c Hc. destruct (qc_ltb 0 (head c)) eqn:P.
    + apply solved_upper; [apply qc_ltb_lt; auto|]. apply H1. apply in_map. apply in_map. apply filter_In. auto.
    + destruct (qc_ltb (head c) 0) eqn:N.
      * apply solved_lower; [apply qc_ltb_lt; auto|]. apply H2. apply in_map. apply in_map. apply filter_In. auto.
      * apply free_holds; [rewrite <- qc_ltb_lt; congruence|rewrite <- qc_ltb_lt; congruence|].
        apply H3. apply (in_map (fun c => (tl (fst c), snd c))). apply filter_In. rewrite P, N. auto.
Qed.
Lemma sat_elim cs x : sat (elim1 cs) x <-> (forall u l, In u (map (at_sol x) (uppers cs)) -> In l (map (at_sol x) (lowers cs)) -> l <= u) /\ sat (frees cs) x.
Proof.
  unfold elim1, sat. rewrite Forall_app, !Forall_forall.
  split; intros [H1 H2].
  - split; [|exact H1]. intros u l Hu Hl. apply in_map_iff in Hu as (p & <- & Hp). apply in_map_iff in Hl as (n & <- & Hn).
    assert (X : holds_c x (vsub (fst p) (fst n), snd p - snd n)).
    { apply H2. apply in_flat_map. exists p. split; auto. apply (in_map (fun n => (vsub (fst p) (fst n), snd p - snd n))). auto. }
    unfold holds_c in X. cbn [fst snd] in X. rewrite dot_vsub in X. unfold at_sol. qc_lra.
  - split; [exact H2|]. intros c Hc. apply in_flat_map in Hc as (p & Hp & Hc). apply in_map_iff in Hc as (n & <- & Hn).
    assert (X := H1 (at_sol x p) (at_sol x n) (in_map _ _ _ Hp) (in_map _ _ _ Hn)). unfold holds_c. cbn [fst snd]. rewrite dot_vsub.
    unfold at_sol in X. qc_lra.
Qed.

Lemma qleast_spec l x : (qleast l x = x \/ In (qleast l x) l) /\ qleast l x <= x /\ forall y, In y l -> qleast l x <= y.
Proof.
  revert x. induction l as [|y l IH]; intros x; cbn [qleast]; [split; auto; split; [qc_lra|intros y []]|].
  destruct (IH (if qc_ltb y x then y else x)) as (A & B & C). destruct (qc_ltb y x) eqn:E.
  - apply qc_ltb_lt in E. split; [destruct A as [->|A]; right; [left; auto|right; auto]|]. split; [qc_lra|]. intros z [<-|Hz]; auto.
  - apply qc_ltb_ge in E. split; [destruct A as [->|A]; [left; auto|right; right; auto]|]. split; auto. intros z [<-|Hz]; auto. qc_lra.
Qed.
Lemma qgreatest_spec l x : (qgreatest l x = x \/ In (qgreatest l x) l) /\ x <= qgreatest l x /\ forall y, In y l -> y <= qgreatest l x.
Proof.
  revert x. induction l as [|y l IH]; intros x; cbn [qgreatest]; [split; auto; split; [qc_lra|intros y []]|].
  destruct (IH (if qc_ltb x y then y else x)) as (A & B & C). destruct (qc_ltb x y) eqn:E.
  - apply qc_ltb_lt in E. split; [destruct A as [->|A]; right; [left; auto|right; auto]|]. split; [qc_lra|]. intros z [<-|Hz]; auto.
  - apply qc_ltb_ge in E. split; [destruct A as [->|A]; [left; auto|right; right; auto]|]. split; auto. intros z [<-|Hz]; auto. qc_lra.
Qed.

Lemma pick_sat cs x : sat (elim1 cs) x -> sat cs (pick cs x :: x).
Proof.
  intros H. apply sat_elim in H as [H F]. apply sat_split. unfold pick.
  destruct (map (at_sol x) (uppers cs)) as [|u us] eqn:EU; [destruct (map (at_sol x) (lowers cs)) as [|l ls] eqn:EL|].
  - split; [intros ? []|]. split; [intros ? []|auto].
  - split; [intros ? []|]. split; auto. destruct (qgreatest_spec ls l) as (_ & A & B). intros y [<-|Hy]; auto.
  - destruct (qleast_spec us u) as (A & B & C). split; [intros y [<-|Hy]; auto|]. split; auto. intros l Hl. apply H; auto.
    destruct A as [->|A]; [left; auto|right; auto].
Qed.
Lemma elim_sat cs x0 x : sat cs (x0 :: x) -> sat (elim1 cs) x.
Proof. intros H. apply sat_split in H as (A & B & F). apply sat_elim. split; auto. intros u l Hu Hl. apply Qcle_trans with x0; auto. Qed.

Lemma solve_length n : forall cs, List.length (solve n cs) = S n.
Proof. induction n as [|n IH]; intros cs; cbn [solve List.length]; auto. Qed.
(** with a bounded last variable, any solution shows that [solve] finds one that is at least as good *)
Lemma solve_ok n : forall cs x B, List.length x = S n -> sat cs x ->
  (forall y, List.length y = S n -> sat cs y -> last y 0 <= B) ->
  sat cs (solve n cs) /\ last x 0 <= last (solve n cs) 0.
Proof.
  induction n as [|n IH]; intros cs x B L Hx HB.
  - destruct x as [|x0 [|]]; try discriminate L. cbn [solve last]. assert (E := elim_sat _ _ _ Hx). split; [apply pick_sat; auto|].
    assert (P := pick_sat _ _ E). apply sat_split in Hx as (A & D & F). unfold pick in *.
    destruct (map (at_sol []) (uppers cs)) as [|u us] eqn:EU.
    + exfalso. set (z := qgreatest (B + 1 :: map (at_sol []) (lowers cs)) 0). destruct (qgreatest_spec (B + 1 :: map (at_sol []) (lowers cs)) 0) as (_ & _ & Z).
      assert (X : last [z] 0 <= B). { apply HB; auto. apply sat_split. rewrite EU. split; [intros ? []|]. split; auto. intros l Hl. apply Z. right. auto. }
      cbn [last] in X. assert (Y := Z (B + 1) (or_introl eq_refl)). fold z in Y. qc_lra.
    + apply A. destruct (qleast_spec us u) as ([->|C] & _); [left; auto|right; auto].
  - destruct x as [|x0 x]; [discriminate L|]. injection L as L. cbn [solve].
    destruct (IH (elim1 cs) x B L (elim_sat _ _ _ Hx)) as [S1 S2].
    + intros y Ly Hy. assert (X := HB (pick cs y :: y) (f_equal S Ly) (pick_sat _ _ Hy)). destruct y; [discriminate Ly|]. exact X.
    + split; [apply pick_sat; auto|]. assert (Ls := solve_length n (elim1 cs)).
      destruct x as [|x1 x]; [discriminate L|]. destruct (solve n (elim1 cs)) as [|s0 s]; [discriminate Ls|]. exact S2.
Qed.
