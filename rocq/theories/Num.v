(** Exact rationals (canonical, so that equality is Leibniz equality) and
    finite sums and products.  Floats of the Python code are idealised as [Qc]. *)
From Coq Require Import ZArith List Bool QArith Qcanon Lqa Permutation Lia.
Import ListNotations.
Open Scope Qc_scope.

Arguments Qcplus : simpl never.
Arguments Qcmult : simpl never.
Arguments Qcminus : simpl never.
Arguments Qcopp : simpl never.
Arguments Q2Qc : simpl never.
Arguments Qcdiv : simpl never.

Definition qc_ltb (x y : Qc) : bool := match x ?= y with Lt => true | _ => false end.
Definition qc_leb (x y : Qc) : bool := match x ?= y with Gt => false | _ => true end.
Definition qc_eqb (x y : Qc) : bool := if Qc_eq_dec x y then true else false.
Fixpoint qsum (l : list Qc) : Qc := match l with [] => 0 | x :: l' => x + qsum l' end.
Fixpoint qprod (l : list Qc) : Qc := match l with [] => 1 | x :: l' => x * qprod l' end.
Definition qmax (x y : Qc) : Qc := if qc_leb x y then y else x.
Definition qmin (x y : Qc) : Qc := if qc_leb x y then x else y.
Definition qz (z : Z) : Qc := Q2Qc (inject_Z z).

(** Move a goal about [Qc] to [Q], then use linear arithmetic. *)
Lemma qc_this_plus x y : (this (x + y) == this x + this y)%Q.
Proof. unfold Qcplus, Q2Qc; cbn [this]. apply Qred_correct. Qed.
Lemma qc_this_mult x y : (this (x * y) == this x * this y)%Q.
Proof. unfold Qcmult, Q2Qc; cbn [this]. apply Qred_correct. Qed.
Lemma qc_this_opp x : (this (- x) == - this x)%Q.
Proof. unfold Qcopp, Q2Qc; cbn [this]. apply Qred_correct. Qed.
Lemma qc_this_minus x y : (this (x - y) == this x - this y)%Q.
Proof. unfold Qcminus. rewrite qc_this_plus, qc_this_opp. reflexivity. Qed.
Lemma qc_this_0 : (this 0 == 0)%Q.
Proof. reflexivity. Qed.
Lemma qc_this_1 : (this 1 == 1)%Q.
Proof. reflexivity. Qed.
Lemma qc_eq_q x y : x = y -> (this x == this y)%Q.
Proof. intros ->; reflexivity. Qed.

Ltac qc_hyps :=
  repeat match goal with
  | H : @eq Qc _ _ |- _ => apply qc_eq_q in H
  | H : (_ <= _)%Qc |- _ => unfold Qcle in H
  | H : (_ < _)%Qc |- _ => unfold Qclt in H
  | H : ~ (@eq Qc _ _) |- _ => clear H
  end.
Ltac qc_push :=
  rewrite ?qc_this_plus, ?qc_this_minus, ?qc_this_opp, ?qc_this_mult, ?qc_this_0, ?qc_this_1;
  repeat match goal with
  | H : _ |- _ => progress rewrite ?qc_this_plus, ?qc_this_minus, ?qc_this_opp, ?qc_this_mult, ?qc_this_0, ?qc_this_1 in H
  end.
Ltac qc_lra :=
  qc_hyps;
  match goal with
  | |- @eq Qc _ _ => apply Qc_is_canon
  | |- (_ <= _)%Qc => unfold Qcle
  | |- (_ < _)%Qc => unfold Qclt
  | |- False => idtac
  end; qc_push; lra.

Lemma qc_ltb_lt x y : qc_ltb x y = true <-> x < y.
Proof. unfold qc_ltb. rewrite Qclt_alt. destruct (x ?= y); split; congruence. Qed.
Lemma qc_leb_le x y : qc_leb x y = true <-> x <= y.
Proof. unfold qc_leb. rewrite Qcle_alt. destruct (x ?= y); split; congruence. Qed.
Lemma qc_ltb_ge x y : qc_ltb x y = false <-> y <= x.
Proof.
  split; intro H.
  - destruct (Qclt_le_dec x y) as [L|L]; auto. apply qc_ltb_lt in L. congruence.
  - destruct (qc_ltb x y) eqn:E; auto. apply qc_ltb_lt in E. exfalso. qc_lra.
Qed.
Lemma qc_leb_gt x y : qc_leb x y = false <-> y < x.
Proof.
  split; intro H.
  - destruct (Qclt_le_dec y x) as [L|L]; auto. apply qc_leb_le in L. congruence.
  - destruct (qc_leb x y) eqn:E; auto. apply qc_leb_le in E. exfalso. qc_lra.
Qed.
Lemma qc_eqb_eq x y : qc_eqb x y = true <-> x = y.
Proof. unfold qc_eqb. destruct (Qc_eq_dec x y); split; congruence. Qed.

Lemma qcmult_nonneg x y : 0 <= x -> 0 <= y -> 0 <= x * y.
Proof.
  unfold Qcle. intros. rewrite qc_this_mult. apply Qmult_le_0_compat; auto.
Qed.
Lemma qcmult_le_l x y z : 0 <= z -> x <= y -> z * x <= z * y.
Proof.
  intros Hz H. assert (E : 0 <= z * (y - x)) by (apply qcmult_nonneg; qc_lra).
  replace (z * (y - x)) with (z * y - z * x) in E by ring. qc_lra.
Qed.

Lemma qsum_app l1 l2 : qsum (l1 ++ l2) = qsum l1 + qsum l2.
Proof. induction l1; cbn; [ring|]. rewrite IHl1. ring. Qed.
Lemma qsum_perm l1 l2 : Permutation l1 l2 -> qsum l1 = qsum l2.
Proof. induction 1; cbn; try congruence; ring. Qed.
Lemma qprod_app l1 l2 : qprod (l1 ++ l2) = qprod l1 * qprod l2.
Proof. induction l1; cbn; [ring|]. rewrite IHl1. ring. Qed.
Lemma qprod_perm l1 l2 : Permutation l1 l2 -> qprod l1 = qprod l2.
Proof. induction 1; cbn; try congruence; ring. Qed.
Lemma qsum_nonneg l : (forall x, In x l -> 0 <= x) -> 0 <= qsum l.
Proof.
  induction l; intros H; cbn.
  - qc_lra.
  - assert (0 <= a) by (apply H; left; auto).
    assert (0 <= qsum l) by (apply IHl; intros; apply H; right; auto). qc_lra.
Qed.
Lemma qprod_nonneg l : (forall x, In x l -> 0 <= x) -> 0 <= qprod l.
Proof.
  induction l; intros H; cbn.
  - qc_lra.
  - apply qcmult_nonneg; [apply H; left; auto|]. apply IHl; intros; apply H; right; auto.
Qed.
Lemma qsum_map_ext {A} (f g : A -> Qc) l :
  (forall x, In x l -> f x = g x) -> qsum (map f l) = qsum (map g l).
Proof. intros H. f_equal. apply map_ext_in. auto. Qed.
Lemma qsum_map_le {A} (f g : A -> Qc) l :
  (forall x, In x l -> f x <= g x) -> qsum (map f l) <= qsum (map g l).
Proof.
  induction l; intros H; cbn; [qc_lra|].
  assert (f a <= g a) by (apply H; left; auto).
  assert (qsum (map f l) <= qsum (map g l)) by (apply IHl; intros; apply H; right; auto). qc_lra.
Qed.
Lemma qsum_map_scale {A} c (f : A -> Qc) l :
  qsum (map (fun x => c * f x) l) = c * qsum (map f l).
Proof. induction l; cbn; [ring|]. rewrite IHl. ring. Qed.
Lemma qsum_map_scale_r {A} c (f : A -> Qc) l :
  qsum (map (fun x => f x * c) l) = qsum (map f l) * c.
Proof. induction l; cbn; [ring|]. rewrite IHl. ring. Qed.
Lemma qsum_map_plus {A} (f g : A -> Qc) l :
  qsum (map (fun x => f x + g x) l) = qsum (map f l) + qsum (map g l).
Proof. induction l; cbn; [ring|]. rewrite IHl. ring. Qed.
Lemma qsum_map_zero {A} (f : A -> Qc) l :
  (forall x, In x l -> f x = 0) -> qsum (map f l) = 0.
Proof.
  induction l; intros H; cbn; auto. rewrite IHl, (H a); [ring|left; auto|].
  intros; apply H; right; auto.
Qed.
Lemma qsum_swap {A B} (f : A -> B -> Qc) la lb :
  qsum (map (fun a => qsum (map (fun b => f a b) lb)) la) =
  qsum (map (fun b => qsum (map (fun a => f a b) la)) lb).
Proof.
  induction la; cbn.
  - symmetry. apply qsum_map_zero; auto.
  - rewrite IHla, <- qsum_map_plus. auto.
Qed.
(** sum over a filtered list *)
Lemma qsum_filter {A} (b : A -> bool) (f : A -> Qc) l :
  qsum (map f (filter b l)) = qsum (map (fun x => if b x then f x else 0) l).
Proof. induction l; cbn; auto. destruct (b a); cbn; rewrite IHl; [auto|ring]. Qed.
Lemma qsum_split {A} (b : A -> bool) (f : A -> Qc) l :
  qsum (map f l) = qsum (map f (filter b l)) + qsum (map f (filter (fun x => negb (b x)) l)).
Proof. induction l; cbn; [ring|]. destruct (b a); cbn; rewrite IHl; ring. Qed.
Lemma qsum_flat_map {A B} (f : B -> Qc) (g : A -> list B) l :
  qsum (map f (flat_map g l)) = qsum (map (fun a => qsum (map f (g a))) l).
Proof. induction l; cbn; auto. rewrite map_app, qsum_app, IHl. auto. Qed.
