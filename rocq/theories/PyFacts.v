(** Facts about dictionaries, exceptions and sorting. *)
From Coq Require Import ZArith List String Bool Arith Lia Permutation.
From Verif Require Import Py VariFacts.
Import ListNotations.
Open Scope Z_scope.

Lemma dfind_In {A} (d : dict A) k a : dfind d k = Some a -> In (k, a) d.
Proof.
  induction d as [|[k' a'] d IH]; cbn; [congruence|].
  destruct (String.eqb_spec k k'); intros H; [injection H as ->; subst; auto|auto].
Qed.

Lemma dfind_keys {A} (d : dict A) k : In k (keys d) <-> exists a, dfind d k = Some a.
Proof.
  induction d as [|[k' a'] d IH]; cbn; split.
  - tauto.
  - intros [a H]; congruence.
  - destruct (String.eqb_spec k k'); [eauto|]. intros [H|H]; [congruence|]. apply IH; auto.
  - destruct (String.eqb_spec k k'); [subst; auto|]. intros H. right. apply IH; auto.
Qed.

Lemma dfind_none {A} (d : dict A) k : dfind d k = None <-> ~ In k (keys d).
Proof.
  rewrite dfind_keys. destruct (dfind d k); split; try congruence.
  - intros H. exfalso. eauto.
  - intros _ [a H]. congruence.
Qed.

Lemma In_dfind {A} (d : dict A) k a : NoDup (keys d) -> In (k, a) d -> dfind d k = Some a.
Proof.
  induction d as [|[k' a'] d IH]; cbn; intros Hd Hin; [tauto|].
  inversion_clear Hd as [|? ? Hn Hd']. destruct Hin as [E|Hin].
  - injection E as -> ->. rewrite String.eqb_refl. auto.
  - destruct (String.eqb_spec k k') as [->|]; [|auto].
    exfalso. apply Hn. change k' with (fst (k', a)). apply in_map. auto.
Qed.

Lemma dget_ok {A} (d : dict A) k a : dget d k = Ok a <-> dfind d k = Some a.
Proof. unfold dget. destruct (dfind d k); split; congruence. Qed.

Lemma In_keys {A} (d : dict A) k a : In (k, a) d -> In k (keys d).
Proof. intros H. change k with (fst (k, a)). apply in_map. auto. Qed.

Lemma keys_dset {A} (d : dict A) k a : In k (keys d) -> keys (dset d k a) = keys d.
Proof.
  induction d as [|[k' a'] d IH]; cbn; intros H; [tauto|].
  destruct (String.eqb_spec k k'); cbn; auto. f_equal. apply IH. destruct H; [congruence|auto].
Qed.

Lemma dfind_dset {A} (d : dict A) k a k' :
  dfind (dset d k a) k' = if String.eqb k' k then Some a else dfind d k'.
Proof.
  induction d as [|[k0 a0] d IH]; cbn.
  - destruct (String.eqb k' k); auto.
  - destruct (String.eqb_spec k k0); cbn.
    + subst. destruct (String.eqb k' k0); auto.
    + rewrite IH. destruct (String.eqb_spec k' k0); auto. subst.
      destruct (String.eqb_spec k0 k); congruence.
Qed.

Lemma dset_length {A} (d : dict A) k a : In k (keys d) -> List.length (dset d k a) = List.length d.
Proof.
  intros H. pose proof (f_equal (@List.length _) (keys_dset d k a H)) as E.
  unfold keys in E. rewrite !map_length in E. auto.
Qed.

Lemma mapM_ok {A B} (f : A -> res B) (g : A -> B) l :
  (forall a, In a l -> f a = Ok (g a)) -> mapM f l = Ok (map g l).
Proof.
  induction l; cbn; intros H; auto. rewrite (H a) by auto. cbn. rewrite IHl by auto. auto.
Qed.

Lemma mapM_inv {A B} (f : A -> res B) l bs :
  mapM f l = Ok bs -> Forall2 (fun a b => f a = Ok b) l bs.
Proof.
  revert bs; induction l; cbn; intros bs H; [injection H as <-; constructor|].
  destruct (f a) eqn:E; cbn in H; [|congruence]. destruct (mapM f l) eqn:F; cbn in H; [|congruence].
  injection H as <-. constructor; auto.
Qed.

Lemma mapM_Forall2 {A B} (f : A -> res B) l bs :
  Forall2 (fun a b => f a = Ok b) l bs -> mapM f l = Ok bs.
Proof. induction 1; cbn; auto. rewrite H; cbn. rewrite IHForall2. auto. Qed.

Lemma foldM_ok {A B} (f : B -> A -> res B) (g : B -> A -> B) l : forall b,
  (forall b a, In a l -> f b a = Ok (g b a)) -> foldM f l b = Ok (fold_left g l b).
Proof.
  induction l; cbn; intros b H; auto. rewrite (H b a) by auto. cbn. apply IHl. auto.
Qed.

Lemma allM_ok {A} (f : A -> res bool) (g : A -> bool) l :
  (forall a, In a l -> f a = Ok (g a)) -> allM f l = Ok (forallb g l).
Proof.
  intros H. unfold allM. rewrite (mapM_ok f g) by auto. cbn. f_equal.
  clear. induction l; cbn; auto. rewrite IHl. auto.
Qed.

Lemma Forall2_length {A B} (R : A -> B -> Prop) l1 l2 : Forall2 R l1 l2 -> List.length l1 = List.length l2.
Proof. induction 1; cbn; auto. Qed.

Lemma Forall2_impl {A B} (R R' : A -> B -> Prop) l1 l2 :
  (forall a b, R a b -> R' a b) -> Forall2 R l1 l2 -> Forall2 R' l1 l2.
Proof. induction 2; constructor; auto. Qed.

Lemma Forall2_in_l {A B} (R : A -> B -> Prop) l1 l2 a :
  Forall2 R l1 l2 -> In a l1 -> exists b, In b l2 /\ R a b.
Proof.
  induction 1; cbn; intros H1; [tauto|]. destruct H1 as [->|H1]; [eauto|].
  destruct (IHForall2 H1) as (b & ? & ?). eauto.
Qed.
Lemma Forall2_in_r {A B} (R : A -> B -> Prop) l1 l2 b :
  Forall2 R l1 l2 -> In b l2 -> exists a, In a l1 /\ R a b.
Proof.
  induction 1; cbn; intros H1; [tauto|]. destruct H1 as [->|H1]; [eauto|].
  destruct (IHForall2 H1) as (b' & ? & ?). eauto.
Qed.

Lemma filter_perm {A} (f : A -> bool) l1 l2 :
  Permutation l1 l2 -> Permutation (filter f l1) (filter f l2).
Proof.
  induction 1; cbn; auto.
  - destruct (f x); auto.
  - destruct (f x), (f y); auto. apply perm_swap.
  - etransitivity; eauto.
Qed.

Lemma concat_length {A} (ls : list (list A)) :
  List.length (List.concat ls) = list_sum (map (@List.length A) ls).
Proof. induction ls; cbn; auto. rewrite app_length, IHls. auto. Qed.

Lemma count_true_zero l : List.length (filter (fun b : bool => b) l) = O <-> existsb (fun b => b) l = false.
Proof. induction l as [|[] l IH]; cbn; [tauto| split; congruence|auto]. Qed.

Lemma existsb_map {A B} (f : A -> B) g l : existsb g (map f l) = existsb (fun x => g (f x)) l.
Proof. induction l; cbn; auto. rewrite IHl. auto. Qed.

Lemma forallb_ext_in {A} (f g : A -> bool) l :
  (forall a, In a l -> f a = g a) -> forallb f l = forallb g l.
Proof. induction l; cbn; intros H; auto. rewrite (H a), IHl; auto. Qed.
