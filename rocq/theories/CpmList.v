(** Products of two CPMs in either order, and of lists of CPMs. *)
From Coq Require Import ZArith List String Bool Arith Lia QArith Qcanon Permutation.
From Verif Require Import Py Num Vari Cpm SpecCpm PyFacts VariFacts CpmFacts CpmCond CpmProd.
Import ListNotations.
Open Scope string_scope.
Open Scope Z_scope.
Open Scope list_scope.


Lemma agree_sym l1 l2 : agree l1 l2 -> agree l2 l1.
Proof. intros H v w Hv Hw E. symmetry. apply H; auto. Qed.
Lemma disj_sym M1 M2 : disjoint_children M1 M2 -> disjoint_children M2 M1.
Proof. intros H v w Hv Hw E. apply (H w v); auto. Qed.

(** what a product has to be *)
Definition is_product (M1 M2 M : cpm) : Prop :=
  wf_cpm M /\ (forall a, mass M a = (mass M1 a * mass M2 a)%Qc) /\
  (forall v, In v (c_vars M) <-> In v (c_vars M1) \/ In v (c_vars M2)) /\
  (forall v, In v (children M) <-> In v (children M1) \/ In v (children M2)) /\
  c_nch M = (c_nch M1 + c_nch M2)%nat.

Lemma firstn_app_len {A} (l1 l2 : list A) : firstn (List.length l1) (l1 ++ l2) = l1.
Proof. rewrite firstn_app, Nat.sub_diag, firstn_all. cbn. apply app_nil_r. Qed.

Lemma prod_result_is M1 M2 : wf_cpm M1 -> wf_cpm M2 -> agree (c_vars M1) (c_vars M2) -> disjoint_children M1 M2 ->
  is_product M1 M2 (prod_result M1 M2).
Proof.
  intros W1 W2 Ha Hd. assert (Hcc : common_child M1 M2 = false) by (apply common_child_spec; auto).
  split; [|split; [|split; [|split]]].
  - apply prod_result_wf; auto.
  - intros a. apply prod_result_mass; auto.
  - intros v. apply (n_vars_In M1 M2 W1 W2 Ha).
  - intros v. unfold children at 1. cbn [prod_result c_vars c_nch]. unfold n_vars. rewrite firstn_app_len. apply n_child_In.
  - cbn [prod_result c_nch]. apply n_child_length; auto.
Qed.

Lemma is_product_sym M1 M2 M : is_product M1 M2 M -> is_product M2 M1 M.
Proof.
  intros (A & B & C & D & E). split; [auto|split; [|split; [|split]]].
  - intros a. rewrite B. ring.
  - intros v. rewrite C. tauto.
  - intros v. rewrite D. tauto.
  - lia.
Qed.

Lemma product_ok M1 M2 M : wf_cpm M1 -> wf_cpm M2 -> agree (c_vars M1) (c_vars M2) -> disjoint_children M1 M2 ->
  product M1 M2 = Ok M -> is_product M1 M2 M.
Proof.
  intros W1 W2 Ha Hd H. unfold product in H. destruct (ncols M2 <? ncols M1)%nat.
  - assert (Hcc : common_child M2 M1 = false) by (apply common_child_spec, disj_sym; auto).
    destruct (product_ord_inv M2 M1 Hcc M H) as (I1 & I2 & I3).
    rewrite (product_ord_spec M2 M1 W2 W1 (agree_sym _ _ Ha) Hcc I1 I2 I3) in H. injection H as <-.
    apply is_product_sym, prod_result_is; auto using agree_sym, disj_sym.
  - assert (Hcc : common_child M1 M2 = false) by (apply common_child_spec; auto).
    destruct (product_ord_inv M1 M2 Hcc M H) as (I1 & I2 & I3).
    rewrite (product_ord_spec M1 M2 W1 W2 Ha Hcc I1 I2 I3) in H. injection H as <-.
    apply prod_result_is; auto.
Qed.

Lemma product_total M1 M2 : wf_cpm M1 -> wf_cpm M2 -> agree (c_vars M1) (c_vars M2) -> disjoint_children M1 M2 ->
  c_C M1 <> [] -> c_C M2 <> [] -> c_vars M1 <> [] -> c_vars M2 <> [] -> (c_p M1 <> [] \/ c_p M2 <> []) ->
  exists M, product M1 M2 = Ok M.
Proof.
  intros W1 W2 Ha Hd C1 C2 V1 V2 Hp. unfold product. destruct (ncols M2 <? ncols M1)%nat.
  - eexists. apply product_ord_spec; auto using agree_sym; [apply common_child_spec, disj_sym; auto|tauto].
  - eexists. apply product_ord_spec; auto. apply common_child_spec; auto.
Qed.

Lemma product_common_child M1 M2 v w : In v (children M1) -> In w (children M2) -> v_name v = v_name w ->
  product M1 M2 = Err AssertionError.
Proof.
  intros Hv Hw E. unfold product. destruct (ncols M2 <? ncols M1)%nat; unfold product_ord.
  - assert (C : common_child M2 M1 = true).
    { destruct (common_child M2 M1) eqn:C; auto. apply (proj1 (common_child_spec _ _)) with (v := w) (w := v) in C; auto; try congruence. }
    rewrite C. auto.
  - assert (C : common_child M1 M2 = true).
    { destruct (common_child M1 M2) eqn:C; auto. apply (proj1 (common_child_spec _ _)) with (v := v) (w := w) in C; auto; try congruence. }
    rewrite C. auto.
Qed.

(** a non-zero value needs a row *)
Lemma mass_rows M a : mass M a <> 0%Qc -> c_C M <> [].
Proof. unfold mass. intros H E. rewrite E in H. apply H. reflexivity. Qed.

(** ** lists *)

Lemma fit_sym M1 M2 : fit M1 M2 -> fit M2 M1.
Proof. intros [H1 H2]. split; [apply agree_sym|apply disj_sym]; auto. Qed.

Lemma pairwise_perm l l' : Permutation l l' -> pairwise fit l -> pairwise fit l'.
Proof.
  intros P. induction P; cbn; auto.
  - intros [H1 H2]. split; auto. intros M' HM. apply H1. eapply Permutation_in; [apply Permutation_sym|]; eauto.
  - intros [H1 [H2 H3]]. split; [|split]; auto.
    intros M' [<-|HM]; auto. apply fit_sym, H1. left; auto.
Qed.
Lemma fit_list_perm l l' : Permutation l l' -> fit_list l -> fit_list l'.
Proof.
  intros P [H1 H2]. split; [eapply Permutation_Forall; eauto|eapply pairwise_perm; eauto].
Qed.

Definition is_product_list (l : list cpm) (M : cpm) : Prop :=
  wf_cpm M /\ (forall a, mass M a = qprod (map (fun M => mass M a) l)) /\
  (forall v, In v (c_vars M) <-> exists M', In M' l /\ In v (c_vars M')) /\
  (forall v, In v (children M) <-> exists M', In M' l /\ In v (children M')).

Lemma fit_product M1 M2 M N : fit M1 N -> fit M2 N -> is_product M1 M2 M -> fit M N.
Proof.
  intros [A1 D1] [A2 D2] (_ & _ & S & C & _). split.
  - intros v w Hv Hw E. apply S in Hv as [Hv|Hv]; auto.
  - intros v w Hv Hw E. apply C in Hv as [Hv|Hv]; [apply (D1 v w)|apply (D2 v w)]; auto.
Qed.

Lemma product_fold l : forall M0, wf_cpm M0 -> (forall M', In M' l -> fit M0 M') -> fit_list l ->
  forall M, foldM product l M0 = Ok M -> is_product_list (M0 :: l) M.
Proof.
  induction l as [|M1 l IH]; intros M0 W0 HF [HW HP] M H; cbn [foldM] in H.
  - injection H as <-. split; [auto|split; [|split]].
    + intros a. cbn. ring.
    + intros v. split; [intros; exists M0; split; auto; left; auto|intros (M' & [<-|[]] & ?); auto].
    + intros v. split; [intros; exists M0; split; auto; left; auto|intros (M' & [<-|[]] & ?); auto].
  - destruct (product M0 M1) as [M01|] eqn:E; cbn [bind] in H; [|congruence].
    inversion HW as [|? ? W1 HW']; subst. destruct HP as [HP1 HP2].
    destruct (HF M1 (or_introl eq_refl)) as [F1 F2].
    assert (P := product_ok M0 M1 M01 W0 W1 F1 F2 E).
    assert (G : forall M', In M' l -> fit M01 M').
    { intros M' HM. eapply fit_product; [| |eauto]; [apply HF; right; auto|apply HP1; auto]. }
    destruct (IH M01 (proj1 P) G (conj HW' HP2) M H) as (I1 & I2 & I3 & I4).
    destruct P as (_ & Pm & Pv & Pc & _). split; [auto|split; [|split]].
    + intros a. rewrite I2. cbn. rewrite Pm. ring.
    + intros v. rewrite I3. split.
      * intros (M' & [<-|HM] & Hv); [apply Pv in Hv as [Hv|Hv]; [exists M0|exists M1]|exists M']; cbn; auto.
      * intros (M' & [<-|[<-|HM]] & Hv); [exists M01|exists M01|exists M']; cbn; rewrite ?Pv; auto.
    + intros v. rewrite I4. split.
      * intros (M' & [<-|HM] & Hv); [apply Pc in Hv as [Hv|Hv]; [exists M0|exists M1]|exists M']; cbn; auto.
      * intros (M' & [<-|[<-|HM]] & Hv); [exists M01|exists M01|exists M']; cbn; rewrite ?Pc; auto.
Qed.

Lemma product_list_ok l M : fit_list l -> product_list l = Ok M -> is_product_list l M.
Proof.
  destruct l as [|M0 l]; cbn [product_list]; [congruence|]. intros [HW [HP1 HP2]] H.
  inversion HW as [|? ? W0 HW']; subst. apply product_fold; auto. split; auto.
Qed.

Lemma qprod_perm_map (f : cpm -> Qc) l l' : Permutation l l' -> qprod (map f l) = qprod (map f l').
Proof. intros P. apply qprod_perm, Permutation_map. auto. Qed.

(** with a joint state of non-zero value everywhere, no product fails *)
Lemma product_fold_total l a : forall M0, wf_cpm M0 -> (forall M', In M' l -> fit M0 M') -> fit_list l ->
  mass M0 a <> 0%Qc -> (forall M', In M' l -> mass M' a <> 0%Qc /\ c_vars M' <> []) -> c_vars M0 <> [] -> c_p M0 <> [] ->
  exists M, foldM product l M0 = Ok M.
Proof.
  induction l as [|M1 l IH]; intros M0 W0 HF [HW HP] Hm Hl Hv Hp; cbn [foldM]; [eauto|].
  inversion HW as [|? ? W1 HW']; subst. destruct HP as [HP1 HP2].
  destruct (HF M1 (or_introl eq_refl)) as [F1 F2]. destruct (Hl M1 (or_introl eq_refl)) as [Hm1 Hv1].
  destruct (product_total M0 M1) as [M01 E]; auto; try (eapply mass_rows; eauto; fail).
  rewrite E. cbn [bind]. assert (P := product_ok M0 M1 M01 W0 W1 F1 F2 E).
  assert (Hm01 : mass M01 a <> 0%Qc).
  { destruct P as (_ & Pm & _). rewrite Pm. intros X. apply Qcmult_integral in X. tauto. }
  apply IH.
  - apply P.
  - intros M' HM. eapply fit_product; [| |eauto]; [apply HF; right; auto|apply HP1; auto].
  - split; auto.
  - exact Hm01.
  - intros M' HM. apply Hl. right; auto.
  - destruct (c_vars M0) as [|v ?] eqn:Ev; [congruence|]. destruct P as (_ & _ & Pv & _).
    assert (X : In v (c_vars M01)) by (apply Pv; left; rewrite Ev; left; auto). intros Y. rewrite Y in X. destruct X.
  - assert (R := mass_rows M01 a Hm01). unfold product in E.
    assert (X : c_p M01 = map snd (combine (c_C M01) (c_p M01)) /\ List.length (c_p M01) = List.length (c_C M01)).
    { destruct (ncols M1 <? ncols M0)%nat.
      - assert (Hcc : common_child M1 M0 = false) by (apply common_child_spec, disj_sym; auto).
        destruct (product_ord_inv M1 M0 Hcc M01 E) as (I1 & I2 & I3).
        rewrite (product_ord_spec M1 M0 W1 W0 (agree_sym _ _ F1) Hcc I1 I2 I3) in E. injection E as <-. cbn [prod_result c_p c_C].
        rewrite combine_split_map, !map_length. auto.
      - assert (Hcc : common_child M0 M1 = false) by (apply common_child_spec; auto).
        destruct (product_ord_inv M0 M1 Hcc M01 E) as (I1 & I2 & I3).
        rewrite (product_ord_spec M0 M1 W0 W1 F1 Hcc I1 I2 I3) in E. injection E as <-. cbn [prod_result c_p c_C].
        rewrite combine_split_map, !map_length. auto. }
    intros Y. rewrite Y in X. destruct X as [_ X]. destruct (c_C M01); [congruence|discriminate].
Qed.
Lemma product_list_total l a : l <> [] -> fit_list l ->
  (forall M', In M' l -> mass M' a <> 0%Qc /\ c_vars M' <> [] /\ c_p M' <> []) -> exists M, product_list l = Ok M.
Proof.
  intros Hne [HW HP] H. destruct l as [|M0 l]; [congruence|]. inversion HW; subst. destruct HP as [HP1 HP2]. cbn [product_list].
  destruct (H M0 (or_introl eq_refl)) as (A & B & C).
  apply (product_fold_total l a); auto.
  - split; auto.
  - intros M' HM. destruct (H M' (or_intror HM)) as (? & ? & ?). auto.
Qed.
