(** Lemmas for C105. *)
From Coq Require Import ZArith List String Bool Arith Lia QArith Qcanon.
From Verif Require Import Py Num Vari Cpm SpecCpm SpecRound RoundFacts RoundInf SpecRoundInf.
Import ListNotations.
Open Scope Z_scope.
Open Scope list_scope.

(** two computations that end the same way *)
Definition rrel {A B} (R : A -> B -> Prop) (x : res A) (y : res B) : Prop :=
  match x, y with Ok a, Ok b => R a b | Err e, Err e' => e = e' | _, _ => False end.
Lemma rrel_refl {A} (R : A -> A -> Prop) x : (forall a, x = Ok a -> R a a) -> rrel R x x.
Proof. destruct x; cbn; auto. Qed.
Lemma rrel_bind {A B C D} (R : A -> B -> Prop) (S : C -> D -> Prop) x y f g :
  rrel R x y -> (forall a b, x = Ok a -> y = Ok b -> R a b -> rrel S (f a) (g b)) -> rrel S (bind x f) (bind y g).
Proof. destruct x, y; cbn; intros H K; try contradiction; auto. Qed.
Lemma rrel_same {A C D} (S : C -> D -> Prop) (x : res A) f g :
  (forall a, x = Ok a -> rrel S (f a) (g a)) -> rrel S (bind x f) (bind x g).
Proof. destruct x; cbn; auto. Qed.
Lemma rrel_mapM {A B C} (R : B -> C -> Prop) (f : A -> res B) (g : A -> res C) l :
  (forall a, In a l -> rrel R (f a) (g a)) -> rrel (Forall2 R) (mapM f l) (mapM g l).
Proof.
  induction l as [|a l IH]; intros H; cbn; [constructor|]. apply (rrel_bind R); [apply H; cbn; auto|]. intros b c _ _ Hbc.
  apply (rrel_bind (Forall2 R)); [apply IH; intros; apply H; cbn; auto|]. intros bs cs _ _ Hs. cbn. constructor; auto.
Qed.

(** ** Parts of lists *)
Section Lists.
Context {A : Type} (R : A -> A -> Prop).
Lemma F2_nth l l' : Forall2 R l l' -> forall i, match nth_error l i, nth_error l' i with Some x, Some y => R x y | None, None => True | _, _ => False end.
Proof. induction 1 as [|x y l l' Hxy F IH]; intros [|i]; cbn; auto. apply IH. Qed.
Lemma F2_take l l' idx : Forall2 R l l' -> Forall2 R (take_rows l idx) (take_rows l' idx).
Proof.
  intros H. unfold take_rows. induction idx as [|i idx IH]; cbn; [constructor|]. apply Forall2_app; [|exact IH].
  pose proof (F2_nth l l' H i) as N. destruct (nth_error l i), (nth_error l' i); try contradiction; repeat constructor; auto.
Qed.
Lemma F2_select l l' : Forall2 R l l' -> forall c, Forall2 R (select l c) (select l' c).
Proof.
  unfold select. induction 1 as [|x y l l' Hxy H IH]; intros [|b c]; cbn; try constructor.
  destruct b; cbn; [constructor; auto|]; apply IH.
Qed.
Lemma F2_len l l' : Forall2 R l l' -> List.length l = List.length l'.
Proof. induction 1; cbn; auto. Qed.
Lemma F2_empty {B} l l' (x y : B) : Forall2 R l l' -> (match l with [] => x | _ => y end) = (match l' with [] => x | _ => y end).
Proof. intros []; auto. Qed.
End Lists.
Lemma F2_weaken {A} (R S : A -> A -> Prop) l l' : (forall x y, R x y -> S x y) -> Forall2 R l l' -> Forall2 S l l'.
Proof. intros H. induction 1; constructor; auto. Qed.

(** ** Operations that only move probabilities *)
Definition shape (R : Qc -> Qc -> Prop) (M M' : cpm) : Prop :=
  c_vars M = c_vars M' /\ c_nch M = c_nch M' /\ c_C M = c_C M' /\ Forall2 R (c_p M) (c_p M').
Lemma mk_cpm_shape R vars nch C p p' : Forall2 R p p' -> rrel (shape R) (mk_cpm vars nch C p) (mk_cpm vars nch C p').
Proof.
  intros H. unfold mk_cpm. destruct (_ <=? _)%nat; [|reflexivity]. apply rrel_same. intros [] _.
  assert (E : check_p C p = check_p C p').
  { unfold check_p. pose proof (F2_len R _ _ H) as L. rewrite L. destruct H; auto. }
  rewrite E. apply rrel_same. intros [] _. cbn. unfold shape. cbn. auto.
Qed.
Lemma get_subset_shape R M M' rows flag : shape R M M' -> rrel (shape R) (get_subset M rows flag) (get_subset M' rows flag).
Proof.
  intros (E1 & E2 & E3 & H). unfold get_subset, nrows. rewrite <- E1, <- E2, <- E3. apply rrel_same. intros idx _.
  apply mk_cpm_shape. apply F2_take. exact H.
Qed.
Lemma resolve_shape R M M' a : shape R M M' -> resolve M a = resolve M' a.
Proof. intros (E1 & _). unfold resolve, get_variable. rewrite E1. auto. Qed.
Lemma condition_shape R M M' vs sts : shape R M M' -> rrel (shape R) (condition M vs sts) (condition M' vs sts).
Proof.
  intros S. unfold condition. rewrite <- (resolve_shape R M M' vs S). destruct S as (E1 & E2 & E3 & H). rewrite <- E1, <- E2, <- E3.
  apply rrel_same. intros l _. apply rrel_same. intros sts' _. apply rrel_same. intros is _. cbv zeta. apply rrel_same. intros sts'' _.
  apply rrel_same. intros Cn _. apply mk_cpm_shape. inversion H as [|x y l1 l2 Hxy Hl]; [constructor|]. apply F2_select. constructor; auto.
Qed.

(** ** Sorting *)
Section Sort.
Context {K V : Type} (R : V -> V -> Prop) (lt : K -> K -> bool).
Definition pr (a b : K * V) : Prop := fst a = fst b /\ R (snd a) (snd b).
Lemma insert_pr a b l l' : pr a b -> Forall2 pr l l' ->
  Forall2 pr (insert_desc (fun y x => lt (fst y) (fst x)) a l) (insert_desc (fun y x => lt (fst y) (fst x)) b l').
Proof.
  intros Hab. induction 1 as [|x y l l' Hxy H IH]; cbn; [repeat constructor; auto; apply Hab|].
  destruct Hab as [E1 E2], Hxy as [F1 F2]. rewrite <- E1, <- F1. destruct (lt (fst x) (fst a)); repeat constructor; auto.
Qed.
Lemma sort_pr l l' : Forall2 pr l l' -> Forall2 pr (sort_desc (fun y x => lt (fst y) (fst x)) l) (sort_desc (fun y x => lt (fst y) (fst x)) l').
Proof. unfold sort_desc. induction 1; cbn; [constructor|]. apply insert_pr; auto. Qed.
Lemma combine_pr (ks : list K) ps ps' : Forall2 R ps ps' -> Forall2 pr (combine ks ps) (combine ks ps').
Proof. intros H. revert ks. induction H; intros [|k ks]; cbn; constructor; auto. split; auto. Qed.
Lemma pr_fst l l' : Forall2 pr l l' -> map fst l = map fst l'.
Proof. induction 1 as [|x y l l' [E _] H IH]; cbn; congruence. Qed.
Lemma pr_snd l l' : Forall2 pr l l' -> Forall2 R (map snd l) (map snd l').
Proof. induction 1 as [|x y l l' [_ E] H IH]; cbn; constructor; auto. Qed.
End Sort.

Section Near.
Variables (u : Qc) (k : nat) (mul : Qc -> Qc -> Qc) (tot : list Qc -> Qc).
Hypothesis (u0 : (0 <= u)%Qc) (u1 : (u <= 1)%Qc) (Hm : product_within u k mul) (Ht : sum_within u tot).

Definition nn (n : nat) (x y : Qc) : Prop := (0 <= x)%Qc /\ near u n x y.
Lemma alike_shape n M M' : alike u n M M' <-> shape (nn n) M M'.
Proof. split; auto. Qed.
Lemma nn_more n m x y : (n <= m)%nat -> nn n x y -> nn m x y.
Proof. intros H [A B]. split; auto. apply near_more with n; auto. Qed.
Lemma alike_more n m M M' : (n <= m)%nat -> alike u n M M' -> alike u m M M'.
Proof. intros H (E1 & E2 & E3 & F). repeat split; auto. eapply F2_weaken; [|exact F]. intros x y. apply nn_more; auto. Qed.

Lemma near_trans n m x y z : (0 <= x)%Qc -> near u n x y -> near u m y z -> near u (n + m) x z.
Proof.
  intros Hx [A B] [C D]. unfold near. rewrite !pow_add. split.
  - eapply Qcle_trans; [|exact C]. replace (x * ((1 - u) ^ n * (1 - u) ^ m))%Qc with ((x * (1 - u) ^ n) * (1 - u) ^ m)%Qc by ring.
    apply Qcmult_le_compat_r; auto. apply low_nonneg; auto.
  - eapply Qcle_trans; [exact D|]. replace (x * ((1 + u) ^ n * (1 + u) ^ m))%Qc with ((x * (1 + u) ^ n) * (1 + u) ^ m)%Qc by ring.
    apply Qcmult_le_compat_r; auto. apply high_nonneg; auto.
Qed.

Lemma nn_sum n l l' : Forall2 (nn n) l l' -> nn n (qsum l) (qsum l').
Proof.
  induction 1 as [|x y l l' [A B] F [C D]]; cbn [qsum].
  - split; [apply Qcle_refl|]. apply near_more with 0%nat; auto; [apply Qcle_refl|lia|apply near_refl].
  - split; [|apply near_plus; auto]. set (s := qsum l) in *. clearbody s. clear - A C. qc_lra.
Qed.
Lemma nn_pos n l l' : Forall2 (nn n) l l' -> forall y, In y l' -> (0 <= y)%Qc.
Proof. induction 1 as [|x y l l' [A B] F IH]; cbn; [intros z []|]. intros z [<-|Hz]; auto. apply near_nonneg with u n x; auto. Qed.
Lemma nn_tot n m l l' : Forall2 (nn n) l l' -> (List.length l <= m)%nat -> nn (n + m) (qsum l) (tot l').
Proof.
  intros F L. destruct (nn_sum n l l' F) as [A B]. split; auto.
  apply near_trans with (qsum l'); auto. apply near_more with (List.length l'); auto.
  - apply near_nonneg with u n (qsum l); auto.
  - rewrite <- (F2_len _ _ _ F). auto.
  - apply Ht. apply nn_pos with n l. auto.
Qed.
Lemma nn_mul n m x y x' y' : nn n x y -> nn m x' y' -> nn (n + m + k) (x * x') (mul y y').
Proof.
  intros [A B] [C D]. split; [apply qcmult_nonneg; auto|]. apply near_trans with (y * y')%Qc.
  - apply qcmult_nonneg; auto.
  - apply near_mult; auto.
  - apply Hm; [apply near_nonneg with u n x|apply near_nonneg with u m x']; auto.
Qed.
Lemma nn_one n : nn n 1%Qc 1%Qc.
Proof. split; [vm_compute; discriminate|]. apply near_more with 0%nat; auto; [vm_compute; discriminate|lia|apply near_refl]. Qed.

(** ** Sum *)
Lemma where_length n l : (List.length (where_from n l) <= List.length l)%nat.
Proof. revert n. induction l as [|b l IH]; intros n; cbn; [lia|]. destruct b; cbn; specialize (IH (S n)); lia. Qed.
Lemma take_length {A} (l : list A) idx : (List.length (take_rows l idx) <= List.length idx)%nat.
Proof. unfold take_rows. induction idx as [|i idx IH]; cbn; [lia|]. rewrite app_length. destruct (nth_error l i); cbn; lia. Qed.
Lemma put_true_length is : forall c, List.length (put_true is c) = List.length is.
Proof. induction is as [|[|] is IH]; intros [|b c]; cbn; auto. Qed.
Lemma mt_column_length C flag is v st col is' : mt_column C flag is v st col = Ok is' -> List.length is' = List.length is.
Proof.
  unfold mt_column. destruct (select C is) as [|r0 rows]; [intros X; injection X as ->; auto|].
  destruct (if flag then v_B v else _) as [B|]; [|discriminate]. destruct (mapM _ _) as [x1|]; cbn [bind]; [|discriminate].
  destruct (py_index B st) as [e|]; cbn [bind]; [|discriminate]. intros X. injection X as <-. apply put_true_length.
Qed.
Lemma mt_length C vars mvars row flag is : mt_iscompatible C vars mvars row flag = Ok is -> List.length is = List.length C.
Proof.
  unfold mt_iscompatible. destruct mvars as [|v0 mv]; [discriminate|]. destruct (get_value _ _) as [sts|]; cbn [bind]; [|discriminate].
  set (todo := combine _ _). clearbody todo.
  assert (G : forall is0, List.length is0 = List.length C ->
    foldM (fun is t => mt_column C flag is (fst (fst t)) (snd (fst t)) (snd t)) todo is0 = Ok is -> List.length is = List.length C).
  { induction todo as [|t todo IH]; intros is0 L; cbn [foldM]; [intros X; injection X as <-; auto|].
    destruct (mt_column _ _ _ _ _ _) as [is1|] eqn:E; cbn [bind]; [|discriminate]. apply IH. rewrite (mt_column_length _ _ _ _ _ _ _ E). auto. }
  apply G. apply map_length.
Qed.

Lemma filter_len {A} (f : A -> bool) l : (List.length (filter f l) <= List.length l)%nat.
Proof. induction l as [|a l IH]; cbn; [lia|]. destruct (f a); cbn; lia. Qed.
Lemma subset_rows M rows M' : get_subset M rows false = Ok M' -> (nrows M' <= nrows M)%nat.
Proof.
  unfold get_subset. cbn [bind]. unfold mk_cpm. destruct (_ <=? _)%nat; [|discriminate]. destruct (check_C _ _); cbn [bind]; [|discriminate].
  destruct (check_p _ _); cbn [bind]; [|discriminate]. intros X. injection X as <-. unfold nrows at 1. cbn [c_C].
  eapply Nat.le_trans; [apply take_length|]. eapply Nat.le_trans; [apply filter_len|]. rewrite seq_length. auto.
Qed.
Definition two (R : Qc -> Qc -> Prop) (a b : list (list Z) * list Qc) : Prop := fst a = fst b /\ Forall2 R (snd a) (snd b).
Lemma sum_loop_near n m : forall fuel M M', alike u n M M' -> (nrows M <= m)%nat ->
  rrel (two (nn (n + m))) (sum_loop fuel M) (ri_sum_loop tot fuel M').
Proof.
  induction fuel as [|fuel IH]; intros M M' A Lm; destruct A as (E1 & E2 & E3 & F); cbn [sum_loop ri_sum_loop]; rewrite <- E1, <- E3.
  - destruct (c_C M); [split; [auto|constructor]|]. destruct (c_vars M); [split; [auto|constructor]|reflexivity].
  - destruct (c_C M) as [|r rows] eqn:EC; [split; [auto|constructor]|]. destruct (c_vars M) as [|v0 vs] eqn:EV; [split; [auto|constructor]|].
    apply rrel_same. intros is Ei. apply (rrel_bind (shape (nn n))).
    { apply get_subset_shape. repeat split; [congruence|congruence|congruence|exact F]. }
    intros N N' EN _ SN. apply (rrel_bind (two (nn (n + m)))).
    { apply IH; [exact SN|]. apply subset_rows in EN. lia. }
    intros [Cs ps] [Cs' ps'] _ _ [Q1 Q2]. cbn [fst snd] in *. split; [cbn; congruence|]. cbn [snd].
    assert (L : (List.length (take_rows (c_p M) (where_ is)) <= m)%nat).
    { eapply Nat.le_trans; [apply take_length|]. eapply Nat.le_trans; [apply where_length|]. rewrite (mt_length _ _ _ _ _ _ Ei). unfold nrows in Lm. rewrite EC in Lm. auto. }
    destruct F as [|x y l l' Hxy F]; [exact Q2|]. constructor; [|exact Q2]. apply nn_tot; [|exact L]. apply F2_take. constructor; auto.
Qed.

Lemma sum_near_cpm n M M' vs flag : alike u n M M' ->
  rrel (alike u (n + nrows M)) (sum M vs flag) (ri_sum tot M' vs flag).
Proof.
  intros A. unfold sum, ri_sum. rewrite <- (resolve_shape _ M M' vs A). destruct A as (E1 & E2 & E3 & F).
  unfold children, parents, ncols. rewrite <- E1, <- E2, <- E3. apply rrel_same. intros l _.
  match goal with |- context [if flag then ?a else ?b] => destruct (if flag then a else b) as [rem idx] end. cbv zeta.
  apply (rrel_bind (shape (nn n))); [apply mk_cpm_shape; exact F|]. intros N N' EN _ SN.
  assert (Ln : nrows N = nrows M).
  { revert EN. unfold mk_cpm. destruct (_ <=? _)%nat; [|discriminate]. destruct (check_C _ _); cbn [bind]; [|discriminate].
    destruct (check_p _ _); cbn [bind]; [|discriminate]. intros X. injection X as <-. unfold nrows. cbn [c_C]. apply map_length. }
  assert (Ln' : nrows N' = nrows M) by (rewrite <- Ln; unfold nrows; destruct SN as (_ & _ & -> & _); auto).
  rewrite Ln, Ln'. apply (rrel_bind (two (nn (n + nrows M)))).
  { apply sum_loop_near; [exact SN|]. lia. }
  intros [Cs ps] [Cs' ps'] _ _ [Q1 Q2]. cbn [fst snd] in Q1, Q2. subst Cs'. destruct (idx ++ _); [reflexivity|]. apply mk_cpm_shape. exact Q2.
Qed.

Lemma get_prob_near n M M' vs sts flag : alike u n M M' ->
  rrel (nn (n + nrows M)) (get_prob M vs sts flag) (ri_get_prob tot M' vs sts flag).
Proof.
  intros A. unfold get_prob, ri_get_prob. rewrite <- (resolve_shape _ M M' vs A). pose proof A as (E1 & E2 & E3 & F). rewrite <- E1, <- E3.
  apply rrel_same. intros l _. destruct (_ =? _)%nat; [|reflexivity]. apply rrel_same. intros conv _. apply rrel_same. intros Mc _.
  apply rrel_same. intros is Ei. apply (rrel_bind (shape (nn n))); [apply get_subset_shape; exact A|]. intros N N' EN _ (_ & _ & _ & FN). cbn.
  apply nn_tot; [exact FN|]. revert EN. unfold get_subset. destruct (if flag then _ else _) as [idx|] eqn:Eidx; cbn [bind]; [|discriminate].
  unfold mk_cpm. destruct (_ <=? _)%nat; [|discriminate]. destruct (check_C _ _); cbn [bind]; [|discriminate].
  destruct (check_p _ _); cbn [bind]; [|discriminate]. intros X. injection X as <-. cbn [c_p].
  eapply Nat.le_trans; [apply take_length|]. destruct flag.
  - destruct (forallb _ _); [|discriminate]. injection Eidx as <-. eapply Nat.le_trans; [apply where_length|]. rewrite (mt_length _ _ _ _ _ _ Ei). auto.
  - injection Eidx as <-. eapply Nat.le_trans; [apply filter_len|]. rewrite seq_length. auto.
Qed.

(** ** Product *)
Lemma concat_F2 {A B} (R : B -> B -> Prop) (f g : A -> list B) l l' (Q : A -> A -> Prop) : Forall2 Q l l' -> (forall a b, Q a b -> Forall2 R (f a) (g b)) ->
  Forall2 R (List.concat (map f l)) (List.concat (map g l')).
Proof. intros H K. induction H; cbn; [constructor|]. apply Forall2_app; auto. Qed.
Lemma combine_F2 {A B} (R : A -> A -> Prop) (S : B -> B -> Prop) l l' r r' : Forall2 R l l' -> Forall2 S r r' ->
  Forall2 (fun a b => R (fst a) (fst b) /\ S (snd a) (snd b)) (combine l r) (combine l' r').
Proof. intros H. revert r r'. induction H; intros r r' K; [constructor|]. destruct K; cbn; constructor; auto. Qed.
Lemma F2_ones {A} n (l : list A) : Forall2 (nn n) (map (fun _ => 1%Qc) l) (map (fun _ => 1%Qc) l).
Proof. induction l; cbn; constructor; auto. apply nn_one. Qed.

Lemma product_ord_near n m M1 M1' M2 M2' : alike u n M1 M1' -> alike u m M2 M2' ->
  rrel (alike u (n + m + k)) (product_ord M1 M2) (ri_product_ord mul M1' M2').
Proof.
  intros (E1 & E2 & E3 & F) (G1 & G2 & G3 & H). unfold product_ord, ri_product_ord, common_child, children, parents.
  rewrite <- E1, <- E2, <- E3, <- G1, <- G2, <- G3. destruct (existsb _ _); [reflexivity|]. cbv zeta.
  set (p1 := match c_p M1, c_p M2 with [], _ :: _ => map (fun _ => 1%Qc) (c_C M1) | p, _ => p end).
  set (p1' := match c_p M1', c_p M2' with [], _ :: _ => map (fun _ => 1%Qc) (c_C M1) | p, _ => p end).
  set (p2 := match c_p M1, c_p M2 with _ :: _, [] => map (fun _ => 1%Qc) (c_C M2) | _, p => p end).
  set (p2' := match c_p M1', c_p M2' with _ :: _, [] => map (fun _ => 1%Qc) (c_C M2) | _, p => p end).
  assert (P1 : Forall2 (nn n) p1 p1').
  { unfold p1, p1'. destruct F; destruct H; try constructor; auto. apply F2_ones. }
  assert (P2 : Forall2 (nn m) p2 p2').
  { unfold p2, p2'. destruct F; destruct H; try constructor; auto. apply F2_ones. }
  clearbody p1 p1' p2 p2'. destruct (c_C M1) as [|r rows]; [reflexivity|]. destruct (c_vars M1) as [|v0 vs]; [reflexivity|].
  apply (rrel_bind (shape (nn m))); [apply mk_cpm_shape; exact P2|]. intros N N' _ _ SN.
  apply (rrel_bind (Forall2 (two (nn m)))).
  { apply rrel_mapM. intros r1 _. apply (rrel_bind (shape (nn m))); [apply condition_shape; exact SN|].
    intros Q Q' _ _ (_ & _ & C3 & C4). cbn. split; cbn; [rewrite C3; auto|exact C4]. }
  intros parts parts' _ _ FP. destruct p1 as [|x l]; destruct p1' as [|y l']; [reflexivity|inversion P1|inversion P1|].
  set (p1 := x :: l) in *. set (p1' := y :: l') in *. clearbody p1 p1'.
  assert (R1 : List.concat (map (fun cp : list (list Z) * list Qc => fst cp) parts) = List.concat (map (fun cp : list (list Z) * list Qc => fst cp) parts')).
  { f_equal. clear - FP. induction FP as [|a b l l' [X _] FP IH]; cbn; congruence. }
  assert (R2 : Forall2 (nn (n + m + k)) (List.concat (map (fun cpq => map (fun q => (q * snd cpq)%Qc) (snd (fst cpq))) (combine parts p1)))
                                       (List.concat (map (fun cpq => map (fun q => mul q (snd cpq)) (snd (fst cpq))) (combine parts' p1')))).
  { eapply concat_F2; [apply (combine_F2 _ _ _ _ _ _ FP P1)|]. intros [[c q] p] [[c' q'] p'] [[_ Hq] Hp]. cbn [fst snd] in *.
    clear - Hq Hp Hm u0 u1. induction Hq as [|a b q q' Hab Hq IH]; cbn; constructor; auto.
    replace (n + m + k)%nat with (m + n + k)%nat by lia. apply nn_mul; auto. }
  rewrite <- R1. set (rw := List.concat (map _ parts)) in *. clearbody rw.
  set (ps := List.concat (map _ (combine parts p1))) in *. set (ps' := List.concat (map _ (combine parts' p1'))) in *. clearbody ps ps'.
  apply (rrel_bind (shape (nn (n + m + k)))); [apply mk_cpm_shape; exact R2|]. intros _ _ _ _ _.
  assert (FS := sort_pr (nn (n + m + k)) (fun a b => lex_ltb (rev a) (rev b)) _ _ (combine_pr _ rw ps ps' R2)).
  unfold sort_rows. set (s := sort_desc _ (combine rw ps)) in *. set (s' := sort_desc _ (combine rw ps')) in *. clearbody s s'.
  rewrite <- (pr_fst _ _ _ FS). apply mk_cpm_shape. apply (pr_snd _ _ _ FS).
Qed.

Lemma product_near n m M1 M1' M2 M2' : alike u n M1 M1' -> alike u m M2 M2' ->
  rrel (alike u (n + m + k)) (product M1 M2) (ri_product mul M1' M2').
Proof.
  intros A B. unfold product, ri_product, ncols. destruct A as (E1 & EA), B as (F1 & FA). rewrite <- E1, <- F1.
  destruct (_ <? _)%nat; [|apply product_ord_near; split; auto].
  replace (n + m + k)%nat with (m + n + k)%nat by lia. apply product_ord_near; split; auto.
Qed.

(** ** Lists of CPMs: the errors of all, counting [k] for each *)
Inductive alikes : nat -> list cpm -> list cpm -> Prop :=
| al_nil : alikes 0 [] []
| al_cons n w M M' l l' : alike u w M M' -> alikes n l l' -> alikes (w + k + n) (M :: l) (M' :: l').
Lemma alikes_filter f n l l' : (forall M M', c_vars M = c_vars M' -> f M = f M') -> alikes n l l' ->
  exists a b, n = (a + b)%nat /\ alikes a (filter f l) (filter f l') /\ alikes b (filter (fun M => negb (f M)) l) (filter (fun M => negb (f M)) l').
Proof.
  intros Hf. induction 1 as [|n w M M' l l' A H (a & b & -> & Ha & Hb)]; [exists 0%nat, 0%nat; repeat constructor|]. cbn [filter].
  rewrite <- (Hf M M') by apply A. destruct (f M); cbn [negb].
  - exists (w + k + a)%nat, b. split; [lia|]. split; [constructor; auto|auto].
  - exists a, (w + k + b)%nat. split; [lia|]. split; [auto|constructor; auto].
Qed.
Lemma product_fold_near : forall l l' n w M M', alike u w M M' -> alikes n l l' ->
  rrel (alike u (w + n)) (foldM product l M) (foldM (ri_product mul) l' M').
Proof.
  induction l as [|N l IH]; intros l' n w M M' A H; inversion H as [|n1 w1 N1 N' l1 l1' HN HL]; subst; cbn [foldM].
  - rewrite Nat.add_0_r. exact A.
  - apply (rrel_bind (alike u (w + w1 + k))); [apply product_near; auto|]. intros P P' _ _ HP.
    replace (w + (w1 + k + n1))%nat with (w + w1 + k + n1)%nat by lia. apply IH; auto.
Qed.
Lemma product_list_near n l l' : alikes n l l' -> rrel (alike u (n - k)) (product_list l) (ri_product_list mul l').
Proof.
  intros H. inversion H as [|n1 w M M' l1 l1' A HL]; subst; [reflexivity|]. cbn [product_list ri_product_list].
  replace (w + k + n1 - k)%nat with (w + n1)%nat by lia. apply product_fold_near; auto.
Qed.
Lemma alikes_k n l l' : alikes n l l' -> l <> [] -> (k <= n)%nat.
Proof. intros []; [congruence|lia]. Qed.

Lemma elim_near vars : forall n l l', alikes n l l' ->
  rrel (alikes (n + rows_summed l vars)) (variable_elim_list l vars) (foldM (ri_elim_step mul tot) vars l').
Proof.
  induction vars as [|v vars IH]; intros n l l' H.
  - cbn. rewrite Nat.add_0_r. auto.
  - unfold variable_elim_list. cbn [foldM rows_summed].
    destruct (alikes_filter (in_scope v) n l l') as (a & b & -> & Ha & Hb); [intros M M' E; unfold in_scope; rewrite E; auto|auto|].
    assert (PL := product_list_near _ _ _ Ha).
    assert (SS : rrel (alikes (a + b + match product_list (filter (in_scope v) l) with Ok M => nrows M | Err _ => 0%nat end)) (elim_step l v) (ri_elim_step mul tot l' v)).
    { unfold elim_step, ri_elim_step. apply (rrel_bind (alike u (a - k))); [exact PL|]. intros M M' EM _ HM. rewrite EM. cbn [bind].
      apply (rrel_bind (alike u (a - k + nrows M))); [apply sum_near_cpm; auto|]. intros S S' _ _ HS. cbn.
      assert (Ka : (k <= a)%nat).
      { apply (alikes_k _ _ _ Ha). intros X. rewrite X in EM. discriminate. }
      replace (a + b + nrows M)%nat with ((a - k + nrows M) + k + b)%nat by lia. constructor; auto. }
    destruct (elim_step l v) as [l1|e] eqn:E1; destruct (ri_elim_step mul tot l' v) as [l1'|e'] eqn:E2; cbn [rrel bind] in *; try contradiction; auto.
    destruct (product_list (filter (in_scope v) l)) as [M|] eqn:EM; [|unfold elim_step in E1; rewrite EM in E1; discriminate].
    rewrite Nat.add_assoc. apply IH. exact SS.
Qed.

Lemma alikes_all n l l' : Forall2 (alike u n) l l' -> alikes (List.length l * (n + k)) l l'.
Proof. induction 1; cbn; constructor; auto. Qed.
Lemma variable_elim_near n l l' vars : Forall2 (alike u n) l l' ->
  rrel (alike u (elim_errors k n l vars)) (variable_elim l vars) (ri_variable_elim mul tot l' vars).
Proof.
  intros H. unfold variable_elim, ri_variable_elim. apply (rrel_bind (alikes (List.length l * (n + k) + rows_summed l vars))).
  { apply elim_near. apply alikes_all. auto. }
  intros r r' _ _ HR. pose proof (product_list_near _ _ _ HR) as PL.
  assert (E : (List.length l * (n + k) + rows_summed l vars - k <= elim_errors k n l vars)%nat).
  { unfold elim_errors. destruct (List.length l) as [|c]; [lia|]. rewrite Nat.mul_add_distr_l. cbn [Nat.sub]. nia. }
  destruct (product_list r), (ri_product_list mul r'); cbn in *; auto. apply alike_more with (List.length l * (n + k) + rows_summed l vars - k)%nat; auto.
Qed.
End Near.
