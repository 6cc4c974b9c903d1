(** Facts about the composite-state coding of variable.py. *)
From Coq Require Import ZArith List String Bool Arith Lia Sorting.Sorted Permutation.
From Verif Require Import Py Num Vari.
Import ListNotations.
Open Scope Z_scope.

(** * Generic list facts *)

Lemma mem_Z_In x l : mem_Z x l = true <-> In x l.
Proof.
  unfold mem_Z. rewrite existsb_exists. split.
  - intros (y & H & E). apply Z.eqb_eq in E. subst; auto.
  - intros H. exists x. split; auto. apply Z.eqb_refl.
Qed.

Lemma mem_str_In x l : mem_str x l = true <-> In x l.
Proof.
  unfold mem_str. rewrite existsb_exists. split.
  - intros (y & H & E). apply String.eqb_eq in E. subst; auto.
  - intros H. exists x. split; auto. apply String.eqb_refl.
Qed.

Lemma set_eqb_spec a b : set_eqb a b = true <-> (forall x, In x a <-> In x b).
Proof.
  unfold set_eqb. rewrite andb_true_iff, !forallb_forall. split.
  - intros [H1 H2] x. split; intro H; apply mem_Z_In; auto.
  - intros H; split; intros x Hx; apply mem_Z_In, H; auto.
Qed.

Lemma tuple_eqb_spec a b : tuple_eqb a b = true <-> a = b.
Proof.
  revert b; induction a; destruct b; cbn; split; try congruence; auto.
  - rewrite andb_true_iff, Z.eqb_eq. intros [-> H]. f_equal. apply IHa; auto.
  - intros [= -> ->]. rewrite Z.eqb_refl. apply IHa; auto.
Qed.

Lemma find_idx_ext {A} (f g : A -> bool) l :
  (forall x, In x l -> f x = g x) -> find_idx f l = find_idx g l.
Proof.
  induction l; intros H; cbn; auto. rewrite (H a) by (left; auto).
  rewrite IHl by (intros; apply H; right; auto). auto.
Qed.

Lemma find_idx_some {A} (f : A -> bool) l i :
  find_idx f l = Some i ->
  exists a, nth_error l i = Some a /\ f a = true /\ forall j b, (j < i)%nat -> nth_error l j = Some b -> f b = false.
Proof.
  revert i; induction l; cbn; intros i H; [congruence|].
  destruct (f a) eqn:E.
  - injection H as <-. exists a. repeat split; auto. intros; lia.
  - destruct (find_idx f l) as [j|] eqn:F; [|congruence]. injection H as <-.
    destruct (IHl j eq_refl) as (b & H1 & H2 & H3). exists b. repeat split; auto.
    intros [|k] c Hk Hc; cbn in Hc; [congruence|]. eapply H3; eauto. lia.
Qed.

Lemma find_idx_none {A} (f : A -> bool) l :
  find_idx f l = None <-> (forall x, In x l -> f x = false).
Proof.
  induction l; cbn; split; intros H; auto; try tauto.
  - destruct (f a) eqn:E; [congruence|]. destruct (find_idx f l) eqn:F; [congruence|].
    intros x [->|Hx]; auto. apply IHl; auto.
  - rewrite (H a) by auto. assert (find_idx f l = None) as -> by (apply IHl; auto). auto.
Qed.

Lemma find_idx_app {A} (f : A -> bool) l1 l2 :
  find_idx f (l1 ++ l2) =
  match find_idx f l1 with
  | Some i => Some i
  | None => match find_idx f l2 with Some j => Some (List.length l1 + j)%nat | None => None end
  end.
Proof.
  induction l1; cbn; auto.
  - destruct (find_idx f l2); auto.
  - destruct (f a); auto. rewrite IHl1. destruct (find_idx f l1); auto.
    destruct (find_idx f l2); auto.
Qed.

Lemma find_idx_in {A} (f : A -> bool) l x : In x l -> f x = true -> exists i, find_idx f l = Some i.
Proof.
  intros H E. destruct (find_idx f l) eqn:F; eauto.
  rewrite find_idx_none in F. rewrite F in E; congruence.
Qed.

Lemma NoDup_nth_error_inj {A} (l : list A) i j a :
  NoDup l -> nth_error l i = Some a -> nth_error l j = Some a -> i = j.
Proof.
  intros H Hi Hj. rewrite NoDup_nth_error in H. apply H.
  - apply nth_error_Some. congruence.
  - congruence.
Qed.

Lemma py_index_nth {A} (l : list A) i a :
  nth_error l i = Some a -> py_index l (Z.of_nat i) = Ok a.
Proof.
  intros H. unfold py_index.
  assert (i < List.length l)%nat by (apply nth_error_Some; congruence).
  rewrite (proj2 (Z.ltb_ge _ _)) by lia.
  rewrite (proj2 (Z.leb_le _ _)) by lia.
  rewrite (proj2 (Z.ltb_lt _ _)) by lia. cbn. rewrite Nat2Z.id, H. auto.
Qed.

Lemma py_index_ok_nonneg {A} (l : list A) z a :
  0 <= z -> (py_index l z = Ok a <-> nth_error l (Z.to_nat z) = Some a).
Proof.
  intros Hz. split.
  - unfold py_index. rewrite (proj2 (Z.ltb_ge z 0)) by lia.
    destruct ((0 <=? z) && (z <? Z.of_nat (List.length l))); [|congruence].
    destruct (nth_error l (Z.to_nat z)); congruence.
  - intros H. apply py_index_nth in H. rewrite Z2Nat.id in H by lia. auto.
Qed.

Lemma py_index_out {A} (l : list A) z :
  Z.of_nat (List.length l) <= z -> py_index l z = Err IndexError.
Proof.
  intros Hz. unfold py_index. rewrite (proj2 (Z.ltb_ge z 0)) by lia.
  rewrite (proj2 (Z.ltb_ge z (Z.of_nat (List.length l)))) by lia. rewrite andb_false_r. auto.
Qed.

Lemma py_index_cases {A} (l : list A) z :
  (exists a, py_index l z = Ok a) \/ py_index l z = Err IndexError.
Proof.
  unfold py_index. destruct (_ && _); auto. destruct (nth_error l _); eauto.
Qed.

(** * [zrange] *)
Lemma zrange_length a b : List.length (zrange a b) = Z.to_nat (b - a).
Proof. unfold zrange. rewrite map_length, seq_length. auto. Qed.

Lemma In_zrange a b x : In x (zrange a b) <-> a <= x < b.
Proof.
  unfold zrange. rewrite in_map_iff. split.
  - intros (i & <- & H). apply in_seq in H. lia.
  - intros H. exists (Z.to_nat (x - a)). split; [lia|]. apply in_seq. lia.
Qed.

Lemma zrange_cons a b : a < b -> zrange a b = a :: zrange (a + 1) b.
Proof.
  intros H. unfold zrange. replace (Z.to_nat (b - a)) with (S (Z.to_nat (b - (a + 1)))) by lia.
  cbn [seq map]. f_equal; [lia|]. rewrite <- seq_shift, map_map. apply map_ext. intros; lia.
Qed.

Lemma zrange_nil a b : b <= a -> zrange a b = [].
Proof. intros H. unfold zrange. replace (Z.to_nat (b - a)) with O by lia. auto. Qed.

Lemma zrange_sorted a b : StronglySorted Z.lt (zrange a b).
Proof.
  remember (Z.to_nat (b - a)) as n eqn:E. revert a E. induction n; intros a E.
  - rewrite zrange_nil by lia. constructor.
  - rewrite zrange_cons by lia. constructor; [apply IHn; lia|].
    apply Forall_forall. intros x Hx. apply In_zrange in Hx. lia.
Qed.

Lemma zrange_app a m b : a <= m -> m <= b -> zrange a b = zrange a m ++ zrange m b.
Proof.
  intros H1 H2. remember (Z.to_nat (m - a)) as n eqn:E. revert a H1 E. induction n; intros a H1 E.
  - assert (m = a) by lia. subst. rewrite (zrange_nil a a) by lia. auto.
  - rewrite (zrange_cons a b), (zrange_cons a m) by lia. cbn. f_equal. apply IHn; lia.
Qed.

Lemma sorted_lt_NoDup l : StronglySorted Z.lt l -> NoDup l.
Proof.
  induction 1 as [|a l Hs IH Hf]; constructor; auto.
  intros Hin. rewrite Forall_forall in Hf. specialize (Hf _ Hin). lia.
Qed.

Lemma zrange_NoDup a b : NoDup (zrange a b).
Proof. apply sorted_lt_NoDup, zrange_sorted. Qed.

(** Two strictly sorted lists with the same elements are equal. *)
Lemma sorted_lt_ext l1 l2 :
  StronglySorted Z.lt l1 -> StronglySorted Z.lt l2 ->
  (forall x, In x l1 <-> In x l2) -> l1 = l2.
Proof.
  revert l2; induction l1 as [|a l1 IH]; intros l2 H1 H2 E.
  - destruct l2 as [|b l2]; auto. exfalso. apply (E b). left; auto.
  - destruct l2 as [|b l2]; [exfalso; apply (E a); left; auto|].
    inversion_clear H1 as [|? ? S1 F1]. inversion_clear H2 as [|? ? S2 F2].
    rewrite Forall_forall in F1, F2.
    assert (a = b).
    { destruct (proj1 (E a) (or_introl eq_refl)) as [->|Ha]; auto.
      destruct (proj2 (E b) (or_introl eq_refl)) as [->|Hb]; auto.
      specialize (F1 _ Hb). specialize (F2 _ Ha). lia. }
    subst b. f_equal. apply IH; auto. intros x. split; intros Hx.
    + destruct (proj1 (E x) (or_intror Hx)) as [->|]; auto. specialize (F1 _ Hx). lia.
    + destruct (proj2 (E x) (or_intror Hx)) as [->|]; auto. specialize (F2 _ Hx). lia.
Qed.

(** * Stable sort *)
Lemma insert_desc_perm {A} (g : A -> A -> bool) x l : Permutation (insert_desc g x l) (x :: l).
Proof.
  induction l; cbn; auto. destruct (g a x); auto.
  rewrite IHl. apply perm_swap.
Qed.
Lemma sort_desc_perm {A} (g : A -> A -> bool) l : Permutation (sort_desc g l) l.
Proof. induction l; cbn; auto. rewrite insert_desc_perm. auto. Qed.

Lemma sort_Z_sorted l : NoDup l -> StronglySorted Z.lt (sort_Z l).
Proof.
  unfold sort_Z. induction l as [|a l IH]; intros H; [constructor|].
  change (sort_desc Z.ltb (a :: l)) with (insert_desc Z.ltb a (sort_desc Z.ltb l)).
  inversion_clear H as [|? ? Hn Hd]. specialize (IH Hd).
  assert (Hp : forall x, In x (sort_desc Z.ltb l) -> x <> a).
  { intros x Hx ->. apply Hn. eapply Permutation_in; [apply sort_desc_perm|]; eauto. }
  revert IH Hp. generalize (sort_desc Z.ltb l) as m. clear.
  induction m as [|b m IH]; intros Hs Hp; cbn.
  - constructor; constructor.
  - inversion_clear Hs as [|? ? Sm F]. destruct (Z.ltb_spec b a).
    + constructor; [apply IH; auto; intros; apply Hp; right; auto|].
      apply Forall_forall. intros x Hx.
      apply (Permutation_in _ (insert_desc_perm _ _ _)) in Hx. destruct Hx as [->|Hx]; auto.
      rewrite Forall_forall in F; auto.
    + assert (b <> a) by (apply Hp; left; auto). constructor; [constructor; auto|].
      constructor; [lia|]. apply Forall_forall. intros x Hx. rewrite Forall_forall in F.
      specialize (F _ Hx). lia.
Qed.

Lemma sort_Z_In l x : In x (sort_Z l) <-> In x l.
Proof.
  split; apply Permutation_in; [|symmetry]; apply sort_desc_perm.
Qed.

(** * [combinations] *)
Inductive sublist {A} : list A -> list A -> Prop :=
| sl_nil l : sublist [] l
| sl_take a c l : sublist c l -> sublist (a :: c) (a :: l)
| sl_skip a c l : sublist c l -> sublist c (a :: l).

Lemma combinations_spec {A} (l : list A) r c :
  In c (combinations l r) <-> sublist c l /\ List.length c = r.
Proof.
  revert r c; induction l as [|a l IH]; intros [|r] c; cbn.
  - split.
    + intros [<-|[]]. split; [constructor|auto].
    + intros [_ H]. destruct c; cbn in H; [auto|lia].
  - split; [tauto|]. intros [H E]. inversion H; subst; cbn in E; lia.
  - split.
    + intros [<-|[]]. split; [constructor|auto].
    + intros [_ H]. destruct c; cbn in H; [auto|lia].
  - rewrite in_app_iff, in_map_iff, IH. split.
    + intros [(c' & <- & Hc)|[Hc E]].
      * apply IH in Hc as [Hc E]. split; [constructor; auto|cbn; lia].
      * split; [constructor; auto|auto].
    + intros [H E]. inversion H; subst.
      * cbn in E; lia.
      * left. exists c0. split; auto. apply IH. split; auto.
      * right. split; auto.
Qed.

Lemma NoDup_app_intro {A} (l1 l2 : list A) :
  NoDup l1 -> NoDup l2 -> (forall x, In x l1 -> ~ In x l2) -> NoDup (l1 ++ l2).
Proof.
  induction l1; cbn; intros H1 H2 H; auto.
  inversion_clear H1 as [|? ? Hn Hd]. constructor.
  - rewrite in_app_iff. intros [|]; [auto|]. apply (H a); auto.
  - apply IHl1; auto.
Qed.

Lemma sublist_In {A} (c l : list A) x : sublist c l -> In x c -> In x l.
Proof. induction 1; cbn; intuition. Qed.

Lemma combinations_NoDup {A} (l : list A) r : NoDup l -> NoDup (combinations l r).
Proof.
  revert r; induction l as [|a l IH]; intros [|r] H; cbn; try (repeat constructor; cbn; tauto).
  inversion_clear H as [|? ? Hn Hd].
  apply NoDup_app_intro; auto.
  - apply FinFun.Injective_map_NoDup; auto. intros x y; congruence.
  - intros c Hc Hc'. apply in_map_iff in Hc as (c0 & <- & _).
    apply combinations_spec in Hc' as [Hs _]. apply Hn. eapply sublist_In; eauto. left; auto.
Qed.

Lemma sublist_sorted c l : sublist c l -> StronglySorted Z.lt l -> StronglySorted Z.lt c.
Proof.
  induction 1; intros H'; [constructor| |].
  - inversion_clear H'. constructor; auto. rewrite Forall_forall in *. intros x Hx.
    apply H1. eapply sublist_In; eauto.
  - inversion_clear H'. auto.
Qed.

Lemma sorted_sublist c l :
  StronglySorted Z.lt c -> StronglySorted Z.lt l -> (forall x, In x c -> In x l) -> sublist c l.
Proof.
  revert c; induction l as [|b l IH]; intros c Hc Hl Hin.
  - destruct c as [|a c]; [constructor|]. exfalso. apply (Hin a). left; auto.
  - destruct c as [|a c]; [constructor|].
    inversion_clear Hl as [|? ? Sl Fl]. inversion Hc as [|? ? Sc Fc]; subst.
    rewrite Forall_forall in Fl, Fc.
    destruct (Hin a (or_introl eq_refl)) as [->|Ha].
    + constructor. apply IH; auto. intros x Hx. destruct (Hin x (or_intror Hx)) as [->|]; auto.
      specialize (Fc _ Hx). lia.
    + constructor. apply IH; auto. intros x Hx. destruct (Hin x Hx) as [->|]; auto.
      destruct Hx as [->|Hx]; [auto|]. specialize (Fl _ Ha). specialize (Fc _ Hx). lia.
Qed.

(** elements of the group of size [k] *)
Lemma group_spec n k c :
  In c (combinations (zrange 0 (Z.of_nat n)) k) <->
  StronglySorted Z.lt c /\ (forall x, In x c -> 0 <= x < Z.of_nat n) /\ List.length c = k.
Proof.
  rewrite combinations_spec. split.
  - intros [H E]. repeat split; auto.
    + eapply sublist_sorted; eauto. apply zrange_sorted.
    + eapply sublist_In in H0; eauto. apply In_zrange in H0. lia.
    + eapply sublist_In in H0; eauto. apply In_zrange in H0. lia.
  - intros (H1 & H2 & E). split; auto. apply sorted_sublist; auto.
    + apply zrange_sorted.
    + intros x Hx. apply In_zrange. auto.
Qed.

Lemma sublist_length {A} (c l : list A) : sublist c l -> (List.length c <= List.length l)%nat.
Proof. induction 1; cbn; lia. Qed.

(** * The table [gen_B] *)
Lemma gen_B_spec n c :
  In c (gen_B n) <->
  StronglySorted Z.lt c /\ (forall x, In x c -> 0 <= x < Z.of_nat n) /\ c <> [].
Proof.
  unfold gen_B. rewrite in_flat_map. split.
  - intros (k & Hk & Hc). apply in_seq in Hk. apply group_spec in Hc as (H1 & H2 & H3).
    repeat split; auto; try apply H2; auto. intros ->. cbn in H3. lia.
  - intros (H1 & H2 & H3). exists (List.length c).
    assert (Hs : In c (combinations (zrange 0 (Z.of_nat n)) (List.length c))) by (apply group_spec; auto).
    split; auto. apply in_seq.
    apply combinations_spec in Hs as [Hs _]. apply sublist_length in Hs.
    rewrite zrange_length in Hs. destruct c; [congruence|]. cbn in *. lia.
Qed.

Lemma gen_B_NoDup n : NoDup (gen_B n).
Proof.
  unfold gen_B. assert (H : NoDup (seq 1 n)) by apply seq_NoDup.
  induction (seq 1 n) as [|k ks IH]; cbn; [constructor|]. inversion_clear H as [|? ? Hn Hd].
  apply NoDup_app_intro; auto.
  - apply combinations_NoDup, zrange_NoDup.
  - intros c Hc Hc'. apply in_flat_map in Hc' as (k' & Hk' & Hc').
    apply combinations_spec in Hc as [_ E], Hc' as [_ E']. congruence.
Qed.

(** number of sublists *)
Fixpoint nsum (f : nat -> nat) (m : nat) : nat :=
  match m with O => O | S m' => (nsum f m' + f m')%nat end.

Lemma comb_count_zero {A} (l : list A) r : (List.length l < r)%nat -> combinations l r = [].
Proof.
  intros H. destruct (combinations l r) as [|c cs] eqn:E; auto. exfalso.
  assert (In c (combinations l r)) by (rewrite E; left; auto).
  apply combinations_spec in H0 as [Hs Hl]. apply sublist_length in Hs. lia.
Qed.

Lemma nsum_shift f m : nsum f (S m) = (f O + nsum (fun i => f (S i)) m)%nat.
Proof. induction m; cbn in *; lia. Qed.

Lemma nsum_add f g m : nsum (fun i => f i + g i)%nat m = (nsum f m + nsum g m)%nat.
Proof. induction m; cbn; lia. Qed.

Lemma nsum_ext f g m : (forall i, f i = g i) -> nsum f m = nsum g m.
Proof. intros H. induction m; cbn; auto. Qed.

Lemma comb_total {A} (l : list A) m :
  (List.length l < m)%nat ->
  nsum (fun r => List.length (combinations l r)) m = (2 ^ List.length l)%nat.
Proof.
  revert m; induction l as [|a l IH]; intros m Hm.
  - cbn in Hm. destruct m; [lia|]. rewrite nsum_shift. cbn.
    assert (Z0 : forall k, nsum (fun _ => O) k = O) by (induction k; cbn; lia).
    rewrite Z0. auto.
  - destruct m as [|m]; [lia|]. cbn in Hm. rewrite nsum_shift.
    assert (E0 : forall (l' : list A), combinations l' O = [[]]) by (intros []; auto).
    rewrite E0. cbn [List.length].
    rewrite (nsum_ext _ (fun i => List.length (combinations l i) + List.length (combinations l (S i)))%nat).
    2:{ intros i. cbn. rewrite app_length, map_length. auto. }
    rewrite nsum_add, (IH m) by lia.
    pose proof (IH (S m) ltac:(lia)) as H1. rewrite nsum_shift, E0 in H1. cbn [List.length] in H1.
    cbn [Nat.pow]. lia.
Qed.

Lemma gen_B_length n : List.length (gen_B n) = (2 ^ n - 1)%nat.
Proof.
  unfold gen_B.
  assert (E : forall (ks : list nat) (f : nat -> list (list Z)),
    List.length (flat_map f ks) = list_sum (map (fun k => List.length (f k)) ks)).
  { induction ks; intros; cbn; auto. rewrite app_length, IHks. auto. }
  rewrite E.
  assert (HS : forall m f, list_sum (map f (seq 1 m)) = nsum (fun i => f (S i)) m).
  { induction m; intros f; auto. rewrite seq_S, map_app, list_sum_app, IHm.
    cbn -[seq]. lia. }
  rewrite HS.
  pose proof (comb_total (zrange 0 (Z.of_nat n)) (S n)) as H.
  rewrite zrange_length in H. rewrite nsum_shift in H.
  replace (Z.to_nat (Z.of_nat n - 0)) with n in H by lia.
  specialize (H ltac:(lia)).
  assert (E0 : forall l' : list Z, combinations l' O = [[]]) by (intros []; auto).
  rewrite E0 in H. cbn [List.length] in H. rewrite <- H. lia.
Qed.

(** the first [n] entries are the basic states *)
Lemma combinations_1 {A} (l : list A) : combinations l 1 = map (fun x => [x]) l.
Proof. induction l; cbn; auto. rewrite IHl. destruct l; auto. Qed.

Lemma gen_B_basic n i : (i < n)%nat -> nth_error (gen_B n) i = Some [Z.of_nat i].
Proof.
  intros H. unfold gen_B. destruct n as [|n]; [lia|]. cbn [seq flat_map].
  rewrite combinations_1, nth_error_app1 by (rewrite map_length, zrange_length; lia).
  unfold zrange. rewrite map_map.
  rewrite (map_nth_error _ i (seq 0 (Z.to_nat (Z.of_nat (S n) - 0))) (d := i)); auto.
  rewrite nth_error_nth' with (d := O) by (rewrite seq_length; lia).
  rewrite seq_nth by lia. auto.
Qed.

(** * Stored lookup *)
Lemma gen_B_index_unique n s c :
  In c (gen_B n) -> (set_eqb s c = true <-> (forall x, In x s <-> In x c)).
Proof. intros _. apply set_eqb_spec. Qed.

Lemma stored_state n s :
  NoDup s -> s <> [] -> (forall x, In x s -> 0 <= x < Z.of_nat n) ->
  exists i, py_list_index (set_eqb s) (gen_B n) = Ok (Z.of_nat i) /\
            nth_error (gen_B n) i = Some (sort_Z s).
Proof.
  intros Hd Hn Hr.
  assert (Hs := sort_Z_sorted s Hd).
  assert (Hin : In (sort_Z s) (gen_B n)).
  { apply gen_B_spec. repeat split; auto.
    - apply (proj1 (sort_Z_In _ _)), Hr in H. lia.
    - apply (proj1 (sort_Z_In _ _)), Hr in H. lia.
    - destruct s as [|a s]; [congruence|]. intros E.
      assert (In a (sort_Z (a :: s))) by (apply sort_Z_In; left; auto). rewrite E in H. destruct H. }
  destruct (find_idx_in (set_eqb s) (gen_B n) (sort_Z s) Hin) as [i Hi].
  { apply set_eqb_spec. intros x. symmetry. apply sort_Z_In. }
  exists i. unfold py_list_index. rewrite Hi. split; auto.
  destruct (find_idx_some _ _ _ Hi) as (c & Hc & Hf & _). rewrite Hc. f_equal.
  apply nth_error_In in Hc. apply gen_B_spec in Hc as (Sc & _).
  apply sorted_lt_ext; auto. intros x. rewrite sort_Z_In. symmetry.
  apply (proj1 (set_eqb_spec s c) Hf).
Qed.

Lemma stored_state_bad n s :
  (s = [] \/ exists x, In x s /\ ~ (0 <= x < Z.of_nat n)) ->
  py_list_index (set_eqb s) (gen_B n) = Err ValueError.
Proof.
  intros H. unfold py_list_index.
  assert (find_idx (set_eqb s) (gen_B n) = None) as ->; auto.
  apply find_idx_none. intros c Hc. apply gen_B_spec in Hc as (_ & Hr & Hn).
  destruct (set_eqb s c) eqn:E; auto. exfalso. rewrite set_eqb_spec in E.
  destruct H as [->|(x & Hx & Hb)].
  - destruct c as [|a c]; [congruence|]. apply (E a). left; auto.
  - apply Hb, Hr, E, Hx.
Qed.

(** * On-the-fly lookup *)
Lemma group_offset_spec n k :
  (1 <= k)%nat ->
  group_offset n k = Z.of_nat (List.length (flat_map (combinations (zrange 0 (Z.of_nat n))) (seq 1 (k - 1)))).
Proof.
  intros _. unfold group_offset. generalize (seq 1 (k - 1)) as ks. intros ks.
  assert (G : forall acc, fold_left (fun acc j => acc + Z.of_nat (List.length (combinations (zrange 0 (Z.of_nat n)) j))) ks acc
    = acc + Z.of_nat (List.length (flat_map (combinations (zrange 0 (Z.of_nat n))) ks))).
  { induction ks; intros acc; cbn; [lia|]. rewrite IHks, app_length. lia. }
  rewrite G. lia.
Qed.

Lemma fly_state_eq n s :
  NoDup s -> s <> [] ->
  state_fly n s = py_list_index (set_eqb s) (gen_B n).
Proof.
  intros Hd Hn. unfold state_fly.
  set (f := combinations (zrange 0 (Z.of_nat n))).
  set (t := sort_Z s).
  assert (Lt : List.length t = List.length s) by (apply Permutation_length, sort_desc_perm).
  assert (HL : (1 <= List.length s)%nat) by (destruct s; cbn; [congruence|lia]).
  assert (Ht : StronglySorted Z.lt t) by (apply sort_Z_sorted; auto).
  (* both tests agree on table entries *)
  assert (EQ : forall k c, In c (f k) -> set_eqb s c = tuple_eqb t c).
  { intros k c Hc. apply group_spec in Hc as (Sc & _ & _).
    destruct (tuple_eqb t c) eqn:E.
    - apply tuple_eqb_spec in E. subst c. apply set_eqb_spec. intros x. symmetry. apply sort_Z_In.
    - destruct (set_eqb s c) eqn:E'; auto. exfalso.
      rewrite set_eqb_spec in E'. assert (t = c).
      { apply sorted_lt_ext; auto. intros x. unfold t. rewrite sort_Z_In. auto. }
      apply tuple_eqb_spec in H. congruence. }
  assert (NO : forall k c, k <> List.length s -> In c (f k) -> set_eqb s c = false).
  { intros k c Hk Hc. rewrite (EQ k c Hc). destruct (tuple_eqb t c) eqn:E; auto.
    apply tuple_eqb_spec in E. subst c. apply combinations_spec in Hc as [_ Hc]. lia. }
  assert (NOL : forall ks, ~ In (List.length s) ks -> find_idx (set_eqb s) (flat_map f ks) = None).
  { intros ks Hks. apply find_idx_none. intros c Hc. apply in_flat_map in Hc as (k & Hk & Hc).
    apply (NO k); auto. intros ->. auto. }
  unfold py_list_index.
  rewrite (find_idx_ext (tuple_eqb t) (set_eqb s)) by (intros; symmetry; eauto).
  unfold gen_B. fold f.
  destruct (le_lt_dec (List.length s) n) as [Hle|Hgt].
  - assert (En : seq 1 n = seq 1 ((List.length s - 1) + S (n - List.length s))) by (f_equal; lia).
    rewrite En, seq_app, flat_map_app. cbn [seq flat_map].
    replace (1 + (List.length s - 1))%nat with (List.length s) by lia.
    rewrite !find_idx_app, NOL by (rewrite in_seq; lia).
    rewrite (NOL (seq _ (n - _))) by (rewrite in_seq; lia).
    destruct (find_idx (set_eqb s) (f (List.length s))) as [i|] eqn:E; cbn; auto.
    rewrite group_offset_spec by auto. fold f. f_equal. lia.
  - rewrite (NOL (seq 1 n)) by (rewrite in_seq; lia).
    unfold f at 1. rewrite comb_count_zero by (rewrite zrange_length; lia). auto.
Qed.

Lemma set_fly_loop_spec n ks : forall state current,
  current <= state ->
  set_fly_loop n state current ks =
  match nth_error (flat_map (combinations (zrange 0 (Z.of_nat n))) ks) (Z.to_nat (state - current)) with
  | Some c => Ok c | None => Err IndexError end.
Proof.
  induction ks as [|k ks IH]; intros state current H; cbn.
  - destruct (Z.to_nat (state - current)); auto.
  - set (g := combinations (zrange 0 (Z.of_nat n)) k).
    destruct (Z.ltb_spec state (current + Z.of_nat (List.length g))).
    + rewrite nth_error_app1 by lia. unfold py_index.
      rewrite (proj2 (Z.ltb_ge (state - current) 0)) by lia.
      rewrite (proj2 (Z.leb_le 0 (state - current))) by lia.
      rewrite (proj2 (Z.ltb_lt (state - current) (Z.of_nat (List.length g)))) by lia. auto.
    + rewrite nth_error_app2 by lia. rewrite IH by lia.
      replace (Z.to_nat (state - (current + Z.of_nat (List.length g))))
        with (Z.to_nat (state - current) - List.length g)%nat by lia. auto.
Qed.

Lemma fly_set_eq n state :
  0 <= state ->
  set_fly_loop n state 0 (seq 1 n) = py_index (gen_B n) state.
Proof.
  intros H. rewrite set_fly_loop_spec by lia. replace (state - 0) with state by lia.
  fold (gen_B n). unfold py_index. rewrite (proj2 (Z.ltb_ge state 0)) by lia.
  rewrite (proj2 (Z.leb_le 0 state)) by lia. cbn [andb].
  destruct (Z.ltb_spec state (Z.of_nat (List.length (gen_B n)))); auto.
  destruct (nth_error (gen_B n) (Z.to_nat state)) eqn:E; auto.
  exfalso. assert (nth_error (gen_B n) (Z.to_nat state) <> None) by congruence.
  apply nth_error_Some in H1. lia.
Qed.

(** * Results used by the final theorems *)
Lemma mk_variable_B name values flag :
  v_B (mk_variable name values flag) = Some (gen_B (List.length values)) \/
  v_B (mk_variable name values flag) = None.
Proof. cbn. destruct (stores_B _ _); auto. Qed.

Lemma get_state_table name values flag s :
  NoDup s -> s <> [] ->
  v_get_state (mk_variable name values flag) s = py_list_index (set_eqb s) (gen_B (List.length values)).
Proof.
  intros Hd Hn. unfold v_get_state.
  destruct (mk_variable_B name values flag) as [->| ->]; auto.
  apply fly_state_eq; auto.
Qed.

Lemma get_set_table name values flag i :
  0 <= i ->
  v_get_set (mk_variable name values flag) i = py_index (gen_B (List.length values)) i.
Proof.
  intros H. unfold v_get_set.
  destruct (mk_variable_B name values flag) as [->| ->]; auto.
  apply fly_set_eq; auto.
Qed.

Lemma gen_B_length_Z n : Z.of_nat (List.length (gen_B n)) = 2 ^ Z.of_nat n - 1.
Proof.
  rewrite gen_B_length. assert (1 <= 2 ^ n)%nat by (apply Nat.neq_0_lt_0, Nat.pow_nonzero; lia).
  rewrite Nat2Z.inj_sub by lia. rewrite Nat2Z.inj_pow. auto.
Qed.

Lemma roundtrip_set name values flag s :
  NoDup s -> s <> [] -> (forall x, In x s -> 0 <= x < Z.of_nat (List.length values)) ->
  exists i s', v_get_state (mk_variable name values flag) s = Ok i /\
    0 <= i < 2 ^ Z.of_nat (List.length values) - 1 /\
    v_get_set (mk_variable name values flag) i = Ok s' /\
    (forall x, In x s' <-> In x s).
Proof.
  intros Hd Hn Hr. destruct (stored_state (List.length values) s Hd Hn Hr) as (i & H1 & H2).
  exists (Z.of_nat i), (sort_Z s). rewrite get_state_table by auto. split; auto.
  rewrite <- gen_B_length_Z.
  assert (i < List.length (gen_B (List.length values)))%nat by (apply nth_error_Some; congruence).
  split; [lia|]. rewrite get_set_table by lia. split; [apply py_index_nth; auto|].
  intros. apply sort_Z_In.
Qed.

Lemma roundtrip_code name values flag i :
  0 <= i < 2 ^ Z.of_nat (List.length values) - 1 ->
  exists s, v_get_set (mk_variable name values flag) i = Ok s /\
    NoDup s /\ s <> [] /\ (forall x, In x s -> 0 <= x < Z.of_nat (List.length values)) /\
    v_get_state (mk_variable name values flag) s = Ok i.
Proof.
  intros Hi. rewrite <- gen_B_length_Z in Hi. set (n := List.length values) in *.
  destruct (nth_error (gen_B n) (Z.to_nat i)) as [s|] eqn:E.
  2:{ apply nth_error_None in E. lia. }
  exists s. rewrite get_set_table by lia. fold n.
  split; [apply py_index_ok_nonneg; [lia|auto]|].
  assert (Hin := nth_error_In _ _ E). apply gen_B_spec in Hin as (Ss & Hr & Hn).
  assert (Hd := sorted_lt_NoDup _ Ss).
  repeat (split; [solve [auto]|]).
  rewrite get_state_table by auto. fold n.
  destruct (stored_state n s Hd Hn Hr) as (j & H1 & H2). rewrite H1. f_equal.
  assert (sort_Z s = s). { apply sorted_lt_ext; auto. apply sort_Z_sorted; auto. intros; apply sort_Z_In. }
  rewrite H in H2. pose proof (NoDup_nth_error_inj _ _ _ _ (gen_B_NoDup n) E H2). lia.
Qed.

Lemma modes_agree_state name values f1 f2 s :
  NoDup s -> s <> [] ->
  v_get_state (mk_variable name values f1) s = v_get_state (mk_variable name values f2) s.
Proof. intros. rewrite !get_state_table; auto. Qed.

Lemma modes_agree_set name values f1 f2 i :
  0 <= i ->
  v_get_set (mk_variable name values f1) i = v_get_set (mk_variable name values f2) i.
Proof. intros. rewrite !get_set_table; auto. Qed.

Lemma get_set_out_of_range name values flag i :
  2 ^ Z.of_nat (List.length values) - 1 <= i ->
  v_get_set (mk_variable name values flag) i = Err IndexError.
Proof.
  intros H. assert (0 < 2 ^ Z.of_nat (List.length values)) by (apply Z.pow_pos_nonneg; lia).
  rewrite get_set_table by lia. apply py_index_out. rewrite gen_B_length_Z. auto.
Qed.

Lemma get_state_not_subset name values flag s x :
  NoDup s -> In x s -> ~ (0 <= x < Z.of_nat (List.length values)) ->
  v_get_state (mk_variable name values flag) s = Err ValueError.
Proof.
  intros Hd Hx Hb. rewrite get_state_table by (auto; intros ->; auto).
  apply stored_state_bad. right. eauto.
Qed.

Lemma one_positions_gen vec : forall a,
  let f := fun a => map fst (filter (fun iv : Z * Z => snd iv =? 1) (combine (zrange a (a + Z.of_nat (List.length vec))) vec)) in
  StronglySorted Z.lt (f a) /\
  (forall i, In i (f a) <-> a <= i /\ nth_error vec (Z.to_nat (i - a)) = Some 1) /\
  ((forall x, In x vec -> x = 0 \/ x = 1) -> Z.of_nat (List.length (f a)) = zsum vec).
Proof.
  induction vec as [|v vec IH]; intros a f; unfold f.
  - rewrite zrange_nil by (cbn; lia). cbn. repeat split; try constructor; try tauto.
    intros [_ H]. destruct (Z.to_nat (i - a)); cbn in H; congruence.
  - rewrite zrange_cons by (cbn [List.length]; lia).
    replace (a + Z.of_nat (List.length (v :: vec))) with (a + 1 + Z.of_nat (List.length vec)) by (cbn [List.length]; lia).
    cbn [combine filter snd]. destruct (IH (a + 1)) as (S1 & I1 & L1). clear IH.
    set (r := combine _ _) in *.
    assert (Hlt : forall i, In i (map fst (filter (fun iv : Z * Z => snd iv =? 1) r)) -> a < i).
    { intros i Hi. apply I1 in Hi. lia. }
    destruct (Z.eqb_spec v 1) as [->|Hv]; cbn [map fst].
    + split; [constructor; auto; apply Forall_forall; auto|]. split.
      * intros i. cbn [In]. rewrite I1. split.
        -- intros [<-|[H1 H2]]; [rewrite Z.sub_diag; split; [lia|auto]|].
           split; [lia|]. replace (Z.to_nat (i - a)) with (S (Z.to_nat (i - (a + 1)))) by lia. auto.
        -- intros [H1 H2]. destruct (Z.eq_dec a i); [auto|right]. split; [lia|].
           replace (Z.to_nat (i - a)) with (S (Z.to_nat (i - (a + 1)))) in H2 by lia. auto.
      * intros H. cbn [List.length zsum fold_right]. fold (zsum vec). rewrite Nat2Z.inj_succ, L1; [lia|].
        intros x Hx. apply H; right; auto.
    + split; [auto|]. split.
      * intros i. rewrite I1. split.
        -- intros [H1 H2]. split; [lia|]. replace (Z.to_nat (i - a)) with (S (Z.to_nat (i - (a + 1)))) by lia. auto.
        -- intros [H1 H2]. destruct (Z.eq_dec a i).
           ++ subst. rewrite Z.sub_diag in H2. cbn in H2. congruence.
           ++ split; [lia|]. replace (Z.to_nat (i - a)) with (S (Z.to_nat (i - (a + 1)))) in H2 by lia. auto.
      * intros H. cbn [zsum fold_right]. fold (zsum vec). rewrite L1 by (intros; apply H; right; auto).
        destruct (H v); [left; auto|lia|lia].
Qed.

Lemma one_positions_spec vec :
  (forall x, In x vec -> x = 0 \/ x = 1) ->
  StronglySorted Z.lt (one_positions vec) /\
  (forall i, In i (one_positions vec) <-> 0 <= i /\ nth_error vec (Z.to_nat i) = Some 1) /\
  Z.of_nat (List.length (one_positions vec)) = zsum vec.
Proof.
  intros H. destruct (one_positions_gen vec 0) as (H1 & H2 & H3).
  unfold one_positions. cbn [Z.add] in *. split; [auto|]. split; [|auto].
  intros i. specialize (H2 i). rewrite Z.sub_0_r in H2. auto.
Qed.

Lemma same_set_length (s t : list Z) :
  NoDup s -> NoDup t -> (forall x, In x s <-> In x t) -> List.length s = List.length t.
Proof.
  intros. apply Permutation_length, NoDup_Permutation; auto.
Qed.

Lemma vector_state name values flag vec s :
  (forall x, In x vec -> x = 0 \/ x = 1) ->
  List.length vec = List.length values ->
  NoDup s -> (forall i, In i s <-> 0 <= i /\ nth_error vec (Z.to_nat i) = Some 1) ->
  (find_state_from_vector vec = Ok (-1) <-> ~ In 1 vec) /\
  (In 1 vec -> find_state_from_vector vec = v_get_state (mk_variable name values flag) s).
Proof.
  intros Hv Hl Hd Hs. destruct (one_positions_spec vec Hv) as (P1 & P2 & P3).
  set (op := one_positions vec) in *.
  assert (Hone : In 1 vec <-> op <> []).
  { split.
    - intros H. apply In_nth_error in H as [k Hk]. intros E.
      assert (In (Z.of_nat k) op) by (apply P2; split; [lia|rewrite Nat2Z.id; auto]).
      rewrite E in H. destruct H.
    - intros H. destruct op as [|i l]; [congruence|].
      destruct (proj1 (P2 i) (or_introl eq_refl)) as [_ Hi]. eapply nth_error_In; eauto. }
  assert (E : In 1 vec -> find_state_from_vector vec = v_get_state (mk_variable name values flag) s).
  { intros H1. apply Hone in H1.
    assert (Hlen : (0 < List.length op)%nat) by (destruct op; cbn; [congruence|lia]).
    assert (Hsop : forall x, In x s <-> In x op) by (intros; rewrite Hs, P2; tauto).
    assert (Hls : List.length s = List.length op).
    { apply same_set_length; auto. apply sorted_lt_NoDup; auto. }
    rewrite get_state_table by (auto; intros ->; cbn in Hls; lia).
    rewrite <- fly_state_eq by (auto; intros ->; cbn in Hls; lia).
    unfold find_state_from_vector. rewrite <- P3.
    rewrite (proj2 (Z.eqb_neq _ _)) by lia. rewrite (proj2 (Z.ltb_ge _ _)) by lia.
    fold op. rewrite Nat2Z.id. unfold state_fly. rewrite Hl, Hls.
    assert (sort_Z s = op) as ->; auto.
    apply sorted_lt_ext; auto. apply sort_Z_sorted; auto. intros x. rewrite sort_Z_In. auto. }
  split; auto. split.
  - intros H1 H2. rewrite (E H2) in H1.
    destruct (list_eq_dec Z.eq_dec s []) as [->|Hn].
    { apply In_nth_error in H2 as [k Hk].
      apply (Hs (Z.of_nat k)). split; [lia|rewrite Nat2Z.id; auto]. }
    rewrite get_state_table in H1 by auto. unfold py_list_index in H1.
    destruct (find_idx _ _); [|congruence]. injection H1. lia.
  - intros H. unfold find_state_from_vector. rewrite <- P3.
    assert (op = []) as ->. { destruct op; auto. exfalso. apply H, Hone. congruence. }
    auto.
Qed.

(** the table as a whole *)
Lemma table_complete n s :
  NoDup s -> s <> [] -> (forall x, In x s -> 0 <= x < Z.of_nat n) ->
  exists i c, nth_error (gen_B n) i = Some c /\ (forall x, In x c <-> In x s) /\
    forall j d, nth_error (gen_B n) j = Some d -> (forall x, In x d <-> In x s) -> j = i.
Proof.
  intros Hd Hn Hr. destruct (stored_state n s Hd Hn Hr) as (i & _ & Hi).
  exists i, (sort_Z s). split; auto. split; [intros; apply sort_Z_In|].
  intros j d Hj Hsame. apply (NoDup_nth_error_inj (gen_B n) j i (sort_Z s)); auto.
  - apply gen_B_NoDup.
  - rewrite Hj. f_equal. apply sorted_lt_ext.
    + apply nth_error_In, gen_B_spec in Hj. tauto.
    + apply sort_Z_sorted; auto.
    + intros x. rewrite sort_Z_In. auto.
Qed.

Lemma table_entries n i c :
  nth_error (gen_B n) i = Some c -> NoDup c /\ c <> [] /\ (forall x, In x c -> 0 <= x < Z.of_nat n).
Proof.
  intros H. apply nth_error_In, gen_B_spec in H as (H1 & H2 & H3).
  auto using sorted_lt_NoDup.
Qed.

(** [set(states)] *)
Lemma py_set_In l x : In x (py_set l) <-> In x l.
Proof.
  induction l as [|a l IH]; cbn; [tauto|]. rewrite filter_In, IH, negb_true_iff, Z.eqb_neq.
  destruct (Z.eq_dec x a) as [->|]; [tauto|]. intuition.
Qed.
Lemma py_set_NoDup l : NoDup (py_set l).
Proof.
  induction l as [|a l IH]; cbn; constructor; [|apply NoDup_filter; auto].
  rewrite filter_In, negb_true_iff, Z.eqb_neq. tauto.
Qed.

Lemma composite_state_spec v B states v' c :
  v_B v = Some B ->
  get_composite_state v states = Ok (v', c) ->
  exists B' e, v_B v' = Some B' /\ v_name v' = v_name v /\ v_values v' = v_values v /\
    (B' = B \/ (B' = B ++ [e] /\ forall d, In d B -> ~ (forall x, In x d <-> In x states))) /\
    (forall i d, nth_error B i = Some d -> nth_error B' i = Some d) /\
    0 <= c /\ nth_error B' (Z.to_nat c) = Some e /\ (forall x, In x e <-> In x states).
Proof.
  intros HB H. unfold get_composite_state in H. rewrite HB in H.
  set (added := py_set states) in *.
  destruct (existsb (set_eqb added) B) eqn:EX.
  - unfold py_list_index in H. destruct (find_idx _ B) as [i|] eqn:F; cbn in H; [|congruence].
    injection H as <- <-. destruct (find_idx_some _ _ _ F) as (e & He & Hf & _).
    exists B, e. cbn. rewrite Nat2Z.id. repeat split; auto; try lia.
    + intros Hx. apply set_eqb_spec with (x := x) in Hf. apply py_set_In, Hf, Hx.
    + intros Hx. apply set_eqb_spec with (x := x) in Hf. apply Hf, py_set_In, Hx.
  - assert (NB : forall d, In d B -> set_eqb added d = false).
    { intros d Hd. destruct (set_eqb added d) eqn:E; auto.
      assert (existsb (set_eqb added) B = true) by (apply existsb_exists; eauto). congruence. }
    unfold py_list_index in H. rewrite find_idx_app in H.
    rewrite (proj2 (find_idx_none _ _) NB) in H. cbn [find_idx] in H.
    assert (RF : set_eqb added added = true) by (apply set_eqb_spec; tauto). rewrite RF in H.
    cbn in H. injection H as <- <-. exists (B ++ [added]), added. cbn.
    rewrite Nat2Z.id. repeat split; auto; try lia.
    + right. split; auto. intros d Hd Hs. specialize (NB d Hd).
      assert (set_eqb added d = true); [|congruence]. apply set_eqb_spec. intros x.
      unfold added. rewrite py_set_In, Hs. tauto.
    + intros i d Hd. rewrite nth_error_app1; auto. apply nth_error_Some. congruence.
    + rewrite Nat.add_0_r, nth_error_app2, Nat.sub_diag by lia. auto.
    + apply py_set_In.
    + apply py_set_In.
Qed.

Lemma composite_state_total v B states :
  v_B v = Some B -> exists v' c, get_composite_state v states = Ok (v', c).
Proof.
  intros HB. unfold get_composite_state. rewrite HB. set (added := py_set states).
  destruct (existsb (set_eqb added) B) eqn:EX.
  - apply existsb_exists in EX as (d & Hd & E). destruct (find_idx_in _ _ _ Hd E) as [i Hi].
    unfold py_list_index. rewrite Hi. cbn. eauto.
  - destruct (find_idx_in (set_eqb added) (B ++ [added]) added) as [i Hi].
    + apply in_or_app. right; left; auto.
    + apply set_eqb_spec; tauto.
    + unfold py_list_index. rewrite Hi. cbn. eauto.
Qed.

Lemma composite_state_full name values states :
  stores_B (List.length values) None = true ->
  states <> [] -> (forall x, In x states -> 0 <= x < Z.of_nat (List.length values)) ->
  exists c, get_composite_state (mk_variable name values None) states
            = Ok (mk_variable name values None, c).
Proof.
  intros HS Hn Hr. unfold get_composite_state, mk_variable. rewrite HS. cbn [v_B].
  set (added := py_set states). set (B := gen_B _).
  assert (Hd : NoDup added) by apply py_set_NoDup.
  assert (Hn' : added <> []).
  { destruct states as [|a l]; [congruence|]. intros E.
    assert (In a added) by (apply py_set_In; left; auto). rewrite E in H. destruct H. }
  destruct (stored_state (List.length values) added Hd Hn') as (i & H1 & H2).
  { intros x Hx. apply Hr. apply py_set_In. auto. }
  fold B in H1, H2.
  assert (existsb (set_eqb added) B = true) as ->.
  { apply existsb_exists. exists (sort_Z added). split; [eapply nth_error_In; eauto|].
    apply set_eqb_spec. intros. symmetry. apply sort_Z_In. }
  rewrite H1. cbn. eauto.
Qed.
