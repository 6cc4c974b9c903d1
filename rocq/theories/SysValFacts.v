(** Proofs about [sys_max_val] and [sys_min_val]. *)
From Coq Require Import ZArith List String Bool Arith Lia Permutation QArith Qcanon OrderedTypeEx Sorting.Sorted.
From Verif Require Import Py PyFacts Num Vari VariFacts Cpm CpmFacts SpecCpm SysVal SpecSys.
Import ListNotations.
Open Scope string_scope.
Open Scope Z_scope.
Open Scope list_scope.

(** * The order of values *)
Definition order (lt : value -> value -> bool) : Prop :=
  (forall a, lt a a = false) /\
  (forall a b c, lt a b = true -> lt b c = true -> lt a c = true) /\
  (forall a b, lt a b = true \/ a = b \/ lt b a = true).

Lemma str_ltb_lt s t : String.ltb s t = true <-> String_as_OT.lt s t.
Proof.
  unfold String.ltb. change (String.compare s t) with (String_as_OT.cmp s t). rewrite <- String_as_OT.cmp_lt.
  destruct (String_as_OT.cmp s t); split; congruence.
Qed.
Lemma v_order : order v_ltb.
Proof.
  split; [|split].
  - intros [x| |s]; cbn; auto.
    + destruct (qc_ltb x x) eqn:E; auto. apply qc_ltb_lt in E. exfalso. exact (Qlt_irrefl _ E).
    + unfold String.ltb. change (String.compare s s) with (String_as_OT.cmp s s). rewrite (proj2 (String_as_OT.cmp_eq s s)); auto.
  - intros [x| |s] [y| |t] [z| |u]; cbn; auto; try discriminate.
    + rewrite !qc_ltb_lt. apply Qclt_trans.
    + rewrite !str_ltb_lt. apply String_as_OT.lt_trans.
  - intros [x| |s] [y| |t]; cbn; auto.
    + rewrite !qc_ltb_lt. destruct (Qc_dec x y) as [[H|H]|H]; auto. subst. auto.
    + rewrite !str_ltb_lt. destruct (String_as_OT.compare s t) as [H|H|H]; auto. right. left. f_equal. exact H.
Qed.
Lemma flip_order lt : order lt -> order (fun a b => lt b a).
Proof. intros (A & B & C). split; [|split]; eauto. intros a b. destruct (C a b) as [H|[H|H]]; auto. Qed.

Lemma val_eqb_eq a b : val_eqb a b = true <-> a = b.
Proof.
  destruct a as [x| |s], b as [y| |t]; cbn; try (split; congruence); try tauto.
  - unfold qc_eqb. destruct (Qc_eq_dec x y); split; congruence.
  - rewrite String.eqb_eq. split; congruence.
Qed.

Lemma val_dec (a b : value) : {a = b} + {a <> b}.
Proof. destruct (val_eqb a b) eqn:E; [left; apply val_eqb_eq; auto|right; intros H; apply val_eqb_eq in H; congruence]. Qed.
Lemma existsb_val v l : existsb (val_eqb v) l = true <-> In v l.
Proof.
  rewrite existsb_exists. split; [intros (x & H & E); apply val_eqb_eq in E; subst; auto|].
  intros H. exists v. split; auto. apply val_eqb_eq. auto.
Qed.
Lemma val_index v l : In v l -> exists i, py_list_index (val_eqb v) l = Ok (Z.of_nat i) /\ nth_error l i = Some v.
Proof.
  intros H. destruct (find_idx_in (val_eqb v) l v H) as [i Hi]; [apply val_eqb_eq; auto|].
  exists i. unfold py_list_index. rewrite Hi. split; auto. apply find_idx_some in Hi as (x & Hx & E & _).
  apply val_eqb_eq in E. congruence.
Qed.

(** * Sets of positions *)
Lemma combine_zrange_nth {A} (l : list A) a y z : In (y, z) (combine (zrange a (a + Z.of_nat (List.length l))) l) <->
  a <= y /\ nth_error l (Z.to_nat (y - a)) = Some z.
Proof.
  revert a. induction l as [|x l IH]; intros a.
  - cbn [List.length]. rewrite zrange_nil by lia. cbn. split; [tauto|]. intros [_ H]. destruct (Z.to_nat (y - a)); discriminate.
  - rewrite zrange_cons by (cbn [List.length]; lia). cbn [combine In].
    replace (a + Z.of_nat (List.length (x :: l))) with (a + 1 + Z.of_nat (List.length l)) by (cbn [List.length]; lia).
    rewrite IH. split.
    + intros [[= <- <-]|[H1 H2]]; [split; [lia|]; rewrite Z.sub_diag; auto|]. split; [lia|].
      replace (Z.to_nat (y - a)) with (S (Z.to_nat (y - (a + 1)))) by lia. auto.
    + intros [H1 H2]. destruct (Z.eq_dec y a) as [->|N]; [left; rewrite Z.sub_diag in H2; cbn in H2; congruence|].
      right. split; [lia|]. replace (Z.to_nat (y - a)) with (S (Z.to_nat (y - (a + 1)))) in H2 by lia. auto.
Qed.
Lemma positions_In f l y : In y (positions f l) <-> 0 <= y /\ exists z, nth_error l (Z.to_nat y) = Some z /\ f z = true.
Proof.
  unfold positions. rewrite in_map_iff. split.
  - intros ([y' z] & <- & H). apply filter_In in H as [H E]. cbn [fst snd] in *.
    apply (combine_zrange_nth l 0) in H as [H1 H2]. rewrite Z.sub_0_r in H2. eauto.
  - intros (H & z & Hz & E). exists (y, z). split; auto. apply filter_In. split; auto.
    apply (combine_zrange_nth l 0). rewrite Z.sub_0_r. auto.
Qed.
Lemma NoDup_map_filter {A B} (f : A -> B) g l : NoDup (map f l) -> NoDup (map f (filter g l)).
Proof.
  induction l as [|x l IH]; cbn; auto. intros H. inversion H as [|? ? Hn Hd]. subst. destruct (g x); cbn; auto.
  constructor; auto. intros X. apply Hn. apply in_map_iff in X as (y & E & Hy). apply filter_In in Hy as [Hy _].
  apply in_map_iff. eauto.
Qed.
Lemma positions_NoDup f l : NoDup (positions f l).
Proof.
  unfold positions. apply NoDup_map_filter. 
  assert (E : map fst (combine (zrange 0 (Z.of_nat (List.length l))) l) = zrange 0 (Z.of_nat (List.length l))).
  { assert (L : List.length (zrange 0 (Z.of_nat (List.length l))) = List.length l) by (rewrite zrange_length; lia).
    revert L. generalize (zrange 0 (Z.of_nat (List.length l))). intros z. revert l. induction z as [|x z IH]; intros [|y l]; cbn; intros L; auto; try discriminate.
    f_equal. apply IH. lia. }
  rewrite E. apply zrange_NoDup.
Qed.

(** * Updating a row *)
Lemma set_nth_length k x row : List.length (set_nth k x row) = List.length row.
Proof. revert k. induction row as [|y row IH]; intros [|k]; cbn; auto. Qed.
Lemma set_nth_same k x row : (k < List.length row)%nat -> nth_error (set_nth k x row) k = Some x.
Proof. revert k. induction row as [|y row IH]; intros [|k]; cbn; intros H; auto; try lia. apply IH. lia. Qed.
Lemma set_nth_other k k' x row : k <> k' -> nth_error (set_nth k x row) k' = nth_error row k'.
Proof. revert k k'. induction row as [|y row IH]; intros [|k] [|k']; cbn; auto; try lia. Qed.

(** * One row *)
Definition full_table (p : variable) : Prop := v_B p = Some (gen_B (List.length (v_values p))).

Lemma var_index_ok vars p : NoDup (names vars) -> In p vars -> exists j, var_index vars p = Ok j /\ nth_error vars j = Some p.
Proof.
  intros Hd H. unfold var_index. destruct (find_idx_in (v_eqb p) vars p H) as [j Hj]; [apply String.eqb_refl|].
  rewrite Hj. exists j. split; auto. apply find_idx_some in Hj as (q & Hq & E & _). apply String.eqb_eq in E.
  rewrite Hq. f_equal. symmetry. eapply NoDup_names_inj; eauto using nth_error_In.
Qed.

Lemma table_index_ok p s : full_table p -> s <> [] -> NoDup s -> (forall x, In x s -> 0 <= x < nvals p) ->
  exists c, table_index p s = Ok c /\ code_ok p c /\ forall x, In x (states_of p c) <-> In x s.
Proof.
  intros HB Hn Hd Hr. destruct (stored_state (List.length (v_values p)) s Hd Hn Hr) as (i & Hi & Hs).
  exists (Z.of_nat i). unfold table_index. rewrite HB. split; [exact Hi|]. split.
  - exists (gen_B (List.length (v_values p))). split; auto. assert (i < List.length (gen_B (List.length (v_values p))))%nat by (apply nth_error_Some; congruence). lia.
  - intros x. unfold states_of. rewrite HB. replace (Z.of_nat i <? 0) with false by (symmetry; apply Z.ltb_ge; lia).
    rewrite Nat2Z.id, (nth_error_nth _ _ _ Hs). apply sort_Z_In.
Qed.

Lemma basic_code p k : full_table p -> (k < List.length (v_values p))%nat ->
  code_ok p (Z.of_nat k) /\ forall x, In x (states_of p (Z.of_nat k)) <-> x = Z.of_nat k.
Proof.
  intros HB Hk. pose proof (gen_B_basic (List.length (v_values p)) k Hk) as E. split.
  - exists (gen_B (List.length (v_values p))). split; auto. assert (k < List.length (gen_B (List.length (v_values p))))%nat by (apply nth_error_Some; congruence). lia.
  - intros x. unfold states_of. rewrite HB. replace (Z.of_nat k <? 0) with false by (symmetry; apply Z.ltb_ge; lia).
    rewrite Nat2Z.id, (nth_error_nth _ _ _ E). cbn. intuition.
Qed.

Section Rows.
Variable lt : value -> value -> bool.
Hypothesis Hlt : order lt.
Variable vars : list variable.
Hypothesis Hnames : NoDup (names vars).
Hypothesis Hfull : forall p, In p vars -> full_table p.

(** the code [c] of [q] stands for the states [s] *)
Definition stands (q : variable) (c : Z) (s : list Z) : Prop := code_ok q c /\ forall x, In x (states_of q c) <-> In x s.

Lemma beaten_range i i2 v p x : In x (beaten lt i i2 v p) -> 0 <= x < nvals p.
Proof.
  unfold beaten. rewrite positions_In. intros (H & z & Hz & _). split; auto. unfold nvals.
  assert (Z.to_nat x < List.length (v_values p))%nat by (apply nth_error_Some; congruence). lia.
Qed.

Lemma fill_row_spec i v l : forall row,
  NoDup (map (fun ip => v_name (snd ip)) l) -> (forall ip, In ip l -> In (snd ip) vars) -> List.length row = S (List.length vars) ->
  exists o, fill_row lt vars i v l row = Ok o /\
    match o with
    | None => exists i2 q, In (i2, q) l /\ i2 <> i /\ beaten lt i i2 v q = []
    | Some row' => List.length row' = S (List.length vars) /\
        (forall i2 q, In (i2, q) l -> i2 <> i -> beaten lt i i2 v q <> [] /\
           forall k, nth_error vars k = Some q -> exists c, nth_error row' (S k) = Some c /\ stands q c (beaten lt i i2 v q)) /\
        (forall k q, nth_error vars k = Some q -> (forall i2 q', In (i2, q') l -> i2 <> i -> v_name q' <> v_name q) ->
           nth_error row' (S k) = nth_error row (S k))
    end.
Proof.
  induction l as [|[i2 p2] l IH]; intros row Hd Hin Hl; cbn [fill_row].
  - exists (Some row). split; auto. split; auto. split; [intros ? ? []|auto].
  - cbn [map snd] in Hd. inversion Hd as [|? ? Hn Hd']. subst.
    destruct (Nat.eqb_spec i i2) as [->|Hne].
    + destruct (IH row Hd') as (o & E & H); auto; [intros; apply Hin; right; auto|]. exists o. split; auto.
      destruct o as [row'|].
      * destruct H as (H1 & H2 & H3). split; auto. split.
        -- intros i' q [[= <- <-]|Hq] Hi; [congruence|auto].
        -- intros k q Hk Hq. apply H3 with q; auto. intros i' q' Hq' Hi'. apply Hq with i'; auto. right. auto.
      * destruct H as (i' & q & Hq & Hi & Hb). exists i', q. repeat split; auto. right. auto.
    + destruct (beaten lt i i2 v p2) as [|s0 s] eqn:Eb.
      * exists None. split; auto. exists i2, p2. repeat split; auto. left. auto.
      * assert (Hp2 : In p2 vars) by (apply (Hin (i2, p2)); left; auto).
        destruct (table_index_ok p2 (s0 :: s)) as (c & Ec & Hc & Hs); [auto|discriminate|rewrite <- Eb; apply positions_NoDup| |].
        { intros x Hx. rewrite <- Eb in Hx. eapply beaten_range; eauto. }
        rewrite Ec. cbn [bind]. destruct (var_index_ok vars p2 Hnames Hp2) as (j & Ej & Hj). rewrite Ej. cbn [bind].
        assert (Lj : (j < List.length vars)%nat) by (apply nth_error_Some; congruence).
        destruct (IH (set_nth (S j) c row) Hd') as (o & E & H); [intros; apply Hin; right; auto|rewrite set_nth_length; auto|].
        exists o. split; auto. destruct o as [row'|].
        -- destruct H as (H1 & H2 & H3). split; auto. split.
           ++ intros i' q [[= <- <-]|Hq] Hi; [|apply H2; auto]. rewrite Eb. split; [discriminate|].
              intros k Hk. exists c. assert (k = j) as -> .
              { apply (NoDup_nth_error_inj (names vars) k j (v_name p2)); auto; unfold names; rewrite nth_error_map; [rewrite Hk|rewrite Hj]; auto. }
              split; [|split; auto]. rewrite (H3 j p2 Hj).
              { apply set_nth_same. lia. }
              intros i' q' Hq' _ En. apply Hn. rewrite <- En. apply in_map_iff. exists (i', q'). auto.
           ++ intros k q Hk Hq. rewrite (H3 k q Hk); [|intros i' q' Hq' Hi'; apply Hq with i'; auto; right; auto].
              apply set_nth_other. intros [= ->]. apply (Hq i2 p2); [left; auto|auto|]. rewrite Hj in Hk. congruence.
        -- destruct H as (i' & q & Hq & Hi & Hb). exists i', q. repeat split; auto. right. auto.
Qed.

Definition item := (nat * variable * value)%type.
Variable ips : list (nat * variable).
Hypothesis Hfst : NoDup (map fst ips).
Hypothesis Hsnd : Permutation (map snd ips) vars.
Hypothesis Hvals : forall p, In p vars -> NoDup (v_values p).

Lemma ips_in i p : In (i, p) ips -> In p vars.
Proof. intros H. eapply Permutation_in; [exact Hsnd|]. apply in_map_iff. exists (i, p). auto. Qed.
Lemma ips_of p : In p vars -> exists i, In (i, p) ips.
Proof.
  intros H. apply Permutation_sym in Hsnd. eapply Permutation_in in H; [|exact Hsnd].
  apply in_map_iff in H as ([i q] & <- & H). exists i. auto.
Qed.
Lemma ips_names : NoDup (map (fun ip : nat * variable => v_name (snd ip)) ips).
Proof.
  rewrite <- (map_map snd v_name). eapply Permutation_NoDup; [|exact Hnames]. unfold names. apply Permutation_map, Permutation_sym, Hsnd.
Qed.
Lemma fst_inj i p q : In (i, p) ips -> In (i, q) ips -> p = q.
Proof.
  clear -Hfst. induction ips as [|[j r] l IH]; cbn in *; [tauto|]. inversion Hfst as [|? ? Hn Hd]. subst.
  intros [E1|H1] [E2|H2]; auto; try congruence.
  - injection E1 as -> ->. exfalso. apply Hn, in_map_iff. exists (i, q). auto.
  - injection E2 as -> ->. exfalso. apply Hn, in_map_iff. exists (i, p). auto.
Qed.
Lemma snd_inj i j p : In (i, p) ips -> In (j, p) ips -> i = j.
Proof.
  pose proof ips_names as D. clear -D. induction ips as [|[k r] l IH]; cbn in *; [tauto|]. inversion D as [|? ? Hn Hd]. subst.
  intros [E1|H1] [E2|H2]; auto; try congruence.
  - injection E1 as -> ->. exfalso. apply Hn, in_map_iff. exists (j, p). auto.
  - injection E2 as -> ->. exfalso. apply Hn, in_map_iff. exists (i, p). auto.
Qed.

Definition is_nil {A} (l : list A) : bool := match l with [] => true | _ => false end.
Definition keptb (x : item) : bool :=
  let '(i, p, v) := x in forallb (fun iq => (fst iq =? i)%nat || negb (is_nil (beaten lt i (fst iq) v (snd iq)))) ips.
Lemma keptb_spec i p v : keptb (i, p, v) = true <-> forall i2 q, In (i2, q) ips -> i2 <> i -> beaten lt i i2 v q <> [].
Proof.
  unfold keptb. rewrite forallb_forall. split.
  - intros H i2 q Hq Hi E. specialize (H (i2, q) Hq). cbn [fst snd] in H. rewrite E in H. apply orb_true_iff in H as [H|H]; [|discriminate].
    apply Nat.eqb_eq in H. auto.
  - intros H [i2 q] Hq. cbn [fst snd]. destruct (Nat.eqb_spec i2 i); auto. specialize (H i2 q Hq n). destruct (beaten lt i i2 v q); [congruence|auto].
Qed.

Definition allowed (i : nat) (k0 : nat) (v : value) (i2 : nat) (q : variable) : list Z :=
  if (i2 =? i)%nat then [Z.of_nat k0] else beaten lt i i2 v q.
Definition rowgood (x : item) (row : list Z) : Prop :=
  let '(i, p, v) := x in
  List.length row = S (List.length vars) /\ exists k0, nth_error (v_values p) k0 = Some v /\
  forall i2 q k, In (i2, q) ips -> nth_error vars k = Some q ->
    exists c, nth_error row (S k) = Some c /\ stands q c (allowed i k0 v i2 q).
Definition item_ok (x : item) : Prop := let '(i, p, v) := x in In (i, p) ips /\ In v (v_values p).
Definition add_val (vals : list value) (x : item) : list value :=
  if existsb (val_eqb (snd x)) vals then vals else vals ++ [snd x].

Lemma step_spec vals C x : item_ok x ->
  (keptb x = false /\ value_step lt vars ips (vals, C) x = Ok (vals, C)) \/
  (keptb x = true /\ exists row, value_step lt vars ips (vals, C) x = Ok (add_val vals x, C ++ [row]) /\
     rowgood x row /\ 0 <= at_ row 0 /\ nth_error (add_val vals x) (Z.to_nat (at_ row 0)) = Some (snd x)).
Proof.
  destruct x as [[i p] v]. intros [Hip Hv]. assert (Hp : In p vars) by (eapply ips_in; eauto).
  unfold value_step. destruct (var_index_ok vars p Hnames Hp) as (j & Ej & Hj). rewrite Ej. cbn [bind].
  destruct (val_index v (v_values p) Hv) as (k0 & Ek & Hk). rewrite Ek. cbn [bind].
  set (row0 := set_nth (S j) (Z.of_nat k0) (repeat 0 (S (List.length vars)))).
  assert (L0 : List.length row0 = S (List.length vars)) by (unfold row0; rewrite set_nth_length, repeat_length; auto).
  destruct (fill_row_spec i v ips row0 ips_names) as (o & E & H); [intros [i2 q] Hq; eapply ips_in; eauto|auto|].
  rewrite E. cbn [bind]. destruct o as [row|].
  - right. destruct H as (H1 & H2 & H3). split; [apply keptb_spec; intros; apply H2; auto|].
    cbn [snd]. unfold add_val. cbn [snd]. set (vals' := if existsb (val_eqb v) vals then vals else vals ++ [v]).
    destruct (val_index v vals') as (s & Es & Hs).
    { unfold vals'. destruct (existsb (val_eqb v) vals) eqn:X; [apply existsb_val; auto|apply in_app_iff; right; left; auto]. }
    rewrite Es. cbn [bind]. exists (set_nth 0 (Z.of_nat s) row).
    assert (A : at_ (set_nth 0 (Z.of_nat s) row) 0 = Z.of_nat s) by (destruct row; [discriminate|reflexivity]).
    split; auto. split; [|rewrite A, Nat2Z.id; split; [lia|auto]].
    split; [rewrite set_nth_length; auto|]. exists k0. split; auto.
    intros i2 q k Hq Hkq. unfold allowed. destruct (Nat.eqb_spec i2 i) as [->|Hne].
    + assert (q = p) by (eapply fst_inj; eauto). subst q.
      assert (k = j) as ->.
      { apply (NoDup_nth_error_inj (names vars) k j (v_name p)); auto; unfold names; rewrite nth_error_map; [rewrite Hkq|rewrite Hj]; auto. }
      exists (Z.of_nat k0). split.
      * rewrite set_nth_other by lia. rewrite (H3 j p Hj).
        -- unfold row0. apply set_nth_same. rewrite repeat_length. assert (j < List.length vars)%nat by (apply nth_error_Some; congruence). lia.
        -- intros i2 q' Hq' Hi2 En. assert (q' = p) by (eapply NoDup_names_inj; eauto using ips_in). subst. apply Hi2. eapply snd_inj; eauto.
      * destruct (basic_code p k0 (Hfull p Hp)) as [B1 B2]; [apply nth_error_Some; congruence|].
        split; auto. intros y. rewrite B2. cbn. intuition.
    + destruct (H2 i2 q Hq Hne) as [_ H2']. destruct (H2' k Hkq) as (c & Hc & Hst). exists c. rewrite set_nth_other by lia. auto.
  - left. split; auto. destruct H as (i2 & q & Hq & Hi & Hb). destruct (keptb (i, p, v)) eqn:X; auto.
    exfalso. apply (proj1 (keptb_spec i p v) X i2 q); auto.
Qed.

Lemma add_val_app vals x : exists e, add_val vals x = vals ++ e.
Proof. unfold add_val. destruct (existsb _ _); [exists []; rewrite app_nil_r; auto|eauto]. Qed.
Lemma fold_add_app K : forall vals, exists e, fold_left add_val K vals = vals ++ e.
Proof.
  induction K as [|x K IH]; intros vals; cbn; [exists []; rewrite app_nil_r; auto|].
  destruct (IH (add_val vals x)) as [e ->]. destruct (add_val_app vals x) as [e' ->]. rewrite <- app_assoc. eauto.
Qed.
Lemma fold_add_In K : forall vals v, In v (fold_left add_val K vals) <-> In v vals \/ In v (map snd K).
Proof.
  induction K as [|x K IH]; intros vals v; cbn [fold_left map In]; [tauto|]. rewrite IH. unfold add_val.
  destruct (existsb (val_eqb (snd x)) vals) eqn:X.
  - apply existsb_val in X. intuition. subst. auto.
  - rewrite in_app_iff. cbn [In]. tauto.
Qed.
Lemma fold_add_NoDup K : forall vals, NoDup vals -> NoDup (fold_left add_val K vals).
Proof.
  induction K as [|x K IH]; intros vals H; cbn [fold_left]; auto. apply IH. unfold add_val.
  destruct (existsb (val_eqb (snd x)) vals) eqn:X; auto. apply NoDup_app_intro; auto.
  - constructor; [intros []|constructor].
  - intros y Hy [<- |[]]. apply existsb_val in Hy. congruence.
Qed.

Definition row_of (vals : list value) (x : item) (row : list Z) : Prop :=
  rowgood x row /\ 0 <= at_ row 0 /\ nth_error vals (Z.to_nat (at_ row 0)) = Some (snd x).
Lemma fold_spec L : forall vals C, Forall item_ok L ->
  let K := filter keptb L in
  exists C', foldM (value_step lt vars ips) L (vals, C) = Ok (fold_left add_val K vals, C ++ C') /\
    Forall2 (row_of (fold_left add_val K vals)) K C'.
Proof.
  induction L as [|x L IH]; intros vals C HL; cbn [filter foldM].
  - exists []. rewrite app_nil_r. split; [auto|constructor].
  - inversion HL as [|? ? Hx HL']. subst. destruct (step_spec vals C x Hx) as [[E S]|(E & row & S & G)].
    + rewrite E, S. cbn [bind]. apply IH. auto.
    + rewrite E, S. cbn [bind]. destruct (IH (add_val vals x) (C ++ [row]) HL') as (C' & F & R).
      exists (row :: C'). cbn [fold_left]. rewrite F, <- app_assoc. split; auto. constructor; auto.
      destruct G as (G1 & G2 & G3). split; auto. split; auto.
      destruct (fold_add_app (filter keptb L) (add_val vals x)) as [e ->].
      rewrite nth_error_app1; auto. apply nth_error_Some. congruence.
Qed.

(** * The row that matches a joint state *)
Definition beats (x y : nat * value) : bool :=
  if (fst y <? fst x)%nat then lt (snd y) (snd x) else negb (lt (snd x) (snd y)).
Lemma beats_total x y : fst x <> fst y -> beats x y = true \/ beats y x = true.
Proof.
  destruct Hlt as (A & B & C). intros H. unfold beats. destruct x as [i v], y as [j w]. cbn [fst snd] in *.
  destruct (Nat.ltb_spec j i), (Nat.ltb_spec i j); try lia; destruct (lt w v) eqn:E1, (lt v w) eqn:E2; auto.
Qed.
Lemma beats_antisym x y : fst x <> fst y -> beats x y = true -> beats y x = true -> False.
Proof.
  destruct Hlt as (A & B & C). intros H. unfold beats. destruct x as [i v], y as [j w]. cbn [fst snd] in *.
  destruct (Nat.ltb_spec j i), (Nat.ltb_spec i j); try lia; destruct (lt w v) eqn:E1, (lt v w) eqn:E2; cbn; congruence.
Qed.
Lemma lt_asym a b : lt a b = true -> lt b a = true -> False.
Proof. destruct Hlt as (A & B & C). intros H1 H2. specialize (B _ _ _ H1 H2). rewrite A in B. discriminate. Qed.
Lemma nlt_trans a b c : lt b a = false -> lt c b = false -> lt c a = false.
Proof.
  destruct Hlt as (A & B & C). intros H1 H2. destruct (lt c a) eqn:E; auto.
  destruct (C a b) as [X|[X|X]]; [|subst; congruence|congruence]. rewrite (B c a b) in H2; auto.
Qed.
Lemma beats_trans x y z : fst x <> fst y -> fst y <> fst z -> fst x <> fst z ->
  beats x y = true -> beats y z = true -> beats x z = true.
Proof.
  destruct Hlt as (A & B & C). intros N1 N2 N3. unfold beats. destruct x as [i v], y as [j w], z as [k u]. cbn [fst snd] in *.
  destruct (Nat.ltb_spec j i), (Nat.ltb_spec k j), (Nat.ltb_spec k i); try lia; rewrite ?negb_true_iff; intros G1 G2.
  - eauto.
  - destruct (C u v) as [X|[X|X]]; auto; exfalso; [subst; congruence|]. rewrite (B w v u) in G2; auto; discriminate.
  - destruct (lt v u) eqn:E; auto. exfalso. rewrite (B w v u) in G2; auto; discriminate.
  - destruct (C u v) as [X|[X|X]]; auto; exfalso; [subst; congruence|]. rewrite (B v u w) in G1; auto; discriminate.
  - destruct (lt v u) eqn:E; auto. exfalso. rewrite (B v u w) in G1; auto; discriminate.
  - eapply nlt_trans; eauto.
Qed.
Lemma best_exists (l : list (nat * value)) : l <> [] -> NoDup (map fst l) ->
  exists x, In x l /\ forall y, In y l -> fst y <> fst x -> beats x y = true.
Proof.
  induction l as [|x l IH]; [congruence|]. intros _ Hd. cbn [map] in Hd. inversion Hd as [|? ? Hn Hd']. subst.
  destruct l as [|y l].
  - exists x. split; [left; auto|]. intros z [<- |[]]. congruence.
  - destruct IH as (b & Hb & H); [discriminate|auto|]. 
    assert (Nb : forall z, In z (y :: l) -> fst x <> fst z) by (intros z Hz E; apply Hn; rewrite E; apply in_map; auto).
    destruct (beats_total x b (Nb b Hb)) as [X|X].
    + exists x. split; [left; auto|]. intros z [<- |Hz] Hne; [congruence|]. destruct (Nat.eq_dec (fst z) (fst b)) as [E|E].
      * assert (z = b) as ->; auto. clear -Hd' Hz Hb E. revert Hz Hb. generalize dependent (y :: l). intros l' Hd Hz Hb.
        induction l' as [|u l' IH]; [destruct Hz|]. cbn in Hd. inversion Hd as [|? ? Hn Hd2]. subst.
        destruct Hz as [->|Hz], Hb as [->|Hb]; auto.
        -- exfalso. apply Hn. rewrite E. apply in_map. auto.
        -- exfalso. apply Hn. rewrite <- E. apply in_map. auto.
      * apply (beats_trans x b z); auto.
    + exists b. split; [right; auto|]. intros z [<- |Hz] Hne; auto.
Qed.

Definition winner (a : joint) (x : item) : Prop :=
  let '(i, p, v) := x in In (i, p) ips /\ value_at a p = Some v /\
  forall i2 q w, In (i2, q) ips -> i2 <> i -> value_at a q = Some w -> beats (i, v) (i2, w) = true.

Lemma value_total a p : states_in vars a -> In p vars -> exists v, value_at a p = Some v.
Proof.
  intros H Hp. specialize (H p Hp). unfold value_at, nvals in *. destruct (nth_error _ _) eqn:E; eauto.
  apply nth_error_None in E. lia.
Qed.
Lemma beaten_In a i i2 v q : 0 <= a (v_name q) -> 
  In (a (v_name q)) (beaten lt i i2 v q) <-> exists w, value_at a q = Some w /\ beats (i, v) (i2, w) = true.
Proof.
  intros H. unfold beaten, value_at, beats. rewrite positions_In. cbn [fst snd].
  split; [intros (_ & w & Hw & E)|intros (w & Hw & E)]; eauto.
Qed.
Lemma winner_exists a : vars <> [] -> states_in vars a -> exists x, winner a x /\ item_ok x.
Proof.
  intros Hne Ha. set (dv := fun ip : nat * variable => (fst ip, match value_at a (snd ip) with Some v => v | None => VInf end)).
  destruct (best_exists (map dv ips)) as ([i v] & Hin & H).
  - intros E. apply Hne. apply map_eq_nil in E. rewrite E in Hsnd. apply Permutation_nil in Hsnd. auto.
  - rewrite map_map. exact Hfst.
  - apply in_map_iff in Hin as ([i' p] & [= -> Ev] & Hip). cbn [fst snd] in *.
    destruct (value_total a p Ha (ips_in _ _ Hip)) as [w Hw]. rewrite Hw in Ev. subst w. exists (i, p, v). split; [split; [auto|split; auto]|].
    + intros i2 q w Hq Hi2 Ew. apply (H (i2, w)); auto. apply in_map_iff. exists (i2, q). unfold dv. cbn [fst snd]. rewrite Ew. auto.
    + split; auto. eapply nth_error_In. exact Hw.
Qed.
Lemma winner_unique a x y : winner a x -> winner a y -> x = y.
Proof.
  destruct x as [[i p] v], y as [[j q] w]. intros (H1 & H2 & H3) (K1 & K2 & K3).
  destruct (Nat.eq_dec i j) as [->|N].
  - assert (p = q) by (eapply fst_inj; eauto). subst. congruence.
  - exfalso. apply (beats_antisym (i, v) (j, w)); auto. apply (H3 j q w); auto. apply (K3 i p v); auto.
Qed.
Lemma winner_kept a x : states_in vars a -> winner a x -> keptb x = true.
Proof.
  destruct x as [[i p] v]. intros Ha (H1 & H2 & H3). apply keptb_spec. intros i2 q Hq Hi2 E.
  destruct (value_total a q Ha (ips_in _ _ Hq)) as [w Hw].
  assert (X : In (a (v_name q)) (beaten lt i i2 v q)).
  { apply beaten_In; [apply Ha; eapply ips_in; eauto|]. eauto. }
  rewrite E in X. destruct X.
Qed.
Lemma winner_best a i p v : winner a (i, p, v) -> forall q w, In q vars -> value_at a q = Some w -> lt v w = false.
Proof.
  intros (H1 & H2 & H3) q w Hq Hw. destruct (ips_of q Hq) as [i2 Hi2]. destruct (Nat.eq_dec i2 i) as [->|N].
  - assert (q = p) by (eapply fst_inj; eauto). subst. assert (w = v) by congruence. subst. apply Hlt.
  - specialize (H3 i2 q w Hi2 N Hw). unfold beats in H3. cbn [fst snd] in H3. destruct (i2 <? i)%nat.
    + destruct (lt v w) eqn:E; auto. exfalso. eapply lt_asym; eauto.
    + apply negb_true_iff in H3. auto.
Qed.

Lemma row_match_nth vs row a : List.length row = List.length vs ->
  (row_match vs row a = true <-> forall k q c, nth_error vs k = Some q -> nth_error row k = Some c -> In (a (v_name q)) (states_of q c)).
Proof.
  revert row. induction vs as [|q vs IH]; intros [|c row]; try discriminate; intros L; unfold row_match in *; cbn [combine forallb fst snd].
  - split; auto. intros _ [|k] ? ?; discriminate.
  - rewrite andb_true_iff, mem_Z_In, IH by (cbn in L; lia). split.
    + intros [H1 H2] [|k] q' c' E1 E2; cbn in E1, E2; [congruence|eauto].
    + intros H. split; [apply (H 0%nat); auto|]. intros k q' c' E1 E2. apply (H (S k)); auto.
Qed.

Lemma match_winner a x row : states_in vars a -> item_ok x -> rowgood x row ->
  (row_match vars (tl row) a = true <-> winner a x).
Proof.
  destruct x as [[i p] v]. intros Ha [Hip Hv] (HL & k0 & Hk0 & H). rewrite row_match_nth by (destruct row; cbn in *; lia).
  assert (T : forall k, nth_error (tl row) k = nth_error row (S k)) by (destruct row; intros; [destruct k|]; auto).
  assert (N : forall q, In q vars -> exists k, nth_error vars k = Some q) by (intros; apply In_nth_error; auto).
  split.
  - intros M. split; [auto|split].
    + destruct (N p (ips_in _ _ Hip)) as [k Hk]. destruct (H i p k Hip Hk) as (c & Hc & _ & Hs).
      specialize (M k p c Hk). rewrite T in M. specialize (M Hc). apply Hs in M. unfold allowed in M. rewrite Nat.eqb_refl in M.
      destruct M as [M|[]]. unfold value_at. rewrite <- M, Nat2Z.id. auto.
    + intros i2 q w Hq Hi2 Hw. destruct (N q (ips_in _ _ Hq)) as [k Hk]. destruct (H i2 q k Hq Hk) as (c & Hc & _ & Hs).
      specialize (M k q c Hk). rewrite T in M. specialize (M Hc). apply Hs in M. unfold allowed in M.
      replace (i2 =? i)%nat with false in M by (symmetry; apply Nat.eqb_neq; auto).
      apply beaten_In in M as (w' & Hw' & B); [congruence|]. apply Ha. eapply ips_in; eauto.
  - intros (_ & W2 & W3) k q c Hk Hc. rewrite T in Hc. assert (Hq : In q vars) by (eapply nth_error_In; eauto).
    destruct (ips_of q Hq) as [i2 Hi2]. destruct (H i2 q k Hi2 Hk) as (c' & Hc' & _ & Hs).
    assert (c' = c) by congruence. subst c'. apply Hs. unfold allowed. destruct (Nat.eqb_spec i2 i) as [->|Hne].
    + assert (q = p) by (eapply fst_inj; eauto). subst q. left.
      assert (E : Z.to_nat (a (v_name p)) = k0).
      { apply (NoDup_nth_error_inj (v_values p) _ _ v); auto. }
      specialize (Ha p Hq). lia.
    + destruct (value_total a q Ha Hq) as [w Hw]. apply beaten_In; [apply Ha; auto|]. exists w. split; auto. eapply W3; eauto.
Qed.

Lemma filter_unique {A B} (R : A -> B -> Prop) (m : B -> bool) w : forall K C, Forall2 R K C -> NoDup K -> In w K ->
  (forall x r, In x K -> R x r -> (m r = true <-> x = w)) -> exists r, filter m C = [r] /\ R w r /\ In r C.
Proof.
  intros K C F. induction F as [|x r K C Hr F IH]; intros Hd Hin H; [destruct Hin|].
  inversion Hd as [|? ? Hn Hd']. subst. cbn [filter]. destruct (m r) eqn:E.
  - apply (H x r) in E; [|left; auto|auto]. subst x. exists r. split; [|split; [auto|left; auto]]. f_equal.
    assert (Z0 : forall l, Forall2 R l C -> incl l K -> filter m C = []).
    { clear IH F. intros l F'. induction F' as [|y s l C Hy F' IH']; auto. intros I. cbn [filter]. destruct (m s) eqn:Em.
      - apply (H y s) in Em; [|right; apply I; left; auto|auto]. subst y. exfalso. apply Hn, I. left. auto.
      - apply IH'. intros z Hz. apply I. right. auto. }
    eapply Z0; [exact F|intros ?; auto].
  - destruct Hin as [->|Hin].
    + assert (m r = true) by (apply (H w r); auto; left; auto). congruence.
    + destruct IH as (r' & E1 & E2 & E3); auto; [intros y s Hy; apply H; right; auto|]. exists r'. split; [auto|split; [auto|right; auto]].
Qed.

(** a kept item wins in some joint state *)
Lemma kept_wins x : item_ok x -> keptb x = true -> exists a, states_in vars a /\ winner a x.
Proof.
  destruct x as [[i p] v]. intros [Hip Hv] HK. pose proof (proj1 (keptb_spec i p v) HK) as Hk.
  destruct (In_nth_error _ _ Hv) as [k0 Hk0].
  set (a := fun n : string => match find (fun iq => String.eqb (v_name (snd iq)) n) ips with
                              | Some (i2, q) => hd 0 (allowed i k0 v i2 q) | None => 0 end).
  assert (E : forall i2 q, In (i2, q) ips -> a (v_name q) = hd 0 (allowed i k0 v i2 q)).
  { intros i2 q Hq. unfold a. destruct (find _ ips) as [[i3 q']|] eqn:F.
    - apply find_some in F as [F1 F2]. apply String.eqb_eq in F2. cbn [snd] in F2.
      assert (q' = q) by (eapply NoDup_names_inj; eauto using ips_in). subst q'. rewrite (snd_inj i3 i2 q); auto.
    - eapply find_none in F; [|exact Hq]. cbn [snd] in F. rewrite String.eqb_refl in F. discriminate. }
  assert (I : forall i2 q, In (i2, q) ips -> In (a (v_name q)) (allowed i k0 v i2 q)).
  { intros i2 q Hq. rewrite (E i2 q Hq). unfold allowed. destruct (Nat.eqb_spec i2 i); [left; auto|].
    specialize (Hk i2 q Hq n). destruct (beaten lt i i2 v q); [congruence|left; auto]. }
  assert (Ha : states_in vars a).
  { intros q Hq. destruct (ips_of q Hq) as [i2 Hi2]. specialize (I i2 q Hi2). unfold allowed in I.
    destruct (Nat.eqb_spec i2 i) as [Ei|].
    - rewrite Ei in Hi2. assert (q = p) by (eapply fst_inj; eauto). subst q. destruct I as [<- |[]]. unfold nvals.
      assert (k0 < List.length (v_values p))%nat by (apply nth_error_Some; congruence). lia.
    - eapply beaten_range; eauto. }
  exists a. split; auto. split; auto. split.
  - specialize (I i p Hip). unfold allowed in I. rewrite Nat.eqb_refl in I. destruct I as [I|[]]. unfold value_at.
    rewrite <- I, Nat2Z.id. auto.
  - intros i2 q w Hq Hi2 Hw. specialize (I i2 q Hq). unfold allowed in I.
    replace (i2 =? i)%nat with false in I by (symmetry; apply Nat.eqb_neq; auto).
    apply beaten_In in I as (w' & Hw' & B); [congruence|]. apply Ha. eapply ips_in; eauto.
Qed.
End Rows.

(** * Sorting *)
Lemma sort_first {A} (f : A -> A -> bool) : (forall a b c, f b a = false -> f c b = false -> f c a = false) ->
  (forall a b, f a b = true -> f b a = false) ->
  forall l, l <> [] -> exists l1 x l2 t, l = l1 ++ x :: l2 /\ sort_desc f l = x :: t /\
    (forall y, In y l1 -> f x y = true) /\ (forall y, In y l2 -> f y x = false).
Proof.
  intros HT HA l. induction l as [|x l IH]; [congruence|]. intros _. destruct l as [|z l].
  - exists [], x, [], []. repeat split; auto; intros y [].
  - destruct IH as (l1 & y & l2 & t & E & S & H1 & H2); [discriminate|]. cbn [sort_desc fold_right] in *. 
    change (fold_right (insert_desc f) [] (z :: l)) with (sort_desc f (z :: l)) in *. rewrite S. cbn [insert_desc].
    destruct (f y x) eqn:F.
    + exists (x :: l1), y, l2, (insert_desc f x t). rewrite E. repeat split; auto. intros w [<- |Hw]; auto.
    + exists [], x, (z :: l), (y :: t). split; [auto|split; [auto|split; [intros w []|]]]. intros w Hw. apply HT with y; auto.
      rewrite E in Hw. apply in_app_iff in Hw as [Hw|[<- |Hw]]; auto. 
      destruct (f y y) eqn:Y; auto. rewrite (HA _ _ Y) in Y. discriminate.
Qed.

Definition asc (l : list value) : Prop := StronglySorted (fun a b => v_ltb a b = true) l.
Lemma insert_asc x l : asc l -> ~ In x l -> asc (insert_desc v_ltb x l).
Proof.
  destruct v_order as (A & B & C). induction l as [|y l IH]; cbn [insert_desc]; intros S N.
  - constructor; constructor.
  - apply StronglySorted_inv in S as [S F]. destruct (v_ltb y x) eqn:E.
    + constructor; [apply IH; auto; intros X; apply N; right; auto|]. rewrite Forall_forall in *. intros z Hz.
      apply (Permutation_in _ (insert_desc_perm _ _ _)) in Hz. destruct Hz as [<- |Hz]; auto.
    + assert (X : v_ltb x y = true) by (destruct (C x y) as [H|[H|H]]; [auto|exfalso; apply N; left; auto|congruence]).
      constructor; [constructor; auto|]. constructor; auto. rewrite Forall_forall in *. intros z Hz. eauto.
Qed.
Lemma sort_vals_asc l : NoDup l -> asc (sort_vals l).
Proof.
  induction l as [|x l IH]; intros H; [constructor|]. inversion H as [|? ? Hn Hd]. subst. unfold sort_vals in *. cbn [sort_desc fold_right].
  apply insert_asc; [apply IH; auto|]. intros X. apply Hn. eapply Permutation_in; [apply sort_desc_perm|exact X].
Qed.
Lemma asc_sorted l : asc l -> sort_vals l = l.
Proof.
  destruct v_order as (A & B & C). induction l as [|x l IH]; intros S; auto. apply StronglySorted_inv in S as [S F].
  unfold sort_vals in *. cbn [sort_desc fold_right]. change (fold_right (insert_desc v_ltb) [] l) with (sort_desc v_ltb l).
  rewrite IH; auto. destruct l as [|y l]; auto. cbn [insert_desc]. apply Forall_inv in F.
  destruct (v_ltb y x) eqn:E; auto. specialize (A x). rewrite (B x y x) in A; auto; discriminate.
Qed.
Lemma asc_filter f l : asc l -> asc (filter f l).
Proof.
  induction l as [|x l IH]; intros S; [constructor|]. apply StronglySorted_inv in S as [S F]. cbn [filter].
  destruct (f x); auto. constructor; [apply IH; auto|]. rewrite Forall_forall in *. intros y Hy. apply filter_In in Hy. apply F. tauto.
Qed.
Lemma asc_NoDup l : asc l -> NoDup l.
Proof.
  destruct v_order as (A & _). induction l as [|x l IH]; intros S; [constructor|]. apply StronglySorted_inv in S as [S F]. constructor; auto.
  intros X. rewrite Forall_forall in F. apply F in X. rewrite A in X. discriminate.
Qed.
Lemma sort_vals_In l v : In v (sort_vals l) <-> In v l.
Proof. split; apply Permutation_in; [|apply Permutation_sym]; apply sort_desc_perm. Qed.

(** * Keys *)
Lemma same_kind_kind a b : same_kind a b = Bool.eqb (kind a) (kind b).
Proof. destruct a, b; reflexivity. Qed.
Lemma extreme_ok lt l : order lt -> l <> [] -> (forall v w, In v l -> In w l -> kind v = kind w) ->
  exists m, extreme lt l = Ok m /\ In m l /\ forall v, In v l -> lt v m = false.
Proof.
  intros Ho Hn Hk. destruct l as [|x l]; [congruence|]. cbn [extreme].
  assert (forallb (same_kind x) l = true) as ->.
  { apply forallb_forall. intros y Hy. rewrite same_kind_kind, (Hk x y); [apply eqb_reflx|left; auto|right; auto]. }
  eexists. split; [reflexivity|]. clear Hn Hk. revert x. induction l as [|y l IH]; intros x.
  - cbn. split; auto. intros v [<- |[]]. apply Ho.
  - cbn [fold_left]. destruct (IH (if lt y x then y else x)) as [I1 I2]. set (m := fold_left _ l _) in *. split.
    + destruct I1 as [I1|I1]; [|right; right; auto]. rewrite <- I1. destruct (lt y x); [right; left; auto|left; auto].
    + assert (X : lt (if lt y x then y else x) m = false) by (apply I2; left; auto).
      intros v [<- |[<- |Hv]]; [| |apply I2; right; auto]; destruct (lt y x) eqn:E; auto.
      * eapply nlt_trans; [exact Ho|exact X|]. destruct (lt x y) eqn:E2; auto. exfalso. eapply lt_asym; eauto.
      * eapply nlt_trans; [exact Ho|exact X|]. auto.
Qed.

Lemma vle_ltb a b : kind a = kind b -> (vle a b <-> v_ltb b a = false).
Proof.
  destruct a as [x| |s], b as [y| |t]; cbn; try discriminate; intros _; try tauto; try (split; [tauto|discriminate]).
  - destruct (qc_ltb y x) eqn:E.
    + apply qc_ltb_lt in E. split; [|discriminate]. intros X. exfalso. apply (Qcle_not_lt _ _ X E).
    + split; auto. intros _. destruct (Qclt_le_dec y x) as [H|H]; auto. apply qc_ltb_lt in H. congruence.
  - unfold String.ltb. rewrite (String.compare_antisym t s). change (String.compare s t) with (String_as_OT.cmp s t).
    destruct (String_as_OT.cmp s t) eqn:E; cbn; split; auto; try discriminate.
    + intros _. left. apply String_as_OT.cmp_eq. auto.
    + intros [->|X]; [|discriminate]. rewrite (proj2 (String_as_OT.cmp_eq t t)) in E; [discriminate|auto].
Qed.

Definition key_of (lt : value -> value -> bool) (l : list value) (m : value) : Prop := In m l /\ forall v, In v l -> lt v m = false.
Lemma key_unique lt l m m' : order lt -> key_of lt l m -> key_of lt l m' -> m = m'.
Proof.
  intros (_ & _ & C) [A1 A2] [B1 B2]. destruct (C m m') as [H|[H|H]]; auto; [rewrite (B2 m A1) in H|rewrite (A2 m' B1) in H]; discriminate.
Qed.

Lemma sort_vars_ok lt vars : order lt -> parents_ok vars ->
  exists p ps, sort_vars lt vars = Ok (p :: ps) /\ Permutation (p :: ps) vars /\ first_by (key_of lt) vars p.
Proof.
  intros Ho (Hne & Hn & Hp & Hk). unfold sort_vars.
  assert (K : exists ks, mapM (fun v => extreme lt (v_values v)) vars = Ok ks /\ Forall2 (fun v m => key_of lt (v_values v) m) vars ks).
  { assert (A : forall l, incl l vars -> exists ks, mapM (fun v => extreme lt (v_values v)) l = Ok ks /\ Forall2 (fun v m => key_of lt (v_values v) m) l ks).
    { induction l as [|v l IH]; intros I; [exists []; split; [auto|constructor]|].
      assert (Hv : In v vars) by (apply I; left; auto).
      destruct (extreme_ok lt (v_values v) Ho) as (m & E & M1 & M2); [apply Hp; auto|intros; apply (Hk v v); auto|].
      destruct IH as (ks & E' & F); [intros x Hx; apply I; right; auto|].
      exists (m :: ks). cbn [mapM]. rewrite E. cbn [bind]. rewrite E'. cbn [bind]. split; auto. constructor; auto. split; auto. }
    apply A. intros x; auto. }
  destruct K as (ks & -> & F). cbn [bind].
  assert (KK : forall m m', In m ks -> In m' ks -> kind m = kind m').
  { assert (G : forall m, In m ks -> exists v, In v vars /\ In m (v_values v)).
    { clear -F. induction F as [|v m vs ks [H _] F IH]; [intros ? []|]. intros m' [<- |Hm]; [exists v; split; [left; auto|auto]|].
      destruct (IH m' Hm) as (v' & H1 & H2). exists v'. split; [right; auto|auto]. }
    intros m m' Hm Hm'. destruct (G m Hm) as (v & V1 & V2), (G m' Hm') as (v' & V1' & V2'). eauto. }
  assert (forallb (same_kind (hd VInf ks)) (tl ks) = true) as ->.
  { destruct ks as [|m ks]; auto. cbn [hd tl]. apply forallb_forall. intros y Hy. rewrite same_kind_kind, (KK m y); [apply eqb_reflx|left; auto|right; auto]. }
  assert (L : List.length ks = List.length vars) by (symmetry; clear -F; induction F; cbn; auto).
  destruct (sort_first (fun a b : value * variable => v_ltb (fst a) (fst b))) with (l := combine ks vars) as (l1 & [m p] & l2 & t & E & S & H1 & H2).
  - intros a b c. apply (nlt_trans _ v_order).
  - intros a b X. destruct (v_ltb (fst b) (fst a)) eqn:Y; auto. destruct (lt_asym _ v_order _ _ X Y).
  - destruct ks, vars; try discriminate; congruence.
  - exists p, (map snd t). rewrite S. cbn [map snd]. split; auto. 
    assert (V : forall (a : list value) (b : list variable), List.length a = List.length b -> map snd (combine a b) = b).
    { induction a as [|x a IH]; intros [|y b]; cbn; intros X; auto; try discriminate. f_equal. apply IH. lia. }
    split.
    + change (p :: map snd t) with (map snd ((m, p) :: t)). rewrite <- S. rewrite <- (V ks vars L) at 2. apply Permutation_map, sort_desc_perm.
    + exists (map snd l1), (map snd l2). rewrite <- (V ks vars L), E, map_app. split; auto.
      assert (Q : forall m0 q, In (m0, q) (combine ks vars) -> key_of lt (v_values q) m0 /\ In m0 ks).
      { clear -F. induction F as [|v m vs ks H F IH]; cbn; [intros ? ? []|]. intros m0 q [[= <- <-]|Hq]; auto. destruct (IH m0 q Hq). auto. }
      assert (Qp := Q m p). rewrite E in Qp. destruct Qp as [Qp Im]; [apply in_app_iff; right; left; auto|].
      split; intros q m' mq Hq Km Kq; apply in_map_iff in Hq as ([m0 q'] & <- & Hq); cbn [snd] in *;
        assert (m' = m) by (eapply key_unique; eauto); subst m';
        (destruct (Q m0 q') as [Q0 I0]; [rewrite E; apply in_app_iff; cbn; auto|]); assert (mq = m0) by (eapply key_unique; eauto); subst mq.
      * specialize (H1 _ Hq). cbn [fst] in H1. split; [|intros ->; rewrite (proj1 v_order) in H1; discriminate].
        apply vle_ltb; auto. destruct (v_ltb m0 m) eqn:Y; auto. destruct (lt_asym _ v_order _ _ H1 Y).
      * specialize (H2 _ Hq). cbn [fst] in H2. apply vle_ltb; auto.
Qed.

(** * The whole function *)
Lemma seq_fst {A} (l : list A) : forall k, map fst (combine (seq k (List.length l)) l) = seq k (List.length l).
Proof. induction l as [|x l IH]; intros k; cbn; auto. f_equal. apply IH. Qed.
Lemma seq_snd {A} (l : list A) : forall k, map snd (combine (seq k (List.length l)) l) = l.
Proof. induction l as [|x l IH]; intros k; cbn; auto. f_equal. apply IH. Qed.

Lemma loop_items_ok ips : Forall (item_ok ips) (loop_items ips).
Proof.
  apply Forall_forall. intros [[i p] v] H. unfold loop_items in H. apply in_flat_map in H as ([i' p'] & Hip & H).
  apply in_map_iff in H as (v' & [= -> -> ->] & H). split; auto. apply sort_vals_In. auto.
Qed.
Lemma loop_items_In ips x : item_ok ips x -> In x (loop_items ips).
Proof.
  destruct x as [[i p] v]. intros [H1 H2]. unfold loop_items. apply in_flat_map. exists (i, p). split; auto.
  apply in_map_iff. exists v. split; auto. apply sort_vals_In. auto.
Qed.
Lemma loop_items_NoDup ips : NoDup (map fst ips) -> (forall ip, In ip ips -> NoDup (v_values (snd ip))) -> NoDup (loop_items ips).
Proof.
  induction ips as [|[i p] ips IH]; intros Hd Hv; [constructor|]. cbn [map fst] in Hd. inversion Hd as [|? ? Hn Hd']. subst.
  unfold loop_items. cbn [flat_map]. apply NoDup_app_intro.
  - apply FinFun.Injective_map_NoDup; [intros ? ? [= E]; auto|]. cbn [snd]. apply asc_NoDup, sort_vals_asc. apply (Hv (i, p)). left. auto.
  - apply IH; auto. intros ip H. apply Hv. right. auto.
  - intros [[j q] v] H1 H2. apply in_map_iff in H1 as (v' & [= <- <- <-] & _).
    apply in_flat_map in H2 as ([j' q'] & Hq & H2). apply in_map_iff in H2 as (v'' & [= -> -> ->] & _).
    apply Hn. apply in_map_iff. exists (i, p). auto.
Qed.

Definition best (lt : value -> value -> bool) (vars : list variable) (a : joint) (m : value) : Prop :=
  (exists p, In p vars /\ value_at a p = Some m) /\ forall p v, In p vars -> value_at a p = Some v -> lt m v = false.

Lemma check_C_ok (vs : list variable) (C : list (list Z)) :
  (forall row, In row C -> List.length row = List.length vs /\ forall k v c, nth_error vs k = Some v -> nth_error row k = Some c -> c <= 2 ^ nvals v - 1) ->
  check_C vs C = Ok tt.
Proof.
  intros H. unfold check_C. destruct C as [|r C]; auto.
  assert (forallb (fun row => (List.length row =? List.length vs)%nat) (r :: C) = true) as ->.
  { apply forallb_forall. intros row Hr. apply Nat.eqb_eq, H, Hr. }
  cbn [negb]. assert (forallb (col_max_ok (r :: C)) (combine (seq 0 (List.length vs)) vs) = true) as ->; auto.
  apply forallb_forall. intros [k w] Hk. unfold col_max_ok. cbn [fst snd]. apply forallb_forall. intros row Hr. apply Z.leb_le.
  destruct (H row Hr) as [L B].
  assert (E : nth_error vs k = Some w).
  { clear -Hk. apply In_nth_error in Hk as [j Hj]. 
    assert (F : nth_error (map fst (combine (seq 0 (List.length vs)) vs)) j = Some k) by (rewrite nth_error_map, Hj; auto).
    assert (G : nth_error (map snd (combine (seq 0 (List.length vs)) vs)) j = Some w) by (rewrite nth_error_map, Hj; auto).
    rewrite seq_fst in F. rewrite seq_snd in G.
    assert (Lj : (j < List.length vs)%nat) by (apply nth_error_Some; congruence).
    pose proof (@seq_nth (List.length vs) 0%nat j 0%nat Lj) as S. rewrite (nth_error_nth _ _ _ F) in S. cbn in S. subst. auto. }
  assert (Lk : (k < List.length row)%nat) by (rewrite L; apply nth_error_Some; congruence).
  apply (B k w); auto. unfold at_. apply nth_error_nth'. auto.
Qed.

Lemma Forall2_in_r {A B} (Q : A -> B -> Prop) l l' y : Forall2 Q l l' -> In y l' -> exists x, In x l /\ Q x y.
Proof.
  intros F. induction F as [|x z l l' H F IH]; intros Hy; [destruct Hy|]. destruct Hy as [Hy|Hy].
  - subst. exists x. split; [left; auto|auto].
  - destruct (IH Hy) as (u & H1 & H2). exists u. split; [right; auto|auto].
Qed.

(** every value below a value of a parent is a value of that parent, if it is one of any *)
Definition nested_b (vars : list variable) : Prop :=
  forall p q v w, In p vars -> In q vars -> In v (v_values p) -> In w (v_values q) -> v_ltb v w = true -> In v (v_values q).

Lemma beaten_none lt i i2 v q z : beaten lt i i2 v q = [] -> In z (v_values q) ->
  (if (i2 <? i)%nat then lt z v else negb (lt v z)) = false.
Proof.
  intros E Hz. destruct (if (i2 <? i)%nat then lt z v else negb (lt v z)) eqn:X; auto. exfalso.
  apply In_nth_error in Hz as [k Hk]. assert (Y : In (Z.of_nat k) (beaten lt i i2 v q)).
  { unfold beaten. apply positions_In. split; [lia|]. exists z. rewrite Nat2Z.id. auto. }
  rewrite E in Y. destruct Y.
Qed.

Lemma asc_snoc l x : asc l -> (forall y, In y l -> v_ltb y x = true) -> asc (l ++ [x]).
Proof.
  intros A H. induction A as [|y l A IH F]; cbn [app]; [constructor; constructor|]. constructor; [apply IH; intros z Hz; apply H; right; auto|].
  apply Forall_app. split; [auto|]. constructor; [apply H; left; auto|constructor].
Qed.
Lemma add_asc (ip : nat * variable) f : forall l vals, asc vals -> asc l -> (forall v, In v l -> In v vals \/ forall y, In y vals -> v_ltb y v = true) ->
  asc (fold_left add_val (filter f (map (fun v => (ip, v)) l)) vals).
Proof.
  induction l as [|x l IH]; intros vals A L H; cbn [map filter fold_left]; [auto|]. inversion L as [|? ? L1 L2]; subst. rewrite Forall_forall in L2.
  assert (N : forall v, In v l -> In v vals \/ forall y, In y vals -> v_ltb y v = true) by (intros v Hv; apply H; right; auto).
  destruct (f (ip, x)); [|apply IH; auto]. cbn [fold_left]. unfold add_val at 2. cbn [snd].
  destruct (existsb (val_eqb x) vals) eqn:X; [apply IH; auto|].
  assert (Hx : ~ In x vals) by (rewrite <- existsb_val, X; discriminate).
  destruct (H x (or_introl eq_refl)) as [Y|Y]; [tauto|]. apply IH; auto; [apply asc_snoc; auto|].
  intros v Hv. destruct (N v Hv) as [Z|Z]; [left; apply in_app_iff; auto|]. right. intros y Hy. apply in_app_iff in Hy as [Hy|[<-|[]]]; auto.
Qed.

Lemma nested_asc vars ips : nested_b vars -> (forall i p, In (i, p) ips -> In p vars /\ v_values p <> [] /\ NoDup (v_values p)) ->
  forall B A vals, ips = A ++ B -> StronglySorted (fun x y => (fst x < fst y)%nat) ips -> asc vals ->
    (forall v, In v vals -> exists iq, In iq A /\ In v (v_values (snd iq))) -> (forall iq v, In iq A -> In v (v_values (snd iq)) -> In v vals) ->
    asc (fold_left add_val (filter (keptb v_ltb ips) (loop_items B)) vals).
Proof.
  intros HN HP. induction B as [|[i p] B IH]; intros A vals E HS HA H1 H2; [exact HA|].
  unfold loop_items. cbn [flat_map snd]. rewrite filter_app, fold_left_app. fold (loop_items B).
  destruct (HP i p) as (Pv & Pn & Pd); [rewrite E; apply in_app_iff; right; left; auto|].
  set (vals' := fold_left add_val (filter (keptb v_ltb ips) (map (fun v => (i, p, v)) (sort_vals (v_values p)))) vals).
  assert (AV : forall iq, In iq A -> In (snd iq) vars).
  { intros [j q] Hq. apply (HP j q). rewrite E. apply in_app_iff. auto. }
  destruct v_order as (Irr & Tr & Tot).
  assert (Hd : forall v, In v (v_values p) -> In v vals \/ forall y, In y vals -> v_ltb y v = true).
  { intros v Hv. destruct (existsb (val_eqb v) vals) eqn:X; [left; apply existsb_val; auto|]. right. intros y Hy.
    assert (Hx : ~ In v vals) by (rewrite <- existsb_val, X; discriminate).
    destruct (H1 y Hy) as (iq & Hq & Hyq). destruct (Tot y v) as [Z|[Z|Z]]; [auto|subst; tauto|].
    exfalso. apply Hx. apply (H2 iq v Hq). apply (HN p (snd iq) v y); auto. }
  apply (IH (A ++ [(i, p)])); [rewrite <- app_assoc; auto|auto| | |].
  - unfold vals'. apply (add_asc (i, p)); [auto|apply sort_vals_asc; auto|]. intros v Hv. apply Hd. apply sort_vals_In; auto.
  - intros v Hv. unfold vals' in Hv. apply fold_add_In in Hv as [Hv|Hv].
    + destruct (H1 v Hv) as (iq & Hq & Hvq). exists iq. rewrite in_app_iff. auto.
    + apply in_map_iff in Hv as (x & <- & Hx). apply filter_In in Hx as [Hx _]. apply in_map_iff in Hx as (u & <- & Hu). exists (i, p). split.
      * apply in_app_iff. right; left; auto.
      * exact (proj1 (sort_vals_In _ _) Hu).
  - intros iq v Hq Hv. unfold vals'. apply fold_add_In. apply in_app_iff in Hq as [Hq|[<-|[]]]; [left; eauto|]. cbn [snd] in Hv.
    destruct (keptb v_ltb ips (i, p, v)) eqn:KB.
    + right. apply in_map_iff. exists (i, p, v). split; [auto|]. apply filter_In. split; [|auto]. apply in_map_iff. exists v. split; [auto|]. apply sort_vals_In; auto.
    + left. unfold keptb in KB. apply not_true_iff_false in KB. rewrite forallb_forall in KB.
      destruct (existsb (fun iq => negb ((fst iq =? i)%nat || negb (is_nil (beaten v_ltb i (fst iq) v (snd iq))))) ips) eqn:X.
      2:{ exfalso. apply KB. intros x Hx. destruct (_ || _) eqn:Y; auto. rewrite <- not_true_iff_false in X. exfalso. apply X.
          apply existsb_exists. exists x. rewrite Y. auto. }
      apply existsb_exists in X as ([i2 q] & Hq & X). cbn [fst snd] in X. apply negb_true_iff, orb_false_iff in X as [X1 X2].
      apply negb_false_iff in X2. assert (EB : beaten v_ltb i i2 v q = []) by (destruct (beaten v_ltb i i2 v q); [auto|discriminate]).
      destruct (HP i2 q Hq) as (Qv & Qn & _). destruct (v_values q) as [|z zs] eqn:Ez; [congruence|].
      assert (Hz : In z (v_values q)) by (rewrite Ez; left; auto). pose proof (beaten_none v_ltb i i2 v q z EB Hz) as BN.
      destruct (i2 <? i)%nat eqn:LT.
      * assert (HqA : In (i2, q) A).
        { rewrite E in Hq. apply in_app_iff in Hq as [Hq|[Hq|Hq]]; [auto|injection Hq as -> ->; apply Nat.ltb_lt in LT; lia|].
          exfalso. rewrite E in HS. clear -HS Hq LT. apply Nat.ltb_lt in LT. induction A as [|a A IH]; cbn [app] in HS; inversion HS as [|? ? S1 S2]; subst; auto.
          rewrite Forall_forall in S2. specialize (S2 _ Hq). cbn [fst] in S2. lia. }
        apply (H2 (i2, q) v HqA). cbn [snd]. destruct (Tot z v) as [Z|[Z|Z]]; [congruence|subst; auto|]. apply (HN p q v z); auto.
      * exfalso. apply negb_false_iff in BN. assert (Hvq : In v (v_values q)) by (apply (HN p q v z); auto).
        pose proof (beaten_none v_ltb i i2 v q v EB Hvq) as BN2. rewrite LT, Irr in BN2. discriminate.
Qed.

Lemma sys_val_main key lt name vars : order key -> order lt -> parents_ok vars ->
  exists raw C p, 
    let w := mk_variable name (sort_vals raw) (Some FStore) in
    sys_val key lt name vars = Ok (mkCpm (w :: vars) 1 C (map (fun _ => 1%Qc) C), w) /\
    NoDup raw /\ (forall v, In v raw <-> exists a, states_in vars a /\ best lt vars a v) /\
    (forall row, In row C -> List.length row = S (List.length vars)) /\
    (forall a, states_in vars a -> exists row m, filter (fun row => row_match vars (tl row) a) C = [row] /\
       best lt vars a m /\ 0 <= at_ row 0 /\ nth_error raw (Z.to_nat (at_ row 0)) = Some m) /\
    first_by (key_of key) vars p /\
    ((forall a m, states_in vars a -> best lt vars a m -> In m (v_values p)) -> sort_vals raw = raw) /\
    (lt = v_ltb -> nested_b vars -> sort_vals raw = raw) /\
    (forall s r, In (s :: r) C -> 0 <= s < Z.of_nat (List.length raw) /\ Forall2 code_ok vars r).
Proof.
  intros Hkey Hlt OK. destruct (sort_vars_ok key vars Hkey OK) as (p0 & ps & Es & Hperm & Hfirst).
  destruct OK as (Hne & Hnames & Hp & _).
  set (ips := combine (seq 0 (List.length (p0 :: ps))) (p0 :: ps)).
  assert (Hfst : NoDup (map fst ips)) by (unfold ips; rewrite seq_fst; apply seq_NoDup).
  assert (Hsnd : Permutation (map snd ips) vars) by (unfold ips; rewrite seq_snd; auto).
  assert (Hfull : forall p, In p vars -> full_table p) by (intros p H; apply Hp; auto).
  assert (Hvals : forall p, In p vars -> NoDup (v_values p)) by (intros p H; apply Hp; auto).
  destruct (fold_spec lt vars Hnames Hfull ips Hfst Hsnd (loop_items ips) [] [] (loop_items_ok ips)) as (C & EF & R).
  set (K := filter (keptb lt ips) (loop_items ips)) in *. set (raw := fold_left add_val K []) in *.
  assert (KOK : forall x, In x K -> item_ok ips x /\ keptb lt ips x = true).
  { intros x Hx. apply filter_In in Hx as [H1 H2]. split; auto. pose proof (loop_items_ok ips) as F. rewrite Forall_forall in F. auto. }
  assert (ND : NoDup raw) by (apply fold_add_NoDup; constructor).
  assert (RG : forall row, In row C -> exists x, In x K /\ row_of lt vars ips raw x row).
  { intros row Hrow. eapply Forall2_in_r; eauto. }
  assert (WB : forall a i p v, winner lt ips a (i, p, v) -> best lt vars a v).
  { intros a i p v W. split; [exists p; split; [eapply ips_in; [exact Hsnd|apply W]|apply W]|].
    intros q w Hq Hw. eapply (winner_best lt Hlt vars ips Hfst Hsnd); eauto. }
  assert (BW : forall a v, states_in vars a -> best lt vars a v -> exists i p, winner lt ips a (i, p, v) /\ item_ok ips (i, p, v)).
  { intros a v Ha Hb. destruct (winner_exists lt Hlt vars ips Hfst Hsnd a Hne Ha) as ([[i p] v'] & W & IO).
    assert (v' = v) as ->; [|eauto]. destruct (WB a i p v' W) as [(q & Q1 & Q2) Q3]. destruct Hb as [(q' & P1 & P2) P3].
    destruct Hlt as (_ & _ & T). destruct (T v' v) as [X|[X|X]]; auto; [rewrite (Q3 q' v P1 P2) in X|rewrite (P3 q v' Q1 Q2) in X]; discriminate. }
  assert (RAW : forall v, In v raw <-> exists a, states_in vars a /\ best lt vars a v).
  { intros v. unfold raw. rewrite fold_add_In. cbn [In]. split.
    - intros [[]|H]. apply in_map_iff in H as ([[i p] v'] & <- & Hx). destruct (KOK _ Hx) as [H1 H2].
      destruct (kept_wins lt vars Hnames ips Hfst Hsnd _ H1 H2) as (a & Ha & W). exists a. split; auto. cbn [snd]. eapply WB; eauto.
    - intros (a & Ha & Hb). right. destruct (BW a v Ha Hb) as (i & p & W & IO). apply in_map_iff. exists (i, p, v). split; auto.
      apply filter_In. split; [apply loop_items_In; auto|]. eapply (winner_kept lt vars ips Hsnd); eauto. }
  exists raw, C, p0. cbn zeta.
  assert (CO : forall s r, In (s :: r) C -> 0 <= s < Z.of_nat (List.length raw) /\ Forall2 code_ok vars r).
  { intros s r Hr. destruct (RG _ Hr) as ([[i p] v] & Hx & (HL & k0 & Hk0 & Hc) & H0 & Hn). change (at_ (s :: r) 0) with s in H0, Hn.
    assert ((Z.to_nat s < List.length raw)%nat) by (apply nth_error_Some; congruence). split; [lia|].
    assert (F2 : forall (l : list variable) (l' : list Z), List.length l = List.length l' ->
      (forall k a b, nth_error l k = Some a -> nth_error l' k = Some b -> code_ok a b) -> Forall2 code_ok l l').
    { clear. induction l as [|a l IH]; intros [|b l'] L G; try discriminate L; constructor.
      - apply (G O); auto.
      - apply IH; auto. intros k x y Hx Hy. apply (G (S k)); auto. }
    apply F2; [cbn in HL; lia|]. intros k u c E1 E2. assert (Hu : In u vars) by (eapply nth_error_In; eauto). destruct (ips_of vars ips Hsnd u Hu) as [i2 Hi2].
    destruct (Hc i2 u k Hi2 E1) as (c' & Hc' & Hok & _). cbn [nth_error] in Hc'. congruence. }
  split; [|split; [auto|split; [exact RAW|split; [|split; [|split; [exact Hfirst|split; [|split; [|exact CO]]]]]]]].
  - unfold sys_val. rewrite Es. cbn [bind]. change (combine (seq 0 (List.length (p0 :: ps))) (p0 :: ps)) with ips.
    rewrite EF. cbn [bind app]. unfold mk_cpm. cbn [List.length Nat.leb]. rewrite check_C_ok; [cbn [bind]|].
    + assert (P : check_p C (map (fun _ => 1%Qc) C) = Ok tt); [|rewrite P; auto].
      unfold check_p. destruct (map (fun _ => 1%Qc) C) eqn:E; auto. rewrite <- E, map_length, Nat.eqb_refl. auto.
    + intros row Hr. destruct (RG row Hr) as ([[i p] v] & Hx & (HL & k0 & Hk0 & Hc) & H0 & Hn). split; [cbn [List.length]; auto|].
      intros [|k] u c E1 E2; cbn [nth_error] in E1.
      * injection E1 as <-. unfold nvals. cbn [v_values mk_variable].
        assert (L : List.length (sort_vals raw) = List.length raw) by (apply Permutation_length, sort_desc_perm). rewrite L.
        assert (c = at_ row 0) as -> by (destruct row; [discriminate|cbn in *; congruence]).
        assert ((Z.to_nat (at_ row 0) < List.length raw)%nat) by (apply nth_error_Some; congruence).
        pose proof (Z.pow_gt_lin_r 2 (Z.of_nat (List.length raw))). lia.
      * assert (Hu : In u vars) by (eapply nth_error_In; eauto). destruct (ips_of vars ips Hsnd u Hu) as [i2 Hi2].
        destruct (Hc i2 u k Hi2 E1) as (c' & Hc' & (B & HB & HB2) & _). assert (c' = c) by congruence. subst c'.
        rewrite (Hfull u Hu) in HB. injection HB as <-. rewrite gen_B_length_Z in HB2. unfold nvals. lia.
  - intros row Hr. destruct (RG row Hr) as ([[i p] v] & Hx & (HL & _) & _). auto.
  - intros a Ha. destruct (winner_exists lt Hlt vars ips Hfst Hsnd a Hne Ha) as ([[i p] v] & W & IO).
    destruct (filter_unique (row_of lt vars ips raw) (fun row => row_match vars (tl row) a) (i, p, v) K C R) as (r & E & (G1 & G2 & G3) & _).
    + apply NoDup_filter, loop_items_NoDup; auto. intros [j q] Hq. apply Hvals. eapply ips_in; eauto.
    + apply filter_In. split; [apply loop_items_In; auto|]. eapply (winner_kept lt vars ips Hsnd); eauto.
    + intros x r Hx (G & _). destruct (KOK x Hx) as [X1 X2].
      rewrite (match_winner lt vars ips Hfst Hsnd Hvals a x r Ha X1 G). split; [|intros ->; auto].
      intros W'. eapply (winner_unique lt Hlt ips Hfst); eauto.
    + exists r, v. split; auto. split; [eapply WB; eauto|]. auto.
  - intros Hin.
    assert (IP : ips = (0%nat, p0) :: combine (seq 1 (List.length ps)) ps) by reflexivity.
    set (rest := combine (seq 1 (List.length ps)) ps) in *.
    assert (KE : K = filter (keptb lt ips) (map (fun v => ((0%nat, p0), v)) (sort_vals (v_values p0))) ++ filter (keptb lt ips) (loop_items rest)).
    { unfold K. rewrite IP at 2. unfold loop_items. cbn [flat_map snd]. rewrite filter_app. auto. }
    set (K0 := filter (keptb lt ips) (map (fun v => ((0%nat, p0), v)) (sort_vals (v_values p0)))) in KE. set (K1 := filter (keptb lt ips) (loop_items rest)) in KE.
    assert (A0 : fold_left add_val K0 [] = map snd K0).
    { assert (G : forall (l : list item) vals, NoDup (vals ++ map snd l) -> fold_left add_val l vals = vals ++ map snd l).
      { induction l as [|x l IH]; intros vals Hd; cbn [fold_left map]; [rewrite app_nil_r; auto|]. unfold add_val at 2.
        destruct (existsb (val_eqb (snd x)) vals) eqn:X.
        - exfalso. apply existsb_val in X. cbn [map] in Hd. apply NoDup_remove_2 in Hd. apply Hd, in_app_iff. auto.
        - rewrite IH; rewrite <- app_assoc; auto. }
      rewrite G; auto. cbn [app]. unfold K0. apply NoDup_map_filter.
      rewrite map_map. cbn [snd]. rewrite map_id. apply asc_NoDup, sort_vals_asc, Hvals. eapply Permutation_in; [exact Hperm|left; auto]. }
    assert (A1 : forall l vals, (forall x, In x l -> In (snd x) vals) -> fold_left add_val l vals = vals).
    { clear. induction l as [|x l IH]; intros vals H; cbn [fold_left]; auto. unfold add_val at 2.
      rewrite (proj2 (existsb_val (snd x) vals)); [|apply H; left; auto]. apply IH. intros y Hy. apply H. right. auto. }
    assert (RE : raw = map snd K0).
    { unfold raw. rewrite KE, fold_left_app, A0. apply A1. intros [[i p] v] Hx. cbn [snd].
      assert (HxK : In (i, p, v) K) by (rewrite KE; apply in_app_iff; auto). destruct (KOK _ HxK) as [X1 X2].
      destruct (kept_wins lt vars Hnames ips Hfst Hsnd _ X1 X2) as (a & Ha & W). pose proof (WB _ _ _ _ W) as Hb.
      apply in_map_iff. exists (0%nat, p0, v). split; auto. apply filter_In. split.
      - apply in_map_iff. exists v. split; auto. apply sort_vals_In. eapply Hin; eauto.
      - apply keptb_spec. intros i2 q Hq Hi2 Eb. assert (Hq' : In q vars) by (eapply ips_in; eauto).
        destruct (value_total vars a q Ha Hq') as [u Hu].
        assert (Z0 : In (a (v_name q)) (beaten lt 0 i2 v q)).
        { apply beaten_In; [apply Ha; auto|]. exists u. split; auto. unfold beats. cbn [fst snd].
          replace (i2 <? 0)%nat with false by (symmetry; apply Nat.ltb_ge; lia). apply negb_true_iff. apply Hb with q; auto. }
        rewrite Eb in Z0. destruct Z0. }
    apply asc_sorted. rewrite RE. unfold K0.
    assert (FM : forall l, map snd (filter (keptb lt ips) (map (fun v => ((0%nat, p0), v)) l)) = filter (fun v => keptb lt ips (0%nat, p0, v)) l).
    { induction l as [|x l IH]; cbn [map filter]; auto. destruct (keptb lt ips (0%nat, p0, x)); cbn [map snd]; rewrite IH; auto. }
    rewrite FM. apply asc_filter, sort_vals_asc, Hvals. eapply Permutation_in; [exact Hperm|left; auto].
  - intros -> HN. apply asc_sorted. unfold raw, K.
    assert (X1 : forall i p, In (i, p) ips -> In p vars /\ v_values p <> [] /\ NoDup (v_values p)).
    { intros i p Hi. assert (X : In p vars) by (eapply ips_in; eauto). split; [auto|]. split; [apply Hp; auto|auto]. }
    apply (nested_asc vars ips HN X1 ips [] []); [auto| |constructor|intros v []|intros ? v []].
    unfold ips. clear. generalize 0%nat. induction (p0 :: ps) as [|x l IH]; intros k; cbn [List.length seq combine]; constructor; [apply IH|].
      apply Forall_forall. intros [j y] Hy. apply in_combine_l, in_seq in Hy. cbn [fst]. lia.
Qed.
