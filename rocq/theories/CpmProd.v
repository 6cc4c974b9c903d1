(** Products of CPMs. *)
From Coq Require Import ZArith List String Bool Arith Lia QArith Qcanon Permutation.
From Verif Require Import Py Num Vari Cpm SpecCpm PyFacts VariFacts CpmFacts CpmCond.
Import ListNotations.
Open Scope string_scope.
Open Scope Z_scope.
Open Scope list_scope.

Definition inj (l : list variable) : Prop := forall v w, In v l -> In w l -> v_name v = v_name w -> v = w.

Lemma inj_agree l1 l2 : NoDup (names l1) -> NoDup (names l2) -> agree l1 l2 -> inj (l1 ++ l2).
Proof.
  intros H1 H2 H v w Hv Hw E. apply in_app_or in Hv, Hw. destruct Hv as [Hv|Hv], Hw as [Hw|Hw].
  - apply (NoDup_names_inj l1); auto.
  - apply H; auto.
  - symmetry. apply H; auto.
  - apply (NoDup_names_inj l2); auto.
Qed.

Lemma names_In v l : In v l -> In (v_name v) (names l).
Proof. apply in_map. Qed.
Lemma existsb_name v l : existsb (v_eqb v) l = true <-> In (v_name v) (names l).
Proof.
  rewrite existsb_exists. split.
  - intros (w & Hw & E). apply v_eqb_eq in E. rewrite E. apply names_In. auto.
  - intros H. apply in_map_iff in H as (w & E & Hw). exists w. split; auto. apply v_eqb_eq. auto.
Qed.
Lemma existsb_name_false v l : existsb (v_eqb v) l = false <-> ~ In (v_name v) (names l).
Proof. rewrite <- existsb_name. destruct (existsb (v_eqb v) l); split; congruence. Qed.

Lemma is_some_find v l : is_some (find_idx (v_eqb v) l) = existsb (v_eqb v) l.
Proof.
  destruct (existsb (v_eqb v) l) eqn:E.
  - apply existsb_exists in E as (w & Hw & E). destruct (find_idx_in _ _ _ Hw E) as [i ->]. auto.
  - destruct (find_idx (v_eqb v) l) as [i|] eqn:F; auto. apply find_idx_some in F as (w & Hw & Ew & _).
    rewrite <- not_true_iff_false in E. exfalso. apply E. apply existsb_exists. exists w. split; auto. eapply nth_error_In; eauto.
Qed.

Lemma dedup_names l : NoDup (names (dedup l)) /\ (forall v, In v (dedup l) -> In v l) /\
  (forall v, In v l -> In (v_name v) (names (dedup l))).
Proof.
  induction l as [|a l (I1 & I2 & I3)]; cbn; [split; [constructor|tauto]|]. split; [|split].
  - constructor.
    + intros H. apply in_map_iff in H as (b & E & Hb). apply filter_In in Hb as [_ Hb].
      rewrite negb_true_iff in Hb. unfold v_eqb in Hb. rewrite E, String.eqb_refl in Hb. discriminate.
    + unfold names in *. clear I2 I3. induction (dedup l) as [|b d IH]; cbn; [constructor|].
      inversion I1 as [|? ? N1 N2]; subst. destruct (negb (v_eqb b a)); cbn; auto. constructor; auto.
      intros H. apply N1. apply in_map_iff in H as (c & E & Hc). apply filter_In in Hc as [Hc _]. apply in_map_iff. eauto.
  - intros v [<-|H]; auto. apply filter_In in H as [H _]. auto.
  - intros v [<-|H]; auto. destruct (String.string_dec (v_name a) (v_name v)) as [E|E]; [left; auto|right].
    apply I3 in H. apply in_map_iff in H as (w & Ew & Hw). apply in_map_iff. exists w. split; auto. apply filter_In. split; auto.
    apply negb_true_iff. unfold v_eqb. apply String.eqb_neq. congruence.
Qed.

Lemma sort_vars_perm l : Permutation (sort_vars l) l.
Proof. apply sort_desc_perm. Qed.

Lemma NoDup_names_app l1 l2 : NoDup (names l1) -> NoDup (names l2) ->
  (forall v w, In v l1 -> In w l2 -> v_name v <> v_name w) -> NoDup (names (l1 ++ l2)).
Proof.
  intros H1 H2 H. unfold names. rewrite map_app. apply NoDup_app_intro; auto. intros x Hx Hx'.
  apply in_map_iff in Hx as (v & <- & Hv), Hx' as (w & E & Hw). apply (H v w Hv Hw). auto.
Qed.
Lemma NoDup_names_sub {A} (f : A -> bool) (g : A -> string) l : NoDup (map g l) -> NoDup (map g (filter f l)).
Proof.
  induction l as [|a l IH]; cbn; intros H; [constructor|]. inversion H as [|? ? N1 N2]; subst. destruct (f a); cbn; auto.
  constructor; auto. intros X. apply N1. apply in_map_iff in X as (b & E & Hb). apply filter_In in Hb as [Hb _]. apply in_map_iff. eauto.
Qed.

Lemma children_parents M : c_vars M = children M ++ parents M.
Proof. unfold children, parents. symmetry. apply firstn_skipn. Qed.
Lemma NoDup_app_l {A} (l1 l2 : list A) : NoDup (l1 ++ l2) -> NoDup l1.
Proof. induction l1; cbn; intros H; [constructor|]. inversion H; subst. constructor; auto. intros X. apply H2. apply in_or_app; auto. Qed.
Lemma NoDup_app_r {A} (l1 l2 : list A) : NoDup (l1 ++ l2) -> NoDup l2.
Proof. induction l1; cbn; intros H; auto. inversion H; subst. auto. Qed.
Lemma children_nodup M : wf_cpm M -> NoDup (names (children M)).
Proof. intros (H & _). rewrite children_parents in H. unfold names in *. rewrite map_app in H. eapply NoDup_app_l; eauto. Qed.
Lemma children_length M : wf_cpm M -> List.length (children M) = c_nch M.
Proof. intros (_ & _ & H & _). unfold children. rewrite firstn_length. lia. Qed.

Definition com_of (M2 : cpm) (v : variable) : bool := existsb (v_eqb v) (c_vars M2).
Definition ncom_of (M2 : cpm) (v : variable) : bool := negb (com_of M2 v).

Lemma com_eq M1 M2 : map is_some (ismember (c_vars M1) (c_vars M2)) = map (com_of M2) (c_vars M1).
Proof. unfold ismember. rewrite map_map. apply map_ext. intros v. apply is_some_find. Qed.
Lemma ncom_eq M1 M2 : map negb (map (com_of M2) (c_vars M1)) = map (ncom_of M2) (c_vars M1).
Proof. apply map_map. Qed.

Definition p_vars (M1 M2 : cpm) : list variable := c_vars M2 ++ filter (ncom_of M2) (c_vars M1).
Definition n_child (M1 M2 : cpm) : list variable := sort_vars (children M1 ++ children M2).
Definition n_vars (M1 M2 : cpm) : list variable :=
  n_child M1 M2 ++ fst (setdiff (parents M1 ++ parents M2) (n_child M1 M2)).

Lemma common_child_spec M1 M2 : common_child M1 M2 = false <->
  (forall v w, In v (children M1) -> In w (children M2) -> v_name v <> v_name w).
Proof.
  unfold common_child. rewrite <- not_true_iff_false, existsb_exists. split.
  - intros H v w Hv Hw E. apply H. exists v. split; auto. apply existsb_exists. exists w. split; auto. apply v_eqb_eq. auto.
  - intros H (v & Hv & E). apply existsb_exists in E as (w & Hw & E). apply v_eqb_eq in E. apply (H v w); auto.
Qed.

Section Prod.
Variables (M1 M2 : cpm).
Hypothesis W1 : wf_cpm M1.
Hypothesis W2 : wf_cpm M2.
Hypothesis Ha : agree (c_vars M1) (c_vars M2).
Hypothesis Hcc : common_child M1 M2 = false.

Lemma U_inj : inj (c_vars M1 ++ c_vars M2).
Proof. apply inj_agree; auto; [apply W1|apply W2]. Qed.

Lemma p_vars_nodup : NoDup (names (p_vars M1 M2)).
Proof.
  apply NoDup_names_app; [apply W2| |].
  - apply (NoDup_names_sub _ v_name). apply W1.
  - intros v w Hv Hw E. apply filter_In in Hw as [_ Hw]. unfold ncom_of, com_of in Hw. apply negb_true_iff in Hw.
    apply existsb_name_false in Hw. apply Hw. rewrite <- E. apply names_In. auto.
Qed.
Lemma p_vars_In v : In v (p_vars M1 M2) <-> In v (c_vars M1) \/ In v (c_vars M2).
Proof.
  unfold p_vars. rewrite in_app_iff, filter_In. split; [tauto|]. intros [H|H]; [|tauto].
  destruct (com_of M2 v) eqn:E; [|right; split; auto; unfold ncom_of; rewrite E; auto].
  left. unfold com_of in E. apply existsb_name in E. apply in_map_iff in E as (w & E & Hw).
  replace v with w; auto. symmetry. apply Ha; auto.
Qed.
Lemma n_child_In v : In v (n_child M1 M2) <-> In v (children M1) \/ In v (children M2).
Proof.
  unfold n_child. rewrite <- in_app_iff. split; apply Permutation_in; [|apply Permutation_sym]; apply sort_vars_perm.
Qed.
Lemma n_child_nodup : NoDup (names (n_child M1 M2)).
Proof.
  unfold n_child, names. eapply Permutation_NoDup; [apply Permutation_map, Permutation_sym, sort_vars_perm|].
  apply NoDup_names_app; auto using children_nodup. apply common_child_spec. auto.
Qed.
Lemma n_child_length : List.length (n_child M1 M2) = (c_nch M1 + c_nch M2)%nat.
Proof.
  unfold n_child. rewrite (Permutation_length (sort_vars_perm _)), app_length, !children_length; auto.
Qed.
Lemma child_In M v : In v (children M) -> In v (c_vars M).
Proof. rewrite (children_parents M). intros H. apply in_or_app. auto. Qed.
Lemma n_vars_nodup : NoDup (names (n_vars M1 M2)).
Proof.
  unfold n_vars, setdiff. cbn [fst]. apply NoDup_names_app; [apply n_child_nodup| |].
  - apply (NoDup_names_sub _ v_name). apply dedup_names.
  - intros v w Hv Hw E. apply filter_In in Hw as [_ Hw]. apply negb_true_iff, existsb_name_false in Hw. apply Hw.
    rewrite <- E. apply names_In. auto.
Qed.
Lemma n_vars_In v : In v (n_vars M1 M2) <-> In v (c_vars M1) \/ In v (c_vars M2).
Proof.
  unfold n_vars, setdiff. cbn [fst]. rewrite in_app_iff, n_child_In, filter_In. split.
  - intros [[H|H]|[H _]]; [left|right|]; auto using child_In. apply (proj1 (proj2 (dedup_names _))) in H. apply in_app_or in H.
    rewrite (children_parents M1), (children_parents M2), !in_app_iff. tauto.
  - intros H. destruct (existsb (v_eqb v) (n_child M1 M2)) eqn:E.
    + left. apply existsb_name in E. apply in_map_iff in E as (w & E & Hw). apply n_child_In in Hw.
      assert (w = v); [|subst; auto].
      apply U_inj; auto.
      * apply in_or_app. destruct Hw; auto using child_In.
      * apply in_or_app. auto.
    + assert (Hp : In v (parents M1 ++ parents M2)).
      { rewrite (children_parents M1), (children_parents M2) in H. rewrite !in_app_iff in H. apply in_or_app.
        apply existsb_name_false in E.
        destruct H as [[H|H]|[H|H]]; auto; exfalso; apply E, names_In, n_child_In; auto. }
      right. split; [|reflexivity].
      pose proof Hp as Hp'. apply (proj2 (proj2 (dedup_names _))) in Hp'. apply in_map_iff in Hp' as (w & Ew & Hw).
      assert (w = v); [|subst; auto]. apply U_inj; auto.
      * apply (proj1 (proj2 (dedup_names _))) in Hw. apply in_or_app.
        rewrite (children_parents M1), (children_parents M2), !in_app_iff. apply in_app_or in Hw. tauto.
      * apply in_or_app. auto.
Qed.
Lemma U_ok v : In v (c_vars M1) \/ In v (c_vars M2) -> var_ok v.
Proof.
  destruct W1 as (_ & O1 & _), W2 as (_ & O2 & _). rewrite Forall_forall in O1, O2. intros [H|H]; auto.
Qed.
Lemma n_vars_ok : Forall var_ok (n_vars M1 M2).
Proof. apply Forall_forall. intros v H. apply U_ok. apply n_vars_In. auto. Qed.

(** evidence taken from a row of M1 *)
Definition com_vars : list variable := filter (com_of M2) (c_vars M1).
Definition com_codes (r1 : list Z) : list Z := select r1 (map (com_of M2) (c_vars M1)).
Definition rest_codes (r1 : list Z) : list Z := select r1 (map (ncom_of M2) (c_vars M1)).

Lemma com_vars_sel : com_vars = select (c_vars M1) (map (com_of M2) (c_vars M1)).
Proof. symmetry. apply select_map_id. Qed.
Lemma com_pairs r1 v c : List.length r1 = List.length (c_vars M1) -> In (v, c) (combine com_vars (com_codes r1)) ->
  In (v, c) (combine (c_vars M1) r1).
Proof.
  intros Hl. rewrite com_vars_sel. unfold com_codes. rewrite select_combine_eq by auto. apply select_In.
Qed.
Lemma Forall2_pair v c vars row : Forall2 code_ok vars row -> In (v, c) (combine vars row) -> code_ok v c.
Proof. intros H. induction H; cbn; [tauto|]. intros [E|E]; [congruence|auto]. Qed.

Lemma com_ev_ok r1 : In r1 (c_C M1) -> ev_ok (c_vars M2) com_vars (com_codes r1).
Proof.
  intros Hr. destruct W1 as (N1 & _ & _ & R1 & _). specialize (R1 r1 Hr).
  assert (Hl : List.length r1 = List.length (c_vars M1)) by (apply Forall2_length in R1; auto).
  split; [|split; [|split]].
  - rewrite com_vars_sel. unfold com_codes. apply select_length. auto.
  - apply (NoDup_names_sub _ v_name). auto.
  - intros v w Hv Hw. apply Ha; auto. unfold com_vars in Hv. apply filter_In in Hv. tauto.
  - intros v c Hvc _. eapply Forall2_pair; eauto. apply com_pairs; auto.
Qed.

Lemma com_ev_match r1 a : ev_match (c_vars M2) com_vars (com_codes r1) a = row_match com_vars (com_codes r1) a.
Proof.
  unfold ev_match, row_match. apply forallb_ext_in. intros [v c] H. cbn [fst snd].
  apply in_combine_l in H. unfold com_vars in H. apply filter_In in H as [_ H]. unfold com_of in H. apply existsb_name in H.
  assert (E : mem_str (v_name v) (names (c_vars M2)) = true) by (apply mem_str_In; auto). rewrite E. reflexivity.
Qed.

Definition idx2 : list nat := somes (ismember (n_vars M1 M2) (p_vars M1 M2)).
Definition prod_row (r1 r2 : list Z) : list Z := cols (r2 ++ rest_codes r1) idx2.

Lemma prod_row_match r1 r2 a : List.length r1 = List.length (c_vars M1) -> List.length r2 = List.length (c_vars M2) ->
  row_match (n_vars M1 M2) (prod_row r1 r2) a =
  row_match (c_vars M2) r2 a && row_match (filter (ncom_of M2) (c_vars M1)) (rest_codes r1) a.
Proof.
  intros L1 L2. unfold prod_row, idx2.
  assert (Hl : List.length (rest_codes r1) = List.length (filter (ncom_of M2) (c_vars M1))).
  { unfold rest_codes. rewrite <- (select_map_id (ncom_of M2)). apply select_length. auto. }
  rewrite row_match_perm.
  - unfold p_vars. apply row_match_app. auto.
  - apply n_vars_nodup.
  - apply p_vars_nodup.
  - unfold p_vars. rewrite !app_length. lia.
  - intros v. rewrite n_vars_In, p_vars_In. tauto.
Qed.

Lemma row1_split r1 a : List.length r1 = List.length (c_vars M1) ->
  row_match (c_vars M1) r1 a =
  row_match com_vars (com_codes r1) a && row_match (filter (ncom_of M2) (c_vars M1)) (rest_codes r1) a.
Proof.
  intros Hl. rewrite (row_match_select (c_vars M1) r1 a (map (com_of M2) (c_vars M1))) by (rewrite ?map_length; auto).
  rewrite ncom_eq, <- com_vars_sel, select_map_id. reflexivity.
Qed.

Lemma prod_row_ok r1 r2 : Forall2 code_ok (c_vars M1) r1 -> Forall2 code_ok (c_vars M2) r2 ->
  Forall2 code_ok (n_vars M1 M2) (prod_row r1 r2).
Proof.
  intros R1 R2.
  assert (L1 : List.length r1 = List.length (c_vars M1)) by (apply Forall2_length in R1; auto).
  assert (L2 : List.length r2 = List.length (c_vars M2)) by (apply Forall2_length in R2; auto).
  assert (Hp : forall v c, In (v, c) (combine (p_vars M1 M2) (r2 ++ rest_codes r1)) -> code_ok v c).
  { intros v c H. unfold p_vars in H.
    assert (S : forall (l1 l2 : list variable) (x1 x2 : list Z), List.length l1 = List.length x1 -> combine (l1 ++ l2) (x1 ++ x2) = combine l1 x1 ++ combine l2 x2).
    { induction l1 as [|y l1 IHl1]; intros l2 [|x x1] x2 E; cbn in *; try lia; auto. rewrite IHl1 by lia. reflexivity. }
    rewrite S in H by auto. apply in_app_or in H as [H|H]; [apply (Forall2_pair v c _ _ R2 H)|].
    rewrite <- (select_map_id (ncom_of M2)) in H. unfold rest_codes in H. rewrite select_combine_eq in H by auto.
    apply select_In in H. apply (Forall2_pair v c _ _ R1 H). }
  assert (Lp : List.length (r2 ++ rest_codes r1) = List.length (p_vars M1 M2)).
  { unfold p_vars. rewrite !app_length, L2. f_equal. unfold rest_codes. rewrite <- (select_map_id (ncom_of M2)). apply select_length. auto. }
  rewrite combine_pos in Hp by (auto using p_vars_nodup).
  assert (E : idx2 = map (pos (p_vars M1 M2)) (n_vars M1 M2)).
  { unfold idx2, ismember. assert (I : incl (n_vars M1 M2) (p_vars M1 M2)) by (intros v Hv; apply p_vars_In, n_vars_In; auto).
    assert (N := p_vars_nodup). clear -I N. induction (n_vars M1 M2) as [|v vs IH]; auto. cbn [map somes].
    assert (Hv : nth_error (p_vars M1 M2) (pos (p_vars M1 M2) v) = Some v) by (apply pos_In; auto; apply I; left; auto).
    rewrite (find_idx_pos _ v _ N Hv). f_equal. apply IH. intros x Hx. apply I. right; auto. }
  unfold prod_row, cols. rewrite E, map_map.
  assert (I : forall v, In v (n_vars M1 M2) -> In v (p_vars M1 M2)) by (intros v Hv; apply p_vars_In, n_vars_In; auto).
  clear E. induction (n_vars M1 M2) as [|v vs IH]; cbn; constructor.
  - apply Hp. apply in_map_iff. exists v. split; auto. apply I. left; auto.
  - apply IH. intros w Hw. apply I. right; auto.
Qed.

Definition M2w : cpm := mkCpm (c_vars M2) (c_nch M2) (c_C M2) (weights M2).
Lemma M2w_wf : wf_cpm M2w.
Proof.
  destruct W2 as (A & B & C & D & E). repeat (split; auto). right. apply (wf_weights M2 W2).
Qed.
Lemma M2w_mass a : mass M2w a = mass M2 a.
Proof.
  unfold mass. f_equal. f_equal. f_equal. cbn [c_C M2w]. f_equal. unfold weights at 1. cbn [c_p M2w c_C].
  destruct (weights M2) eqn:E; auto. assert (X := wf_weights M2 W2). rewrite E in X. destruct (c_C M2); cbn in *; [auto|lia].
Qed.

Definition Mc (r1 : list Z) : cpm :=
  match condition M2w (Vars com_vars) (map SI (com_codes r1)) with Ok M => M | Err _ => M2w end.
Lemma Mc_spec r1 : In r1 (c_C M1) ->
  condition M2w (Vars com_vars) (map SI (com_codes r1)) = Ok (Mc r1) /\ wf_cpm (Mc r1) /\ c_vars (Mc r1) = c_vars M2 /\
  List.length (c_C (Mc r1)) = List.length (c_p (Mc r1)) /\
  forall a, mass (Mc r1) a = if row_match com_vars (com_codes r1) a then mass M2 a else 0%Qc.
Proof.
  intros Hr. destruct (condition_ok M2w com_vars (com_codes r1) M2w_wf (com_ev_ok r1 Hr)) as (M' & E & W' & V' & _ & Hm).
  unfold Mc. rewrite E. split; auto. split; auto. split; auto. split.
  - rewrite (condition_spec M2w com_vars (com_codes r1) M2w_wf (com_ev_ok r1 Hr)) in E. injection E as <-. cbn [c_C c_p M2w c_vars].
    assert (Lw := wf_weights M2 W2). rewrite map_length. destruct (weights M2) as [|q p] eqn:Ew.
    + destruct (c_C M2); cbn in *; [auto|lia].
    + rewrite <- (select_map_id (cmp com_vars (com_codes r1) (c_vars M2))). apply select_length. auto.
  - intros a. rewrite Hm. cbn [c_vars M2w]. rewrite com_ev_match, M2w_mass. auto.
Qed.

Definition parts_of (r1 : list Z) : list (list Z) * list Qc := (map (prod_row r1) (c_C (Mc r1)), c_p (Mc r1)).
Definition prod_rows : list (list Z) := List.concat (map (fun r1 => fst (parts_of r1)) (c_C M1)).
Definition prod_ps : list Qc :=
  List.concat (map (fun rw => map (fun q => (q * snd rw)%Qc) (snd (parts_of (fst rw)))) (combine (c_C M1) (weights M1))).

Lemma combine_map_l {A B D} (f : A -> B) (l : list A) (l' : list D) : combine (map f l) l' = map (fun x => (f (fst x), snd x)) (combine l l').
Proof. revert l'. induction l as [|a l IH]; intros [|b l']; cbn; auto. f_equal; auto. Qed.

Lemma combine_app_eq {A B} (l1 l2 : list A) (k1 k2 : list B) : List.length l1 = List.length k1 ->
  combine (l1 ++ l2) (k1 ++ k2) = combine l1 k1 ++ combine l2 k2.
Proof. revert k1. induction l1 as [|a l1 IH]; intros [|b k1] H; cbn in *; try lia; auto. f_equal. apply IH. lia. Qed.

Lemma prod_pairs : combine prod_rows prod_ps =
  List.concat (map (fun rw => map (fun rq => (prod_row (fst rw) (fst rq), (snd rq * snd rw)%Qc)) (combine (c_C (Mc (fst rw))) (c_p (Mc (fst rw)))))
     (combine (c_C M1) (weights M1))).
Proof.
  unfold prod_rows, prod_ps.
  assert (L := wf_weights M1 W1).
  assert (H : forall r1, In r1 (c_C M1) -> List.length (c_C (Mc r1)) = List.length (c_p (Mc r1))) by (intros r1 Hr; apply (Mc_spec r1 Hr)).
  revert L H. generalize (weights M1). generalize (c_C M1). induction l as [|r l IH]; intros [|w ws] L H; cbn in L; try lia; auto.
  cbn [map combine List.concat fst snd parts_of]. rewrite combine_app_eq.
  - f_equal.
    + rewrite combine_map_l, combine_map_r, map_map. reflexivity.
    + apply IH; [lia|]. intros r1 Hr. apply H. right; auto.
  - rewrite !map_length. apply H. left; auto.
Qed.
Lemma prod_len : List.length prod_rows = List.length prod_ps.
Proof.
  unfold prod_rows, prod_ps. assert (L := wf_weights M1 W1).
  assert (H : forall r1, In r1 (c_C M1) -> List.length (c_C (Mc r1)) = List.length (c_p (Mc r1))) by (intros r1 Hr; apply (Mc_spec r1 Hr)).
  revert L H. generalize (weights M1). generalize (c_C M1). induction l as [|r l IH]; intros [|w ws] L H; cbn in L; try lia; auto.
  specialize (IH ws ltac:(lia) (fun r1 Hr => H r1 (or_intror Hr))).
  cbn [map combine List.concat fst snd parts_of] in *. rewrite !app_length, !map_length, IH.
  rewrite H by (left; auto). reflexivity.
Qed.
Lemma prod_rows_ok row : In row prod_rows -> Forall2 code_ok (n_vars M1 M2) row.
Proof.
  unfold prod_rows. intros H. apply in_concat in H as (l & Hl & H). apply in_map_iff in Hl as (r1 & <- & Hr1).
  cbn [parts_of fst] in H. apply in_map_iff in H as (r2 & <- & Hr2).
  destruct (Mc_spec r1 Hr1) as (_ & (_ & _ & _ & D & _) & V & _). rewrite V in D.
  apply prod_row_ok; auto. apply W1. auto.
Qed.

Lemma filter_concat {A} (f : A -> bool) ls : filter f (List.concat ls) = List.concat (map (filter f) ls).
Proof. induction ls; cbn; auto. rewrite filter_app, IHls. auto. Qed.

Lemma filter_map {A B} (f : B -> bool) (g : A -> B) l : filter f (map g l) = map g (filter (fun x => f (g x)) l).
Proof. induction l; cbn; auto. destruct (f (g a)); cbn; rewrite IHl; auto. Qed.

Lemma prod_mass a :
  qsum (map snd (filter (fun rp => row_match (n_vars M1 M2) (fst rp) a) (combine prod_rows prod_ps))) = (mass M1 a * mass M2 a)%Qc.
Proof.
  rewrite prod_pairs. unfold mass at 1.
  assert (L := wf_weights M1 W1).
  assert (H : forall r1, In r1 (c_C M1) -> Forall2 code_ok (c_vars M1) r1 /\ wf_cpm (Mc r1) /\ c_vars (Mc r1) = c_vars M2 /\
      List.length (c_C (Mc r1)) = List.length (c_p (Mc r1)) /\
      forall a, mass (Mc r1) a = if row_match com_vars (com_codes r1) a then mass M2 a else 0%Qc).
  { intros r1 Hr. split; [apply W1; auto|]. apply (Mc_spec r1 Hr). }
  revert L H. generalize (weights M1). generalize (c_C M1). induction l as [|r l IH]; intros [|w ws] L H; cbn in L; try lia.
  { cbn. ring. }
  cbn [combine map List.concat fst snd]. rewrite filter_app, map_app, qsum_app.
  rewrite IH by (try lia; intros; apply H; right; auto). clear IH.
  destruct (H r (or_introl eq_refl)) as (Hr & (_ & _ & _ & D & _) & V & Lc & Hm). clear H.
  assert (Lr : List.length r = List.length (c_vars M1)) by (apply Forall2_length in Hr; auto).
  assert (X : qsum (map snd (filter (fun rp : list Z * Qc => row_match (n_vars M1 M2) (fst rp) a)
     (map (fun rq : list Z * Qc => (prod_row r (fst rq), (snd rq * w)%Qc)) (combine (c_C (Mc r)) (c_p (Mc r))))))
     = if row_match (filter (ncom_of M2) (c_vars M1)) (rest_codes r) a then (w * mass (Mc r) a)%Qc else 0%Qc).
  { rewrite filter_map, map_map. cbn [fst snd].
    assert (Y : mass (Mc r) a = qsum (map snd (filter (fun rp : list Z * Qc => row_match (c_vars M2) (fst rp) a) (combine (c_C (Mc r)) (c_p (Mc r)))))).
    { unfold mass. rewrite V. do 4 f_equal. unfold weights. destruct (c_p (Mc r)) eqn:Ep; auto.
      destruct (c_C (Mc r)); cbn in *; [auto|lia]. }
    rewrite Y. rewrite V in D.
    assert (F : filter (fun x : list Z * Qc => row_match (n_vars M1 M2) (prod_row r (fst x)) a) (combine (c_C (Mc r)) (c_p (Mc r))) =
      filter (fun x : list Z * Qc => row_match (c_vars M2) (fst x) a && row_match (filter (ncom_of M2) (c_vars M1)) (rest_codes r) a) (combine (c_C (Mc r)) (c_p (Mc r)))).
    { apply filter_ext_in. intros [r2 q] Hin. cbn [fst]. apply prod_row_match; auto.
      apply in_combine_l in Hin. apply D in Hin. apply Forall2_length in Hin. auto. }
    rewrite F. destruct (row_match (filter (ncom_of M2) (c_vars M1)) (rest_codes r) a).
    - rewrite (filter_ext _ (fun x : list Z * Qc => row_match (c_vars M2) (fst x) a)) by (intros; apply andb_true_r).
      rewrite (qsum_map_scale_r w (@snd (list Z) Qc)). apply Qcmult_comm.
    - rewrite (filter_ext _ (fun _ => false)) by (intros; apply andb_false_r).
      clear. induction (combine (c_C (Mc r)) (c_p (Mc r))) as [|x l IHl]; [reflexivity|exact IHl]. }
  rewrite X, Hm. cbn [filter fst]. rewrite (row1_split r a Lr).
  destruct (row_match com_vars (com_codes r) a), (row_match (filter (ncom_of M2) (c_vars M1)) (rest_codes r) a);
    cbn [andb map snd qsum fold_right]; ring.
Qed.

Lemma sort_rows_perm {A} (key : A -> list Z) l : Permutation (sort_rows key l) l.
Proof. apply sort_desc_perm. Qed.
Lemma combine_split_map {A B} (l : list (A * B)) : combine (map fst l) (map snd l) = l.
Proof. induction l as [|[a b] l IH]; cbn; auto. f_equal. auto. Qed.

Definition prod_sorted : list (list Z * Qc) := sort_rows fst (combine prod_rows prod_ps).
Definition prod_result : cpm := mkCpm (n_vars M1 M2) (List.length (n_child M1 M2)) (map fst prod_sorted) (map snd prod_sorted).

Lemma prod_sorted_fst : Permutation (map fst prod_sorted) prod_rows.
Proof.
  unfold prod_sorted. rewrite (Permutation_map fst (sort_rows_perm fst _)).
  assert (L := prod_len). revert L. generalize prod_ps. induction prod_rows as [|r l IH]; intros [|q qs] L; cbn in *; try lia; auto.
Qed.

Lemma prod_result_wf : wf_cpm prod_result.
Proof.
  split; [|split; [|split; [|split]]]; cbn [prod_result c_vars c_nch c_C c_p].
  - apply n_vars_nodup.
  - apply n_vars_ok.
  - unfold n_vars. rewrite app_length. lia.
  - intros row Hr. apply prod_rows_ok. eapply Permutation_in; [apply prod_sorted_fst|auto].
  - right. rewrite !map_length. auto.
Qed.
Lemma prod_result_mass a : mass prod_result a = (mass M1 a * mass M2 a)%Qc.
Proof.
  rewrite <- prod_mass. unfold mass. cbn [prod_result c_vars c_C].
  assert (E : weights prod_result = map snd prod_sorted).
  { unfold weights. cbn [prod_result c_p c_C]. destruct prod_sorted; auto. }
  rewrite E, combine_split_map. apply qsum_perm, Permutation_map, filter_perm. apply sort_rows_perm.
Qed.

(** the weights used by the product *)
Lemma p_choice : (c_p M1 <> [] \/ c_p M2 <> []) ->
  match c_p M1, c_p M2 with [], _ :: _ => map (fun _ => 1%Qc) (c_C M1) | p, _ => p end = weights M1 /\
  match c_p M1, c_p M2 with _ :: _, [] => map (fun _ => 1%Qc) (c_C M2) | _, p => p end = weights M2.
Proof. unfold weights. destruct (c_p M1), (c_p M2); intros [H|H]; try congruence; auto. Qed.

Lemma mapM_map_ok {A B} (f : A -> res B) (g : A -> B) l : (forall x, In x l -> f x = Ok (g x)) -> mapM f l = Ok (map g l).
Proof. apply mapM_ok. Qed.

Lemma product_ord_spec : c_C M1 <> [] -> c_vars M1 <> [] -> (c_p M1 <> [] \/ c_p M2 <> []) ->
  product_ord M1 M2 = Ok prod_result.
Proof.
  intros HC HV Hp. unfold product_ord. rewrite Hcc. cbv zeta.
  destruct (p_choice Hp) as [P1 P2]. rewrite P1, P2. clear P1 P2.
  assert (L := wf_weights M1 W1).
  destruct (c_C M1) as [|r0 C0] eqn:EC; [congruence|]. destruct (c_vars M1) as [|v0 V0] eqn:EV; [congruence|].
  rewrite <- EC, <- EV in *.
  rewrite com_eq, ncom_eq, !select_map_id.
  rewrite mk_cpm_ok; [|apply W2|apply W2|apply W2|right; apply (wf_weights M2 W2)]. cbn [bind].
  rewrite (mapM_map_ok _ parts_of).
  2:{ intros r1 Hr. change (mkCpm (c_vars M2) (c_nch M2) (c_C M2) (weights M2)) with M2w.
      destruct (Mc_spec r1 Hr) as (E & _). unfold com_vars, com_codes in E. rewrite E. cbn [bind]. reflexivity. }
  cbn [bind]. destruct (weights M1) as [|w ws] eqn:Ew; [rewrite EC in L; cbn in L; lia|]. rewrite <- Ew in *.
  replace (List.concat (map (fun cp : list (list Z) * list Qc => fst cp) (map parts_of (c_C M1)))) with prod_rows
    by (unfold prod_rows; rewrite map_map; auto).
  replace (List.concat (map (fun cpq : list (list Z) * list Qc * Qc => map (fun q => (q * snd cpq)%Qc) (snd (fst cpq))) (combine (map parts_of (c_C M1)) (weights M1))))
    with prod_ps by (unfold prod_ps; rewrite combine_map_l, map_map; auto).
  fold (n_child M1 M2). fold (n_vars M1 M2).
  rewrite mk_cpm_ok.
  - cbn [bind]. fold prod_sorted. rewrite mk_cpm_ok; auto; apply prod_result_wf.
  - apply n_vars_ok.
  - unfold n_vars. rewrite app_length. lia.
  - apply prod_rows_ok.
  - right. symmetry. apply prod_len.
Qed.

Lemma product_ord_inv M : product_ord M1 M2 = Ok M -> c_C M1 <> [] /\ c_vars M1 <> [] /\ (c_p M1 <> [] \/ c_p M2 <> []).
Proof using Hcc.
  clear W1 W2 Ha. unfold product_ord. rewrite Hcc. cbv zeta.
  destruct (c_C M1) as [|r0 C0] eqn:EC; [congruence|]. destruct (c_vars M1) as [|v0 V0] eqn:EV; [congruence|].
  intros H. split; [congruence|]. split; [congruence|].
  destruct (c_p M1) eqn:E1, (c_p M2) eqn:E2; try (left; congruence); try (right; congruence). exfalso.
  destruct (mk_cpm _ _ _ _) in H; cbn [bind] in H; [|congruence]. destruct (mapM _ _) in H; cbn [bind] in H; congruence.
Qed.
End Prod.
