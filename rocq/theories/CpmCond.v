(** Compatibility tests and conditioning of CPMs. *)
From Coq Require Import ZArith List String Bool Arith Lia QArith Qcanon Permutation.
From Verif Require Import Py Num Vari Cpm SpecCpm PyFacts VariFacts CpmFacts.
Import ListNotations.
Open Scope string_scope.
Open Scope Z_scope.
Open Scope list_scope.

Lemma states_of_index v B c : v_B v = Some B -> 0 <= c < Z.of_nat (List.length B) -> py_index B c = Ok (states_of v c).
Proof.
  intros E H. unfold states_of. rewrite E. destruct (c <? 0) eqn:L; [apply Z.ltb_lt in L; lia|].
  assert (X : nth_error B (Z.to_nat c) = Some (nth (Z.to_nat c) B [])) by (apply nth_error_nth'; lia).
  rewrite <- (Z2Nat.id c) at 1 by lia. apply py_index_nth. exact X.
Qed.
Lemma states_of_In v B c : v_B v = Some B -> 0 <= c < Z.of_nat (List.length B) -> In (states_of v c) B.
Proof.
  intros E H. unfold states_of. rewrite E. destruct (c <? 0) eqn:L; [apply Z.ltb_lt in L; lia|]. apply nth_In. lia.
Qed.

Lemma meets_spec a b : meets a b = true <-> exists x, In x a /\ In x b.
Proof.
  unfold meets. rewrite existsb_exists. split; intros (x & H1 & H2); exists x; split; auto; apply mem_Z_In; auto.
Qed.
Lemma inter_In a b x : In x (inter a b) <-> In x a /\ In x b.
Proof. unfold inter. rewrite filter_In, mem_Z_In. tauto. Qed.

(** the columns checked, with variable, state and position *)
Definition todo_of {S} (vs : list variable) (sts : list S) (vars : list variable) : list (variable * S * nat) :=
  flat_map (fun vst => match find_idx (v_eqb (fst vst)) vars with Some i => [(vst, i)] | None => [] end) (combine vs sts).

Lemma todo_eq {S} (sts : list S) vs vars : List.length vs = List.length sts ->
  combine (combine (select vs (map is_some (ismember vs vars))) (select sts (map is_some (ismember vs vars))))
          (somes (ismember vs vars)) = todo_of vs sts vars.
Proof.
  revert sts. induction vs as [|v vs IH]; intros [|s sts] H; cbn in H; try lia; auto.
  unfold ismember, todo_of in *. cbn [map combine flat_map fst].
  destruct (find_idx (v_eqb v) vars) as [i|]; cbn [is_some somes]; rewrite !select_cons; cbn [combine app].
  - rewrite IH by lia. reflexivity.
  - rewrite IH by lia. reflexivity.
Qed.

Lemma todo_In {S} vs (sts : list S) vars v s i :
  In (v, s, i) (todo_of vs sts vars) <-> In (v, s) (combine vs sts) /\ find_idx (v_eqb v) vars = Some i.
Proof.
  unfold todo_of. rewrite in_flat_map. split.
  - intros ([v' s'] & H1 & H2). cbn [fst] in H2. destruct (find_idx (v_eqb v') vars) as [j|] eqn:E; [|destruct H2].
    destruct H2 as [H2|[]]. injection H2 as -> -> ->. auto.
  - intros [H1 H2]. exists (v, s). split; auto. cbn [fst]. rewrite H2. left. auto.
Qed.

Lemma find_idx_agree vs vars v i : agree vs vars -> NoDup (names vars) -> In v vs -> find_idx (v_eqb v) vars = Some i ->
  In v vars /\ nth_error vars i = Some v.
Proof.
  intros Ha Hn Hv E. apply find_idx_some in E as (w & Hw & Ew & _). apply v_eqb_eq in Ew.
  assert (v = w) by (apply Ha; auto; eapply nth_error_In; eauto). subst w. split; auto. eapply nth_error_In; eauto.
Qed.

Lemma todo_cols {S} vs (sts : list S) vars : NoDup (names vs) -> agree vs vars -> NoDup (names vars) ->
  NoDup (map snd (todo_of vs sts vars)).
Proof.
  intros Hn Ha Hv. revert sts. unfold todo_of. induction vs as [|v vs IH]; intros [|s sts]; cbn [combine flat_map map]; try constructor.
  cbn [fst]. inversion Hn as [|? ? N1 N2]; subst.
  assert (Ha' : agree vs vars) by (intros v1 v2 H1 H2; apply Ha; auto; right; auto).
  destruct (find_idx (v_eqb v) vars) as [i|] eqn:E; cbn [app map snd]; [|apply IH; auto].
  constructor; [|apply IH; auto]. intros Hi. apply in_map_iff in Hi as ([[w t] j] & Ej & Hj). cbn in Ej. subst j.
  apply (todo_In vs sts vars) in Hj as [J1 J2].
  destruct (find_idx_agree (v :: vs) vars v i Ha Hv (or_introl eq_refl) E) as [_ E1].
  destruct (find_idx_agree vs vars w i Ha' Hv (in_combine_l _ _ _ _ J1) J2) as [_ E2].
  rewrite E1 in E2. injection E2 as <-. apply N1. apply in_map. eapply in_combine_l; eauto.
Qed.

(** rows compatible with the evidence *)
Definition cmp_td (td : list (variable * Z * nat)) (row : list Z) : bool :=
  forallb (fun t => meets (states_of (fst (fst t)) (snd (fst t))) (states_of (fst (fst t)) (at_ row (snd t)))) td.

Definition td_ok (C : list (list Z)) (td : list (variable * Z * nat)) : Prop :=
  forall v s i, In (v, s, i) td -> code_ok v s /\ forall row, In row C -> code_ok v (at_ row i).

Lemma code_index v B c : code_ok v c -> v_B v = Some B -> py_index B c = Ok (states_of v c).
Proof. intros (B' & E & H) E'. rewrite E' in E. injection E as <-. apply states_of_index; auto. Qed.

Lemma fn_column_spec C g v s i : code_ok v s -> (forall row, In row C -> code_ok v (at_ row i)) ->
  fn_column C (map g C) v (SI s) i =
  Ok (map (fun row => g row && meets (states_of v s) (states_of v (at_ row i))) C).
Proof.
  intros Hs Hr. unfold fn_column. cbn [bind]. rewrite select_map_id.
  destruct (filter g C) as [|r rs] eqn:E.
  - f_equal. apply map_ext_in. intros row Hrow. destruct (g row) eqn:G; auto.
    assert (X : In row (filter g C)) by (apply filter_In; auto). rewrite E in X. destruct X.
  - destruct Hs as (B & EB & Hs). rewrite EB. rewrite <- E.
    rewrite (mapM_ok _ (fun row => states_of v (at_ row i))).
    2:{ intros row Hrow. apply filter_In in Hrow as [Hrow _]. apply code_index; auto. }
    cbn [bind]. rewrite (states_of_index v B s EB Hs). rewrite map_map. rewrite put_true_map. reflexivity.
Qed.

Lemma mt_column_spec C g v s i : code_ok v s -> (forall row, In row C -> code_ok v (at_ row i)) ->
  mt_column C true (map g C) v s i =
  Ok (map (fun row => g row && meets (states_of v s) (states_of v (at_ row i))) C).
Proof.
  intros Hs Hr. unfold mt_column. rewrite select_map_id.
  destruct (filter g C) as [|r rs] eqn:E.
  - f_equal. apply map_ext_in. intros row Hrow. destruct (g row) eqn:G; auto.
    assert (X : In row (filter g C)) by (apply filter_In; auto). rewrite E in X. destruct X.
  - destruct Hs as (B & EB & Hs). rewrite EB. rewrite <- E.
    rewrite (mapM_ok _ (fun row => states_of v (at_ row i))).
    2:{ intros row Hrow. apply filter_In in Hrow as [Hrow _]. apply code_index; auto. }
    cbn [bind]. rewrite (states_of_index v B s EB Hs). cbn [bind]. rewrite map_map. rewrite put_true_map. reflexivity.
Qed.

Lemma fn_loop_spec C td : td_ok C td -> forall g,
  foldM (fun is t => fn_column C is (fst (fst t)) (snd (fst t)) (snd t)) (map (fun t => (fst (fst t), SI (snd (fst t)), snd t)) td) (map g C)
  = Ok (map (fun row => g row && cmp_td td row) C).
Proof.
  intros H. induction td as [|[[v s] i] td IH]; intros g; cbn [map foldM fst snd].
  - f_equal. apply map_ext. intros row. cbn. rewrite andb_true_r. auto.
  - destruct (H v s i (or_introl eq_refl)) as [H1 H2]. rewrite fn_column_spec by auto. cbn [bind].
    rewrite IH by (intros v' s' i' X; apply H; right; auto). f_equal. apply map_ext. intros row. cbn. rewrite andb_assoc. auto.
Qed.
Lemma mt_loop_spec C td : td_ok C td -> forall g,
  foldM (fun is t => mt_column C true is (fst (fst t)) (snd (fst t)) (snd t)) td (map g C)
  = Ok (map (fun row => g row && cmp_td td row) C).
Proof.
  intros H. induction td as [|[[v s] i] td IH]; intros g; cbn [map foldM fst snd].
  - f_equal. apply map_ext. intros row. cbn. rewrite andb_true_r. auto.
  - destruct (H v s i (or_introl eq_refl)) as [H1 H2]. rewrite mt_column_spec by auto. cbn [bind].
    rewrite IH by (intros v' s' i' X; apply H; right; auto). f_equal. apply map_ext. intros row. cbn. rewrite andb_assoc. auto.
Qed.

Lemma combine_map_r {A B D} (f : B -> D) (l : list A) l' : combine l (map f l') = map (fun x => (fst x, f (snd x))) (combine l l').
Proof. revert l'. induction l as [|a l IH]; intros [|b l']; cbn; auto. f_equal; auto. Qed.

Lemma todo_SI vs codes vars : todo_of vs (map SI codes) vars = map (fun t => (fst (fst t), SI (snd (fst t)), snd t)) (todo_of vs codes vars).
Proof.
  unfold todo_of. rewrite combine_map_r. induction (combine vs codes) as [|[v c] l IH]; auto.
  cbn [map flat_map fst]. rewrite IH, map_app. f_equal. destruct (find_idx (v_eqb v) vars); reflexivity.
Qed.

Definition cmp (vs : list variable) (codes : list Z) (vars : list variable) (row : list Z) : bool :=
  cmp_td (todo_of vs codes vars) row.

Lemma wf_td M vs codes : wf_cpm M -> ev_ok (c_vars M) vs codes -> td_ok (c_C M) (todo_of vs codes (c_vars M)).
Proof.
  intros (W1 & W2 & W3 & W4 & W5) (E1 & E2 & E3 & E4) v s i H. apply todo_In in H as [H1 H2].
  destruct (find_idx_agree vs (c_vars M) v i E3 W1 (in_combine_l _ _ _ _ H1) H2) as [I1 I2].
  split; [apply E4; auto|]. intros row Hr. specialize (W4 row Hr).
  clear -W4 I2. unfold at_. revert i I2. induction W4 as [|w c vs row Hw Hrest IH]; intros [|i] I2; cbn in *; try discriminate.
  - injection I2 as ->. auto.
  - apply IH; auto.
Qed.

Lemma fn_iscompatible_spec M vs codes : wf_cpm M -> ev_ok (c_vars M) vs codes ->
  fn_iscompatible (c_C M) (c_vars M) vs (map SI codes) = Ok (map (cmp vs codes (c_vars M)) (c_C M)).
Proof.
  intros W E. assert (T := wf_td M vs codes W E). destruct E as (E1 & E2 & E3 & E4).
  unfold fn_iscompatible. cbv zeta.
  rewrite get_value_ok by (unfold ismember; rewrite !map_length; auto). cbn [bind].
  rewrite todo_eq by (rewrite map_length; auto). rewrite todo_SI, fn_loop_spec by auto.
  f_equal.
Qed.

Lemma mt_iscompatible_spec M vs codes : wf_cpm M -> ev_ok (c_vars M) vs codes -> vs <> [] ->
  mt_iscompatible (c_C M) (c_vars M) vs codes true = Ok (map (cmp vs codes (c_vars M)) (c_C M)).
Proof.
  intros W E Hne. assert (T := wf_td M vs codes W E). destruct E as (E1 & E2 & E3 & E4).
  unfold mt_iscompatible. destruct vs as [|v0 vs0]; [congruence|]. set (vs := v0 :: vs0) in *. cbv zeta.
  rewrite get_value_ok by (unfold ismember; rewrite !map_length; auto). cbn [bind].
  rewrite todo_eq by auto. rewrite mt_loop_spec by auto. f_equal.
Qed.

(** ** the rewritten rows *)
Definition new_code (v : variable) (c s : Z) : Z :=
  match v_B v with
  | Some B => match find_idx (set_eqb (inter (states_of v c) (states_of v s))) B with Some i => Z.of_nat i | None => 0 end
  | None => 0
  end.
Definition upd (td : list (variable * Z * nat)) (row acc : list Z) : list Z :=
  fold_left (fun acc t => set_at acc (snd t) (new_code (fst (fst t)) (at_ row (snd t)) (snd (fst t)))) td acc.

Lemma mapM_combine_map {A B} (C : list (list Z)) (f : list Z -> A) (h : list Z * A -> res B) (k : list Z -> B) :
  (forall row, In row C -> h (row, f row) = Ok (k row)) -> mapM h (combine C (map f C)) = Ok (map k C).
Proof.
  induction C as [|r C IH]; intros H; auto. cbn [map combine mapM]. rewrite H by (left; auto). cbn [bind].
  rewrite IH by (intros; apply H; right; auto). reflexivity.
Qed.

Lemma cond_loop_spec C td : td_ok C td -> forall f,
  foldM (fun acc t => cond_column C acc (fst (fst t)) (snd (fst t)) (snd t)) (map (fun t => (fst (fst t), SI (snd (fst t)), snd t)) td) (map f C)
  = Ok (map (fun row => upd td row (f row)) C).
Proof.
  intros H. induction td as [|[[v s] i] td IH]; intros f; cbn [map foldM fst snd]; auto.
  destruct (H v s i (or_introl eq_refl)) as [H1 H2]. unfold cond_column at 1.
  pose proof H1 as (B & EB & Hs). rewrite EB.
  rewrite (mapM_combine_map C f _ (fun row => set_at (f row) i (new_code v (at_ row i) s))).
  - cbn [bind]. rewrite IH by (intros v' s' i' X; apply H; right; auto). reflexivity.
  - intros row Hr. cbn [fst snd]. unfold cond_code. rewrite (code_index v B _ (H2 row Hr) EB). cbn [bind].
    rewrite (code_index v B _ H1 EB). cbn [bind]. unfold new_code. rewrite EB. reflexivity.
Qed.

Lemma set_at_length row i c : (i < List.length row)%nat -> List.length (set_at row i c) = List.length row.
Proof. intros H. unfold set_at. rewrite app_length. cbn [List.length]. rewrite firstn_length, skipn_length. lia. Qed.
Lemma set_at_at row i c j : (i < List.length row)%nat -> at_ (set_at row i c) j = if (j =? i)%nat then c else at_ row j.
Proof.
  unfold set_at, at_. intros H. destruct (Nat.eqb_spec j i) as [->|Hne].
  - rewrite app_nth2; rewrite firstn_length; [|lia]. replace (i - _)%nat with O by lia. reflexivity.
  - destruct (lt_dec j i) as [L|L].
    + rewrite app_nth1 by (rewrite firstn_length; lia). rewrite <- (firstn_skipn i row) at 2.
      rewrite app_nth1 by (rewrite firstn_length; lia). auto.
    + rewrite app_nth2; rewrite firstn_length; [|lia]. replace (j - Nat.min i (List.length row))%nat with (S (j - S i)) by lia.
      cbn [nth]. rewrite <- (firstn_skipn (S i) row) at 2. rewrite app_nth2; rewrite firstn_length; [|lia].
      f_equal. lia.
Qed.

Lemma upd_length td row acc : (forall t, In t td -> (snd t < List.length acc)%nat) -> List.length (upd td row acc) = List.length acc.
Proof.
  revert acc. induction td as [|t td IH]; intros acc H; auto. cbn [upd fold_left]. unfold upd in IH.
  rewrite IH; rewrite set_at_length; auto; try (apply H; left; auto).
  intros t' Ht'. apply H. right; auto.
Qed.
Lemma upd_other td row : forall acc j, (forall t, In t td -> (snd t < List.length acc)%nat) -> ~ In j (map snd td) ->
  at_ (upd td row acc) j = at_ acc j.
Proof.
  induction td as [|t td IH]; intros acc j H Hn; auto. cbn [upd fold_left]. unfold upd in IH.
  assert (L : (snd t < List.length acc)%nat) by (apply H; left; auto).
  rewrite IH.
  - rewrite set_at_at by auto. destruct (Nat.eqb_spec j (snd t)) as [->|]; auto. exfalso. apply Hn. left. auto.
  - intros t' Ht'. rewrite set_at_length by auto. apply H. right; auto.
  - intros X. apply Hn. right. auto.
Qed.
Lemma upd_at td row : forall acc t, (forall t, In t td -> (snd t < List.length acc)%nat) -> NoDup (map snd td) -> In t td ->
  at_ (upd td row acc) (snd t) = new_code (fst (fst t)) (at_ row (snd t)) (snd (fst t)).
Proof.
  induction td as [|t0 td IH]; intros acc t H Hn Ht; [destruct Ht|]. inversion Hn as [|? ? N1 N2]; subst.
  assert (L : (snd t0 < List.length acc)%nat) by (apply H; left; auto).
  assert (H' : forall t, In t td -> (snd t < List.length (set_at acc (snd t0) (new_code (fst (fst t0)) (at_ row (snd t0)) (snd (fst t0)))))%nat).
  { intros t' Ht'. rewrite set_at_length by auto. apply H. right; auto. }
  destruct Ht as [->|Ht]; cbn [upd fold_left].
  - fold (upd td row (set_at acc (snd t) (new_code (fst (fst t)) (at_ row (snd t)) (snd (fst t))))).
    rewrite upd_other by auto. rewrite set_at_at by auto. rewrite Nat.eqb_refl. auto.
  - apply (IH _ t H' N2 Ht).
Qed.

Lemma new_code_spec v c s : var_ok v -> code_ok v c -> code_ok v s -> meets (states_of v s) (states_of v c) = true ->
  code_ok v (new_code v c s) /\ forall x, In x (states_of v (new_code v c s)) <-> In x (states_of v c) /\ In x (states_of v s).
Proof.
  intros (B & EB & _ & Hcl) (B1 & E1 & Hc) (B2 & E2 & Hs) Hm. rewrite EB in E1, E2. injection E1 as <-. injection E2 as <-.
  apply meets_spec in Hm as (x & X1 & X2).
  destruct (Hcl (states_of v c) (states_of v s) x) as (e & He & Hx); auto; try (apply (states_of_In v B); auto).
  unfold new_code. rewrite EB.
  destruct (find_idx_in (set_eqb (inter (states_of v c) (states_of v s))) B e) as [i Hi]; auto.
  { apply set_eqb_spec. intros y. rewrite inter_In, Hx. tauto. }
  rewrite Hi. apply find_idx_some in Hi as (e' & He' & Hse & _).
  assert (L : (i < List.length B)%nat) by (apply nth_error_Some; congruence).
  assert (R : 0 <= Z.of_nat i < Z.of_nat (List.length B)) by lia.
  split; [exists B; auto|]. intros y.
  assert (E : states_of v (Z.of_nat i) = e').
  { unfold states_of. rewrite EB. destruct (Z.of_nat i <? 0) eqn:Q; [apply Z.ltb_lt in Q; lia|]. rewrite Nat2Z.id.
    apply nth_error_nth. auto. }
  rewrite E. rewrite set_eqb_spec in Hse. rewrite <- Hse. apply inter_In.
Qed.

Definition free_row (vars vs : list variable) (row : list Z) : list Z :=
  map (fun fx : bool * Z => if fst fx then snd fx else 0)
      (combine (map (fun o => negb (is_some o)) (ismember vars vs)) row).
Definition cond_row (vars vs : list variable) (codes row : list Z) : list Z :=
  upd (todo_of vs codes vars) row (free_row vars vs row).

Lemma free_row_length vars vs row : List.length row = List.length vars -> List.length (free_row vars vs row) = List.length vars.
Proof. intros H. unfold free_row, ismember. rewrite map_length, combine_length, !map_length. lia. Qed.
Lemma free_row_at vars vs row i v : List.length row = List.length vars -> nth_error vars i = Some v ->
  at_ (free_row vars vs row) i = if existsb (v_eqb v) vs then 0 else at_ row i.
Proof.
  unfold free_row, ismember, at_. revert row i. induction vars as [|w vars IH]; intros [|x row] i Hl Hi; cbn in Hl; try lia.
  - destruct i; discriminate.
  - destruct i as [|i]; cbn [map combine nth fst snd nth_error] in *.
    + injection Hi as ->. destruct (existsb (v_eqb v) vs) eqn:E.
      * apply existsb_exists in E as (w & Hw & Ew). destruct (find_idx_in (v_eqb v) vs w Hw Ew) as [j Hj]. rewrite Hj. auto.
      * assert (F : find_idx (v_eqb v) vs = None).
        { apply find_idx_none. intros w Hw. destruct (v_eqb v w) eqn:G; auto. exfalso. rewrite <- not_true_iff_false in E. apply E.
          apply existsb_exists. eauto. }
        rewrite F. auto.
    + apply IH; auto; lia.
Qed.

Lemma Forall2_at vars row i v : Forall2 code_ok vars row -> nth_error vars i = Some v -> code_ok v (at_ row i).
Proof.
  intros H. revert i. unfold at_. induction H as [|w c vs row Hw Hrest IH]; intros [|i] E; cbn in *; try discriminate.
  - injection E as ->. auto.
  - auto.
Qed.
Lemma at_Forall2 vars row : List.length row = List.length vars ->
  (forall i v, nth_error vars i = Some v -> code_ok v (at_ row i)) -> Forall2 code_ok vars row.
Proof.
  revert row. induction vars as [|v vars IH]; intros [|c row] Hl H; cbn in Hl; try lia; constructor.
  - apply (H O v). auto.
  - apply IH; [lia|]. intros i w E. apply (H (S i) w). auto.
Qed.

Section Row.
Variables (vars vs : list variable) (codes : list Z).
Hypothesis Hn : NoDup (names vars).
Hypothesis Hok : Forall var_ok vars.
Hypothesis Hev : ev_ok vars vs codes.
Let td := todo_of vs codes vars.

Lemma td_bound row t : List.length row = List.length vars -> In t td -> (snd t < List.length (free_row vars vs row))%nat.
Proof.
  intros Hl Ht. destruct t as [[v s] i]. apply todo_In in Ht as [_ H]. apply find_idx_some in H as (w & Hw & _).
  rewrite free_row_length by auto. apply nth_error_Some. cbn. congruence.
Qed.
Lemma td_var v s i : In (v, s, i) td -> In v vars /\ nth_error vars i = Some v /\ code_ok v s /\ In v vs.
Proof.
  intros H. apply todo_In in H as [H1 H2]. destruct Hev as (E1 & E2 & E3 & E4).
  assert (Hv : In v vs) by (eapply in_combine_l; eauto).
  destruct (find_idx_agree vs vars v i E3 Hn Hv H2). auto.
Qed.
Lemma td_has i v : nth_error vars i = Some v -> existsb (v_eqb v) vs = true -> exists s, In (v, s, i) td.
Proof.
  intros Hi H. apply existsb_exists in H as (w & Hw & E). apply v_eqb_eq in E. destruct Hev as (E1 & E2 & E3 & E4).
  assert (w = v) by (apply E3; auto; eapply nth_error_In; eauto). subst w.
  assert (Hc : exists c, In (v, c) (combine vs codes)).
  { clear -Hw E1. revert codes E1. induction vs as [|x l IH]; intros [|c codes] E1; cbn in E1; try lia; [destruct Hw|].
    destruct Hw as [->|Hw]; [exists c; left; auto|]. destruct (IH Hw codes) as [d Hd]; [lia|]. exists d. right. auto. }
  destruct Hc as [c Hc]. exists c. apply todo_In. split; auto. apply find_idx_pos; auto.
Qed.

Lemma cond_row_length row : List.length row = List.length vars -> List.length (cond_row vars vs codes row) = List.length vars.
Proof.
  intros Hl. unfold cond_row. rewrite upd_length; [apply free_row_length; auto|]. intros t Ht. apply td_bound; auto.
Qed.

Lemma cond_row_at row i v : List.length row = List.length vars -> nth_error vars i = Some v ->
  (exists s, In (v, s, i) td /\ at_ (cond_row vars vs codes row) i = new_code v (at_ row i) s) \/
  (existsb (v_eqb v) vs = false /\ at_ (cond_row vars vs codes row) i = at_ row i).
Proof.
  intros Hl Hi. destruct (existsb (v_eqb v) vs) eqn:E.
  - left. destruct (td_has i v Hi E) as [s Hs]. exists s. split; auto. unfold cond_row.
    apply (upd_at td row (free_row vars vs row) (v, s, i)); auto.
    + intros t Ht. apply td_bound; auto.
    + destruct Hev as (E1 & E2 & E3 & E4). apply todo_cols; auto.
  - right. split; auto. unfold cond_row. rewrite upd_other.
    + rewrite (free_row_at vars vs row i v) by auto. rewrite E. auto.
    + intros t Ht. apply td_bound; auto.
    + intros Hin. apply in_map_iff in Hin as ([[w s] j] & Ej & Hj). cbn in Ej. subst j.
      destruct (td_var w s i Hj) as (_ & Hw & _ & Hvs). rewrite Hi in Hw. injection Hw as <-.
      rewrite <- not_true_iff_false in E. apply E. apply existsb_exists. exists v. split; auto. apply v_eqb_refl.
Qed.

Lemma ev_match_td a : ev_match vars vs codes a = forallb (fun t => mem_Z (a (v_name (fst (fst t)))) (states_of (fst (fst t)) (snd (fst t)))) td.
Proof.
  unfold ev_match. apply eq_true_iff_eq. rewrite !forallb_forall. split.
  - intros H [[v s] i] Ht. pose proof Ht as Ht'. apply todo_In in Ht as [H1 H2]. specialize (H (v, s) H1). cbn [fst snd] in *.
    destruct (td_var v s i Ht') as (Hv & _). assert (M : mem_str (v_name v) (names vars) = true) by (apply mem_str_In, in_map; auto).
    rewrite M in H. cbn in H. exact H.
  - intros H [v s] Hvs. cbn [fst snd]. destruct (mem_str (v_name v) (names vars)) eqn:M; auto. cbn.
    apply mem_str_In in M. apply in_map_iff in M as (w & Ew & Hw).
    destruct Hev as (E1 & E2 & E3 & E4). assert (v = w) by (apply E3; auto; eapply in_combine_l; eauto). subst w.
    apply In_nth_error in Hw as [i Hi].
    apply (H (v, s, i)). apply todo_In. split; auto. apply find_idx_pos; auto.
Qed.

Lemma cond_row_match row a : Forall2 code_ok vars row ->
  (cmp vs codes vars row = true ->
     Forall2 code_ok vars (cond_row vars vs codes row) /\
     row_match vars (cond_row vars vs codes row) a = row_match vars row a && ev_match vars vs codes a) /\
  (cmp vs codes vars row = false -> row_match vars row a && ev_match vars vs codes a = false).
Proof.
  intros Hr. assert (Hl : List.length row = List.length vars) by (apply Forall2_length in Hr; auto).
  unfold cmp, cmp_td. fold td. rewrite ev_match_td. split.
  - intros Hc. rewrite forallb_forall in Hc.
    assert (Hat : forall i v, nth_error vars i = Some v -> code_ok v (at_ (cond_row vars vs codes row) i) /\
       forall x, In x (states_of v (at_ (cond_row vars vs codes row) i)) <->
          In x (states_of v (at_ row i)) /\ (forall s, In (v, s, i) td -> In x (states_of v s))).
    { intros i v Hi. assert (Ho : code_ok v (at_ row i)) by (eapply Forall2_at; eauto).
      destruct (cond_row_at row i v Hl Hi) as [(s & Hs & ->)|[Hno ->]].
      - destruct (td_var v s i Hs) as (Hv & _ & Hcs & _).
        destruct (new_code_spec v (at_ row i) s) as [N1 N2]; auto.
        + rewrite Forall_forall in Hok. auto.
        + apply (Hc (v, s, i) Hs).
        + split; auto. intros x. rewrite N2. split; intros [X1 X2]; (split; auto).
          intros s' Hs'. assert (s' = s); [|subst; auto].
          apply todo_In in Hs as [Hs _], Hs' as [Hs' _]. destruct Hev as (_ & E2 & _ & _). clear -Hs Hs' E2.
          revert codes Hs Hs'. induction vs as [|w l IH]; intros [|c codes]; cbn; try tauto. inversion E2 as [|? ? N1 N2]; subst.
          intros [X|X] [Y|Y]; try congruence; [| |eapply IH; eauto].
          * injection X as <- <-. exfalso. apply N1. apply in_map. eapply in_combine_l; eauto.
          * injection Y as <- <-. exfalso. apply N1. apply in_map. eapply in_combine_l; eauto.
      - split; auto. intros x. split; [|tauto]. intros X. split; auto. intros s Hs. exfalso.
        destruct (td_var v s i Hs) as (_ & _ & _ & Hvs). rewrite <- not_true_iff_false in Hno. apply Hno. apply existsb_exists.
        exists v. split; auto. apply v_eqb_refl. }
    split.
    { apply at_Forall2; [apply cond_row_length; auto|]. intros i v Hi. apply Hat. auto. }
    rewrite !row_match_cells by (auto using cond_row_length).
    apply eq_true_iff_eq. rewrite andb_true_iff, !forallb_forall. unfold cell. split.
    + intros H. split.
      * intros v Hv. specialize (H v Hv). rewrite mem_Z_In in *. apply (Hat (pos vars v) v (pos_In _ _ Hn Hv)) in H. tauto.
      * intros [[v s] i] Ht. cbn [fst snd]. destruct (td_var v s i Ht) as (Hv & Hi & _).
        specialize (H v Hv). rewrite mem_Z_In in *. rewrite (pos_nth vars v i Hn Hi) in H. apply (Hat i v Hi) in H. apply H. auto.
    + intros [H1 H2] v Hv. specialize (H1 v Hv). rewrite mem_Z_In in *. apply (Hat (pos vars v) v (pos_In _ _ Hn Hv)).
      split; auto. intros s Hs. specialize (H2 _ Hs). cbn [fst snd] in H2. apply mem_Z_In in H2. auto.
  - intros Hc. apply not_true_iff_false. intros H. apply andb_true_iff in H as [H1 H2].
    rewrite <- not_true_iff_false in Hc. apply Hc. apply forallb_forall. intros [[v s] i] Ht. cbn [fst snd].
    rewrite forallb_forall in H2. specialize (H2 _ Ht). cbn [fst snd] in H2.
    destruct (td_var v s i Ht) as (Hv & Hi & _).
    rewrite row_match_cells, forallb_forall in H1 by auto. specialize (H1 v Hv). unfold cell in H1. rewrite (pos_nth vars v i Hn Hi) in H1.
    apply meets_spec. exists (a (v_name v)). rewrite !mem_Z_In in *. auto.
Qed.
End Row.

(** ** setters accept well-formed matrices *)
Lemma code_le v c : var_ok v -> code_ok v c -> c <= 2 ^ nvals v - 1.
Proof. intros (B & E & H & _) (B' & E' & H'). rewrite E in E'. injection E' as <-. lia. Qed.

Lemma check_C_ok vars C : Forall var_ok vars -> (forall row, In row C -> Forall2 code_ok vars row) -> check_C vars C = Ok tt.
Proof.
  intros Hv H. unfold check_C. destruct C as [|r C]; auto.
  set (vs := vars) in *. set (rs := r :: C) in *.
  assert (L : forallb (fun row => (List.length row =? List.length vs)%nat) rs = true).
  { apply forallb_forall. intros row Hr. apply Nat.eqb_eq. specialize (H row Hr). apply Forall2_length in H. auto. }
  rewrite L. cbn [negb].
  assert (M : forallb (col_max_ok rs) (combine (seq 0 (List.length vs)) vs) = true).
  { apply forallb_forall. intros [i w] Hi. apply forallb_forall. intros row Hr. cbn [fst snd]. apply Z.leb_le.
    assert (E : nth_error vs i = Some w).
    { assert (G : forall l k, In (i, w) (combine (seq k (List.length l)) l) -> nth_error l (i - k) = Some w /\ (k <= i)%nat).
      { clear. induction l as [|x l IH]; intros k Hk; [destruct Hk|]. cbn in Hk. destruct Hk as [Hk|Hk].
        - injection Hk as <- <-. rewrite Nat.sub_diag. auto.
        - destruct (IH (S k) Hk) as [A B]. split; [|lia]. replace (i - k)%nat with (S (i - S k)) by lia. auto. }
      destruct (G vs O Hi) as [A _]. rewrite Nat.sub_0_r in A. auto. }
    apply code_le.
    - rewrite Forall_forall in Hv. apply Hv. eapply nth_error_In; eauto.
    - eapply Forall2_at; eauto. }
  rewrite M. auto.
Qed.

Lemma mk_cpm_ok vars n C p : Forall var_ok vars -> (n <= List.length vars)%nat ->
  (forall row, In row C -> Forall2 code_ok vars row) -> (p = [] \/ List.length p = List.length C) ->
  mk_cpm vars n C p = Ok (mkCpm vars n C p).
Proof.
  intros H1 H2 H3 H4. unfold mk_cpm. apply Nat.leb_le in H2. rewrite H2, check_C_ok by auto. cbn [bind].
  unfold check_p. destruct p as [|q p]; auto. destruct H4 as [H4|H4]; [congruence|]. rewrite H4, Nat.eqb_refl. auto.
Qed.

(** ** conditioning *)
Lemma cond_states_SI vs codes : cond_states vs (map SI codes) = Ok (map SI codes).
Proof. destruct codes; reflexivity. Qed.

Lemma filter_nil_weights {A} (f : A -> bool) l : filter f l = [] -> forall x, In x l -> f x = false.
Proof. intros E x Hx. destruct (f x) eqn:G; auto. assert (X : In x (filter f l)) by (apply filter_In; auto). rewrite E in X. destruct X. Qed.

Lemma wf_weights M : wf_cpm M -> List.length (weights M) = List.length (c_C M).
Proof. intros (_ & _ & _ & _ & [E|E]); unfold weights; [rewrite E; apply map_length|]. destruct (c_p M); [apply map_length|auto]. Qed.

Lemma condition_spec M vs codes : wf_cpm M -> ev_ok (c_vars M) vs codes ->
  condition M (Vars vs) (map SI codes) =
  Ok (mkCpm (c_vars M) (c_nch M) (map (cond_row (c_vars M) vs codes) (filter (cmp vs codes (c_vars M)) (c_C M)))
            (match c_p M with [] => [] | _ => select (c_p M) (map (cmp vs codes (c_vars M)) (c_C M)) end)).
Proof.
  intros W E. pose proof W as (W1 & W2 & W3 & W4 & W5). pose proof E as (E1 & E2 & E3 & E4).
  unfold condition. cbn [resolve bind]. rewrite cond_states_SI. cbn [bind].
  rewrite fn_iscompatible_spec by auto. cbn [bind]. cbv zeta. rewrite select_map_id.
  rewrite get_value_ok by (unfold ismember; rewrite !map_length; auto). cbn [bind].
  rewrite todo_eq by (rewrite map_length; auto). rewrite todo_SI.
  match goal with |- context [map ?f (filter _ (c_C M))] => change f with (free_row (c_vars M) vs) end.
  rewrite cond_loop_spec.
  2:{ intros v s i H. destruct (wf_td M vs codes W E v s i H) as [T1 T2]. split; auto.
      intros row Hr. apply filter_In in Hr as [Hr _]. auto. }
  cbn [bind]. change (fun row => upd _ row (free_row (c_vars M) vs row)) with (cond_row (c_vars M) vs codes).
  apply mk_cpm_ok; auto.
  - intros row Hr. apply in_map_iff in Hr as (r & <- & Hr). apply filter_In in Hr as [Hr Hc].
    apply (cond_row_match (c_vars M) vs codes W1 W2 E r (fun _ => 0)); auto.
  - destruct (c_p M) as [|q p] eqn:Ep; auto. right. destruct W5 as [W5|W5]; [congruence|].
    rewrite map_length. rewrite select_snd by auto. rewrite map_length.
    rewrite <- (map_length fst). f_equal.
    clear -W5. revert W5. generalize (q :: p). generalize (c_C M). induction l as [|r l IH]; intros [|w l'] H; cbn in H; try lia; auto.
    cbn. destruct (cmp vs codes (c_vars M) r); cbn; rewrite IH by lia; auto.
Qed.

Lemma condition_ok M vs codes : wf_cpm M -> ev_ok (c_vars M) vs codes ->
  exists M', condition M (Vars vs) (map SI codes) = Ok M' /\ wf_cpm M' /\ c_vars M' = c_vars M /\ c_nch M' = c_nch M /\
    forall a, mass M' a = if ev_match (c_vars M) vs codes a then mass M a else 0%Qc.
Proof.
  intros W E. rewrite condition_spec by auto. eexists. split; [reflexivity|].
  pose proof W as (W1 & W2 & W3 & W4 & W5). pose proof E as (E1 & E2 & E3 & E4).
  set (h := cmp vs codes (c_vars M)). set (f := cond_row (c_vars M) vs codes).
  assert (R : forall r a, In r (c_C M) -> (h r = true -> Forall2 code_ok (c_vars M) (f r) /\
       row_match (c_vars M) (f r) a = row_match (c_vars M) r a && ev_match (c_vars M) vs codes a) /\
       (h r = false -> row_match (c_vars M) r a && ev_match (c_vars M) vs codes a = false)).
  { intros r a Hr. apply (cond_row_match (c_vars M) vs codes W1 W2 E r a); auto. }
  assert (Wt := wf_weights M W).
  assert (Hw : forall ps, ps = match c_p M with [] => [] | _ => select (c_p M) (map h (c_C M)) end ->
      weights (mkCpm (c_vars M) (c_nch M) (map f (filter h (c_C M))) ps) = select (weights M) (map h (c_C M))).
  { intros ps ->. unfold weights. cbn [c_p c_C]. destruct (c_p M) as [|q p] eqn:Ep.
    - rewrite select_map, map_map. reflexivity.
    - destruct (select (q :: p) (map h (c_C M))) eqn:Es; auto.
      destruct W5 as [W5|W5]; [congruence|]. rewrite select_snd in Es by auto.
      assert (Ef : filter h (c_C M) = []).
      { rewrite <- (map_length snd) in W5 || idtac. apply length_zero_iff_nil.
        assert (X : List.length (map snd (filter (fun ab : list Z * Qc => h (fst ab)) (combine (c_C M) (q :: p)))) = O) by (rewrite Es; auto).
        rewrite map_length in X. rewrite <- X. clear -W5. revert W5. generalize (q :: p). generalize (c_C M).
        induction l as [|r l IH]; intros [|w l'] H; cbn in H; try lia; auto. cbn. destruct (h r); cbn; rewrite <- (IH l') by lia; auto. }
      rewrite Ef. reflexivity. }
  split; [|split; [|split]]; auto.
  - split; [|split; [|split; [|split]]]; cbn [c_vars c_nch c_C c_p]; auto.
    + intros row Hr. apply in_map_iff in Hr as (r & <- & Hr). apply filter_In in Hr as [Hr Hc]. apply (R r (fun _ => 0)); auto.
    + destruct (c_p M) as [|q p] eqn:Ep; auto. right. destruct W5 as [W5|W5]; [congruence|].
      rewrite map_length. rewrite select_snd by auto. rewrite map_length.
      clear -W5. revert W5. generalize (q :: p). generalize (c_C M). induction l as [|r l IH]; intros [|w l'] H; cbn in H; try lia; auto.
      cbn. fold h. destruct (h r); cbn; rewrite IH by lia; auto.
  - intros a. unfold mass at 1. rewrite (Hw _ eq_refl). cbn [c_vars c_C].
    assert (X : qsum (map snd (filter (fun rp : list Z * Qc => row_match (c_vars M) (fst rp) a) (combine (map f (filter h (c_C M))) (select (weights M) (map h (c_C M))))))
      = qsum (map snd (filter (fun rp => row_match (c_vars M) (fst rp) a && ev_match (c_vars M) vs codes a) (combine (c_C M) (weights M))))).
    { clear Hw. revert Wt R. generalize (weights M). generalize (c_C M). induction l as [|r l IH]; intros [|w l'] Hl HR; cbn in Hl; try lia; auto.
      cbn [map filter combine fst]. rewrite select_cons. destruct (HR r a (or_introl eq_refl)) as [R1 R2].
      assert (IH' := IH l' ltac:(lia) (fun r' a' H => HR r' a' (or_intror H))).
      destruct (h r).
      - cbn [map combine filter fst]. destruct (R1 eq_refl) as [_ R1']. rewrite R1'.
        destruct (row_match (c_vars M) r a && ev_match (c_vars M) vs codes a); cbn [map qsum fold_right snd]; rewrite <- IH'; auto.
      - rewrite (R2 eq_refl). exact IH'. }
    rewrite X. unfold mass. destruct (ev_match (c_vars M) vs codes a).
    + f_equal. f_equal. apply filter_ext. intros rp. apply andb_true_r.
    + assert (F : filter (fun rp : list Z * Qc => row_match (c_vars M) (fst rp) a && false) (combine (c_C M) (weights M)) = []).
      { clear. induction (combine (c_C M) (weights M)) as [|rp l IHl]; [reflexivity|]. cbn [filter]. rewrite andb_false_r. exact IHl. }
      rewrite F. reflexivity.
Qed.
