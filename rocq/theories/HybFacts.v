(** CPMs with samples: facts. *)
From Coq Require Import ZArith List String Bool Arith Lia QArith Qcanon Permutation.
From Verif Require Import Py Num Vari Cpm SpecCpm PyFacts VariFacts CpmFacts CpmCond CpmProd CpmList CpmSum CpmMarg CpmElim CpmProb VeFacts CalFacts Hybrid SpecHyb.
Import ListNotations.
Open Scope string_scope.
Open Scope Z_scope.
Open Scope list_scope.

Lemma basic_code v x : basic_state v x -> code_ok v x.
Proof.
  intros [R S]. assert (H : In x (states_of v x)) by (apply S; auto). unfold states_of in H. destruct (v_B v) as [B|] eqn:E; [|destruct H].
  exists B. split; auto. destruct (Z.ltb_spec x 0); [lia|]. split; [lia|].
  destruct (Nat.lt_ge_cases (Z.to_nat x) (List.length B)); [lia|]. rewrite nth_overflow in H by auto. destruct H.
Qed.

Lemma evidence_in vs codes a v c : NoDup (names vs) -> In (v, c) (combine vs codes) -> evidence vs codes a (v_name v) = c.
Proof.
  revert codes. induction vs as [|w vs IH]; intros [|d codes] N H; cbn in H; try tauto. cbn in N. inversion N as [|? ? N1 N2]; subst. cbn [evidence].
  destruct H as [[= -> ->]|H]; [rewrite String.eqb_refl; auto|].
  destruct (String.eqb_spec (v_name v) (v_name w)) as [Z|]; [|auto]. exfalso. apply N1. rewrite <- Z. apply in_map. apply in_combine_l in H. auto.
Qed.
Lemma evidence_out vs codes a n : ~ In n (names vs) -> evidence vs codes a n = a n.
Proof.
  revert codes. induction vs as [|w vs IH]; intros [|d codes] H; cbn [evidence]; auto. cbn in H.
  destruct (String.eqb_spec n (v_name w)) as [Z|]; [exfalso; apply H; left; auto|]. apply IH. tauto.
Qed.

Lemma nth_combine_SI (vs : list variable) codes j w : List.length vs = List.length codes -> nth_error vs j = Some w ->
  exists c, In (w, c) (combine vs codes) /\ nth j (map SI codes) (SI 0) = SI c.
Proof.
  revert codes j. induction vs as [|v vs IH]; intros [|c codes] [|j] L H; cbn in *; try discriminate; try lia.
  - injection H as <-. eauto.
  - destruct (IH codes j ltac:(lia) H) as (d & H1 & H2). eauto.
Qed.

(** the states looked up for a sample *)
Lemma over_row_spec vars vs codes a : ev_ok vars vs codes ->
  over_row (map SI codes) (ismember vars vs) (row_at vars a) = map SI (row_at vars (evidence vs codes a)).
Proof.
  intros (L & N & A & _). unfold over_row, ismember, row_at. rewrite map_map.
  enough (G : forall l, incl l vars -> map (fun rx => match fst rx with Some j => nth j (map SI codes) (SI 0) | None => SI (snd rx) end)
    (combine (map (fun x => find_idx (v_eqb x) vs) l) (map (fun v => a (v_name v)) l)) = map (fun x => SI (evidence vs codes a (v_name x))) l) by (apply G; intros x; auto).
  induction l as [|v l IH]; intros I; auto. cbn [map combine fst snd]. rewrite IH by (intros x Hx; apply I; right; auto). f_equal.
  destruct (find_idx (v_eqb v) vs) as [j|] eqn:F.
  - apply find_idx_some in F as (w & F1 & F2 & _). apply v_eqb_eq in F2.
    destruct (nth_combine_SI vs codes j w L F1) as (c & H1 & H2). rewrite H2. f_equal. rewrite F2. symmetry. apply evidence_in; auto.
  - f_equal. symmetry. apply evidence_out. intros H. apply in_map_iff in H as (w & E & H). rewrite find_idx_none in F. specialize (F w H).
    rewrite <- not_true_iff_false in F. apply F. apply v_eqb_eq. auto.
Qed.
Lemma touches_spec vars vs n : existsb is_some (firstn n (ismember vars vs)) = touches vs (firstn n vars).
Proof.
  unfold ismember, touches. revert n. induction vars as [|v vars IH]; intros [|n]; auto. cbn [map firstn existsb]. rewrite IH. f_equal.
  apply eq_true_iff_eq. rewrite is_some_find, mem_str_In, existsb_exists. split.
  - intros (w & H & E). apply v_eqb_eq in E. rewrite E. apply in_map; auto.
  - intros H. apply in_map_iff in H as (w & E & H). exists w. split; auto. apply v_eqb_eq. auto.
Qed.
Lemma touches_none vars vs : forallb (fun r => negb (is_some r)) (ismember vars vs) = negb (touches vs vars).
Proof.
  rewrite <- (firstn_all vars) at 2. rewrite <- touches_spec. unfold ismember.
  rewrite firstn_all2 by (rewrite map_length; lia). induction (map _ vars) as [|o l IH]; auto. cbn. rewrite IH. destruct o; auto.
Qed.

(** ** Conditioning *)
Lemma row_at_combine vs b v c : In (v, c) (combine vs (row_at vs b)) <-> In v vs /\ c = b (v_name v).
Proof.
  unfold row_at. induction vs as [|w vs IH]; cbn; [tauto|]. rewrite IH. split.
  - intros [[= <- <-]|[H ->]]; auto.
  - intros [[<-|H] ->]; auto.
Qed.
Lemma row_at_length vs b : List.length (row_at vs b) = List.length vs.
Proof. apply map_length. Qed.
Lemma agree_refl vs : NoDup (names vs) -> agree vs vs.
Proof. intros N v1 v2 H1 H2 E. eapply NoDup_names_inj; eauto. Qed.

Definition overlap (M : cpm) (b : joint) : Qc := total (fun row => hits (c_vars M) row (c_vars M) (row_at (c_vars M) b)) M.

Lemma get_prob_row M b : wf_cpm M -> c_vars M <> [] -> (forall v, In v (c_vars M) -> code_ok v (b (v_name v))) ->
  get_prob M (Vars (c_vars M)) (map SI (row_at (c_vars M) b)) true = Ok (overlap M b).
Proof.
  intros W N H. pose proof W as (W1 & W2 & _). rewrite get_prob_spec; auto.
  - f_equal. unfold overlap, total. do 2 f_equal. apply filter_ext. intros rp. destruct (hits _ _ _ _); auto.
  - split; [symmetry; apply row_at_length|]. split; auto. split; [apply agree_refl; auto|].
    intros v c X _. apply row_at_combine in X as [X ->]. auto.
  - intros v c X. apply row_at_combine in X as [X ->]. rewrite Forall_forall in W2. specialize (W2 v X). specialize (H v X). pose proof (code_le v _ W2 H). lia.
Qed.

Lemma hits_basic vars row b : NoDup (names vars) -> List.length row = List.length vars ->
  (forall v, In v vars -> forall y, In y (states_of v (b (v_name v))) <-> y = b (v_name v)) ->
  hits vars row vars (row_at vars b) = row_match vars row b.
Proof.
  intros N L H. apply eq_true_iff_eq. unfold hits, row_match. rewrite !forallb_forall. split.
  - intros X [v r] Hv. cbn [fst snd]. assert (In v vars) by (eapply in_combine_l; eauto).
    assert (Y : In (v, b (v_name v)) (combine vars (row_at vars b))) by (apply row_at_combine; auto).
    specialize (X _ Y). cbn [fst snd] in X. rewrite forallb_forall in X. specialize (X _ Hv). cbn [fst snd] in X.
    rewrite String.eqb_refl in X. cbn [negb orb] in X. apply existsb_exists in X as (x & X1 & X2). apply mem_Z_In in X2. apply H in X2; auto. subst x.
    apply mem_Z_In; auto.
  - intros X [v c] Hv. apply row_at_combine in Hv as [Hv ->]. cbn [fst snd]. apply forallb_forall. intros [w r] Hw. cbn [fst snd].
    destruct (String.eqb_spec (v_name w) (v_name v)) as [E|]; auto. cbn [negb orb].
    assert (w = v) by (eapply NoDup_names_inj; eauto; eapply in_combine_l; eauto). subst w.
    specialize (X _ Hw). cbn [fst snd] in X. apply mem_Z_In in X. apply existsb_exists. exists (b (v_name v)). split; auto.
    apply mem_Z_In. apply H; auto.
Qed.
Lemma overlap_mass M b : wf_cpm M -> List.length (c_p M) = List.length (c_C M) ->
  (forall v, In v (c_vars M) -> forall y, In y (states_of v (b (v_name v))) <-> y = b (v_name v)) -> overlap M b = mass M b.
Proof.
  intros W L H. unfold overlap, total, mass, weights. destruct (c_p M) as [|p0 p] eqn:P.
  - destruct (c_C M); [auto|discriminate].
  - do 2 f_equal. apply filter_ext_in. intros [r q] Hin. cbn [fst]. apply hits_basic; auto; [apply W|].
    pose proof W as (_ & _ & _ & W4 & _). apply in_combine_l in Hin. specialize (W4 r Hin). apply Forall2_length in W4; auto.
Qed.

Lemma check_Cs_ok vars G : basic_samples G vars -> check_Cs vars (map (row_at vars) G) = Ok tt.
Proof.
  intros H. unfold check_Cs. destruct (map _ G) as [|r l] eqn:E; auto. rewrite <- E.
  assert (F : forallb (fun row => (List.length row =? List.length vars)%nat) (map (row_at vars) G) = true).
  { apply forallb_forall. intros x Hx. apply in_map_iff in Hx as (a & <- & _). rewrite row_at_length. apply Nat.eqb_refl. }
  rewrite F. cbn [negb]. match goal with |- (if ?b then _ else _) = _ => assert (X : b = true); [|rewrite X; auto] end.
  apply forallb_forall. intros [i v] Hin. cbn [fst snd]. apply forallb_forall. intros x Hx. apply in_map_iff in Hx as (a & <- & Ha). apply Z.leb_le.
  assert (Y : nth_error vars i = Some v).
  { clear -Hin. assert (K : forall l n, In (i, v) (combine (seq n (List.length l)) l) -> (n <= i)%nat /\ nth_error l (i - n) = Some v).
    { induction l as [|w l IH]; intros n K; cbn in K; [tauto|]. destruct K as [[= <- <-]|K]; [rewrite Nat.sub_diag; auto|].
      apply IH in K as [K1 K2]. split; [lia|]. replace (i - n)%nat with (S (i - S n)) by lia. auto. }
    destruct (K vars O Hin) as [_ K2]. rewrite Nat.sub_0_r in K2. auto. }
  unfold at_, row_at. rewrite (nth_error_nth _ i 0 (x := a (v_name v))); [|rewrite nth_error_map, Y; auto].
  destruct (H a v Ha (nth_error_In _ _ Y)) as [R _]. lia.
Qed.
Lemma check_len_ok {A} (Cs : list (list Z)) (l : list A) : l = [] \/ List.length l = List.length Cs -> check_len Cs l = Ok tt.
Proof. intros [-> |H]; auto. unfold check_len. destruct l; auto. destruct Cs; auto. rewrite H, Nat.eqb_refl. auto. Qed.

Definition new_weights (M : hcpm) (c' : cpm) (vs : list variable) (codes : list Z) (G : list joint) : list Qc :=
  let pr := map (fun a => overlap c' (evidence vs codes a)) G in
  if touches vs (children (h_c M)) then times pr (h_q M) else if touches vs (c_vars (h_c M)) then pr else h_q M.
Lemma new_weights_length M c' vs codes G : List.length (h_q M) = List.length G -> List.length (new_weights M c' vs codes G) = List.length G.
Proof.
  intros L. unfold new_weights. destruct (touches _ _); [|destruct (touches _ _)]; unfold times; rewrite ?map_length, ?combine_length, ?map_length; lia.
Qed.

Lemma no_samples_spec I G M : sampled I G M -> G <> [] -> c_vars (h_c M) <> [] -> no_samples M = false.
Proof. intros (_ & S & _) NG NV. unfold no_samples. rewrite S. destruct G; [easy|]. cbn. destruct (c_vars (h_c M)); easy. Qed.

Lemma h_condition_ok I G M vs codes : wf_cpm (h_c M) -> ev_ok (c_vars (h_c M)) vs codes -> sampled I G M -> basic_samples G (c_vars (h_c M)) ->
  List.length I = List.length G -> G <> [] -> c_vars (h_c M) <> [] ->
  exists c', condition (h_c M) (Vars vs) (map SI codes) = Ok c' /\
    h_condition M (Vars vs) (map SI codes) = Ok (mkH c' (h_Cs M) (h_q M) (new_weights M c' vs codes G) (h_idx M)).
Proof.
  intros W E S BS LI NG NV. destruct (condition_ok _ vs codes W E) as (c' & C1 & C2 & C3 & C4 & _). exists c'. split; auto.
  pose proof (no_samples_spec _ _ _ S NG NV) as NS. pose proof S as (S1 & S2 & S3 & S4).
  unfold h_condition. rewrite C1. cbn [bind]. rewrite NS. cbn [resolve bind]. rewrite cond_states_SI. cbn [bind].
  rewrite touches_spec, touches_none. fold (children (h_c M)).
  assert (P : forall a, In a G -> get_prob c' (Vars (c_vars c')) (over_row (map SI codes) (ismember (c_vars (h_c M)) vs) (row_at (c_vars (h_c M)) a)) true = Ok (overlap c' (evidence vs codes a))).
  { intros a Ha. rewrite over_row_spec by auto. rewrite <- C3. apply get_prob_row; auto; [rewrite C3; auto|]. rewrite C3. intros v Hv.
    pose proof E as (E1 & E2 & E3 & E4). destruct (in_dec string_dec (v_name v) (names vs)) as [J|J].
    - apply in_map_iff in J as (w & J1 & J2). assert (w = v) by (apply E3; auto). subst w.
      destruct (In_nth_error _ _ J2) as [j Hj]. destruct (nth_combine_SI vs codes j v E1 Hj) as (c & X & _). rewrite (evidence_in vs codes a v c); auto.
    - rewrite evidence_out by auto. apply basic_code. apply BS; auto. }
  match goal with |- (ps <- ?e ;; _) = _ => assert (X : e = Ok (new_weights M c' vs codes G)) end.
  { unfold new_weights. rewrite S2. destruct (touches vs (children (h_c M))).
    - clear -P S3. unfold times. revert P S3. generalize (h_q M). induction G as [|a l IH]; intros [|q0 q] P S3; cbn in S3; try lia; auto.
      cbn [map combine mapM fst snd]. rewrite P by (left; auto). cbn [bind]. rewrite IH; auto. intros b Hb. apply P. right; auto.
    - rewrite negb_involutive || idtac. destruct (touches vs (c_vars (h_c M))); cbn [negb]; auto.
      clear -P. induction G as [|a l IH]; auto. cbn [map mapM]. rewrite P by (left; auto). cbn [bind]. rewrite IH; auto. intros b Hb. apply P. right; auto. }
  rewrite X. cbn [bind]. unfold mk_h. rewrite S2, C3, check_Cs_ok by auto. cbn [bind].
  rewrite !check_len_ok; auto; right; rewrite map_length; auto; [congruence|apply new_weights_length; auto].
Qed.

(** ** Products *)
Lemma cols_row_at l l' a : (forall v, In v l' -> In (v_name v) (names l)) ->
  cols (row_at l a) (somes (ismember l' l)) = row_at l' a.
Proof.
  intros H. unfold ismember. induction l' as [|v l' IH]; auto. cbn [map].
  destruct (find_idx (v_eqb v) l) as [i|] eqn:F.
  - cbn [somes row_at map]. unfold cols in *. cbn [map]. fold (row_at l' a). rewrite IH by (intros w Hw; apply H; right; auto). f_equal.
    apply find_idx_some in F as (w & F1 & F2 & _). apply v_eqb_eq in F2. unfold at_, row_at.
    rewrite (nth_error_nth _ i 0 (x := a (v_name w))); [|rewrite nth_error_map, F1; auto]. rewrite F2. auto.
  - exfalso. assert (X := H v (or_introl eq_refl)). apply in_map_iff in X as (w & E & X). rewrite find_idx_none in F. specialize (F w X).
    rewrite <- not_true_iff_false in F. apply F, v_eqb_eq. auto.
Qed.
Lemma select_row_at f l a : select (row_at l a) (map f l) = row_at (filter f l) a.
Proof.
  unfold row_at. rewrite select_map. auto.
Qed.
Lemma places_one I i k : NoDup I -> nth_error I i = Some k -> places I k = [i].
Proof.
  unfold places, where_. enough (K : forall I n i, NoDup I -> nth_error I i = Some k -> where_from n (map (Z.eqb k) I) = [(n + i)%nat]).
  { intros N H. rewrite (K I O i N H). auto. }
  clear I i. induction I as [|x I IH]; intros n [|i] N H; cbn in H; try discriminate; inversion N as [|? ? N1 N2]; subst.
  - injection H as ->. cbn [map where_from]. rewrite Z.eqb_refl, Nat.add_0_r. f_equal.
    clear -N1. generalize (S n). induction I as [|y I IH]; intros m; auto. cbn [map where_from].
    destruct (Z.eqb_spec k y) as [->|]; [exfalso; apply N1; left; auto|]. apply IH. intros X. apply N1. right; auto.
  - cbn [map where_from]. destruct (Z.eqb_spec k x) as [->|].
    + exfalso. apply N1. eapply nth_error_In; eauto.
    + rewrite (IH (S n) i) by auto. f_equal. lia.
Qed.
Lemma nth_seq {A} (l : list A) d : map (fun i => nth i l d) (seq 0 (List.length l)) = l.
Proof.
  induction l as [|x l IH]; auto. cbn [List.length seq map nth]. f_equal. rewrite <- seq_shift, map_map. exact IH.
Qed.
Lemma times_seq l1 l2 n : List.length l1 = n -> List.length l2 = n -> times l1 l2 = map (fun i => (nth i l1 0 * nth i l2 0)%Qc) (seq 0 n).
Proof.
  revert l1 l2. induction n as [|n IH]; intros [|x l1] [|y l2] H1 H2; cbn in H1, H2; try lia; auto.
  cbn [seq map]. unfold times. cbn [combine map fst snd nth]. f_equal. fold (times l1 l2). rewrite IH by lia. rewrite <- seq_shift, map_map. auto.
Qed.
Lemma flat_map_one {A B} (f : A -> B) l : flat_map (fun x => [f x]) l = map f l.
Proof. induction l; cbn; congruence. Qed.
Lemma get_at_nth {A} (l : list A) i d : (i < List.length l)%nat -> get_at l i = Ok (nth i l d).
Proof. intros H. unfold get_at. rewrite (nth_error_nth' l d) by auto. auto. Qed.
Lemma mapM_each {A B} (f : A -> res B) l : (forall x, In x l -> exists y, f x = Ok y) -> exists ys, mapM f l = Ok ys.
Proof.
  induction l as [|x l IH]; intros H; [exists []; auto|]. destruct (H x (or_introl eq_refl)) as [y Hy].
  destruct IH as [ys Hys]; [intros z Hz; apply H; right; auto|]. cbn. rewrite Hy. cbn. rewrite Hys. cbn. eauto.
Qed.
Lemma target_eq M : target M = target_of M.
Proof. reflexivity. Qed.
Lemma target_length I G M : sampled I G M -> List.length (target_of M) = List.length G.
Proof. intros (_ & _ & L & [P|P]); unfold target_of; [rewrite P; auto|]. destruct (h_ps M); auto. Qed.

Lemma nth_times l1 l2 i : List.length l1 = List.length l2 -> (i < List.length l1)%nat -> nth i (times l1 l2) 0%Qc = (nth i l1 0 * nth i l2 0)%Qc.
Proof.
  revert l2 i. induction l1 as [|x l1 IH]; intros [|y l2] [|i] L H; cbn in L, H; try lia; auto.
  change (times (x :: l1) (y :: l2)) with ((x * y)%Qc :: times l1 l2). cbn [nth]. apply IH; lia.
Qed.
Lemma times_length l1 l2 : List.length l1 = List.length l2 -> List.length (times l1 l2) = List.length l1.
Proof. intros L. unfold times. rewrite map_length, combine_length. lia. Qed.

Section HProd.
Variables (I : list Z) (G : list joint).
Hypothesis NI : NoDup I.
Hypothesis LI : List.length I = List.length G.
Hypothesis NG : G <> [].

(** the samples of a product *)
Lemma h_samples_ok M1 M2 c : wf_cpm (h_c M1) -> wf_cpm (h_c M2) -> agree (c_vars (h_c M1)) (c_vars (h_c M2)) ->
  sampled I G M1 -> sampled I G M2 -> basic_samples G (c_vars (h_c M1)) -> basic_samples G (c_vars (h_c M2)) ->
  c_vars (h_c M1) <> [] -> c_vars (h_c M2) <> [] -> c_vars c = n_vars (h_c M1) (h_c M2) ->
  (if no_samples M1 || no_samples M2 then Ok (mkH c [] [] [] []) else
   rows <- mapM (pair_sample M1 M2 (map is_some (ismember (c_vars (h_c M1)) (c_vars (h_c M2)))) (target M1) (target M2)) (seq 0 (List.length (h_Cs M1))) ;;
   mk_h c (map (fun r => cols (fst r) (somes (ismember (sort_vars (children (h_c M1) ++ children (h_c M2)) ++
       fst (setdiff (parents (h_c M1) ++ parents (h_c M2)) (sort_vars (children (h_c M1) ++ children (h_c M2)))))
       (c_vars (h_c M2) ++ select (c_vars (h_c M1)) (map negb (map is_some (ismember (c_vars (h_c M1)) (c_vars (h_c M2))))))))) rows)
     (flat_map (fun r => fst (snd r)) rows) (flat_map (fun r => snd (snd r)) rows) (h_idx M1)) =
  Ok (mkH c (map (row_at (c_vars c)) G) (times (h_q M2) (h_q M1)) (times (target_of M2) (target_of M1)) I).
Proof.
  intros W1 W2 A S1 S2 B1 B2 V1 V2 CV.
  rewrite (no_samples_spec I G M1), (no_samples_spec I G M2) by auto. cbn [orb].
  pose proof S1 as (X1 & X2 & X3 & X4). pose proof S2 as (Y1 & Y2 & Y3 & Y4).
  pose proof (target_length _ _ _ S1) as T1. pose proof (target_length _ _ _ S2) as T2. rewrite (target_eq M1), (target_eq M2).
  destruct G as [|g0 G0] eqn:EG; [congruence|]. rewrite <- EG in *.
  rewrite (mapM_ok _ (fun i => (row_at (p_vars (h_c M1) (h_c M2)) (nth i G g0),
    ([(nth i (h_q M2) 0 * nth i (h_q M1) 0)%Qc], [(nth i (target_of M2) 0 * nth i (target_of M1) 0)%Qc])))).
  2:{ intros i Hi. apply in_seq in Hi. rewrite X2, map_length in Hi. cbn in Hi. unfold pair_sample.
      rewrite X2, Y2. rewrite (get_at_nth _ i (row_at (c_vars (h_c M1)) g0)) by (rewrite map_length; lia). cbn [bind].
      rewrite (get_at_nth (h_idx M1) i 0) by (rewrite X1; lia). cbn [bind].
      assert (PL : places (h_idx M2) (nth i (h_idx M1) 0) = [i]).
      { apply places_one; [rewrite Y1; auto|]. rewrite X1, Y1. apply nth_error_nth'. lia. }
      rewrite PL. unfold get_at at 1. cbn [nth_error bind].
      rewrite (get_at_nth _ i (row_at (c_vars (h_c M2)) g0)) by (rewrite map_length; lia). cbn [bind].
      rewrite (get_at_nth (h_q M1) i 0%Qc) by lia. cbn [bind mapM].
      rewrite (get_at_nth (h_q M2) i 0%Qc) by lia. cbn [bind].
      rewrite (get_at_nth (target_of M1) i 0%Qc) by lia. cbn [bind mapM].
      rewrite (get_at_nth (target_of M2) i 0%Qc) by lia. cbn [bind map].
      rewrite !map_nth, com_eq, ncom_eq, select_row_at. unfold p_vars, row_at. rewrite map_app. auto. }
  cbn [bind]. rewrite com_eq, ncom_eq, select_map_id. fold (n_child (h_c M1) (h_c M2)). fold (n_vars (h_c M1) (h_c M2)). fold (p_vars (h_c M1) (h_c M2)).
  rewrite !flat_map_concat_map, !map_map, <- !flat_map_concat_map. cbn [fst snd]. rewrite !flat_map_one.
  rewrite X2, map_length, <- !times_seq by auto.
  rewrite (map_ext _ (fun i => row_at (c_vars c) (nth i G g0))).
  2:{ intros i. rewrite CV. apply cols_row_at. intros v Hv. apply names_In. apply p_vars_In; auto. apply n_vars_In in Hv; auto. }
  rewrite <- (map_map (fun i => nth i G g0) (row_at (c_vars c))), nth_seq.
  unfold mk_h. rewrite check_Cs_ok.
  2:{ intros a v Ha Hv. rewrite CV in Hv. apply n_vars_In in Hv as [Hv|Hv]; auto. }
  cbn [bind]. rewrite X1. unfold times. rewrite !check_len_ok; auto; right; rewrite ?map_length, ?combine_length; lia.
Qed.


Lemma h_product_ord_ok M1 M2 c : wf_cpm (h_c M1) -> wf_cpm (h_c M2) -> agree (c_vars (h_c M1)) (c_vars (h_c M2)) ->
  common_child (h_c M1) (h_c M2) = false -> sampled I G M1 -> sampled I G M2 -> basic_samples G (c_vars (h_c M1)) -> basic_samples G (c_vars (h_c M2)) ->
  c_vars (h_c M2) <> [] -> product_ord (h_c M1) (h_c M2) = Ok c ->
  h_product_ord M1 M2 = Ok (mkH c (map (row_at (c_vars c)) G) (times (h_q M2) (h_q M1)) (times (target_of M2) (target_of M1)) I).
Proof.
  intros W1 W2 A CC S1 S2 B1 B2 V2 P. destruct (product_ord_inv _ _ CC c P) as (I1 & I2 & I3).
  pose proof (product_ord_spec _ _ W1 W2 A CC I1 I2 I3) as P'. rewrite P in P'. injection P' as P'.
  assert (CV : c_vars c = n_vars (h_c M1) (h_c M2)) by (rewrite P'; auto).
  unfold h_product_ord. rewrite CC. cbv zeta.
  match goal with |- (c0 <- ?e ;; _) = _ => assert (X : e = Ok c) end.
  { destruct (c_C (h_c M1)) as [|r0 C0] eqn:EC; [congruence|]. destruct (c_vars (h_c M1)) as [|v0 V0] eqn:EV; [congruence|].
    rewrite <- EC, <- EV in *. destruct (p_choice _ _ I3) as [_ ->]. rewrite com_eq, select_map_id.
    match goal with |- (_ <- mapM ?f ?l ;; _) = _ => destruct (mapM_each f l) as [ys ->] end; [|exact P].
    intros r1 Hr. pose proof (com_ev_ok _ _ W1 A r1 Hr) as E. unfold com_vars, com_codes in E.
    destruct (h_condition_ok I G (mkH (mkCpm (c_vars (h_c M2)) (c_nch (h_c M2)) (c_C (h_c M2)) (weights (h_c M2))) (h_Cs M2) (h_q M2) (h_ps M2) (h_idx M2))
      (filter (com_of (h_c M2)) (c_vars (h_c M1))) (select r1 (map (com_of (h_c M2)) (c_vars (h_c M1))))) as (c' & _ & Y); eauto.
    cbn [h_c]. apply (M2w_wf _ W2). }
  rewrite X. cbn [bind]. apply h_samples_ok; auto.
Qed.

(** what a CPM holds: the samples, with the weights [qf] and [tf] *)
Definition holds (M : hcpm) (c : cpm) (qf tf : nat -> Qc) : Prop :=
  h_c M = c /\ sampled I G M /\
  forall i, (i < List.length G)%nat -> nth i (h_q M) 0%Qc = qf i /\ nth i (target_of M) 0%Qc = tf i.

Lemma holds_self M : sampled I G M -> holds M (h_c M) (fun i => nth i (h_q M) 0%Qc) (fun i => nth i (target_of M) 0%Qc).
Proof using. intros S. split; auto. Qed.
Lemma holds_ext M c qf tf qf' tf' : holds M c qf tf -> (forall i, (i < List.length G)%nat -> qf i = qf' i /\ tf i = tf' i) -> holds M c qf' tf'.
Proof using. intros (E & S & H) X. split; auto. split; auto. intros i Hi. destruct (H i Hi), (X i Hi). split; congruence. Qed.

Lemma h_product_ok M1 M2 c q1 t1 q2 t2 : wf_cpm (h_c M1) -> wf_cpm (h_c M2) -> fit (h_c M1) (h_c M2) ->
  holds M1 (h_c M1) q1 t1 -> holds M2 (h_c M2) q2 t2 -> basic_samples G (c_vars (h_c M1)) -> basic_samples G (c_vars (h_c M2)) ->
  c_vars (h_c M1) <> [] -> c_vars (h_c M2) <> [] -> product (h_c M1) (h_c M2) = Ok c ->
  exists M, h_product M1 M2 = Ok M /\ holds M c (fun i => q1 i * q2 i)%Qc (fun i => t1 i * t2 i)%Qc.
Proof using All.
  intros W1 W2 [A D] (_ & S1 & H1) (_ & S2 & H2) B1 B2 V1 V2 P. unfold product in P. unfold h_product.
  pose proof (target_length _ _ _ S1) as T1. pose proof (target_length _ _ _ S2) as T2.
  pose proof S1 as (X1 & X2 & X3 & X4). pose proof S2 as (Y1 & Y2 & Y3 & Y4).
  destruct G as [|g0 G0] eqn:EG; [congruence|]. rewrite <- EG in *.
  assert (NE : forall l1 l2, List.length l1 = List.length G -> List.length l2 = List.length G -> times l1 l2 <> []).
  { intros l1 l2 L1 L2 X. assert (Y : List.length (times l1 l2) = O) by (rewrite X; auto). rewrite times_length in Y by lia. rewrite L1, EG in Y. discriminate. }
  destruct (ncols (h_c M2) <? ncols (h_c M1))%nat.
  - eexists. split.
    + apply h_product_ord_ok; eauto using agree_sym. apply common_child_spec, disj_sym; auto.
    + split; auto. split; [|].
      * split; auto. split; auto. cbn [h_q h_ps]. split; [|right]; rewrite times_length; lia.
      * intros i Hi. destruct (H1 i Hi) as [Q1 Q2], (H2 i Hi) as [Q3 Q4]. cbn [h_q]. unfold target_of at 1. cbn [h_ps].
        destruct (times (target_of M1) (target_of M2)) eqn:E; [exfalso; eapply (NE (target_of M1) (target_of M2)); eauto|]. rewrite <- E.
        rewrite !nth_times by lia. rewrite Q1, Q2, Q3, Q4. auto.
  - eexists. split.
    + apply h_product_ord_ok; eauto. apply common_child_spec; auto.
    + split; auto. split; [|].
      * split; auto. split; auto. cbn [h_q h_ps]. split; [|right]; rewrite times_length; lia.
      * intros i Hi. destruct (H1 i Hi) as [Q1 Q2], (H2 i Hi) as [Q3 Q4]. cbn [h_q]. unfold target_of at 1. cbn [h_ps].
        destruct (times (target_of M2) (target_of M1)) eqn:E; [exfalso; eapply (NE (target_of M2) (target_of M1)); eauto|]. rewrite <- E.
        rewrite !nth_times by lia. rewrite Q1, Q2, Q3, Q4. split; ring.
Qed.

Definition q_of (l : list hcpm) (i : nat) : Qc := qprod (map (fun M => nth i (h_q M) 0%Qc) l).
Definition t_of (l : list hcpm) (i : nat) : Qc := qprod (map (fun M => nth i (target_of M) 0%Qc) l).

(** samples in range, in every CPM *)
Definition ready (l : list hcpm) : Prop :=
  forall M, In M l -> sampled I G M /\ basic_samples G (c_vars (h_c M)) /\ c_vars (h_c M) <> [].

Lemma h_product_list_ok l c : fit_list (map h_c l) -> ready l -> product_list (map h_c l) = Ok c ->
  exists M, h_product_list l = Ok M /\ holds M c (q_of l) (t_of l).
Proof using All.
  destruct l as [|M0 l]; cbn [map product_list h_product_list]; [congruence|]. intros [HW [HP1 HP2]] R H. inversion HW as [|? ? W0 HW']; subst.
  enough (K : forall l M q t, holds M (h_c M) q t -> wf_cpm (h_c M) -> basic_samples G (c_vars (h_c M)) -> c_vars (h_c M) <> [] ->
    fit_list (map h_c l) -> ready l -> (forall N, In N (map h_c l) -> fit (h_c M) N) -> foldM product (map h_c l) (h_c M) = Ok c ->
    exists M', foldM h_product l M = Ok M' /\ holds M' c (fun i => q i * q_of l i)%Qc (fun i => t i * t_of l i)%Qc).
  { destruct (R M0 (or_introl eq_refl)) as (R1 & R2 & R3).
    apply (K l M0 _ _ (holds_self M0 R1)); auto; [split; auto|]. intros M HM. apply R. right; auto. }
  clear -NI LI NG. induction l as [|N l IH]; intros M q t Hh WM BM VM F R FM H; cbn [map foldM] in *.
  - injection H as <-. exists M. split; auto. eapply holds_ext; [apply Hh|]. intros i _. unfold q_of, t_of. cbn [map qprod]. split; ring.
  - destruct (product (h_c M) (h_c N)) as [c1|] eqn:P; cbn [bind] in H; [|congruence].
    destruct F as [F1 [F2 F3]]. inversion F1 as [|? ? WN F4]; subst.
    destruct (R N (or_introl eq_refl)) as (R1 & R2 & R3).
    assert (FN : fit (h_c M) (h_c N)) by (apply FM; left; auto).
    destruct (h_product_ok M N c1 _ _ _ _ WM WN FN Hh (holds_self N R1) BM R2 VM R3 P) as (M1 & E1 & H1). rewrite E1. cbn [bind].
    assert (EC : h_c M1 = c1) by apply H1.
    assert (IP : is_product (h_c M) (h_c N) c1) by (apply product_ok; auto; apply FN). pose proof IP as (WP & _ & VP & _).
    edestruct (IH M1) as (M' & E' & H'); rewrite ?EC; eauto.
    + intros a v Ha Hv. apply VP in Hv as [Hv|Hv]; [apply BM|apply R2]; auto.
    + destruct (c_vars (h_c M)) as [|v V] eqn:EV; [congruence|]. intros X. assert (Y : In v (c_vars c1)) by (apply VP; left; left; auto). rewrite X in Y. destruct Y.
    + split; auto.
    + intros N' HN. apply R. right; auto.
    + intros N' HN. apply (fit_product (h_c M) (h_c N) c1 N'); [apply FM; right; auto|apply F2; auto|auto].
    + exists M'. split; auto. eapply holds_ext; [apply H'|]. intros i _. unfold q_of, t_of. cbn [map qprod]. split; cbv beta; ring.
Qed.

Lemma h_sum_ok M c vs flag q t : wf_cpm (h_c M) -> (flag = false -> NoDup (names vs)) -> holds M (h_c M) q t -> basic_samples G (c_vars (h_c M)) ->
  c_vars (h_c M) <> [] -> kept (h_c M) vs flag <> [] -> sum (h_c M) (Vars vs) flag = Ok c -> exists M', h_sum M (Vars vs) flag = Ok M' /\ holds M' c q t.
Proof using LI NG.
  intros W Hf (_ & S & Hw) B V K E. destruct (sum_spec (h_c M) vs flag W Hf K) as (c' & E' & W' & V' & _). assert (c' = c) by congruence. subst c'.
  unfold h_sum. rewrite E. cbn [bind]. rewrite (no_samples_spec I G M) by auto. pose proof S as (S1 & S2 & S3 & S4).
  assert (IN : forall v, In v (c_vars c) -> In v (c_vars (h_c M))).
  { intros v Hv. rewrite V' in Hv. apply in_app_or in Hv as [Hv|Hv]; [apply filter_In in Hv as [Hv _]; apply children_incl|apply parents_incl]; auto. }
  rewrite S2, map_map. rewrite (map_ext _ (row_at (c_vars c))).
  2:{ intros a. apply cols_row_at. intros v Hv. apply names_In. auto. }
  exists (mkH c (map (row_at (c_vars c)) G) (h_q M) (h_ps M) (h_idx M)). split.
  - unfold mk_h. rewrite check_Cs_ok by (intros a v Ha Hv; apply B; auto). cbn [bind].
    rewrite !check_len_ok; auto; rewrite map_length; auto. right. congruence.
  - split; auto. split; auto. split; auto.
Qed.

Lemma in_scope_map v l : filter (in_scope v) (map h_c l) = map h_c (filter (fun M => in_scope v (h_c M)) l) /\
  filter (fun c => negb (in_scope v c)) (map h_c l) = map h_c (filter (fun M => negb (in_scope v (h_c M))) l).
Proof using. induction l as [|M l [IH1 IH2]]; auto. cbn [map filter]. rewrite IH1, IH2. destruct (in_scope v (h_c M)); auto. Qed.
Lemma qprod_split {A} (h : A -> bool) (f : A -> Qc) l : (qprod (map f l) = qprod (map f (filter h l)) * qprod (map f (filter (fun x => negb (h x)) l)))%Qc.
Proof using. induction l as [|x l IH]; cbn [map filter qprod]; [ring|]. rewrite IH. destruct (h x); cbn [negb map qprod]; ring. Qed.

Lemma h_elim_step_ok l v vars l' : ve_ok (map h_c l) (v :: vars) -> ready l -> elim_step (map h_c l) v = Ok l' ->
  exists k, h_elim_step l v = Ok k /\ map h_c k = l' /\ ready k /\ (forall i, (i < List.length G)%nat -> q_of k i = q_of l i /\ t_of k i = t_of l i).
Proof using All.
  intros (F & P & B & C & N) R H. unfold elim_step in H. unfold h_elim_step.
  destruct (in_scope_map v l) as [ES ER]. rewrite ES, ER in H.
  set (S := filter (fun M => in_scope v (h_c M)) l) in *. set (Rs := filter (fun M => negb (in_scope v (h_c M))) l) in *.
  destruct (product_list (map h_c S)) as [mult|] eqn:E1; cbn [bind] in H; [|congruence].
  destruct (sum mult (Vars [v]) true) as [Ms|] eqn:E2; cbn [bind] in H; [|congruence]. injection H as <-.
  assert (FS : fit_list (map h_c S)) by (rewrite <- ES; apply fit_list_filter; auto).
  assert (RS : ready S) by (intros M HM; apply filter_In in HM as [HM _]; auto).
  assert (RR : ready Rs) by (intros M HM; apply filter_In in HM as [HM _]; auto).
  destruct (h_product_list_ok S mult FS RS E1) as (hm & Em & Hm). rewrite Em. cbn [bind].
  destruct (product_list_ok _ mult FS E1) as (Wm & _ & Vm & Cm). assert (EC : h_c hm = mult) by apply Hm.
  assert (Hk : kept mult [v] true <> []).
  { intros X. assert (Hv : In v (children mult)).
    { destruct (C v (or_introl eq_refl)) as (M & HM & Hc). apply Cm. exists M. split; auto. rewrite <- ES. apply filter_In. split; auto.
      apply in_scope_name. apply in_map. apply children_incl; auto. }
    rewrite (sum_all mult [v] true Wm) in E2; auto; [congruence|discriminate]. }
  assert (Bm : basic_samples G (c_vars mult)).
  { intros a w Ha Hw. apply Vm in Hw as (M' & HM & Hw). apply in_map_iff in HM as (M & <- & HM). destruct (RS M HM) as (_ & X & _). apply X; auto. }
  assert (IK : forall w, In w (kept mult [v] true) -> In w (c_vars mult)).
  { intros w Hw. apply in_app_or in Hw as [Hw|Hw]; [apply filter_In in Hw as [Hw _]; apply children_incl|apply parents_incl]; auto. }
  assert (NV : c_vars mult <> []) by (intros X; destruct (kept mult [v] true) as [|w K]; [congruence|]; specialize (IK w (or_introl eq_refl)); rewrite X in IK; destruct IK).
  destruct (h_sum_ok hm Ms [v] true (q_of S) (t_of S)) as (hs & Es & Hs); rewrite ?EC; auto; [discriminate|].
  rewrite Es. cbn [bind]. exists (hs :: Rs). split; auto. split; [cbn [map]; f_equal; apply Hs|]. split.
  - intros M [<-|HM]; [|auto]. split; [apply Hs|]. replace (h_c hs) with Ms by (symmetry; apply Hs).
    destruct (sum_spec mult [v] true Wm) as (Ms' & E2' & Ws & Vs & _); [discriminate|auto|]. assert (Ms' = Ms) by congruence. subst Ms'. rewrite Vs. split; auto.
    intros a w Ha Hw. apply Bm; auto.
  - intros i Hi. destruct Hs as (_ & _ & Hs). destruct (Hs i Hi) as [Q T]. unfold q_of, t_of. cbn [map qprod]. rewrite Q, T.
    rewrite !(qprod_split (fun M => in_scope v (h_c M)) _ l). auto.
Qed.

Lemma h_variable_elim_ok l vars c : ve_ok (map h_c l) vars -> ready l -> variable_elim (map h_c l) vars = Ok c ->
  exists M, h_variable_elim l vars = Ok M /\ holds M c (q_of l) (t_of l).
Proof using All.
  intros V R H. unfold variable_elim, variable_elim_list in H. unfold h_variable_elim.
  enough (K : forall vars l l', ve_ok (map h_c l) vars -> ready l -> foldM elim_step vars (map h_c l) = Ok l' ->
    exists k, foldM h_elim_step vars l = Ok k /\ map h_c k = l' /\ ready k /\ ve_ok l' [] /\
      (forall i, (i < List.length G)%nat -> q_of k i = q_of l i /\ t_of k i = t_of l i)).
  { destruct (foldM elim_step vars (map h_c l)) as [l'|] eqn:E; cbn [bind] in H; [|congruence].
    destruct (K vars l l' V R E) as (k & Ek & Mk & Rk & Vk & Wk). rewrite Ek. cbn [bind]. rewrite <- Mk in *.
    destruct (h_product_list_ok k c (proj1 Vk) Rk H) as (M & EM & HM). exists M. split; auto. eapply holds_ext; [apply HM|]. exact Wk. }
  clear -NI LI NG. induction vars as [|v vars IH]; intros l l' V R H; cbn [foldM] in *.
  - injection H as <-. exists l. split; auto.
  - destruct (elim_step (map h_c l) v) as [l1|] eqn:E; cbn [bind] in H; [|congruence].
    destruct (h_elim_step_ok l v vars l1 V R E) as (k & Ek & Mk & Rk & Wk). rewrite Ek. cbn [bind].
    destruct (elim_step_ok _ v vars l1 V E) as (V1 & _). rewrite <- Mk in H, V1.
    destruct (IH k l' V1 Rk H) as (k' & Ek' & Mk' & Rk' & Vk' & Wk'). exists k'. split; auto. split; auto. split; auto. split; auto.
    intros i Hi. destruct (Wk i Hi), (Wk' i Hi). split; congruence.
Qed.
End HProd.

(** ** Samples that do not match *)
Lemma mapM_some_err {A B} (f : A -> res B) l x : In x l -> (forall y, f x <> Ok y) -> forall ys, mapM f l <> Ok ys.
Proof.
  induction l as [|z l IH]; intros H N ys; [destruct H|]. cbn [mapM]. destruct H as [->|H].
  - destruct (f x) as [y|] eqn:E; cbn [bind]; [exfalso; apply (N y); auto|discriminate].
  - destruct (f z); cbn [bind]; [|discriminate]. destruct (mapM f l) as [ys'|] eqn:E; cbn [bind]; [exfalso; apply (IH H N ys'); auto|discriminate].
Qed.
Lemma places_none I k : ~ In k I -> places I k = [].
Proof.
  intros H. unfold places, where_. generalize O. induction I as [|x I IH]; intros n; auto. cbn [map where_from].
  destruct (Z.eqb_spec k x) as [->|]; [exfalso; apply H; left; auto|]. apply IH. intros X. apply H. right; auto.
Qed.
Lemma h_product_ord_missing M1 M2 i k : nth_error (h_idx M1) i = Some k -> (i < List.length (h_Cs M1))%nat -> ~ In k (h_idx M2) ->
  no_samples M1 = false -> no_samples M2 = false -> forall M, h_product_ord M1 M2 <> Ok M.
Proof.
  intros K L N A B M. unfold h_product_ord. destruct (common_child (h_c M1) (h_c M2)); [discriminate|]. cbv zeta.
  match goal with |- (c <- ?e ;; _) <> _ => destruct e as [c|]; cbn [bind]; [|discriminate] end. rewrite A, B. cbn [orb].
  match goal with |- (rows <- mapM ?f ?l ;; _) <> _ => destruct (mapM f l) as [rows|] eqn:E; cbn [bind]; [|discriminate]; exfalso;
    apply (mapM_some_err f l i) with (ys := rows); auto end.
  - apply in_seq. lia.
  - intros y. unfold pair_sample. rewrite (get_at_nth (h_Cs M1) i []) by auto. cbn [bind]. unfold get_at at 1. rewrite K. cbn [bind].
    rewrite (places_none _ _ N). cbn. discriminate.
Qed.
Lemma h_product_dropped M1 M2 M : h_product M1 M2 = Ok M -> no_samples M1 = true \/ no_samples M2 = true ->
  h_Cs M = [] /\ h_q M = [] /\ h_ps M = [] /\ h_idx M = [].
Proof.
  intros H D. assert (K : forall A B, h_product_ord A B = Ok M -> no_samples A || no_samples B = true -> h_Cs M = [] /\ h_q M = [] /\ h_ps M = [] /\ h_idx M = []).
  { clear. intros A B H D. unfold h_product_ord in H. destruct (common_child (h_c A) (h_c B)); [discriminate|]. cbv zeta in H.
    match type of H with (c <- ?e ;; _) = _ => destruct e as [c|]; cbn [bind] in H; [|discriminate] end. rewrite D in H. injection H as <-. auto. }
  unfold h_product in H. destruct (ncols (h_c M2) <? ncols (h_c M1))%nat; apply K in H; auto; apply orb_true_iff; tauto.
Qed.
