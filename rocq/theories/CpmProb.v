(** Probabilities of events, row selection, merging. *)
From Coq Require Import ZArith List String Bool Arith Lia QArith Qcanon Permutation Sorted.
From Verif Require Import Py Num Vari Cpm SpecCpm PyFacts VariFacts CpmFacts CpmCond CpmProd CpmList CpmSum CpmMarg CpmElim.
Import ListNotations.
Open Scope string_scope.
Open Scope Z_scope.
Open Scope list_scope.

(** ** tables made by [Variable(...)] *)
Lemma filter_sorted_Z f l : StronglySorted Z.lt l -> StronglySorted Z.lt (filter f l).
Proof.
  induction 1 as [|x l Hs IH Hx]; cbn; [constructor|]. destruct (f x); auto. constructor; auto.
  rewrite Forall_forall in *. intros y Hy. apply filter_In in Hy as [Hy _]. auto.
Qed.

Lemma mk_variable_ok name values flag B : v_B (mk_variable name values flag) = Some B -> var_ok (mk_variable name values flag).
Proof.
  intros H. exists B. split; auto. destruct (mk_variable_B name values flag) as [E|E]; [|congruence].
  rewrite E in H. injection H as <-. split.
  - rewrite gen_B_length. unfold nvals. cbn [mk_variable v_values].
    rewrite Nat2Z.inj_sub by (pose proof (Nat.pow_nonzero 2 (List.length values)); lia). rewrite Nat2Z.inj_pow. lia.
  - intros e1 e2 x H1 H2 X1 X2. apply gen_B_spec in H1 as (S1 & R1 & _). exists (filter (fun y => mem_Z y e2) e1). split.
    + apply gen_B_spec. split; [apply filter_sorted_Z; auto|]. split.
      * intros y Hy. apply filter_In in Hy as [Hy _]. auto.
      * intros X. assert (Y : In x (filter (fun y => mem_Z y e2) e1)) by (apply filter_In; split; auto; apply mem_Z_In; auto).
        rewrite X in Y. destruct Y.
    + intros y. rewrite filter_In, mem_Z_In. tauto.
Qed.

(** ** [get_prob] *)
Lemma total_weighted f M : total f M = weighted f (c_C M) (c_p M).
Proof. reflexivity. Qed.

Lemma weighted_ext f g C p : (forall r, In r C -> f r = g r) -> weighted f C p = weighted g C p.
Proof.
  intros H. unfold weighted. do 2 f_equal. apply filter_ext_in. intros [r q] Hin. cbn. apply H. eapply in_combine_l; eauto.
Qed.

Lemma select_weighted h C (p : list Qc) : List.length p = List.length C -> qsum (select p (map h C)) = weighted h C p.
Proof. intros H. unfold weighted. rewrite select_snd by auto. auto. Qed.

Lemma cmp_hits vars vs codes row : NoDup (names vars) -> agree vs vars -> List.length row = List.length vars ->
  cmp vs codes vars row = hits vars row vs codes.
Proof.
  intros Hn Ha Hl. apply eq_true_iff_eq. unfold cmp, cmp_td, hits. rewrite !forallb_forall. split.
  - intros H [v c] Hin. cbn [fst snd]. apply forallb_forall. intros [w r] Hw. cbn [fst snd].
    destruct (String.eqb_spec (v_name w) (v_name v)) as [E|E]; auto. cbn [negb orb].
    apply In_combine_at in Hw as [Hw ->]; auto.
    assert (v = w) by (apply Ha; auto; eapply in_combine_l; eauto). subst w.
    assert (T : In (v, c, pos vars v) (todo_of vs codes vars)).
    { apply todo_In. split; auto. apply find_idx_pos; auto. apply pos_In; auto. }
    specialize (H _ T). cbn [fst snd] in H. apply meets_spec in H as (x & X1 & X2). apply existsb_exists. exists x. split; auto.
    apply mem_Z_In; auto.
  - intros H [[v c] i] T. cbn [fst snd]. apply todo_In in T as [T1 T2].
    destruct (find_idx_agree vs vars v i Ha Hn (in_combine_l _ _ _ _ T1) T2) as [I1 I2].
    specialize (H (v, c) T1). cbn [fst snd] in H. rewrite forallb_forall in H.
    specialize (H (v, at_ row i)). cbn [fst snd] in H. rewrite String.eqb_refl in H. cbn [negb orb] in H.
    assert (X : In (v, at_ row i) (combine vars row)).
    { apply In_combine_at; auto. split; auto. rewrite (pos_nth vars v i); auto. }
    specialize (H X). apply existsb_exists in H as (x & X1 & X2). apply meets_spec. exists x. split; auto. apply mem_Z_In; auto.
Qed.


Lemma check_one vs codes : List.length vs = List.length codes -> codes_small vs codes -> check_C vs [codes] = Ok tt.
Proof.
  intros Hl Hs. unfold check_C.
  cbn [forallb]. rewrite Hl, Nat.eqb_refl. cbn [andb negb].
  assert (F : forallb (col_max_ok [codes]) (combine (seq 0 (List.length codes)) vs) = true); [|rewrite F; auto].
  apply forallb_forall. intros [i v] Hin. unfold col_max_ok. cbn [fst snd forallb]. rewrite andb_true_r. apply Z.leb_le.
  assert (In (v, at_ codes i) (combine vs codes)); [|apply Hs in H; lia].
  clear -Hl Hin. unfold at_. revert codes Hl Hin. intros codes Hl.
  assert (G : forall n (vs : list variable) codes, List.length vs = List.length codes -> In (i, v) (combine (seq n (List.length codes)) vs) ->
     (n <= i)%nat /\ In (v, nth (i - n) codes 0) (combine vs codes)).
  { clear. intros n vs. revert n. induction vs as [|w vs IH]; intros n [|c codes] Hl H; cbn in Hl; try lia; [destruct H|].
    cbn in H. destruct H as [E|H].
    - injection E as <- ->. split; [lia|]. rewrite Nat.sub_diag. left. auto.
    - destruct (IH (S n) codes ltac:(lia) H) as [G1 G2]. split; [lia|]. right.
      replace (i - n)%nat with (S (i - S n)) by lia. exact G2. }
  intros H. destruct (G O vs codes Hl H) as [_ G2]. rewrite Nat.sub_0_r in G2. exact G2.
Qed.

Lemma convert_SI vs codes : convert_states vs (map SI codes) = Ok [].
Proof. revert codes. induction vs as [|v vs IH]; intros [|c codes]; cbn; auto. Qed.
Lemma ints_SI codes : ints_of (map SI codes) = codes.
Proof. unfold ints_of. induction codes; cbn; congruence. Qed.

Lemma get_prob_spec M vs codes flag : wf_cpm M -> ev_ok (c_vars M) vs codes -> vs <> [] -> codes_small vs codes ->
  get_prob M (Vars vs) (map SI codes) flag =
  Ok (total (fun row => Bool.eqb (hits (c_vars M) row vs codes) flag) M).
Proof.
  intros W E Hne Hs. pose proof E as (E1 & E2 & E3 & E4). unfold get_prob. cbn [resolve bind].
  rewrite map_length, E1, Nat.eqb_refl, convert_SI. cbn [bind]. rewrite ints_SI.
  assert (MK : mk_cpm vs (List.length vs) [codes] [0%Qc] = Ok (mkCpm vs (List.length vs) [codes] [0%Qc])).
  { unfold mk_cpm. rewrite Nat.leb_refl, check_one by auto. reflexivity. }
  rewrite <- E1. rewrite MK. cbn [bind]. rewrite mt_iscompatible_spec by auto. cbn [bind].
  rewrite get_subset_where by auto. cbn [bind c_p]. f_equal. unfold total. fold (weighted (fun row => Bool.eqb (hits (c_vars M) row vs codes) flag) (c_C M) (c_p M)).
  assert (G : forall r, In r (c_C M) -> (if flag then cmp vs codes (c_vars M) r else negb (cmp vs codes (c_vars M) r)) = Bool.eqb (hits (c_vars M) r vs codes) flag).
  { intros r Hr. rewrite cmp_hits; [|apply W|auto|apply (wf_rows M r W Hr)]. destruct flag, (hits (c_vars M) r vs codes); auto. }
  rewrite <- (weighted_ext _ _ _ _ G). destruct W as (_ & _ & _ & _ & [W|W]).
  - rewrite W. unfold weighted. destruct (c_C M); auto.
  - rewrite <- select_weighted by auto. cbv zeta. destruct (c_p M); [rewrite select_nil|]; auto.
Qed.

Lemma total_complement f M : wf_cpm M -> (total (fun r => Bool.eqb (f r) true) M + total (fun r => Bool.eqb (f r) false) M = qsum (c_p M))%Qc.
Proof.
  intros (_ & _ & _ & _ & [W|W]); unfold total.
  - rewrite W. destruct (c_C M); reflexivity.
  - revert W. generalize (c_p M). induction (c_C M) as [|r C IH]; intros [|q p] H; cbn in H; try lia; [reflexivity|].
    cbn [combine filter fst]. specialize (IH p ltac:(lia)). destruct (f r); cbn [Bool.eqb map snd qsum]; cbn [qsum] in *; rewrite <- IH; ring.
Qed.

Lemma total_mono f g M : (forall x, In x (c_p M) -> 0 <= x)%Qc -> (forall r, In r (c_C M) -> f r = true -> g r = true) ->
  (total f M <= total g M)%Qc.
Proof.
  intros Hp H. unfold total. rewrite !qsum_filter. apply qsum_map_le. intros [r q] Hin. cbn [fst snd].
  assert (0 <= q)%Qc by (apply Hp; eapply in_combine_r; eauto).
  assert (X := H r (in_combine_l _ _ _ _ Hin)). destruct (f r), (g r); solve [qc_lra|discriminate (X eq_refl)].
Qed.
Lemma total_nonneg f M : (forall x, In x (c_p M) -> 0 <= x)%Qc -> (0 <= total f M)%Qc.
Proof.
  intros Hp. unfold total. apply qsum_nonneg. intros x Hx. apply in_map_iff in Hx as ([r q] & <- & H). apply filter_In in H as [H _].
  apply Hp. eapply in_combine_r; eauto.
Qed.

(** a larger event set *)
Lemma hits_mono scope row vs codes codes' : List.length codes = List.length codes' ->
  (forall i v c c', nth_error vs i = Some v -> nth_error codes i = Some c -> nth_error codes' i = Some c' ->
     forall x, In x (states_of v c) -> In x (states_of v c')) ->
  hits scope row vs codes = true -> hits scope row vs codes' = true.
Proof.
  unfold hits. revert codes codes'. induction vs as [|v vs IH]; intros [|c codes] [|c' codes'] Hl H; cbn in Hl; try lia; auto.
  cbn [combine forallb]. rewrite !andb_true_iff. intros [H1 H2]. split.
  - rewrite forallb_forall in *. intros wr Hin. specialize (H1 wr Hin). cbn [fst snd] in *. apply orb_true_iff in H1 as [H1|H1]; [rewrite H1; auto|].
    apply orb_true_iff. right. apply existsb_exists in H1 as (x & X1 & X2). apply existsb_exists. exists x. split; auto.
    apply mem_Z_In. apply mem_Z_In in X2. apply (H O v c c'); auto.
  - apply (IH codes codes'); auto. intros i w d d' G1 G2 G3. apply (H (S i)); auto.
Qed.

(** ** names and string states *)
Lemma resolve_names M vs : NoDup (names (c_vars M)) -> incl vs (c_vars M) -> resolve M (Names (names vs)) = Ok vs.
Proof.
  intros Hn Hi. cbn [resolve]. unfold names. induction vs as [|v vs IH]; auto. cbn [map mapM].
  assert (E : get_variable M (v_name v) = Ok v).
  { unfold get_variable. destruct (find (fun w => String.eqb (v_name w) (v_name v)) (c_vars M)) as [w|] eqn:F.
    - apply find_some in F as [F1 F2]. apply String.eqb_eq in F2. f_equal. apply (NoDup_names_inj (c_vars M)); auto. apply Hi; left; auto.
    - exfalso. assert (X := find_none _ _ F v (Hi v (or_introl eq_refl))). cbn in X. rewrite String.eqb_refl in X. discriminate. }
  rewrite E. cbn [bind]. rewrite IH; auto. intros x Hx. apply Hi. right; auto.
Qed.
Lemma get_prob_names M vs sts flag : NoDup (names (c_vars M)) -> incl vs (c_vars M) ->
  get_prob M (Names (names vs)) sts flag = get_prob M (Vars vs) sts flag.
Proof. intros Hn Hi. unfold get_prob. rewrite resolve_names by auto. reflexivity. Qed.
Lemma condition_names M vs sts : NoDup (names (c_vars M)) -> incl vs (c_vars M) ->
  condition M (Names (names vs)) sts = condition M (Vars vs) sts.
Proof. intros Hn Hi. unfold condition. rewrite resolve_names by auto. reflexivity. Qed.

Lemma convert_SS vs ss codes : Forall2 (fun vs_ c => value_index (fst vs_) (SS (snd vs_)) = Ok c) (combine vs ss) codes -> List.length vs = List.length ss ->
  convert_states vs (map SS ss) = Ok codes.
Proof.
  revert ss codes. induction vs as [|v vs IH]; intros [|s ss] codes H Hl; cbn in Hl; try lia; cbn in H; inversion H; subst; auto.
  cbn [map convert_states]. cbn [fst snd] in *. rewrite H2. rewrite (IH ss l'); auto.
Qed.
Lemma get_prob_strings M vs ss codes flag : vs <> [] -> List.length vs = List.length ss ->
  Forall2 (fun vs_ c => value_index (fst vs_) (SS (snd vs_)) = Ok c) (combine vs ss) codes ->
  get_prob M (Vars vs) (map SS ss) flag = get_prob M (Vars vs) (map SI codes) flag.
Proof.
  intros Hne Hl H. unfold get_prob. cbn [resolve bind]. rewrite !map_length.
  assert (Lc : List.length codes = List.length vs).
  { apply Forall2_length in H. rewrite combine_length in H. lia. }
  rewrite Hl, Nat.eqb_refl, Lc, Hl, Nat.eqb_refl. rewrite (convert_SS vs ss codes H Hl), convert_SI. cbn [bind]. rewrite ints_SI.
  destruct codes as [|c codes]; auto. destruct vs; [congruence|discriminate].
Qed.
Lemma condition_strings M vs ss codes : List.length vs = List.length ss ->
  Forall2 (fun vs_ c => value_index (fst vs_) (SS (snd vs_)) = Ok c) (combine vs ss) codes ->
  condition M (Vars vs) (map SS ss) = condition M (Vars vs) (map SI codes).
Proof.
  intros Hl H. unfold condition. cbn [resolve bind].
  assert (E : cond_states vs (map SS ss) = Ok (map SI codes)).
  { destruct ss as [|s0 ss0]; [destruct vs; [|discriminate]; inversion H; subst; reflexivity|]. cbn [map cond_states].
    change (SS s0 :: map SS ss0) with (map SS (s0 :: ss0)). set (ss := s0 :: ss0) in *. clearbody ss. clear s0 ss0.
    revert ss codes Hl H. induction vs as [|v vs IH]; intros [|s ss] codes Hl H; cbn in Hl; try lia; cbn in H; inversion H; subst; auto.
    cbn [map combine mapM fst snd] in *. rewrite H2. cbn [bind]. rewrite (IH ss l'); auto. }
  rewrite E. cbn [bind].
  assert (E2 : cond_states vs (map SI codes) = Ok (map SI codes)) by (destruct codes; reflexivity).
  rewrite E2. reflexivity.
Qed.

(** ** event probability as a sum over joint states *)
Lemma marg_zero l f a : (forall b, (forall n, ~ In n (names l) -> b n = a n) -> f b = 0%Qc) -> marg l f a = 0%Qc.
Proof.
  revert a. induction l as [|v l IH]; intros a H; cbn [marg].
  - apply H. auto.
  - apply qsum_map_zero. intros x _. apply IH. intros b Hb. apply H. intros n Hn. rewrite Hb by (intros X; apply Hn; right; auto).
    unfold set_joint. destruct (String.eqb_spec n (v_name v)) as [->|]; auto. exfalso. apply Hn. left. auto.
Qed.

Lemma marg_point l f (s : joint) : ext f -> NoDup (names l) -> (forall v, In v l -> 0 <= s (v_name v) < nvals v) ->
  (forall b v, In v l -> b (v_name v) <> s (v_name v) -> f b = 0%Qc) ->
  forall a, marg l f a = f (fun n => if mem_str n (names l) then s n else a n).
Proof.
  intros He. induction l as [|v l IH]; intros N R Z a; cbn [marg].
  - apply He. intros n. reflexivity.
  - inversion N as [|? ? N1 N2]; subst.
    assert (E : forall x, marg l f (set_joint a v x) = if x =? s (v_name v) then f (fun n => if mem_str n (names (v :: l)) then s n else a n) else 0%Qc).
    { intros x. destruct (Z.eqb_spec x (s (v_name v))) as [->|Hne].
      - rewrite IH; auto; [|intros w Hw; apply R; right; auto|intros b w Hw; apply Z; right; auto].
        apply He. intros n. cbn [names map mem_str existsb]. unfold set_joint. unfold mem_str.
        destruct (String.eqb_spec n (v_name v)) as [->|Hnn]; cbn [orb].
        + destruct (existsb (String.eqb (v_name v)) (names l)); auto.
        + reflexivity.
      - apply marg_zero. intros b Hb. apply (Z b v); [left; auto|]. rewrite Hb by auto. unfold set_joint. rewrite String.eqb_refl. auto. }
    rewrite (map_ext _ _ E). apply qsum_single; [apply zrange_NoDup|]. apply zrange_In. apply R. left; auto.
Qed.

(** with every column basic, [get_prob] is the sum over all joint states of the event *)
Lemma event_sum M vs codes : wf_cpm M -> has_p M -> ev_ok (c_vars M) vs codes -> (forall v, In v (c_vars M) -> basic_in M v) ->
  forall a, marg (c_vars M) (fun b => if ev_match (c_vars M) vs codes b then mass M b else 0%Qc) a =
  total (fun row => hits (c_vars M) row vs codes) M.
Proof.
  intros W Hp E Hb a. pose proof (proj1 W) as Hn. pose proof E as (E1 & E2 & E3 & E4).
  set (ev := ev_match (c_vars M) vs codes).
  assert (Wt : weights M = c_p M).
  { unfold weights. unfold has_p in Hp. destruct (c_p M) eqn:Ep; auto. destruct (c_C M); [auto|discriminate]. }
  rewrite (marg_ext (c_vars M) _ (fun b => qsum (map (fun rp => if row_match (c_vars M) (fst rp) b && ev b then snd rp else 0%Qc) (combine (c_C M) (c_p M))))).
  2:{ intros b. rewrite mass_if, Wt. destruct (ev b).
      - f_equal. apply map_ext. intros rp. rewrite andb_true_r. auto.
      - symmetry. apply qsum_map_zero. intros rp _. rewrite andb_false_r. auto. }
  rewrite marg_qsum. unfold total. rewrite qsum_filter. apply qsum_map_ext. intros [row q] Hin. cbn [fst snd].
  apply in_combine_l in Hin. assert (Lr : List.length row = List.length (c_vars M)) by apply (wf_rows M row W Hin).
  (* the joint state named by the row *)
  assert (S : exists s : joint, forall v, In v (c_vars M) -> 0 <= s (v_name v) < nvals v /\ forall x, In x (states_of v (at_ row (pos (c_vars M) v))) <-> x = s (v_name v)).
  { assert (G : forall v, In v (c_vars M) -> exists s, 0 <= s < nvals v /\ forall x, In x (states_of v (at_ row (pos (c_vars M) v))) <-> x = s).
    { intros v Hv. apply (Hb v Hv row); auto. apply In_combine_at; auto. }
    exists (fun n => match find (fun v => String.eqb (v_name v) n) (c_vars M) with
                     | Some v => hd 0 (states_of v (at_ row (pos (c_vars M) v))) | None => 0 end).
    intros v Hv. destruct (find (fun w => String.eqb (v_name w) (v_name v)) (c_vars M)) as [w|] eqn:F.
    - apply find_some in F as [F1 F2]. apply String.eqb_eq in F2. assert (w = v) by (apply (NoDup_names_inj (c_vars M)); auto). subst w.
      destruct (G v Hv) as (s & Hs & Hx). destruct (states_of v (at_ row (pos (c_vars M) v))) as [|y ys] eqn:Ey.
      + exfalso. apply (proj2 (Hx s) eq_refl).
      + cbn [hd]. assert (y = s) by (apply Hx; left; auto). subst y. auto.
    - exfalso. assert (X := find_none _ _ F v Hv). cbn in X. rewrite String.eqb_refl in X. discriminate. }
  destruct S as (s & Hs).
  assert (RM : forall b, row_match (c_vars M) row b = true <-> forall v, In v (c_vars M) -> b (v_name v) = s (v_name v)).
  { intros b. rewrite row_match_cells by auto. rewrite forallb_forall. unfold cell. split; intros H v Hv; specialize (H v Hv).
    - apply mem_Z_In in H. apply (Hs v Hv) in H. auto.
    - apply mem_Z_In. apply (Hs v Hv). auto. }
  rewrite (marg_point (c_vars M) _ s); auto.
  - set (b := fun n => if mem_str n (names (c_vars M)) then s n else a n).
    assert (Bv : forall v, In v (c_vars M) -> b (v_name v) = s (v_name v)).
    { intros v Hv. unfold b. rewrite (proj2 (mem_str_In _ _)); auto. apply in_map; auto. }
    rewrite (proj2 (RM b)) by auto. cbn [andb].
    assert (Q : ev b = hits (c_vars M) row vs codes); [|rewrite Q; auto].
    apply eq_true_iff_eq. unfold ev, ev_match, hits. rewrite !forallb_forall. split; intros H [v c] Hvc; specialize (H (v, c) Hvc); cbn [fst snd] in *.
    + apply forallb_forall. intros [w r] Hw. cbn [fst snd]. destruct (String.eqb_spec (v_name w) (v_name v)) as [X|X]; auto. cbn [negb orb].
      apply In_combine_at in Hw as [Hw ->]; auto. assert (v = w) by (apply E3; auto; eapply in_combine_l; eauto). subst w.
      rewrite (proj2 (mem_str_In _ _)) in H by (apply in_map; auto). cbn [negb orb] in H. apply existsb_exists. exists (b (v_name v)). split; auto.
      apply (Hs v Hw). auto.
    + destruct (mem_str (v_name v) (names (c_vars M))) eqn:X; auto. cbn [negb orb]. apply mem_str_In in X. apply in_map_iff in X as (w & Ew & Hw).
      assert (v = w) by (apply E3; auto; eapply in_combine_l; eauto). subst w. rewrite forallb_forall in H.
      specialize (H (v, at_ row (pos (c_vars M) v))). cbn [fst snd] in H. rewrite String.eqb_refl in H. cbn [negb orb] in H.
      assert (Y : In (v, at_ row (pos (c_vars M) v)) (combine (c_vars M) row)) by (apply In_combine_at; auto). specialize (H Y).
      apply existsb_exists in H as (x & X1 & X2). apply (Hs v Hw) in X1. rewrite Bv by auto. rewrite <- X1. auto.
  - intros b b' Hbb. assert (R : row_match (c_vars M) row b = row_match (c_vars M) row b') by (apply row_match_ext; intros; apply Hbb).
    assert (V : ev b = ev b').
    { unfold ev, ev_match. apply forallb_ext_in. intros vc _. rewrite Hbb. auto. }
    rewrite R, V. auto.
  - intros v Hv. apply (Hs v Hv).
  - intros b v Hv Hne. destruct (row_match (c_vars M) row b) eqn:X; auto. exfalso. apply Hne. apply (proj1 (RM b) X); auto.
Qed.

(** ** [get_subset] for any list of rows *)
Lemma take_rows_nth {A} (l : list A) idx d : (forall i, In i idx -> (i < List.length l)%nat) ->
  take_rows l idx = map (fun i => nth i l d) idx.
Proof.
  unfold take_rows. induction idx as [|i idx IH]; intros H; auto. cbn [flat_map map].
  assert (Hi : (i < List.length l)%nat) by (apply H; left; auto). rewrite (nth_error_nth' l d Hi). cbn. f_equal.
  apply IH. intros j Hj. apply H. right; auto.
Qed.
Lemma take_rows_In {A} (l : list A) idx x : In x (take_rows l idx) -> In x l.
Proof.
  unfold take_rows. rewrite in_flat_map. intros (i & _ & H). destruct (nth_error l i) eqn:E; [|destruct H].
  destruct H as [<-|[]]. eapply nth_error_In; eauto.
Qed.
Lemma take_rows_nil {A} idx : take_rows (@nil A) idx = [].
Proof. unfold take_rows. induction idx as [|i idx IH]; auto. cbn. destruct i; auto. Qed.

Definition others (n : nat) (rows : list nat) : list nat := filter (fun i => negb (existsb (Nat.eqb i) rows)) (seq 0 n).

Lemma get_subset_ok M rows (flag : bool) : wf_cpm M -> (flag = true -> forall i, In i rows -> (i < nrows M)%nat) ->
  let idx := if flag then rows else others (nrows M) rows in
  get_subset M rows flag = Ok (mkCpm (c_vars M) (c_nch M) (map (fun i => nth i (c_C M) []) idx)
                                     (match c_p M with [] => [] | _ => map (fun i => nth i (c_p M) 0%Qc) idx end)).
Proof.
  intros W H idx. unfold get_subset.
  assert (E : (if flag then if forallb (fun i => (i <? nrows M)%nat) rows then Ok rows else Err AssertionError
               else Ok (filter (fun i => negb (existsb (Nat.eqb i) rows)) (seq 0 (nrows M)))) = Ok idx).
  { unfold idx. destruct flag; auto. rewrite (proj2 (forallb_forall _ _)); auto. intros i Hi. apply Nat.ltb_lt. auto. }
  rewrite E. cbn [bind].
  assert (B : forall i, In i idx -> (i < List.length (c_C M))%nat).
  { unfold idx. destruct flag; [apply H; auto|]. intros i Hi. apply filter_In in Hi as [Hi _]. apply in_seq in Hi. unfold nrows in Hi. lia. }
  assert (P : take_rows (c_p M) idx = match c_p M with [] => [] | _ => map (fun i => nth i (c_p M) 0%Qc) idx end).
  { destruct (c_p M) as [|q p] eqn:Ep; [apply take_rows_nil|]. apply take_rows_nth. destruct W as (_ & _ & _ & _ & [W|W]); [congruence|].
    rewrite Ep in W. rewrite W. auto. }
  rewrite P, (take_rows_nth (c_C M) idx []) by auto. apply mk_cpm_ok; try apply W.
  - intros row Hr. apply in_map_iff in Hr as (i & <- & Hi). apply W. apply nth_In. auto.
  - destruct (c_p M); auto. right. rewrite !map_length. auto.
Qed.
Lemma get_subset_err M rows i : In i rows -> (nrows M <= i)%nat -> get_subset M rows true = Err AssertionError.
Proof.
  intros H1 H2. unfold get_subset. assert (E : forallb (fun i => (i <? nrows M)%nat) rows = false).
  { apply not_true_iff_false. rewrite forallb_forall. intros X. apply X in H1. apply Nat.ltb_lt in H1. lia. }
  rewrite E. reflexivity.
Qed.
Lemma others_perm n rows : NoDup rows -> (forall i, In i rows -> (i < n)%nat) -> Permutation (rows ++ others n rows) (seq 0 n).
Proof.
  intros Hn H. apply NoDup_Permutation.
  - apply NoDup_app_intro; auto; [apply NoDup_filter, seq_NoDup|]. intros i H1 H2. apply filter_In in H2 as [_ H2].
    apply negb_true_iff in H2. rewrite <- not_true_iff_false in H2. apply H2. apply existsb_exists. exists i. split; auto. apply Nat.eqb_refl.
  - apply seq_NoDup.
  - intros i. rewrite in_app_iff. unfold others. rewrite filter_In, in_seq. split.
    + intros [X|[X _]]; [apply H in X; lia|auto].
    + intros X. destruct (existsb (Nat.eqb i) rows) eqn:E; auto. apply existsb_exists in E as (j & Hj & E). apply Nat.eqb_eq in E. subst j. auto.
Qed.
Lemma map_nth_seq {A} (l : list A) d : map (fun i => nth i l d) (seq 0 (List.length l)) = l.
Proof.
  assert (G : forall pre, map (fun i => nth i (pre ++ l) d) (seq (List.length pre) (List.length l)) = l).
  { induction l as [|x l IH]; intros pre; auto. cbn [List.length seq map]. f_equal.
    - rewrite app_nth2, Nat.sub_diag by lia. auto.
    - specialize (IH (pre ++ [x])). rewrite <- app_assoc, app_length in IH. cbn in IH. rewrite Nat.add_1_r in IH. exact IH. }
  apply (G []).
Qed.

(** ** [merge] *)
Lemma add_at_length p i x : List.length (add_at p i x) = List.length p.
Proof. revert i. induction p as [|q p IH]; intros [|i]; cbn; auto. Qed.
Lemma add_at_weighted f C p i r x : nth_error C i = Some r -> List.length p = List.length C ->
  weighted f C (add_at p i x) = (weighted f C p + (if f r then x else 0))%Qc.
Proof.
  unfold weighted. revert C i. induction p as [|q p IH]; intros [|r0 C] i Hi Hl; cbn in Hl; try lia; [destruct i; discriminate|].
  destruct i as [|i]; cbn [nth_error add_at combine filter fst] in *.
  - injection Hi as ->. destruct (f r); cbn [map snd qsum]; ring.
  - specialize (IH C i Hi ltac:(lia)). destruct (f r0); cbn [map snd qsum]; rewrite IH; ring.
Qed.

Lemma merge_fold C : forall rows p, List.length p = List.length C -> p <> [] -> (forall rq, In rq rows -> In (fst rq) C) ->
  exists p', foldM (merge_row C) rows p = Ok p' /\ List.length p' = List.length C /\
    forall f, weighted f C p' = (weighted f C p + qsum (map snd (filter (fun rq => f (fst rq)) rows)))%Qc.
Proof.
  induction rows as [|[r x] rows IH]; intros p Hl Hp H; cbn [foldM].
  - exists p. split; auto. split; auto. intros f. cbn. ring.
  - unfold merge_row at 1. cbn [fst snd].
    destruct (find_idx_in (row_eqb r) C r (H _ (or_introl eq_refl)) (proj2 (tuple_eqb_spec r r) eq_refl)) as [i Hi]. rewrite Hi.
    apply find_idx_some in Hi as (r' & Hr' & E & _). apply tuple_eqb_spec in E. subst r'.
    assert (Em : forall T (a b : T), match p with [] => a | _ :: _ => b end = b) by (intros; destruct p; congruence). rewrite Em. cbn [bind].
    destruct (IH (add_at p i x)) as (p' & E1 & E2 & E3).
    + rewrite add_at_length. auto.
    + intros X. apply Hp. apply length_zero_iff_nil. rewrite <- (add_at_length p i x), X. auto.
    + intros rq Hrq. apply H. right; auto.
    + exists p'. split; auto. split; auto. intros f. rewrite E3, (add_at_weighted f C p i r x) by auto.
      cbn [filter fst]. destruct (f r); cbn [map snd qsum]; ring.
Qed.

Lemma merge_same_vars M1 M2 : agree (c_vars M1) (c_vars M2) ->
  ((List.length (c_vars M1) =? List.length (c_vars M2))%nat && forallb (fun ab => v_eqb (fst ab) (snd ab)) (combine (c_vars M1) (c_vars M2)) = true
   <-> c_vars M1 = c_vars M2).
Proof.
  intros Ha. split.
  - intros H. apply andb_true_iff in H as [H1 H2]. apply Nat.eqb_eq in H1. revert Ha H1 H2. generalize (c_vars M1) (c_vars M2).
    induction l as [|v l IH]; intros [|w l'] Ha H1 H2; cbn in H1; try lia; auto. cbn [combine forallb fst snd] in H2.
    apply andb_true_iff in H2 as [H2 H3]. apply v_eqb_eq in H2. f_equal; [apply Ha; auto; left; auto|].
    apply IH; auto. intros x y Hx Hy. apply Ha; right; auto.
  - intros ->. rewrite Nat.eqb_refl. cbn. clear. induction (c_vars M2) as [|v l IH]; auto. cbn. rewrite v_eqb_refl. exact IH.
Qed.

Lemma merge_ok M1 M2 : wf_cpm M1 -> c_p M1 <> [] -> has_p M2 -> c_vars M1 = c_vars M2 ->
  (forall r, In r (c_C M2) -> In r (c_C M1)) ->
  exists M, merge M1 M2 = Ok M /\ wf_cpm M /\ c_vars M = c_vars M1 /\ c_nch M = c_nch M1 /\ c_C M = c_C M1 /\
    forall a, mass M a = (mass M1 a + mass M2 a)%Qc.
Proof.
  intros W Hp Hp2 Hv Hi. unfold merge.
  assert (A : agree (c_vars M1) (c_vars M2)).
  { rewrite <- Hv. intros v w H1 H2 E. apply (NoDup_names_inj (c_vars M1)); auto. apply W. }
  rewrite (proj2 (merge_same_vars M1 M2 A) Hv).
  assert (L : List.length (c_p M1) = List.length (c_C M1)) by (destruct W as (_ & _ & _ & _ & [W|W]); [congruence|auto]).
  destruct (merge_fold (c_C M1) (combine (c_C M2) (c_p M2)) (c_p M1) L Hp) as (p' & E1 & E2 & E3).
  { intros [r q] H. cbn. apply Hi. eapply in_combine_l; eauto. }
  rewrite E1. cbn [bind]. eexists. split; [reflexivity|]. cbn [c_vars c_nch c_C]. split; [|split; [auto|split; [auto|split; [auto|]]]].
  - destruct W as (A1 & A2 & A3 & A4 & A5). split; [auto|split; [auto|split; [auto|split; [auto|]]]]. cbn. right. auto.
  - intros a. rewrite !mass_weighted. cbn [c_vars c_C].
    assert (W1 : weights (mkCpm (c_vars M1) (c_nch M1) (c_C M1) p') = p').
    { unfold weights. cbn [c_p c_C]. destruct p'; auto. destruct (c_C M1); [auto|discriminate]. }
    assert (W2 : weights M2 = c_p M2).
    { unfold weights. unfold has_p in Hp2. destruct (c_p M2); auto. destruct (c_C M2); [auto|discriminate]. }
    rewrite W1, W2, (weights_p M1 Hp), E3, Hv. reflexivity.
Qed.

Lemma merge_missing M1 M2 r : wf_cpm M1 -> c_p M1 <> [] -> has_p M2 -> c_vars M1 = c_vars M2 -> In r (c_C M2) -> ~ In r (c_C M1) ->
  merge M1 M2 = Err ValueError.
Proof.
  intros W Hp Hp2 Hv Hr Hn. unfold merge.
  assert (A : agree (c_vars M1) (c_vars M2)).
  { rewrite <- Hv. intros v w H1 H2 E. apply (NoDup_names_inj (c_vars M1)); auto. apply W. }
  rewrite (proj2 (merge_same_vars M1 M2 A) Hv).
  assert (G : exists q, In (r, q) (combine (c_C M2) (c_p M2))).
  { unfold has_p in Hp2. revert Hr Hp2. generalize (c_p M2). induction (c_C M2) as [|r0 C IH]; intros [|q p] Hr Hl; cbn in Hl; try lia; [destruct Hr|].
    destruct Hr as [->|Hr]; [exists q; left; auto|]. destruct (IH p Hr ltac:(lia)) as [q' Hq']. exists q'. right; auto. }
  destruct G as [q Hq]. revert Hp Hq. generalize (c_p M1). induction (combine (c_C M2) (c_p M2)) as [|[r0 q0] l IH]; intros p Hp Hq; [destruct Hq|].
  cbn [foldM]. unfold merge_row at 1. cbn [fst snd]. destruct (find_idx (row_eqb r0) (c_C M1)) as [i|] eqn:E; [|reflexivity].
  assert (Em : forall T (a b : T), match p with [] => a | _ :: _ => b end = b) by (intros; destruct p; congruence). rewrite Em. cbn [bind]. apply IH.
  - intros X. apply Hp. apply length_zero_iff_nil. rewrite <- (add_at_length p i q0), X. auto.
  - destruct Hq as [X|Hq]; auto. exfalso. injection X as -> ->. apply find_idx_some in E as (r' & Hr' & E & _). apply tuple_eqb_spec in E. subst r'.
    apply Hn. eapply nth_error_In; eauto.
Qed.

(** ** bounds *)
Lemma total_complete f M M' : has_p M -> completes M M' ->
  (total f M <= total f M')%Qc /\ (total f M' <= total f M + (1 - qsum (c_p M)))%Qc /\
  ((forall x, In x (c_p M) -> 0 <= x)%Qc -> (0 <= total f M')%Qc /\ (total f M' <= 1)%Qc).
Proof.
  intros Hp (C & p & Hl & Hnn & -> & Hs). unfold total. cbn [c_C c_p].
  rewrite combine_app_eq by (symmetry; exact Hp). rewrite filter_app, map_app, qsum_app. rewrite qsum_app in Hs.
  set (A := qsum (map snd (filter (fun rp => f (fst rp)) (combine (c_C M) (c_p M))))).
  set (B := qsum (map snd (filter (fun rp => f (fst rp)) (combine C p)))).
  assert (B0 : (0 <= B)%Qc).
  { apply qsum_nonneg. intros x Hx. apply in_map_iff in Hx as ([r q] & <- & H). apply filter_In in H as [H _]. apply Hnn. eapply in_combine_r; eauto. }
  assert (G : forall (C : list (list Z)) p, List.length C = List.length p -> (forall x, In x p -> 0 <= x)%Qc ->
     (qsum (map snd (filter (fun rp => f (fst rp)) (combine C p))) <= qsum p)%Qc).
  { clear. induction C as [|r C IH]; intros [|q p] Hl Hn; cbn in Hl; try lia; [cbn; qc_lra|]. cbn [combine filter fst].
    assert (0 <= q)%Qc by (apply Hn; left; auto). specialize (IH p ltac:(lia) (fun x Hx => Hn x (or_intror Hx))).
    destruct (f r); cbn [map snd qsum]; qc_lra. }
  assert (B1 : (B <= qsum p)%Qc) by (apply G; auto).
  split; [qc_lra|]. split.
  - assert (E : qsum p = (1 - qsum (c_p M))%Qc) by (rewrite <- Hs; ring). rewrite <- E. qc_lra.
  - intros Hm. assert (A0 : (0 <= A)%Qc).
    { apply qsum_nonneg. intros x Hx. apply in_map_iff in Hx as ([r q] & <- & H). apply filter_In in H as [H _]. apply Hm. eapply in_combine_r; eauto. }
    assert (A1 : (A <= qsum (c_p M))%Qc) by (apply G; auto; symmetry; exact Hp).
    split; [qc_lra|]. rewrite <- Hs. qc_lra.
Qed.

Lemma qmin_le x y z : (z <= x)%Qc -> (z <= y)%Qc -> (z <= qmin x y)%Qc.
Proof. unfold qmin. destruct (qc_leb x y); auto. Qed.

Lemma bnd_quotient P1 P2 P1' P2' u : (0 <= P1 -> P1 <= P1' -> P1' <= P1 + u -> 0 <= P2 -> P2 <= P2' -> P2' <= P2 + u -> 0 < P2' -> P1' <= P2' ->
  (exists lo, qdiv P1 (P2 + u) = Some lo /\ lo <= P1' / P2') /\
  P1' / P2' <= match qdiv (P1 + u) P2 with Some x => qmin 1 x | None => 1 end)%Qc.
Proof.
  intros H1 H2 H3 H4 H5 H6 H7 H8.
  assert (I : (0 < / P2')%Qc).
  { destruct (Qclt_le_dec 0 (/ P2')) as [X|X]; auto. exfalso.
    assert (Y : (P2' * / P2' = 1)%Qc) by (apply Qcmult_inv_r; intros Z; rewrite Z in H7; apply (Qclt_not_le 0 0 H7); apply Qcle_refl).
    assert (Z : (/ P2' * P2' <= 0 * P2')%Qc) by (apply Qcmult_le_compat_r; [auto|apply Qclt_le_weak; auto]).
    rewrite Qcmult_comm, Y, Qcmult_0_l in Z. revert Z. apply Qclt_not_le. reflexivity. }
  assert (N2 : (P2' <> 0)%Qc) by (intros Z; rewrite Z in H7; apply (Qclt_not_le 0 0 H7); apply Qcle_refl).
  assert (One : (P1' / P2' <= 1)%Qc).
  { assert (Y : (P2' * / P2' = 1)%Qc) by (apply Qcmult_inv_r; auto). rewrite <- Y. unfold Qcdiv. apply Qcmult_le_compat_r; auto. apply Qclt_le_weak; auto. }
  assert (Quot : forall a b c d : Qc, (0 < b -> 0 < d -> a * d <= c * b -> a / b <= c / d)%Qc).
  { intros a b c d Hb Hd H.
    assert (Nb : (b <> 0)%Qc) by (intros Z; rewrite Z in Hb; apply (Qclt_not_le 0 0 Hb); apply Qcle_refl).
    assert (Nd : (d <> 0)%Qc) by (intros Z; rewrite Z in Hd; apply (Qclt_not_le 0 0 Hd); apply Qcle_refl).
    apply Qcmult_lt_0_le_reg_r with (z := (b * d)%Qc).
    - assert (X : (0 * d < b * d)%Qc) by (apply Qcmult_lt_compat_r; auto). rewrite Qcmult_0_l in X. auto.
    - replace (a / b * (b * d))%Qc with (a * d)%Qc by (field; auto). replace (c / d * (b * d))%Qc with (c * b)%Qc by (field; auto). auto. }
  split.
  - assert (Pos : (0 < P2 + u)%Qc) by (exact (Qclt_le_trans _ _ _ H7 H6)).
    assert (N : qc_eqb (P2 + u) 0 = false).
    { destruct (qc_eqb (P2 + u)%Qc 0%Qc) eqn:E; auto. apply qc_eqb_eq in E. rewrite E in Pos. exfalso. apply (Qclt_not_le 0 0 Pos). apply Qcle_refl. }
    unfold qdiv. rewrite N. eexists. split; [reflexivity|]. apply Quot; auto.
    apply Qcle_trans with (P1 * (P2 + u))%Qc.
    + rewrite !(Qcmult_comm P1). apply Qcmult_le_compat_r; auto.
    + apply Qcmult_le_compat_r; auto. apply Qclt_le_weak; auto.
  - unfold qdiv. destruct (qc_eqb P2 0) eqn:E; auto. apply qmin_le; auto.
    assert (Pos : (0 < P2)%Qc).
    { destruct (Qcle_lt_or_eq _ _ H4) as [X|X]; auto. rewrite <- X in E. discriminate. }
    apply Quot; auto. apply Qcle_trans with (P1' * P2')%Qc.
    + rewrite !(Qcmult_comm P1'). apply Qcmult_le_compat_r; auto. exact (Qcle_trans _ _ _ H1 H2).
    + apply Qcmult_le_compat_r; auto. apply Qclt_le_weak; auto.
Qed.

(** * forms used in the final theorems *)
Lemma total_ext f g M : (forall r, f r = g r) -> total f M = total g M.
Proof. intros H. rewrite !total_weighted. apply weighted_ext. auto. Qed.

Lemma value_index_first v s c : nth_error (v_values v) c = Some (VStr s) -> ~ In (VStr s) (firstn c (v_values v)) ->
  value_index v (SS s) = Ok (Z.of_nat c).
Proof.
  unfold value_index, py_list_index. intros H1 H2.
  assert (G : find_idx (value_is (SS s)) (v_values v) = Some c).
  { revert c H1 H2. induction (v_values v) as [|w l IH]; intros [|c] H1 H2; cbn [nth_error firstn] in *; try discriminate.
    - injection H1 as ->. cbn [find_idx value_is]. rewrite String.eqb_refl. auto.
    - cbn [find_idx]. destruct (value_is (SS s) w) eqn:E.
      + destruct w; cbn [value_is] in E; try discriminate. apply String.eqb_eq in E. subst. exfalso. apply H2. left; auto.
      + rewrite (IH c); auto. intros X. apply H2. right; auto. }
  rewrite G. auto.
Qed.

Lemma values_codes vs ss codes : List.length vs = List.length ss -> List.length codes = List.length vs ->
  (forall i v s, nth_error vs i = Some v -> nth_error ss i = Some s ->
     exists c, nth_error codes i = Some (Z.of_nat c) /\ nth_error (v_values v) c = Some (VStr s) /\
               ~ In (VStr s) (firstn c (v_values v))) ->
  Forall2 (fun vs_ c => value_index (fst vs_) (SS (snd vs_)) = Ok c) (combine vs ss) codes.
Proof.
  revert ss codes. induction vs as [|v vs IH]; intros [|s ss] [|c codes] L1 L2 H; cbn in L1, L2; try lia; cbn [combine]; constructor.
  - destruct (H O v s eq_refl eq_refl) as (c' & H1 & H2 & H3). cbn in H1. injection H1 as ->. apply value_index_first; auto.
  - apply IH; [lia|lia|]. intros i w t Hw Ht. exact (H (S i) w t Hw Ht).
Qed.

Lemma condition_values M vs ss codes : List.length vs = List.length ss ->
  (forall i v s, nth_error vs i = Some v -> nth_error ss i = Some s ->
     exists c, nth_error codes i = Some (Z.of_nat c) /\ nth_error (v_values v) c = Some (VStr s) /\
               ~ In (VStr s) (firstn c (v_values v))) ->
  List.length codes = List.length vs ->
  condition M (Vars vs) (map SS ss) = condition M (Vars vs) (map SI codes).
Proof. intros L H Lc. apply condition_strings; auto. apply values_codes; auto. Qed.

Lemma get_prob_values M vs ss codes flag : vs <> [] -> List.length vs = List.length ss ->
  (forall i v s, nth_error vs i = Some v -> nth_error ss i = Some s ->
     exists c, nth_error codes i = Some (Z.of_nat c) /\ nth_error (v_values v) c = Some (VStr s) /\
               ~ In (VStr s) (firstn c (v_values v))) ->
  List.length codes = List.length vs ->
  get_prob M (Vars vs) (map SS ss) flag = get_prob M (Vars vs) (map SI codes) flag.
Proof. intros N L H Lc. apply get_prob_strings; auto. apply values_codes; auto. Qed.

Lemma existsb_mem_str v vs : existsb (v_eqb v) vs = mem_str (v_name v) (names vs).
Proof.
  induction vs as [|w vs IH]; auto. cbn [existsb names map mem_str]. rewrite IH. unfold v_eqb. reflexivity.
Qed.

Lemma sum_keeps_kept M vs flag : sum_keeps M vs flag = kept M vs flag.
Proof.
  unfold sum_keeps, kept. f_equal. apply filter_ext. intros v. unfold kept_child. rewrite existsb_mem_str.
  destruct flag, (mem_str (v_name v) (names vs)); reflexivity.
Qed.

Lemma restricts_proj vars row K r : NoDup (names vars) -> List.length row = List.length vars -> incl K vars ->
  (restricts vars row K r <-> r = proj vars K row).
Proof.
  intros N L. revert r. induction K as [|v K IH]; intros r Hi; unfold restricts, proj; cbn [map].
  - split; [intros H; inversion H; auto|intros ->; constructor].
  - assert (HiK : incl K vars) by (intros x Hx; apply Hi; right; auto).
    split.
    + intros H. inversion H as [|? c ? r' Hc Hr]; subst. apply In_combine_at in Hc as [_ ->]; auto. f_equal. apply (IH r' HiK). exact Hr.
    + intros ->. constructor.
      * apply In_combine_at; auto. split; auto. apply Hi. left; auto.
      * apply (IH (proj vars K row) HiK). auto.
Qed.

Lemma sum_main M vs flag : wf_cpm M -> (flag = false -> NoDup (names vs)) -> sum_keeps M vs flag <> [] ->
  exists Ms, sum M (Vars vs) flag = Ok Ms /\ wf_cpm Ms /\
    c_vars Ms = sum_keeps M vs flag /\ parents Ms = parents M /\
    qsum (c_p Ms) = qsum (c_p M) /\ NoDup (c_C Ms) /\
    (forall r, In r (c_C Ms) <-> exists row, In row (c_C M) /\ restricts (c_vars M) row (c_vars Ms) r) /\
    (forall R, (c_p M <> [] \/ c_C M = []) -> NoDup (names R) -> (forall v, In v R <-> In v (c_vars M) /\ ~ In v (c_vars Ms)) ->
       (forall v, In v R -> basic_in M v) -> forall a, mass Ms a = marg R (mass M) a).
Proof.
  intros W F. rewrite sum_keeps_kept. intros K. destruct (sum_spec M vs flag W F K) as (Ms & H1 & H2 & H3 & _ & H5 & H6 & H7 & _).
  exists Ms. split; auto. split; auto. split; auto. split; auto. split; [apply (sum_total M vs flag); auto|]. split; auto. split.
  - intros r. rewrite H7, H3. split; intros (row & Hr & X); exists row; (split; [auto|]);
      apply (restricts_proj (c_vars M) row (kept M vs flag) r); auto; try apply W; try (apply (wf_rows M row W Hr)); intros v; apply kept_incl.
  - intros R P N HR B a. apply (sum_marg M vs flag Ms R); auto.
Qed.

Lemma sum_nothing M vs flag : wf_cpm M -> (flag = false -> NoDup (names vs)) -> sum_keeps M vs flag = [] ->
  sum M (Vars vs) flag = Err ValueError.
Proof. rewrite sum_keeps_kept. apply sum_all. Qed.

Lemma sum_names M vs flag : NoDup (names (c_vars M)) -> incl vs (c_vars M) ->
  sum M (Names (names vs)) flag = sum M (Vars vs) flag.
Proof. intros N I. unfold sum. rewrite resolve_names by auto. reflexivity. Qed.

Lemma completes_vars M M' : completes M M' -> c_vars M' = c_vars M.
Proof. intros (C & p & _ & _ & -> & _). auto. Qed.

Lemma bounds_main M M' vs codes flag lo hi p :
  wf_cpm M -> has_p M -> wf_cpm M' -> completes M M' -> ev_ok (c_vars M) vs codes -> vs <> [] -> codes_small vs codes ->
  (forall x, In x (c_p M) -> 0 <= x)%Qc ->
  get_prob_bnd M (Vars vs) (map SI codes) flag (Vars []) [] true = Ok (lo, hi) ->
  get_prob M' (Vars vs) (map SI codes) flag = Ok p ->
  exists l, lo = Some l /\ (l <= p /\ p <= hi /\ hi <= 1)%Qc.
Proof.
  intros W P W' Hc E N S Hp H H'. unfold get_prob_bnd in H. rewrite get_prob_spec in H by auto. cbn [bind] in H. injection H as <- <-.
  assert (V := completes_vars M M' Hc). rewrite get_prob_spec in H' by (rewrite ?V; auto). injection H' as <-. rewrite V.
  destruct (total_complete (fun row => Bool.eqb (hits (c_vars M) row vs codes) flag) M M' P Hc) as (A & B & D). destruct (D Hp) as [D1 D2].
  eexists. split; [reflexivity|]. split; auto. split; [apply qmin_le; auto|]. unfold qmin. destruct (qc_leb 1 _) eqn:L; [apply Qcle_refl|].
  apply Qclt_le_weak. apply Qcnot_le_lt. intros X. apply qc_leb_le in X. congruence.
Qed.

Lemma hits_incl scope row vs codes cvs ccodes : incl (combine cvs ccodes) (combine vs codes) ->
  hits scope row vs codes = true -> hits scope row cvs ccodes = true.
Proof. unfold hits. rewrite !forallb_forall. intros I H x Hx. apply H. apply I. auto. Qed.

Lemma cond_bounds_main M M' vs codes cvs ccodes lo hi p pc :
  wf_cpm M -> has_p M -> wf_cpm M' -> completes M M' ->
  ev_ok (c_vars M) vs codes -> vs <> [] -> codes_small vs codes ->
  ev_ok (c_vars M) cvs ccodes -> cvs <> [] -> codes_small cvs ccodes ->
  incl (combine cvs ccodes) (combine vs codes) ->
  (forall x, In x (c_p M) -> 0 <= x)%Qc ->
  get_prob_bnd M (Vars vs) (map SI codes) true (Vars cvs) (map SI ccodes) true = Ok (lo, hi) ->
  get_prob M' (Vars vs) (map SI codes) true = Ok p -> get_prob M' (Vars cvs) (map SI ccodes) true = Ok pc -> (0 < pc)%Qc ->
  exists l, lo = Some l /\ (l <= p / pc /\ p / pc <= hi /\ hi <= 1)%Qc.
Proof.
  intros W P W' Hc E N S Ec Nc Sc I Hp H H1 H2 Hpos. unfold get_prob_bnd in H. rewrite get_prob_spec in H by auto. cbn [bind] in H.
  assert (Em : forall T (a b : T), match cvs with [] => a | _ :: _ => b end = b) by (intros; destruct cvs; congruence). rewrite Em in H.
  rewrite get_prob_spec in H by auto. cbn [bind] in H. injection H as <- <-.
  assert (V := completes_vars M M' Hc). rewrite get_prob_spec in H1 by (rewrite ?V; auto). rewrite get_prob_spec in H2 by (rewrite ?V; auto).
  rewrite V in *. set (f := fun row => Bool.eqb (hits (c_vars M) row vs codes) true) in *.
  set (g := fun row => Bool.eqb (hits (c_vars M) row cvs ccodes) true) in *.
  destruct (total_complete f M M' P Hc) as (A & B & D). destruct (total_complete g M M' P Hc) as (A' & B' & D').
  assert (Hp' : (forall x, In x (c_p M') -> 0 <= x)%Qc).
  { destruct Hc as (C & p0 & _ & Hp0 & -> & _). cbn [c_p]. intros x Hx. apply in_app_or in Hx as [Hx|Hx]; auto. }
  assert (LE : (total f M' <= total g M')%Qc).
  { apply total_mono; auto. unfold f, g. intros r _ Hr. apply eqb_prop in Hr. apply eqb_true_iff. eapply hits_incl; eauto. }
  injection H1 as <-. injection H2 as <-.
  destruct (bnd_quotient (total f M) (total g M) (total f M') (total g M') (1 - qsum (c_p M))%Qc) as [(l & L1 & L2) U]; auto using total_nonneg.
  exists l. split; auto. split; auto. split; auto.
  destruct (qdiv _ (total g M)) as [x|]; [|apply Qcle_refl]. unfold qmin. destruct (qc_leb 1 x) eqn:L; [apply Qcle_refl|].
  apply Qclt_le_weak. apply Qcnot_le_lt. intros X. apply qc_leb_le in X. congruence.
Qed.

Lemma elim_orders l vars vars' M M' : ve_ok l vars -> Permutation vars vars' ->
  variable_elim l vars = Ok M -> variable_elim l vars' = Ok M' ->
  (forall a, mass M a = mass M' a) /\ (forall w, In w (c_vars M) <-> In w (c_vars M')) /\
  (forall w, In w (children M) <-> In w (children M')).
Proof.
  intros V P H H'. assert (PI : forall v, In v vars <-> In v vars') by (intros v; split; apply Permutation_in; auto using Permutation_sym).
  assert (V' : ve_ok l vars').
  { destruct V as (A1 & A2 & A3 & A4 & A5). split; [auto|]. split; [auto|]. split; [intros v Hv; apply A3; apply PI; auto|].
    split; [intros v Hv; apply A4; apply PI; auto|]. unfold names. eapply Permutation_NoDup; [|exact A5]. apply Permutation_map. auto. }
  destruct (variable_elim_ok l vars M V H) as (_ & B1 & B2 & B3). destruct (variable_elim_ok l vars' M' V' H') as (_ & C1 & C2 & C3).
  split; [|split].
  - intros a. rewrite B1, C1. apply marg_perm; auto using pmass_ext. apply V.
  - intros w. rewrite B2, C2, PI. tauto.
  - intros w. rewrite B3, C3, PI. tauto.
Qed.

(** a checkable form of [alive] *)
Definition alive_chk (l : list cpm) (a : joint) : bool :=
  forallb (fun M => forallb (qc_leb 0) (weights M) && negb (qc_leb (mass M a) 0) && negb (List.length (c_vars M) =? 0)%nat) l.
Lemma alive_b l a : alive_chk l a = true -> alive l a.
Proof.
  unfold alive_chk. rewrite forallb_forall. intros H M HM. specialize (H M HM). rewrite !andb_true_iff, !negb_true_iff, forallb_forall in H.
  destruct H as [[H1 H2] H3]. split; [|split].
  - intros b. unfold mass. apply qsum_nonneg. intros x Hx. apply in_map_iff in Hx as (rp & <- & Hx). apply filter_In in Hx as [Hx _].
    apply qc_leb_le. apply H1. destruct rp. eapply in_combine_r; eauto.
  - apply Qcnot_le_lt. intros X. apply qc_leb_le in X. congruence.
  - intros E. rewrite E in H3. discriminate.
Qed.

Lemma subset_partition M rows M1 M2 : wf_cpm M -> has_p M -> NoDup rows ->
  get_subset M rows true = Ok M1 -> get_subset M rows false = Ok M2 ->
  Permutation (combine (c_C M1) (c_p M1) ++ combine (c_C M2) (c_p M2)) (combine (c_C M) (c_p M)).
Proof.
  intros W P N H1 H2.
  assert (R : forall i, In i rows -> (i < nrows M)%nat).
  { intros i Hi. destruct (Nat.lt_ge_cases i (nrows M)) as [L|L]; auto. rewrite (get_subset_err M rows i Hi L) in H1. discriminate. }
  rewrite (get_subset_ok M rows true W (fun _ => R)) in H1. rewrite (get_subset_ok M rows false W) in H2 by discriminate.
  cbn [andb] in H1, H2. injection H1 as <-. injection H2 as <-. cbn [c_C c_p].
  unfold nrows in *. unfold has_p in P. revert P. generalize (c_p M) as p. intros p P.
  destruct p as [|x0 p0]; [rewrite !combine_nil; constructor|]. set (p := x0 :: p0) in *. clearbody p.
  set (h := fun i => (nth i (c_C M) [], nth i p 0%Qc)).
  assert (G : forall idx, combine (map (fun i => nth i (c_C M) []) idx) (map (fun i => nth i p 0%Qc) idx) = map h idx).
  { induction idx as [|i idx IH]; auto. cbn [map combine]. rewrite IH. auto. }
  rewrite !G, <- map_app. rewrite (Permutation_map h (others_perm (List.length (c_C M)) rows N R)).
  assert (Q : map h (seq 0 (List.length (c_C M))) = combine (c_C M) p).
  { rewrite <- (map_nth_seq (combine (c_C M) p) ([], 0%Qc)). rewrite combine_length, P, Nat.min_id.
    apply map_ext. intros i. unfold h. rewrite combine_nth by auto. auto. }
  rewrite Q. apply Permutation_refl.
Qed.

Lemma no_table_fails M v c : In v (c_vars M) -> NoDup (names (c_vars M)) -> v_B v = None -> c_C M <> [] -> c < 2 ^ nvals v -> forall flag,
  condition M (Vars [v]) [SI c] = Err AttributeError /\ get_prob M (Vars [v]) [SI c] flag = Err AttributeError.
Proof.
  intros Hv N HB HC Hc flag. assert (F := find_idx_pos (c_vars M) v _ N (pos_In (c_vars M) v N Hv)). destruct (c_C M) as [|r C] eqn:E; [congruence|]. split.
  - unfold condition. cbn [resolve bind cond_states]. unfold fn_iscompatible. cbn [ismember map]. rewrite F.
    cbn [is_some get_value List.length Nat.eqb select filter combine fst snd map somes bind].
    rewrite E. cbn [foldM]. unfold fn_column. cbn [fst snd map select combine filter bind]. rewrite HB. reflexivity.
  - unfold get_prob. cbn [resolve bind List.length Nat.eqb convert_states ints_of flat_map app].
    assert (MK : exists x, mk_cpm [v] 1 [[c]] [0%Qc] = Ok x).
    { unfold mk_cpm, check_C, check_p. cbn. assert (X : c <=? 2 ^ nvals v - 1 = true) by lia. unfold col_max_ok. cbn. rewrite X. cbn. eauto. }
    destruct MK as [x ->]. cbn [bind]. unfold mt_iscompatible. cbn [ismember map]. rewrite F.
    cbn [is_some get_value List.length Nat.eqb select filter combine fst snd map somes bind].
    rewrite E. cbn [foldM]. unfold mt_column. cbn [fst snd map select combine filter bind]. rewrite HB. reflexivity.
Qed.
