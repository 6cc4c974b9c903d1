(** [Cpm.get_means] *)
From Coq Require Import ZArith List String Bool QArith Qcanon Lia Permutation.
From Verif Require Import Py PyFacts Num Vari VariFacts Cpm SpecCpm CpmFacts CpmCond CpmProd CpmList CpmSum CpmMarg CpmElim CpmProb.
Import ListNotations.
Open Scope string_scope.
Open Scope Z_scope.
Open Scope list_scope.

(** sum over joint states of a CPM that lists basic states: one term per row *)
Lemma rows_sum M (g : joint -> Qc) : wf_cpm M -> has_p M -> lists_states M -> 
  (forall a b, (forall v, In v (c_vars M) -> a (v_name v) = b (v_name v)) -> g a = g b) ->
  forall a, marg (c_vars M) (fun b => (g b * mass M b)%Qc) a =
  qsum (map (fun rp => (g (fun n => match find (fun v => String.eqb (v_name v) n) (c_vars M) with
                     | Some v => at_ (fst rp) (pos (c_vars M) v) | None => 0%Z end) * snd rp)%Qc) (combine (c_C M) (c_p M))).
Proof.
  intros W Hp Hl Hg a. pose proof (proj1 W) as Hn.
  assert (Wt : weights M = c_p M).
  { unfold weights. unfold has_p in Hp. destruct (c_p M) eqn:Ep; auto. destruct (c_C M); [auto|discriminate]. }
  rewrite (marg_ext (c_vars M) _ (fun b => qsum (map (fun rp => if row_match (c_vars M) (fst rp) b then (g b * snd rp)%Qc else 0%Qc) (combine (c_C M) (c_p M))))).
  2:{ intros b. rewrite mass_if, Wt, <- qsum_map_scale. apply qsum_map_ext. intros rp _. destruct (row_match _ _ _); ring. }
  rewrite marg_qsum. apply qsum_map_ext. intros [row q] Hin. cbn [fst snd].
  apply in_combine_l in Hin. assert (Lr : List.length row = List.length (c_vars M)) by apply (wf_rows M row W Hin).
  set (s := fun n => match find (fun v => String.eqb (v_name v) n) (c_vars M) with
                     | Some v => at_ row (pos (c_vars M) v) | None => 0 end).
  assert (Es : forall v, In v (c_vars M) -> s (v_name v) = at_ row (pos (c_vars M) v)).
  { intros v Hv. unfold s. destruct (find (fun w => String.eqb (v_name w) (v_name v)) (c_vars M)) as [w|] eqn:F.
    - apply find_some in F as [F1 F2]. apply String.eqb_eq in F2. assert (w = v) by (apply (NoDup_names_inj (c_vars M)); auto). subst w. auto.
    - exfalso. assert (X := find_none _ _ F v Hv). cbn in X. rewrite String.eqb_refl in X. discriminate. }
  assert (Hs : forall v, In v (c_vars M) -> 0 <= s (v_name v) < nvals v /\ forall x, In x (states_of v (at_ row (pos (c_vars M) v))) <-> x = s (v_name v)).
  { intros v Hv. rewrite Es by auto. apply (Hl row v _ Hin). apply In_combine_at; auto. }
  assert (RM : forall b, row_match (c_vars M) row b = true <-> forall v, In v (c_vars M) -> b (v_name v) = s (v_name v)).
  { intros b. rewrite row_match_cells by auto. rewrite forallb_forall. unfold cell. split; intros H v Hv; specialize (H v Hv).
    - apply mem_Z_In in H. apply (Hs v Hv) in H. auto.
    - apply mem_Z_In. apply (Hs v Hv). auto. }
  rewrite (marg_point (c_vars M) _ s); auto.
  - set (b := fun n => if mem_str n (names (c_vars M)) then s n else a n).
    assert (Bv : forall v, In v (c_vars M) -> b (v_name v) = s (v_name v)).
    { intros v Hv. unfold b. rewrite (proj2 (mem_str_In _ _)); auto. apply in_map; auto. }
    rewrite (proj2 (RM b)) by auto. rewrite (Hg b s); auto.
  - intros b b' Hbb. assert (R : row_match (c_vars M) row b = row_match (c_vars M) row b') by (apply row_match_ext; intros; apply Hbb).
    rewrite R, (Hg b b'); auto.
  - intros v Hv. apply (Hs v Hv).
  - intros b v Hv Hne. destruct (row_match (c_vars M) row b) eqn:X; auto. exfalso. apply Hne. apply (proj1 (RM b) X); auto.
Qed.

Lemma name_index_pos M v : NoDup (names (c_vars M)) -> In v (c_vars M) -> name_index M (v_name v) = Ok (pos (c_vars M) v).
Proof.
  intros N Hv. unfold name_index. assert (E : find_idx (fun w => String.eqb (v_name v) (v_name w)) (c_vars M) = Some (pos (c_vars M) v)).
  { unfold pos. apply In_nth_error in Hv as [i Hi]. pose proof (find_idx_pos _ _ _ N Hi) as F. rewrite F.
    rewrite <- F. apply find_idx_ext. auto. }
  rewrite E. auto.
Qed.

Lemma means_main M vs : wf_cpm M -> has_p M -> lists_states M -> NoDup (names vs) -> incl vs (c_vars M) -> 
  forall a, get_means M (names vs) = Ok (map (fun v => marg (c_vars M) (fun b => (qz (b (v_name v)) * mass M b)%Qc) a) vs).
Proof.
  intros W Hp Hl Nv Hi a. pose proof (proj1 W) as Hn. unfold get_means, get_col_ind.
  assert (E : nodup_names (names vs) = true).
  { unfold nodup_names. rewrite nodup_fixed_point by auto. apply Nat.eqb_refl. }
  rewrite E.
  assert (Em : mapM (name_index M) (names vs) = Ok (map (pos (c_vars M)) vs)).
  { clear E. induction vs as [|v vs IH]; auto. cbn [names map mapM]. rewrite name_index_pos by (auto; apply Hi; left; auto). cbn [bind].
    fold (names vs). rewrite IH; auto. - inversion Nv; auto. - intros w Hw. apply Hi. right; auto. }
  rewrite Em. cbn [bind].
  assert (Em2 : forall T (x y : T), match c_p M, c_C M with [], _ :: _ :: _ => x | _, _ => y end = y).
  { intros T x y. unfold has_p in Hp. destruct (c_p M) as [|q p], (c_C M) as [|r [|r2 C]]; auto. discriminate. }
  rewrite Em2. apply (f_equal Ok). rewrite map_map. apply map_ext_in. intros v Hv. specialize (Hi v Hv).
  rewrite (rows_sum M (fun b => qz (b (v_name v)))); auto.
  2:{ intros b b' H. rewrite H; auto. }
  apply qsum_map_ext. intros [row q] _. cbn [fst snd]. f_equal. f_equal.
  destruct (find (fun w => String.eqb (v_name w) (v_name v)) (c_vars M)) as [w|] eqn:F.
  - apply find_some in F as [F1 F2]. apply String.eqb_eq in F2. assert (w = v) by (apply (NoDup_names_inj (c_vars M)); auto). subst w. auto.
  - exfalso. assert (X := find_none _ _ F v Hi). cbn in X. rewrite String.eqb_refl in X. discriminate.
Qed.

(** probabilities adding up to one over the joint states *)
Lemma rows_total M : wf_cpm M -> has_p M -> lists_states M -> forall a, marg (c_vars M) (mass M) a = qsum (c_p M).
Proof.
  intros W Hp Hl a. rewrite (marg_ext _ (mass M) (fun b => (1 * mass M b)%Qc)) by (intros; ring).
  rewrite (rows_sum M (fun _ => 1%Qc)) by auto. unfold has_p in Hp.
  assert (G : forall (C : list (list Z)) (p : list Qc), List.length p = List.length C -> qsum (map (fun rp => (1 * snd rp)%Qc) (combine C p)) = qsum p).
  { induction C as [|r C IH]; intros [|q p] E; cbn in *; auto; try discriminate. rewrite IH by congruence. ring. }
  apply G. auto.
Qed.

Lemma means_dup M l : ~ NoDup l -> get_means M l = Err AssertionError.
Proof.
  intros H. unfold get_means, get_col_ind. destruct (nodup_names l) eqn:E; [|reflexivity]. exfalso. apply H.
  unfold nodup_names in E. apply Nat.eqb_eq in E. apply (@NoDup_incl_NoDup _ (nodup string_dec l)).
  - apply NoDup_nodup.
  - rewrite E. auto.
  - intros x Hx. apply nodup_In in Hx. auto.
Qed.

Lemma name_index_none M n : ~ In n (names (c_vars M)) -> name_index M n = Err ValueError.
Proof.
  intros H. unfold name_index. destruct (find_idx _ (c_vars M)) as [i|] eqn:E; [|reflexivity]. exfalso. apply H.
  apply find_idx_some in E as (v & Hi & Hv & _). apply String.eqb_eq in Hv. subst n.
  apply in_map. eapply nth_error_In; eauto.
Qed.

Lemma name_index_err M n e : name_index M n = Err e -> e = ValueError.
Proof. unfold name_index. destruct (find_idx _ _); congruence. Qed.

Lemma means_unknown M l : NoDup l -> (exists n, In n l /\ ~ In n (names (c_vars M))) -> get_means M l = Err ValueError.
Proof.
  intros Hn (n & Hl & Hx). unfold get_means, get_col_ind.
  replace (nodup_names l) with true by (unfold nodup_names; rewrite nodup_fixed_point by auto; symmetry; apply Nat.eqb_refl).
  assert (E : mapM (name_index M) l = Err ValueError).
  { clear Hn. induction l as [|m l IH]; [destruct Hl|]. cbn [mapM]. destruct (name_index M m) as [i|e] eqn:Em; cbn [bind].
    - destruct Hl as [-> |Hl]; [rewrite (name_index_none M n Hx) in Em; discriminate|]. rewrite IH by auto. reflexivity.
    - apply name_index_err in Em. subst. reflexivity. }
  rewrite E. reflexivity.
Qed.
