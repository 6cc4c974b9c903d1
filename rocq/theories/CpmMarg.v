(** [Cpm.sum] as a whole: what it keeps, and marginalisation. *)
From Coq Require Import ZArith List String Bool Arith Lia QArith Qcanon Permutation Sorted.
From Verif Require Import Py Num Vari Cpm SpecCpm PyFacts VariFacts CpmFacts CpmCond CpmProd CpmList CpmSum.
Import ListNotations.
Open Scope string_scope.
Open Scope Z_scope.
Open Scope list_scope.

Definition kept_child (vs : list variable) (flag : bool) (v : variable) : bool :=
  if flag then negb (existsb (v_eqb v) vs) else existsb (v_eqb v) vs.
Definition kept (M : cpm) (vs : list variable) (flag : bool) : list variable :=
  filter (kept_child vs flag) (children M) ++ parents M.
Definition proj (vars l : list variable) (row : list Z) : list Z := map (fun v => at_ row (pos vars v)) l.

Lemma children_incl M v : In v (children M) -> In v (c_vars M).
Proof. unfold children. intros H. rewrite <- (firstn_skipn (c_nch M)). apply in_or_app. auto. Qed.
Lemma parents_incl M v : In v (parents M) -> In v (c_vars M).
Proof. unfold parents. intros H. rewrite <- (firstn_skipn (c_nch M)). apply in_or_app. auto. Qed.
Lemma vars_split M : c_vars M = children M ++ parents M.
Proof. symmetry. apply firstn_skipn. Qed.
Lemma kept_incl M vs flag v : In v (kept M vs flag) -> In v (c_vars M).
Proof.
  unfold kept. intros H. apply in_app_or in H as [H|H]; [|apply parents_incl; auto].
  apply filter_In in H as [H _]. apply children_incl; auto.
Qed.

Lemma children_NoDup M : NoDup (names (c_vars M)) -> NoDup (names (children M)).
Proof. rewrite vars_split. unfold names. rewrite map_app. apply NoDup_app_l. Qed.

Lemma pos_app l1 l2 v : In v l1 -> NoDup (names (l1 ++ l2)) -> pos (l1 ++ l2) v = pos l1 v.
Proof.
  intros H Hn. assert (H1 : NoDup (names l1)) by (unfold names in *; rewrite map_app in Hn; apply NoDup_app_l in Hn; auto).
  apply pos_nth; auto. rewrite nth_error_app1.
  - apply pos_In; auto.
  - apply nth_error_Some. rewrite (pos_In l1 v); auto. discriminate.
Qed.
Lemma pos_child M v : NoDup (names (c_vars M)) -> In v (children M) -> pos (children M) v = pos (c_vars M) v.
Proof. intros Hn H. rewrite vars_split in *. symmetry. apply pos_app; auto. Qed.

Lemma filter_NoDup_names f l : NoDup (names l) -> NoDup (names (filter f l)).
Proof.
  unfold names. induction l as [|v l IH]; cbn; auto. intros H. inversion H as [|? ? H1 H2]; subst.
  destruct (f v); auto. cbn. constructor; auto. intros X. apply H1. apply in_map_iff in X as (w & E & Hw).
  rewrite <- E. apply in_map. apply filter_In in Hw. tauto.
Qed.

Lemma kept_NoDup M vs flag : NoDup (names (c_vars M)) -> NoDup (names (kept M vs flag)).
Proof.
  intros H. rewrite vars_split in H. unfold kept. set (f := kept_child vs flag). clearbody f.
  revert H. generalize (children M) (parents M). clear. intros l k. induction l as [|v l IH]; cbn; auto.
  intros H. inversion H as [|? ? H1 H2]; subst. destruct (f v); auto. cbn. constructor; auto.
  intros X. apply H1. apply in_map_iff in X as (w & E & Hw). rewrite <- E. apply in_map. apply in_app_or in Hw. apply in_or_app.
  destruct Hw as [Hw|Hw]; auto. left. apply filter_In in Hw. tauto.
Qed.

Lemma somes_ismember l vs : NoDup (names vs) -> incl l vs -> somes (ismember l vs) = map (pos vs) l.
Proof.
  intros Hn. induction l as [|v l IH]; intros H; auto. cbn [ismember map]. unfold ismember in *. cbn [map].
  assert (Hv : In v vs) by (apply H; left; auto). apply In_nth_error in Hv as [i Hi].
  rewrite (find_idx_pos vs v i Hn Hi). cbn [somes]. rewrite IH by (intros x Hx; apply H; right; auto).
  rewrite (pos_nth vs v i); auto.
Qed.

Lemma take_rows_pos vs l : NoDup (names vs) -> incl l vs -> take_rows vs (map (pos vs) l) = l.
Proof.
  intros Hn. induction l as [|v l IH]; intros H; auto. unfold take_rows in *. cbn [map flat_map].
  rewrite pos_In by (auto; apply H; left; auto). cbn. f_equal. apply IH. intros x Hx; apply H; right; auto.
Qed.

Lemma map_pos_seq vs pre : NoDup (names (pre ++ vs)) ->
  map (pos (pre ++ vs)) vs = seq (List.length pre) (List.length vs).
Proof.
  revert pre. induction vs as [|v vs IH]; intros pre H; auto. cbn [map List.length seq]. f_equal.
  - apply pos_nth; auto. rewrite nth_error_app2, Nat.sub_diag by auto. auto.
  - replace (pre ++ v :: vs) with ((pre ++ [v]) ++ vs) in * by (rewrite <- app_assoc; auto).
    rewrite IH by auto. rewrite app_length. cbn. f_equal. lia.
Qed.

(** ** the flag=False positions *)
Lemma filter_seq_sorted {A} (g : A -> nat) (f : A -> bool) l n : map g l = seq n (List.length l) ->
  StronglySorted lt (map g (filter f l)).
Proof.
  revert n. induction l as [|x l IH]; intros n H; cbn [filter map]; [constructor|].
  cbn in H. injection H as H1 H2. assert (S : StronglySorted lt (map g (filter f l))) by (eapply IH; eauto).
  destruct (f x); auto. cbn. constructor; auto. apply Forall_forall. intros y Hy. apply in_map_iff in Hy as (z & <- & Hz).
  apply filter_In in Hz as [Hz _]. assert (In (g z) (map g l)) by (apply in_map; auto). rewrite H2 in H. apply in_seq in H. lia.
Qed.

Lemma sorted_unique l1 l2 : StronglySorted lt l1 -> StronglySorted lt l2 -> (forall x, In x l1 <-> In x l2) -> l1 = l2.
Proof.
  revert l2. induction l1 as [|x l1 IH]; intros l2 S1 S2 E.
  - destruct l2 as [|y l2]; auto. exfalso. destruct (proj2 (E y) (or_introl eq_refl)).
  - destruct l2 as [|y l2]; [exfalso; destruct (proj1 (E x) (or_introl eq_refl))|].
    inversion S1 as [|? ? S1' F1]; subst. inversion S2 as [|? ? S2' F2]; subst. rewrite Forall_forall in F1, F2.
    assert (x = y).
    { destruct (proj1 (E x) (or_introl eq_refl)) as [|X]; auto. destruct (proj2 (E y) (or_introl eq_refl)) as [|Y]; auto.
      apply F2 in X. apply F1 in Y. lia. }
    subst y. f_equal. apply IH; auto. intros z. split; intros Hz.
    + destruct (proj1 (E z) (or_intror Hz)) as [->|]; auto. apply F1 in Hz. lia.
    + destruct (proj2 (E z) (or_intror Hz)) as [->|]; auto. apply F2 in Hz. lia.
Qed.

Lemma sort_desc_sorted {A} (g : A -> A -> bool) l :
  (forall x y, g x y = true -> g y x = false) ->
  (forall x y z, g y x = false -> g z y = false -> g z x = false) ->
  StronglySorted (fun x y => g y x = false) (sort_desc g l).
Proof.
  intros As Tr. induction l as [|x l IH]; [constructor|]. change (sort_desc g (x :: l)) with (insert_desc g x (sort_desc g l)).
  induction IH as [|y l' Hs IHs Hy]; cbn [insert_desc]; [repeat constructor|]. destruct (g y x) eqn:E.
  - constructor; auto. rewrite Forall_forall in *. intros z Hz.
    apply (Permutation_in _ (insert_desc_perm g x l')) in Hz. destruct Hz as [<-|Hz]; auto.
  - constructor; [constructor; auto|]. constructor; auto. rewrite Forall_forall in *. intros z Hz. eapply Tr; eauto.
Qed.

Lemma sort_nat_sorted l : NoDup l -> StronglySorted lt (sort_nat l).
Proof.
  intros H. assert (S : StronglySorted (fun x y => (y <? x)%nat = false) (sort_nat l)).
  { apply sort_desc_sorted; intros x y; rewrite ?Nat.ltb_lt, ?Nat.ltb_ge; try lia. intros z. rewrite !Nat.ltb_ge. lia. }
  assert (N : NoDup (sort_nat l)) by (eapply Permutation_NoDup; [symmetry; apply sort_desc_perm|auto]).
  induction S as [|x l' S IH F]; [constructor|]. inversion N as [|? ? N1 N2]; subst. constructor; auto.
  rewrite Forall_forall in *. intros y Hy. specialize (F y Hy). apply Nat.ltb_ge in F.
  assert (x <> y) by (intros ->; auto). lia.
Qed.

Lemma somes_ismember_In vs l i : In i (somes (ismember vs l)) <-> exists v, In v vs /\ find_idx (v_eqb v) l = Some i.
Proof.
  unfold ismember. induction vs as [|v vs IH]; cbn.
  - split; [tauto|intros (v & [] & _)].
  - destruct (find_idx (v_eqb v) l) as [j|] eqn:E; cbn; rewrite IH; split.
    + intros [<-|(w & H & E')]; eauto.
    + intros (w & [->|H] & E'); [left; congruence|eauto].
    + intros (w & H & E'); eauto.
    + intros (w & [->|H] & E'); [congruence|eauto].
Qed.

Lemma somes_ismember_NoDup vs l : NoDup (names vs) -> NoDup (somes (ismember vs l)).
Proof.
  unfold names. induction vs as [|v vs IH]; cbn; intros H; [constructor|]. inversion H as [|? ? H1 H2]; subst.
  unfold ismember. cbn [map]. fold (ismember vs l).
  destruct (find_idx (v_eqb v) l) as [j|] eqn:E; cbn [somes]; auto. constructor; auto. intros X.
  apply somes_ismember_In in X as (w & Hw & E'). apply find_idx_some in E as (u & Hu & E1 & _). apply find_idx_some in E' as (u' & Hu' & E2 & _).
  assert (u = u') by congruence. subst u'. apply v_eqb_eq in E1, E2. apply H1. rewrite E1, <- E2. apply in_map. auto.
Qed.

Lemma existsb_v_In v vs : existsb (v_eqb v) vs = true <-> exists w, In w vs /\ v_name v = v_name w.
Proof. rewrite existsb_exists. split; intros (w & H & E); exists w; split; auto; apply v_eqb_eq; auto. Qed.

Lemma dedup_id l : NoDup (names l) -> dedup l = l.
Proof.
  unfold names. induction l as [|v l IH]; cbn; auto. intros H. inversion H as [|? ? H1 H2]; subst. rewrite IH by auto. f_equal.
  assert (X : forall k, ~ In (v_name v) (map v_name k) -> filter (fun b => negb (v_eqb b v)) k = k).
  { induction k as [|w k IHk]; cbn; auto. intros Hk. destruct (v_eqb w v) eqn:E.
    - exfalso. apply Hk. left. apply v_eqb_eq in E. auto.
    - cbn. f_equal. apply IHk. tauto. }
  apply X; auto.
Qed.

Lemma kept_idx M vs (flag : bool) : NoDup (names (c_vars M)) -> (flag = false -> NoDup (names vs)) ->
  (if flag then setdiff (children M) vs
   else (take_rows (c_vars M) (sort_nat (somes (ismember vs (children M)))), sort_nat (somes (ismember vs (children M))))) =
  (filter (kept_child vs flag) (children M), map (pos (c_vars M)) (filter (kept_child vs flag) (children M))).
Proof.
  intros Hn Hv. pose proof (children_NoDup M Hn) as Hc. destruct flag.
  - unfold setdiff. rewrite (dedup_id _ Hc). f_equal. rewrite somes_ismember; auto.
    + apply map_ext_in. intros v H. apply filter_In in H as [H _]. apply pos_child; auto.
    + intros v H. apply filter_In in H. tauto.
  - cbv zeta. assert (E : sort_nat (somes (ismember vs (children M))) = map (pos (c_vars M)) (filter (kept_child vs false) (children M))).
    { apply sorted_unique.
      - apply sort_nat_sorted, somes_ismember_NoDup; auto.
      - apply (filter_seq_sorted _ _ _ O). assert (Q := map_pos_seq (children M) [] Hc). cbn [app List.length] in Q. rewrite <- Q.
        apply map_ext_in. intros v H. symmetry. apply pos_child; auto.
      - intros i. transitivity (In i (somes (ismember vs (children M)))).
        { split; apply Permutation_in; [|symmetry]; apply sort_desc_perm. }
        rewrite somes_ismember_In, in_map_iff. split.
        + intros (v & Hin & E). pose proof E as E'. apply find_idx_some in E' as (u & Hu & E1 & _). exists u.
          assert (Hu' := nth_error_In _ _ Hu). split.
          * rewrite <- pos_child by auto. apply pos_nth; auto.
          * apply filter_In. split; auto. apply existsb_v_In. exists v. split; auto. apply v_eqb_eq in E1. auto.
        + intros (u & <- & H). apply filter_In in H as [H1 H2]. unfold kept_child in H2. apply existsb_v_In in H2 as (w & Hw & E). exists w. split; auto.
          rewrite <- pos_child by auto. pose proof (pos_In _ _ Hc H1) as P.
          rewrite <- (find_idx_pos _ _ _ Hc P). f_equal. unfold v_eqb. rewrite E. auto. }
    rewrite E. f_equal. apply take_rows_pos; auto. intros v H. apply filter_In in H as [H _]. apply children_incl; auto.
Qed.

Lemma kept_all_idx M vs (flag : bool) : NoDup (names (c_vars M)) -> (c_nch M <= ncols M)%nat ->
  map (pos (c_vars M)) (filter (kept_child vs flag) (children M)) ++ seq (c_nch M) (ncols M - c_nch M) =
  map (pos (c_vars M)) (kept M vs flag).
Proof.
  intros Hn Hl. unfold kept. rewrite map_app. f_equal.
  assert (E := map_pos_seq (parents M) (children M)). rewrite <- vars_split in E. rewrite (E Hn). f_equal.
  - unfold children. rewrite firstn_length. unfold ncols in Hl. lia.
  - unfold parents, ncols. rewrite skipn_length. auto.
Qed.

Lemma weighted_map f (g : list Z -> list Z) C p : weighted f (map g C) p = weighted (fun r => f (g r)) C p.
Proof.
  unfold weighted. revert p. induction C as [|r C IH]; intros [|q p]; auto. cbn [map combine filter fst].
  destruct (f (g r)); cbn [map snd qsum fold_right]; unfold qsum in *; rewrite IH; auto.
Qed.

Lemma mass_weighted M a : mass M a = weighted (fun r => row_match (c_vars M) r a) (c_C M) (weights M).
Proof. reflexivity. Qed.

(** ** [sum] *)
Lemma sum_spec M vs flag : wf_cpm M -> (flag = false -> NoDup (names vs)) -> kept M vs flag <> [] ->
  exists Ms, sum M (Vars vs) flag = Ok Ms /\ wf_cpm Ms /\
    c_vars Ms = kept M vs flag /\ children Ms = filter (kept_child vs flag) (children M) /\ parents Ms = parents M /\
    NoDup (c_C Ms) /\
    (forall r, In r (c_C Ms) <-> exists row, In row (c_C M) /\ r = proj (c_vars M) (kept M vs flag) row) /\
    (c_p M = [] -> c_p Ms = []) /\
    (c_p M <> [] -> c_C M <> [] -> c_p Ms <> []) /\
    (c_p M <> [] -> forall f, weighted f (c_C Ms) (c_p Ms) = weighted (fun r => f (proj (c_vars M) (kept M vs flag) r)) (c_C M) (c_p M)).
Proof.
  intros W Hf Hne. assert (Hn := proj1 W). assert (Hnc : (c_nch M <= ncols M)%nat) by (apply W).
  unfold sum. cbn [resolve bind]. cbv zeta. rewrite (kept_idx M vs flag Hn Hf). cbv zeta. rewrite (kept_all_idx M vs flag Hn Hnc).
  assert (I : incl (kept M vs flag) (c_vars M)) by (intros v; apply kept_incl).
  rewrite take_rows_pos by auto. set (K := kept M vs flag) in *.
  assert (EC : map (fun row => cols row (map (pos (c_vars M)) K)) (c_C M) = map (proj (c_vars M) K) (c_C M)).
  { apply map_ext. intros row. unfold cols, proj. rewrite map_map. auto. }
  rewrite EC. rewrite map_length. set (M1 := mkCpm K (List.length K) (map (proj (c_vars M) K) (c_C M)) (c_p M)).
  assert (HK : NoDup (names K)) by (apply kept_NoDup; auto).
  assert (VK : Forall var_ok K).
  { apply Forall_forall. intros v Hv. destruct W as (_ & V & _). rewrite Forall_forall in V. apply V, I; auto. }
  assert (RK : forall row, In row (c_C M) -> Forall2 code_ok K (proj (c_vars M) K row)).
  { intros row Hr. destruct W as (_ & _ & _ & R & _). specialize (R row Hr).
    assert (Lr : List.length row = List.length (c_vars M)) by (apply Forall2_length in R; auto).
    unfold proj. assert (X : forall l, incl l (c_vars M) -> Forall2 code_ok l (map (fun v => at_ row (pos (c_vars M) v)) l)).
    { induction l as [|v l IHl]; intros Hi; cbn; constructor.
      - apply (Forall2_at (c_vars M) row); auto. apply pos_In; auto. apply Hi; left; auto.
      - apply IHl. intros x Hx. apply Hi. right; auto. }
    apply X; auto. }
  assert (W1 : wf_cpm M1).
  { split; [auto|split; [auto|split; [cbn; lia|split]]]; cbn [M1 c_C c_vars c_p].
    - intros r Hr. apply in_map_iff in Hr as (row & <- & Hr). auto.
    - destruct W as (_ & _ & _ & _ & [W|W]); auto. right. rewrite map_length. auto. }
  assert (E1 : mk_cpm K (List.length K) (map (proj (c_vars M) K) (c_C M)) (c_p M) = Ok M1) by (apply mk_cpm_ok; apply W1).
  rewrite E1. cbn [bind].
  destruct (sum_loop_spec (nrows M1) M1 W1 Hne (le_n _)) as (Cs & ps & E & N & In_ & P0 & P1).
  rewrite E. cbn [bind].
  assert (Lps : ps = [] \/ List.length ps = List.length Cs).
  { destruct (c_p M) eqn:Ep; [left; apply P0; cbn; auto|right; apply P1; cbn; congruence]. }
  assert (Ms_ok : wf_cpm (mkCpm K (List.length (filter (kept_child vs flag) (children M))) Cs ps)).
  { split; [auto|split; [auto|split; [|split]]]; cbn [c_C c_vars c_p c_nch].
    - unfold K, kept. rewrite app_length. lia.
    - intros r Hr. apply In_ in Hr. apply W1. auto.
    - auto. }
  assert (E2 : mk_cpm K (List.length (filter (kept_child vs flag) (children M))) Cs ps =
               Ok (mkCpm K (List.length (filter (kept_child vs flag) (children M))) Cs ps)) by (apply mk_cpm_ok; apply Ms_ok).
  assert (EM2 : forall T (x y : T), match map (pos (c_vars M)) K with [] => x | _ => y end = y).
  { intros T x y. destruct (map (pos (c_vars M)) K) eqn:X; auto. apply map_eq_nil in X. congruence. }
  rewrite EM2. change (filter (kept_child vs flag) (children M) ++ parents M) with K. rewrite E2.
  exists (mkCpm K (List.length (filter (kept_child vs flag) (children M))) Cs ps). split; [auto|split; [exact Ms_ok|]].
  cbn [c_vars c_C c_p]. split; [auto|]. split; [|split; [|split; [exact N|split; [|split; [|split]]]]].
  - unfold children at 1. cbn [c_nch c_vars]. unfold K, kept. apply firstn_app_len.
  - unfold parents at 1. cbn [c_nch c_vars]. unfold K, kept. rewrite skipn_app, skipn_all, Nat.sub_diag. cbn [app skipn]. reflexivity.
  - intros r. rewrite In_. cbn [M1 c_C]. rewrite in_map_iff. split; intros (row & H1 & H2); exists row; (split; [tauto||congruence|]); solve [tauto|congruence|subst; fold K; auto].
  - intros H. apply P0. auto.
  - intros H1 H2 H3. destruct (P1 H1) as [L _]. rewrite H3 in L. destruct Cs as [|]; [|discriminate].
    destruct (c_C M) as [|r C] eqn:EM; [congruence|]. apply (proj2 (In_ (proj (c_vars M) K r))). cbn [M1 c_C map]. left. reflexivity.
  - intros H f. destruct (P1 H) as [_ G]. rewrite G. cbn [M1 c_C c_p]. apply weighted_map.
Qed.


Lemma row_match_proj vars l row a : row_match l (proj vars l row) a = forallb (cell vars row a) l.
Proof.
  unfold row_match, proj. induction l as [|v l IH]; auto. cbn [map combine forallb fst snd]. rewrite IH. reflexivity.
Qed.

Lemma weights_p M : c_p M <> [] -> weights M = c_p M.
Proof. unfold weights. destruct (c_p M); congruence. Qed.
Lemma weights_no_rows M : wf_cpm M -> c_C M = [] -> weights M = [].
Proof.
  intros (_ & _ & _ & _ & H) E. unfold weights. rewrite E in *. destruct H as [->|H]; auto. destruct (c_p M); auto. discriminate.
Qed.

Lemma sum_mass M vs flag Ms : wf_cpm M -> (flag = false -> NoDup (names vs)) -> kept M vs flag <> [] ->
  (c_p M <> [] \/ c_C M = []) -> sum M (Vars vs) flag = Ok Ms ->
  forall f, weighted f (c_C Ms) (weights Ms) = weighted (fun r => f (proj (c_vars M) (kept M vs flag) r)) (c_C M) (weights M).
Proof.
  intros W Hf Hk Hp E f. destruct (sum_spec M vs flag W Hf Hk) as (Ms' & E' & W' & _ & _ & _ & _ & I & P0 & P1 & P2).
  assert (Ms' = Ms) by congruence. subst Ms'. destruct (c_C M) as [|r C] eqn:EC.
  - assert (c_C Ms = []) as ->; [|reflexivity]. destruct (c_C Ms) as [|x l]; auto. exfalso.
    destruct (proj1 (I x) (or_introl eq_refl)) as (y & [] & _).
  - destruct Hp as [Hp|Hp]; [|discriminate]. rewrite (weights_p M Hp), (weights_p Ms) by (apply P1; congruence). apply P2; auto.
Qed.

Lemma sum_total M vs flag Ms : wf_cpm M -> (flag = false -> NoDup (names vs)) -> kept M vs flag <> [] ->
  sum M (Vars vs) flag = Ok Ms -> qsum (c_p Ms) = qsum (c_p M).
Proof.
  intros W Hf Hk E. destruct (sum_spec M vs flag W Hf Hk) as (Ms' & E' & W' & _ & _ & _ & _ & I & P0 & P1 & P2).
  assert (Ms' = Ms) by congruence. subst Ms'. destruct (c_p M) as [|q p] eqn:Ep.
  - rewrite (P0 eq_refl). auto.
  - specialize (P2 ltac:(discriminate) (fun _ => true)). rewrite <- Ep in *.
    assert (T : forall C p, List.length p = List.length C -> weighted (fun _ => true) C p = qsum p).
    { clear. unfold weighted. induction C as [|r C IH]; intros [|q p] H; cbn in H; try lia; auto.
      cbn [combine filter map snd qsum fold_right]. unfold qsum in *. rewrite IH by lia. auto. }
    assert (Hp : c_p M <> []) by congruence.
    assert (L : List.length (c_p M) = List.length (c_C M)) by (destruct W as (_ & _ & _ & _ & [W|W]); [congruence|auto]).
    assert (C0 : c_C M <> []) by (intros X; rewrite X in L; destruct (c_p M); [congruence|discriminate]).
    specialize (P1 Hp C0). rewrite !T in P2; auto. destruct W' as (_ & _ & _ & _ & [W'|W']); [congruence|auto].
Qed.

(** ** marginals *)
Lemma marg_ext l f g a : (forall b, f b = g b) -> marg l f a = marg l g a.
Proof.
  intros H. revert a. induction l as [|v l IH]; intros a; cbn; auto. f_equal. apply map_ext. intros x. apply IH.
Qed.
Lemma marg_qsum {A} l (F : A -> joint -> Qc) rows a :
  marg l (fun b => qsum (map (fun r => F r b) rows)) a = qsum (map (fun r => marg l (F r) a) rows).
Proof.
  revert a. induction l as [|v l IH]; intros a; cbn [marg]; auto. rewrite (map_ext _ _ (fun x => IH (set_joint a v x))).
  apply qsum_swap.
Qed.

Lemma qsum_single l s (q : Qc) : NoDup l -> In s l -> qsum (map (fun x => if x =? s then q else 0%Qc) l) = q.
Proof.
  induction l as [|x l IH]; intros N H; [destruct H|]. inversion N as [|? ? N1 N2]; subst. cbn [map qsum].
  destruct (Z.eqb_spec x s) as [->|Hne].
  - rewrite qsum_map_zero; [ring|]. intros y Hy. destruct (Z.eqb_spec y s) as [->|]; auto. contradiction.
  - destruct H as [->|H]; [congruence|]. rewrite IH; auto. ring.
Qed.

Lemma zrange_In a b x : In x (zrange a b) <-> a <= x < b.
Proof.
  unfold zrange. rewrite in_map_iff. split.
  - intros (k & <- & H). apply in_seq in H. lia.
  - intros H. exists (Z.to_nat (x - a)). split; [lia|]. apply in_seq. lia.
Qed.

Lemma cell_set vars row a v x w : v_name w <> v_name v -> cell vars row (set_joint a v x) w = cell vars row a w.
Proof. intros H. unfold cell, set_joint. apply String.eqb_neq in H. rewrite H. auto. Qed.

Lemma marg_row vars row (q : Qc) l : forall K a, NoDup (names (l ++ K)) ->
  (forall v, In v l -> exists s, 0 <= s < nvals v /\ forall x, In x (states_of v (at_ row (pos vars v))) <-> x = s) ->
  marg l (fun b => if forallb (cell vars row b) (l ++ K) then q else 0%Qc) a = if forallb (cell vars row a) K then q else 0%Qc.
Proof.
  induction l as [|v l IH]; intros K a N H; cbn [marg app]; auto.
  assert (N' : NoDup (names (l ++ v :: K))).
  { eapply Permutation_NoDup; [|exact N]. unfold names. apply Permutation_map. cbn. apply Permutation_middle. }
  destruct (H v (or_introl eq_refl)) as (s & Hs & Hx).
  assert (E : forall x, marg l (fun b => if forallb (cell vars row b) (v :: l ++ K) then q else 0%Qc) (set_joint a v x) =
                        if x =? s then (if forallb (cell vars row a) K then q else 0%Qc) else 0%Qc).
  { intros x. rewrite (marg_ext l _ (fun b => if forallb (cell vars row b) (l ++ v :: K) then q else 0%Qc)).
    - rewrite IH; auto; [|intros w Hw; apply H; right; auto]. cbn [forallb].
      assert (C : cell vars row (set_joint a v x) v = (x =? s)).
      { unfold cell, set_joint. rewrite String.eqb_refl. apply eq_true_iff_eq. rewrite mem_Z_In, Hx, Z.eqb_eq. tauto. }
      rewrite C. assert (F : forallb (cell vars row (set_joint a v x)) K = forallb (cell vars row a) K).
      { apply forallb_ext_in. intros w Hw. apply cell_set. intros X. inversion N as [|? ? N1 N2]; subst. apply N1.
        rewrite <- X. apply in_map. apply in_or_app. auto. }
      rewrite F. destruct (x =? s); cbn [andb]; auto.
    - intros b. rewrite (forallb_same (cell vars row b) (v :: l ++ K) (l ++ v :: K)); auto.
      intros w. cbn [In]. rewrite !in_app_iff. cbn [In]. tauto. }
  rewrite (map_ext _ _ E). apply qsum_single; [apply zrange_NoDup|]. apply zrange_In. auto.
Qed.

Lemma mass_if M a : mass M a = qsum (map (fun rp => if row_match (c_vars M) (fst rp) a then snd rp else 0%Qc) (combine (c_C M) (weights M))).
Proof. unfold mass. apply qsum_filter. Qed.

Lemma sum_marg M vs flag Ms R : wf_cpm M -> (flag = false -> NoDup (names vs)) -> kept M vs flag <> [] ->
  (c_p M <> [] \/ c_C M = []) -> sum M (Vars vs) flag = Ok Ms ->
  NoDup (names R) -> (forall v, In v R <-> In v (c_vars M) /\ ~ In v (c_vars Ms)) -> (forall v, In v R -> basic_in M v) ->
  forall a, mass Ms a = marg R (mass M) a.
Proof.
  intros W Hf Hk Hp E HR HRi Hb a. pose proof (proj1 W) as Hn.
  destruct (sum_spec M vs flag W Hf Hk) as (Ms' & E' & W' & Vs & _).
  assert (Ms' = Ms) by congruence. subst Ms'. rewrite Vs in HRi.
  rewrite mass_weighted. rewrite (sum_mass M vs flag Ms W Hf Hk Hp E). rewrite Vs.
  rewrite (marg_ext R _ _ a (mass_if M)). rewrite marg_qsum.
  assert (Wr : forall row, In row (c_C M) -> List.length row = List.length (c_vars M)) by (intros row Hr; apply (wf_rows M row W Hr)).
  assert (G : forall rp, In rp (combine (c_C M) (weights M)) ->
     marg R (fun b => if row_match (c_vars M) (fst rp) b then snd rp else 0%Qc) a =
     if row_match (kept M vs flag) (proj (c_vars M) (kept M vs flag) (fst rp)) a then snd rp else 0%Qc).
  { intros [row q] Hin. cbn [fst snd]. apply in_combine_l in Hin. rewrite row_match_proj.
    rewrite <- (marg_row (c_vars M) row q R (kept M vs flag) a).
    - apply marg_ext. intros b. rewrite row_match_cells by auto. rewrite (forallb_same _ (c_vars M) (R ++ kept M vs flag)); auto.
      intros v. rewrite in_app_iff, HRi. split; [|intros [[H _]|H]; auto; eapply kept_incl; eauto].
      intros H. destruct (in_dec string_dec (v_name v) (names (kept M vs flag))) as [Hd|Hd].
      + right. apply in_map_iff in Hd as (w & Ew & Hw). rewrite (NoDup_names_inj (c_vars M) v w); auto. eapply kept_incl; eauto.
      + left. split; auto. intros X. apply Hd. apply in_map. auto.
    - unfold names in *. rewrite map_app. apply NoDup_app_intro; auto; [apply kept_NoDup; auto|].
      intros n H1 H2. apply in_map_iff in H1 as (v & <- & H1). apply in_map_iff in H2 as (w & Ew & H2).
      apply HRi in H1 as [H1 H3]. apply H3. rewrite (NoDup_names_inj (c_vars M) v w); auto. eapply kept_incl; eauto.
    - intros v Hv. apply (Hb v Hv row); auto. rewrite combine_pos by auto. apply in_map_iff. exists v. split; auto. apply HRi; auto. }
  rewrite (map_ext_in _ _ _ G). unfold weighted. apply qsum_filter.
Qed.

(** summing everything out fails in [np.reshape] *)
Lemma sum_all M vs flag : wf_cpm M -> (flag = false -> NoDup (names vs)) -> kept M vs flag = [] ->
  sum M (Vars vs) flag = Err ValueError.
Proof.
  intros W Hf Hk. assert (Hn := proj1 W). assert (Hnc : (c_nch M <= ncols M)%nat) by (apply W).
  unfold sum. cbn [resolve bind]. cbv zeta. rewrite (kept_idx M vs flag Hn Hf). cbv zeta. rewrite (kept_all_idx M vs flag Hn Hnc).
  rewrite Hk. cbn [map take_rows flat_map List.length].
  unfold mk_cpm at 1. cbn [Nat.leb List.length].
  assert (E : check_C [] (map (fun row => cols row []) (c_C M)) = Ok tt).
  { unfold check_C. destruct (map (fun row => cols row []) (c_C M)) as [|r C] eqn:Em; auto. rewrite <- Em.
    assert (F : forallb (fun row => (List.length row =? List.length (@nil variable))%nat) (map (fun row => cols row []) (c_C M)) = true).
    { apply forallb_forall. intros row Hr. apply in_map_iff in Hr as (r0 & <- & _). reflexivity. }
    rewrite F. reflexivity. }
  rewrite E. cbn [bind].
  assert (E2 : check_p (map (fun row => cols row []) (c_C M)) (c_p M) = Ok tt).
  { unfold check_p. rewrite map_length. destruct W as (_ & _ & _ & _ & [W|W]); [rewrite W; auto|].
    rewrite W, Nat.eqb_refl. destruct (c_p M); auto. }
  rewrite E2. cbn [bind]. unfold nrows at 1. destruct (List.length _); cbn [sum_loop c_C c_vars]; destruct (map _ (c_C M)); reflexivity.
Qed.
