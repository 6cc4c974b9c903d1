(** Elimination by conditioning: facts. *)
From Coq Require Import ZArith List String Bool Arith Lia QArith Qcanon Permutation Sorted.
From Verif Require Import Py Num Vari Cpm SpecCpm PyFacts VariFacts CpmFacts CpmCond CpmProd CpmList CpmSum CpmMarg CpmElim CpmProb CpmMean Net MsysProd VeCond SpecVe.
Import ListNotations.
Open Scope string_scope.
Open Scope Z_scope.
Open Scope list_scope.

(** * The order of the variables of a result depends on the orders of the operands only *)
Definition same_shape (M N : cpm) : Prop := c_vars M = c_vars N /\ c_nch M = c_nch N.

Lemma mk_cpm_inv vs n C p M : mk_cpm vs n C p = Ok M -> M = mkCpm vs n C p.
Proof.
  unfold mk_cpm. destruct (n <=? List.length vs)%nat; [|discriminate]. destruct (check_C vs C); cbn [bind]; [|discriminate].
  destruct (check_p C p); cbn [bind]; [|discriminate]. congruence.
Qed.

Lemma shape_children M N : same_shape M N -> children M = children N /\ parents M = parents N.
Proof. intros [H1 H2]. unfold children, parents. rewrite H1, H2. auto. Qed.

Lemma product_ord_shape M1 M2 M : product_ord M1 M2 = Ok M -> c_vars M = n_vars M1 M2 /\ c_nch M = List.length (n_child M1 M2).
Proof.
  unfold product_ord. destruct (common_child M1 M2); [discriminate|]. cbv zeta.
  destruct (c_C M1) as [|r0 C0] eqn:EC; [discriminate|]. destruct (c_vars M1) as [|v0 V0] eqn:EV; [discriminate|].
  destruct (mk_cpm (c_vars M2) _ _ _); cbn [bind]; [|discriminate].
  destruct (mapM _ _); cbn [bind]; [|discriminate].
  destruct (match c_p M1, c_p M2 with [], _ :: _ => _ | p, _ => p end); [discriminate|].
  destruct (mk_cpm _ _ _ _); cbn [bind]; [|discriminate]. intros H. apply mk_cpm_inv in H. subst M. cbn [c_vars c_nch]. split; reflexivity.
Qed.

Lemma n_vars_shape M1 M2 N1 N2 : same_shape M1 N1 -> same_shape M2 N2 -> n_vars M1 M2 = n_vars N1 N2 /\ n_child M1 M2 = n_child N1 N2.
Proof.
  intros H1 H2. apply shape_children in H1 as [A B], H2 as [C D]. unfold n_vars, n_child. rewrite A, B, C, D. auto.
Qed.

Lemma product_shape M1 M2 M N1 N2 N : same_shape M1 N1 -> same_shape M2 N2 ->
  product M1 M2 = Ok M -> product N1 N2 = Ok N -> same_shape M N.
Proof.
  intros H1 H2. unfold product. replace (ncols N2) with (ncols M2) by (unfold ncols; rewrite (proj1 H2); auto).
  replace (ncols N1) with (ncols M1) by (unfold ncols; rewrite (proj1 H1); auto).
  destruct (ncols M2 <? ncols M1)%nat; intros A B; apply product_ord_shape in A as [A1 A2], B as [B1 B2]; split.
  - rewrite A1, B1. apply n_vars_shape; auto.
  - rewrite A2, B2. f_equal. apply n_vars_shape; auto.
  - rewrite A1, B1. apply n_vars_shape; auto.
  - rewrite A2, B2. f_equal. apply n_vars_shape; auto.
Qed.

Lemma fold_shape l : forall l' M N M' N', Forall2 same_shape l l' -> same_shape M N ->
  foldM product l M = Ok M' -> foldM product l' N = Ok N' -> same_shape M' N'.
Proof.
  induction l as [|A l IH]; intros l' M N M' N' F S H1 H2; inversion F as [|? B ? l'' FA FB]; subst; cbn [foldM] in *.
  - congruence.
  - destruct (product M A) as [MA|] eqn:E1; cbn [bind] in H1; [|congruence].
    destruct (product N B) as [NB|] eqn:E2; cbn [bind] in H2; [|congruence].
    eapply (IH l'' MA NB); eauto. eapply (product_shape M A MA N B NB); eauto.
Qed.
Lemma product_list_shape l l' M N : Forall2 same_shape l l' -> product_list l = Ok M -> product_list l' = Ok N -> same_shape M N.
Proof.
  intros F H1 H2. inversion F; subst; cbn [product_list] in *; [congruence|]. eapply fold_shape; eauto.
Qed.

Lemma sum_shape M vs Ms : sum M (Vars vs) true = Ok Ms ->
  c_vars Ms = fst (setdiff (children M) vs) ++ parents M /\ c_nch Ms = List.length (fst (setdiff (children M) vs)).
Proof.
  unfold sum. cbn [resolve bind]. destruct (setdiff (children M) vs) as [rem idx]. cbv zeta. cbn [fst].
  destruct (mk_cpm _ _ _ _); cbn [bind]; [|discriminate]. destruct (sum_loop _ _) as [[Cs ps]|]; cbn [bind]; [|discriminate].
  destruct (idx ++ _); [discriminate|]. intros H. apply mk_cpm_inv in H. subst Ms. auto.
Qed.

Lemma filter_shape v l l' : Forall2 same_shape l l' ->
  Forall2 same_shape (filter (in_scope v) l) (filter (in_scope v) l') /\
  Forall2 same_shape (filter (fun M => negb (in_scope v M)) l) (filter (fun M => negb (in_scope v M)) l').
Proof.
  intros F. induction F as [|M N l l' HM F [IH1 IH2]]; cbn [filter]; [split; constructor|].
  assert (E : in_scope v M = in_scope v N) by (unfold in_scope; rewrite (proj1 HM); auto).
  rewrite <- E. destruct (in_scope v M); cbn [negb]; split; auto.
Qed.

Lemma elim_shape vars : forall l l' k k', Forall2 same_shape l l' ->
  variable_elim_list l vars = Ok k -> variable_elim_list l' vars = Ok k' -> Forall2 same_shape k k'.
Proof.
  unfold variable_elim_list. induction vars as [|v vars IH]; intros l l' k k' F H1 H2; cbn [foldM] in *; [congruence|].
  unfold elim_step at 1 in H1. unfold elim_step at 1 in H2. destruct (filter_shape v l l' F) as [F1 F2].
  destruct (product_list (filter (in_scope v) l)) as [P|] eqn:E1; cbn [bind] in H1; [|congruence].
  destruct (product_list (filter (in_scope v) l')) as [P'|] eqn:E2; cbn [bind] in H2; [|congruence].
  destruct (sum P (Vars [v]) true) as [S|] eqn:E3; cbn [bind] in H1; [|congruence].
  destruct (sum P' (Vars [v]) true) as [S'|] eqn:E4; cbn [bind] in H2; [|congruence].
  eapply IH; [|exact H1|exact H2]. constructor; auto.
  assert (G := product_list_shape _ _ _ _ F1 E1 E2). apply shape_children in G as [G1 G2].
  apply sum_shape in E3 as [A1 A2], E4 as [B1 B2]. split; [rewrite A1, B1, G1, G2; auto|rewrite A2, B2, G1; auto].
Qed.
Lemma variable_elim_shape l l' vars M N : Forall2 same_shape l l' ->
  variable_elim l vars = Ok M -> variable_elim l' vars = Ok N -> same_shape M N.
Proof.
  unfold variable_elim. intros F H1 H2.
  destruct (variable_elim_list l vars) as [k|] eqn:E1; cbn [bind] in H1; [|congruence].
  destruct (variable_elim_list l' vars) as [k'|] eqn:E2; cbn [bind] in H2; [|congruence].
  eapply product_list_shape; [eapply elim_shape; [exact F| |]|..]; eauto.
Qed.

(** * Dropping columns *)
Definition others (M : cpm) (K : list variable) : list variable :=
  filter (fun v => negb (mem_str (v_name v) (names K))) (c_vars M).

Lemma others_NoDup M K : NoDup (names (c_vars M)) -> NoDup (names (others M K)).
Proof. unfold others, names. apply NoDup_names_sub. Qed.

Definition drop (M : cpm) (K : list variable) (n : nat) : cpm :=
  mkCpm (others M K) n (map (proj (c_vars M) (others M K)) (c_C M)) (c_p M).

Lemma others_In M K v : In v (others M K) <-> In v (c_vars M) /\ ~ In (v_name v) (names K).
Proof.
  unfold others. rewrite filter_In. destruct (mem_str (v_name v) (names K)) eqn:E; cbn [negb].
  - apply mem_str_In in E. split; [intros [_ X]; discriminate|tauto].
  - split; intros [X Y]; split; auto. intros Z. apply mem_str_In in Z. congruence.
Qed.

Lemma drop_wf M K n : wf_cpm M -> (n <= List.length (others M K))%nat -> wf_cpm (drop M K n).
Proof.
  intros W Hn. pose proof W as (W1 & W2 & W3 & W4 & W5). split; [|split; [|split; [|split]]]; cbn [drop c_vars c_nch c_C c_p].
  - apply others_NoDup; auto.
  - rewrite Forall_forall in *. intros v Hv. apply W2. apply others_In in Hv. tauto.
  - auto.
  - intros row Hr. apply in_map_iff in Hr as (r & <- & Hr). specialize (W4 r Hr). unfold proj.
    assert (Hin : forall v, In v (others M K) -> In v (c_vars M)) by (intros v Hv; apply others_In in Hv; tauto).
    clear Hn. induction (others M K) as [|v l IH]; cbn; constructor.
    + apply (Forall2_at (c_vars M) r); auto. apply pos_In; auto. apply Hin. left; auto.
    + apply IH. intros w Hw. apply Hin. right; auto.
  - rewrite map_length. auto.
Qed.

Lemma drop_marg M K n : wf_cpm M -> has_p M -> NoDup (names K) -> incl K (c_vars M) -> (forall v, In v K -> basic_in M v) ->
  forall a, mass (drop M K n) a = marg K (mass M) a.
Proof.
  intros W Hp NK Hi Hb a. pose proof (proj1 W) as Hn.
  rewrite (marg_ext K _ _ a (mass_if M)). rewrite marg_qsum. rewrite mass_if.
  assert (Ew : weights (drop M K n) = weights M).
  { unfold weights. cbn [drop c_p c_C]. destruct (c_p M); auto. rewrite map_map. auto. }
  rewrite Ew. cbn [drop c_vars c_C]. rewrite combine_map_l, map_map. apply f_equal. apply map_ext_in. intros [row q] Hin.
  cbn [fst snd]. apply in_combine_l in Hin. assert (Lr := proj1 (wf_rows M row W Hin)). rewrite row_match_proj.
  rewrite <- (marg_row (c_vars M) row q K (others M K) a).
  - apply marg_ext. intros b. rewrite row_match_cells by auto. rewrite (forallb_same _ (c_vars M) (K ++ others M K)); auto.
    intros v. rewrite in_app_iff, others_In. split; [|intros [H|[H _]]; auto].
    intros H. destruct (in_dec string_dec (v_name v) (names K)) as [Hd|Hd]; [|auto].
    left. apply in_map_iff in Hd as (w & Ew' & Hw). rewrite <- (NoDup_names_inj (c_vars M) w v); auto.
  - unfold names in *. rewrite map_app. apply NoDup_app_intro; auto; [apply others_NoDup; auto|].
    intros x H1 H2. apply in_map_iff in H2 as (v & <- & H2). apply others_In in H2. tauto.
  - intros v Hv. apply (Hb v Hv row); auto. rewrite combine_pos by auto. apply in_map_iff. exists v. split; auto.
Qed.

(** * Kept columns *)
Definition kept_cols (vars : list variable) (idx : list nat) : list nat :=
  filter (fun i => negb (existsb (Nat.eqb i) idx)) (seq 0 (List.length vars)).

Lemma seq_pos vars : NoDup (names vars) -> seq 0 (List.length vars) = map (pos vars) vars.
Proof.
  intros N. apply nth_ext with (d := O) (d' := O); [rewrite seq_length, map_length; auto|].
  intros i Hi. rewrite seq_length in Hi. rewrite seq_nth by auto. cbn.
  destruct (nth_error vars i) as [v|] eqn:E; [|apply nth_error_None in E; lia].
  rewrite (nth_error_nth (map (pos vars) vars) i O (x := pos vars v)).
  - unfold pos. rewrite (find_idx_pos _ _ _ N E). auto.
  - apply map_nth_error. auto.
Qed.

Lemma pos_inj vars v w : NoDup (names vars) -> In v vars -> In w vars -> pos vars v = pos vars w -> v = w.
Proof. intros N Hv Hw E. apply pos_In in Hv, Hw; auto. rewrite E in Hv. congruence. Qed.

Lemma kept_cols_eq M K : NoDup (names (c_vars M)) -> incl K (c_vars M) ->
  kept_cols (c_vars M) (map (pos (c_vars M)) K) = map (pos (c_vars M)) (others M K).
Proof.
  intros N I. unfold kept_cols, others. rewrite seq_pos by auto. rewrite filter_map. f_equal. apply filter_ext_in. intros v Hv.
  f_equal. destruct (mem_str (v_name v) (names K)) eqn:E.
  - apply mem_str_In in E. apply in_map_iff in E as (w & Ew & Hw). assert (w = v) by (apply (NoDup_names_inj (c_vars M)); auto). subst w.
    apply existsb_exists. exists (pos (c_vars M) v). split; [apply in_map; auto|apply Nat.eqb_refl].
  - apply not_true_iff_false. intros X. apply existsb_exists in X as (i & Hi & Ei). apply Nat.eqb_eq in Ei. subst i.
    apply in_map_iff in Hi as (w & Ew & Hw). apply pos_inj in Ew; auto. subst w.
    assert (mem_str (v_name v) (names K) = true); [|congruence]. apply mem_str_In. apply in_map. auto.
Qed.

(** * Rows of a product exclude each other when those of the factors do *)
Definition ones (M : cpm) : cpm := mkCpm (c_vars M) (c_nch M) (c_C M) (map (fun _ => 1%Qc) (c_C M)).
Definition cnt (M : cpm) (a : joint) : nat := List.length (filter (fun r => row_match (c_vars M) r a) (c_C M)).

Lemma qz_S n : qz (Z.of_nat (S n)) = (1 + qz (Z.of_nat n))%Qc.
Proof.
  apply Qc_is_canon. unfold qz, Qcplus, Q2Qc, this. rewrite !Qred_correct.
  rewrite Nat2Z.inj_succ. unfold Z.succ. rewrite inject_Z_plus, Qplus_comm. reflexivity.
Qed.
Lemma qsum_ones {A} (f : A -> bool) (l : list A) : qsum (map (fun x => if f x then 1%Qc else 0%Qc) l) = qz (Z.of_nat (List.length (filter f l))).
Proof.
  induction l as [|x l IH]; [reflexivity|]. cbn [map qsum fold_right filter]. fold (qsum (map (fun x => if f x then 1%Qc else 0%Qc) l)).
  rewrite IH. destruct (f x).
  - cbn [List.length]. rewrite qz_S. reflexivity.
  - ring.
Qed.
Lemma ones_wf M : wf_cpm M -> wf_cpm (ones M).
Proof. intros (A & B & C & D & _). repeat (split; auto). right. cbn. apply map_length. Qed.
Lemma ones_mass M a : mass (ones M) a = qz (Z.of_nat (cnt M a)).
Proof.
  rewrite mass_if. unfold cnt. rewrite <- qsum_ones. cbn [ones c_vars c_C].
  assert (E : weights (ones M) = map (fun _ => 1%Qc) (c_C M)) by (unfold weights; cbn [ones c_p c_C]; destruct (c_C M); auto).
  rewrite E. f_equal. generalize (c_C M). induction l as [|r l IH]; auto. cbn [map combine fst snd]. rewrite IH. auto.
Qed.
Lemma Mc_rows M1 M2 r1 : wf_cpm M1 -> wf_cpm M2 -> agree (c_vars M1) (c_vars M2) -> In r1 (c_C M1) ->
  c_C (Mc M1 M2 r1) = map (cond_row (c_vars M2) (com_vars M1 M2) (com_codes M1 M2 r1)) (filter (cmp (com_vars M1 M2) (com_codes M1 M2 r1) (c_vars M2)) (c_C M2)).
Proof.
  intros W1 W2 Ha Hr. destruct (Mc_spec M1 M2 W1 W2 Ha r1 Hr) as [E _].
  rewrite (condition_spec (M2w M2)) in E; [|apply M2w_wf; auto|exact (com_ev_ok M1 M2 W1 Ha r1 Hr)]. injection E as E. rewrite <- E. reflexivity.
Qed.
Lemma prod_rows_ones M1 M2 : wf_cpm M1 -> wf_cpm M2 -> agree (c_vars M1) (c_vars M2) ->
  prod_rows (ones M1) (ones M2) = prod_rows M1 M2.
Proof.
  intros W1 W2 Ha. unfold prod_rows. cbn [ones c_C]. f_equal. apply map_ext_in. intros r1 Hr. unfold parts_of. cbn [fst].
  rewrite (Mc_rows M1 M2) by auto. rewrite (Mc_rows (ones M1) (ones M2)) by (auto using ones_wf). reflexivity.
Qed.
Lemma prod_ps_ones M1 M2 q : wf_cpm M1 -> wf_cpm M2 -> agree (c_vars M1) (c_vars M2) -> In q (prod_ps (ones M1) (ones M2)) -> q = 1%Qc.
Proof.
  intros W1 W2 Ha H. unfold prod_ps in H. apply in_concat in H as (l & Hl & H). apply in_map_iff in Hl as ([r1 w] & <- & Hin). cbn [fst snd] in H.
  assert (E : weights (ones M1) = map (fun _ => 1%Qc) (c_C M1)) by (unfold weights; cbn [ones c_p c_C]; destruct (c_C M1); auto).
  rewrite E in Hin. assert (Hr := in_combine_l _ _ _ _ Hin). apply in_combine_r in Hin. apply in_map_iff in Hin as (? & <- & _).
  apply in_map_iff in H as (q' & <- & H). unfold parts_of in H. cbn [snd] in H.
  destruct (Mc_spec (ones M1) (ones M2) (ones_wf M1 W1) (ones_wf M2 W2) Ha r1 Hr) as [X _].
  rewrite (condition_spec (M2w (ones M2))) in X; [|apply M2w_wf, ones_wf; auto|exact (com_ev_ok (ones M1) (ones M2) (ones_wf M1 W1) Ha r1 Hr)]. injection X as X. rewrite <- X in H.
  cbn [c_p M2w] in H. assert (Y : In q' (weights (ones M2))).
  { destruct (weights (ones M2)); [destruct H|]. eapply select_In; eauto. }
  unfold weights in Y. cbn [ones c_p c_C] in Y.
  assert (Z : q' = 1%Qc); [|subst q'; ring]. destruct (c_C M2) as [|r C]; [destruct Y|]. cbn [map] in Y. destruct Y as [<-|Y]; auto.
  apply in_map_iff in Y as (? & <- & _). auto.
Qed.

Lemma cnt_prod_result M1 M2 a : wf_cpm M1 -> wf_cpm M2 -> agree (c_vars M1) (c_vars M2) -> disjoint_children M1 M2 ->
  cnt (prod_result M1 M2) a = (cnt M1 a * cnt M2 a)%nat.
Proof.
  intros W1 W2 Ha Hd. assert (Hcc : common_child M1 M2 = false) by (apply common_child_spec; auto).
  assert (H := prod_mass (ones M1) (ones M2) (ones_wf M1 W1) (ones_wf M2 W2) Ha Hcc a).
  rewrite !ones_mass in H. change (n_vars (ones M1) (ones M2)) with (n_vars M1 M2) in H. rewrite prod_rows_ones in H by auto.
  assert (Hp := prod_ps_ones M1 M2). assert (L := prod_len (ones M1) (ones M2) (ones_wf M1 W1) (ones_wf M2 W2) Ha).
  rewrite prod_rows_ones in L by auto.
  assert (E : cnt (prod_result M1 M2) a = List.length (filter (fun r => row_match (n_vars M1 M2) r a) (prod_rows M1 M2))).
  { unfold cnt. cbn [prod_result c_vars c_C]. apply Permutation_length, filter_perm, prod_sorted_fst; auto. }
  rewrite E. clear E.
  assert (G : forall (C : list (list Z)) p, List.length C = List.length p -> (forall q, In q p -> q = 1%Qc) ->
     qsum (map snd (filter (fun rp : list Z * Qc => row_match (n_vars M1 M2) (fst rp) a) (combine C p))) =
     qz (Z.of_nat (List.length (filter (fun r => row_match (n_vars M1 M2) r a) C)))).
  { intros C p Lp Hq. rewrite <- qsum_ones. rewrite qsum_filter. f_equal. revert p Lp Hq.
    induction C as [|r C IH]; intros [|q p] Lp Hq; cbn in Lp; try discriminate; auto. cbn [combine map fst snd].
    rewrite (Hq q (or_introl eq_refl)). rewrite IH; auto. intros x Hx. apply Hq. right; auto. }
  rewrite G in H by (auto; intros q Hq; apply Hp; auto).
  clear -H. revert H. generalize (List.length (filter (fun r => row_match (n_vars M1 M2) r a) (prod_rows M1 M2))) (cnt M1 a) (cnt M2 a).
  intros n c1 c2 H. assert (T : forall z, (this (qz z) == inject_Z z)%Q) by (intros z; apply Qred_correct).
  assert (X : (inject_Z (Z.of_nat n) == inject_Z (Z.of_nat c1) * inject_Z (Z.of_nat c2))%Q).
  { rewrite <- !T. rewrite H. unfold Qcmult, Q2Qc, this. apply Qred_correct. }
  rewrite <- inject_Z_mult in X. unfold Qeq, inject_Z in X. cbn in X. lia.
Qed.

Lemma one_row_product M1 M2 M : wf_cpm M1 -> wf_cpm M2 -> agree (c_vars M1) (c_vars M2) -> disjoint_children M1 M2 ->
  product M1 M2 = Ok M -> one_row M1 -> one_row M2 -> one_row M.
Proof.
  intros W1 W2 Ha Hd H O1 O2 a. fold (cnt M a). specialize (O1 a). specialize (O2 a). fold (cnt M1 a) in O1. fold (cnt M2 a) in O2.
  unfold product in H. destruct (ncols M2 <? ncols M1)%nat.
  - assert (Hcc : common_child M2 M1 = false) by (apply common_child_spec, disj_sym; auto).
    destruct (product_ord_inv M2 M1 Hcc M H) as (I1 & I2 & I3).
    rewrite (product_ord_spec M2 M1 W2 W1 (agree_sym _ _ Ha) Hcc I1 I2 I3) in H. injection H as <-.
    rewrite cnt_prod_result by (auto using agree_sym, disj_sym). nia.
  - assert (Hcc : common_child M1 M2 = false) by (apply common_child_spec; auto).
    destruct (product_ord_inv M1 M2 Hcc M H) as (I1 & I2 & I3).
    rewrite (product_ord_spec M1 M2 W1 W2 Ha Hcc I1 I2 I3) in H. injection H as <-.
    rewrite cnt_prod_result by auto. nia.
Qed.

Lemma one_row_fold l : forall M0 M, wf_cpm M0 -> (forall M', In M' l -> fit M0 M') -> fit_list l ->
  foldM product l M0 = Ok M -> one_row M0 -> Forall one_row l -> one_row M.
Proof.
  induction l as [|M1 l IH]; intros M0 M W0 HF [HW HP] H O0 O; cbn [foldM] in H; [injection H as <-; auto|].
  destruct (product M0 M1) as [M01|] eqn:E; cbn [bind] in H; [|congruence].
  inversion HW as [|? ? W1 HW']; subst. destruct HP as [HP1 HP2]. inversion O as [|? ? O1 O']; subst.
  destruct (HF M1 (or_introl eq_refl)) as [F1 F2].
  assert (P := product_ok M0 M1 M01 W0 W1 F1 F2 E).
  apply (IH M01); auto.
  - apply P.
  - intros M' HM. eapply fit_product; [| |eauto]; [apply HF; right; auto|apply HP1; auto].
  - split; auto.
  - apply (one_row_product M0 M1); auto.
Qed.
Lemma one_row_list l M : fit_list l -> product_list l = Ok M -> Forall one_row l -> one_row M.
Proof.
  destruct l as [|M0 l]; cbn [product_list]; [congruence|]. intros [HW [HP1 HP2]] H O.
  inversion HW; inversion O; subst. apply (one_row_fold l M0); auto. split; auto.
Qed.

(** * One pass *)
Lemma marg_ext_on K f g a : (forall b, (forall n, ~ In n (names K) -> b n = a n) -> f b = g b) -> marg K f a = marg K g a.
Proof.
  revert a. induction K as [|v K IH]; intros a H; cbn [marg]; [apply H; auto|]. f_equal. apply map_ext. intros x. apply IH.
  intros b Hb. apply H. intros n Hn. rewrite Hb by (intros X; apply Hn; right; auto). unfold set_joint.
  destruct (String.eqb_spec n (v_name v)) as [->|]; auto. exfalso. apply Hn. left. auto.
Qed.
Lemma marg_factor_list K f g a : (forall v, In v K -> ignores v g) -> marg K (fun b => (f b * g b)%Qc) a = (marg K f a * g a)%Qc.
Proof.
  revert a. induction K as [|v K IH]; intros a H; cbn [marg]; auto. rewrite <- qsum_map_scale_r. f_equal. apply map_ext. intros x.
  rewrite IH by (intros; apply H; right; auto). f_equal. apply (H v (or_introl eq_refl)).
Qed.

Lemma ev_full vs codes a : ev_match vs vs codes a = row_match vs codes a.
Proof.
  unfold ev_match, row_match. apply forallb_ext_in. intros [v c] H. cbn [fst snd].
  assert (E : mem_str (v_name v) (names vs) = true); [|rewrite E; auto]. apply mem_str_In, in_map. eapply in_combine_l; eauto.
Qed.

(** evidence given by a row *)
Lemma ev_ok_row N P cx : wf_cpm P -> agree (c_vars P) (c_vars N) -> In cx (c_C P) -> ev_ok (c_vars N) (c_vars P) cx.
Proof.
  intros W Ha H. pose proof W as (W1 & _ & _ & W4 & _). specialize (W4 cx H). split; [apply Forall2_length in W4; auto|].
  split; auto. split; auto. intros v c Hin _. eapply Forall2_pair; eauto.
Qed.

Lemma condition_p M vs codes M' : wf_cpm M -> ev_ok (c_vars M) vs codes -> has_p M ->
  condition M (Vars vs) (map SI codes) = Ok M' -> has_p M'.
Proof.
  intros W E Hp H. rewrite condition_spec in H by auto. injection H as <-. unfold has_p in *. cbn [c_p c_C]. rewrite map_length.
  destruct (c_p M) as [|q p] eqn:Ep; [destruct (c_C M); [auto|discriminate]|]. rewrite <- Ep in *.
  rewrite <- (select_map_id (cmp vs codes (c_vars M))). symmetry. apply select_length. auto.
Qed.

Lemma ve_ok_map l l' varis : ve_ok l varis ->
  Forall2 (fun N N' => wf_cpm N' /\ same_shape N N' /\ has_p N' /\ forall v, basic_in N v -> basic_in N' v) l l' -> ve_ok l' varis.
Proof.
  intros ([Hw Hf] & Hp & Hb & Hc & Hn) F.
  assert (T : forall N, In N l -> exists N', In N' l' /\ same_shape N N' /\ forall v, basic_in N v -> basic_in N' v).
  { clear -F. induction F as [|N N' l l' (A & B & C & D) F IH]; intros X HX; [destruct HX|]. destruct HX as [<-|HX].
    - exists N'. split; [left; auto|auto].
    - destruct (IH X HX) as (Y & HY & Z). exists Y. split; [right; auto|auto]. }
  split; [split|split; [|split; [|split]]]; auto.
  - clear -F. induction F as [|N N' l l' (A & B & C & D) F IH]; constructor; auto.
  - clear -F Hf. induction F as [|N N' l l' (A & B & C & D) F IH]; cbn [pairwise] in *; auto. destruct Hf as [H1 H2]. split; [|apply IH; auto].
    intros X HX. assert (exists Y, In Y l /\ same_shape Y X) as (Y & HY & S).
    { clear -F HX. induction F as [|N N' l l' (A & B & C & D) F IH]; [destruct HX|]. destruct HX as [<-|HX].
      - exists N. split; [left|]; auto.
      - destruct (IH HX) as (Y & HY & S). exists Y. split; [right|]; auto. }
    destruct (H1 Y HY) as [Ag Di]. pose proof (shape_children _ _ B) as [B1 B2]. pose proof (shape_children _ _ S) as [S1 S2]. split.
    + rewrite <- (proj1 B), <- (proj1 S). auto.
    + unfold disjoint_children. rewrite <- B1, <- S1. auto.
  - clear -F. induction F as [|N N' l l' (A & B & C & D) F IH]; constructor; auto.
  - intros v Hv. destruct (Hb v Hv) as (N & HN & H1 & H2). destruct (T N HN) as (N' & HN' & S & B). exists N'. split; auto.
    rewrite <- (proj1 S). auto.
  - intros v Hv. destruct (Hc v Hv) as (N & HN & H1). destruct (T N HN) as (N' & HN' & S & B). exists N'. split; auto.
    apply shape_children in S as [S _]. rewrite <- S. auto.
Qed.

Section pass.
Variables (l : list cpm) (varis : list variable) (cond : list cpm) (P : cpm) (K : list variable).
Hypothesis V : vec_ok l varis cond.
Hypothesis HP : product_list cond = Ok P.
Hypothesis HK : lists_scopes K cond.

Definition pass (cx : list Z) (M : cpm) : Prop :=
  exists P' l' E, condition P (Vars (c_vars P)) (map SI cx) = Ok P' /\
    op_condition l (Vars (c_vars P)) (map SI cx) = Ok l' /\ variable_elim l' varis = Ok E /\ product E P' = Ok M.

Lemma fit_app l1 l2 : fit_list (l1 ++ l2) -> fit_list l1 /\ fit_list l2 /\ forall M N, In M l1 -> In N l2 -> fit M N.
Proof.
  intros [A B]. apply Forall_app in A as [A1 A2]. induction l1 as [|M l1 IH]; cbn [app pairwise] in *.
  - split; [split; auto; constructor|]. split; [split; auto|]. intros M N [].
  - destruct B as [B1 B2]. inversion A1; subst. destruct (IH H2 B2) as (C1 & C2 & C3). split; [|split; auto].
    + split; [constructor; auto|]. cbn. split; [|apply C1]. intros N HN. apply B1. apply in_or_app; auto.
    + intros X N [<-|HX] HN; auto. apply B1. apply in_or_app; auto.
Qed.

Lemma P_is : is_product_list cond P.
Proof using V HP. apply product_list_ok; auto. apply (fit_app l cond), V. Qed.
Lemma P_vars v : In v (c_vars P) <-> In v K.
Proof using V HP HK. destruct P_is as (_ & _ & S & _). destruct HK as [_ HK']. rewrite S, HK'. reflexivity. Qed.
Lemma P_names n : In n (names (c_vars P)) <-> In n (names K).
Proof using V HP HK.
  unfold names. rewrite !in_map_iff. split; intros (v & E & H); exists v; split; auto; apply P_vars; auto.
Qed.
Lemma P_agree N : In N l -> agree (c_vars P) (c_vars N).
Proof using V HP.
  intros HN v w Hv Hw E. destruct P_is as (_ & _ & S & _). apply S in Hv as (N' & HN' & Hv).
  destruct V as (F & _). apply fit_app in F as (_ & _ & F). destruct (F N N' HN HN') as [Ag _]. symmetry. apply Ag; auto.
Qed.

Lemma cond_list cx l' : In cx (c_C P) -> op_condition l (Vars (c_vars P)) (map SI cx) = Ok l' ->
  Forall2 (fun N N' => wf_cpm N' /\ same_shape N N' /\ has_p N' /\ (forall v, basic_in N v -> basic_in N' v) /\
     forall a, mass N' a = if ev_match (c_vars N) (c_vars P) cx a then mass N a else 0%Qc) l l'.
Proof using V HP.
  intros Hcx H. unfold op_condition in H. cbn [bind] in H. rewrite cond_states_SI in H. cbn [bind] in H.
  assert (G : forall N, In N l -> wf_cpm N /\ has_p N /\ ev_ok (c_vars N) (c_vars P) cx).
  { intros N HN. destruct V as ([F1 _] & F2 & _). rewrite Forall_forall in F1, F2. split; [apply F1, in_or_app; auto|].
    split; [apply F2, in_or_app; auto|]. apply ev_ok_row; auto; [apply P_is|apply P_agree; auto]. }
  clear -G H. revert l' H. induction l as [|N l0 IH]; intros l' H; cbn [mapM] in H; [injection H as <-; constructor|].
  destruct (condition N (Vars (c_vars P)) (map SI cx)) as [N'|] eqn:E1; cbn [bind] in H; [|discriminate].
  destruct (mapM _ l0) as [l0'|] eqn:E2; cbn [bind] in H; [|discriminate]. injection H as <-.
  destruct (G N (or_introl eq_refl)) as (G1 & G2 & G3). constructor.
  - destruct (condition_ok N _ cx G1 G3) as (M' & X & A & B & C & D). assert (M' = N') by congruence. subst M'.
    split; auto. split; [split; congruence|]. split; [exact (condition_p N _ cx N' G1 G3 G2 E1)|]. split; [intros v Hv; exact (basic_condition N _ cx N' v G1 G3 Hv E1)|exact D].
  - apply IH; auto. intros X HX. apply G. right; auto.
Qed.
Lemma cond_pmass cx l' a : In cx (c_C P) -> op_condition l (Vars (c_vars P)) (map SI cx) = Ok l' ->
  row_match (c_vars P) cx a = true -> pmass l' a = pmass l a.
Proof using V HP.
  intros Hcx H Hm. assert (F := cond_list cx l' Hcx H). unfold pmass. f_equal.
  clear -F Hm. induction F as [|N N' l l' (_ & _ & _ & _ & E) F IH]; auto. cbn [map]. rewrite IH. f_equal. rewrite E.
  assert (X : ev_match (c_vars N) (c_vars P) cx a = true); [|rewrite X; auto].
  unfold row_match in Hm. unfold ev_match. rewrite forallb_forall in *. intros vc Hvc. rewrite (Hm vc Hvc). apply orb_true_r.
Qed.

Lemma pass_shape cx cx' M M' : In cx (c_C P) -> In cx' (c_C P) -> pass cx M -> pass cx' M' -> same_shape M M'.
Proof using V HP.
  intros H1 H2 (P1 & l1 & E1 & A1 & A2 & A3 & A4) (P2 & l2 & E2 & B1 & B2 & B3 & B4).
  apply (product_shape E1 P1 M E2 P2 M'); auto.
  - eapply variable_elim_shape; [|exact A3|exact B3].
    assert (F1 := cond_list cx l1 H1 A2). assert (F2 := cond_list cx' l2 H2 B2). clear -F1 F2.
    revert l2 F2. induction F1 as [|N N' l l' (_ & [X Y] & _) F IH]; intros l2 F2; inversion F2 as [|? N2 ? l2' (_ & [X' Y'] & _) F2']; subst; constructor; auto.
    split; congruence.
  - assert (W := proj1 P_is). assert (Ag : agree (c_vars P) (c_vars P)) by (intros v w; apply NoDup_names_inj, W).
    destruct (condition_ok P _ cx W (ev_ok_row P P cx W Ag H1)) as (M1 & X1 & _ & Y1 & Z1 & _).
    destruct (condition_ok P _ cx' W (ev_ok_row P P cx' W Ag H2)) as (M2 & X2 & _ & Y2 & Z2 & _).
    assert (M1 = P1) by congruence. assert (M2 = P2) by congruence. subst. split; congruence.
Qed.

Definition share (cx : list Z) (a : joint) : Qc :=
  ((if row_match (c_vars P) cx a then mass P a else 0%Qc) * marg varis (pmass l) a)%Qc.

Lemma pass_ok cx M : In cx (c_C P) -> pass cx M ->
  wf_cpm M /\ has_p M /\ (forall a, mass M a = share cx a) /\ (forall v, In v K -> In v (c_vars M) /\ basic_in M v) /\
  (forall v, In v (c_vars M) <-> (in_scopes l v /\ ~ In v varis) \/ In v K) /\
  (forall v, In v (children M) <-> (in_children l v /\ ~ In v varis) \/ in_children cond v).
Proof using V HP HK.
  intros H (P' & l' & E & A1 & A2 & A3 & A4). pose proof V as (F & Hp & Ve & One & Dis & Bas).
  assert (W := proj1 P_is). assert (Ag : agree (c_vars P) (c_vars P)) by (intros v w; apply NoDup_names_inj, W).
  assert (EvP := ev_ok_row P P cx W Ag H).
  destruct (condition_ok P _ cx W EvP) as (P0 & X1 & WP & SP1 & SP2 & MP).
  assert (P0 = P') by congruence. subst P0. clear X1.
  assert (FL := cond_list cx l' H A2).
  assert (Ve' : ve_ok l' varis).
  { eapply ve_ok_map; [exact Ve|]. clear -FL. induction FL as [|N N' l l' (A & B & C & D & _) FL IH]; constructor; auto. }
  destruct (variable_elim_ok l' varis E Ve' A3) as (WE & ME & SE & CE).
  assert (Sc : forall w, (exists N, In N l' /\ In w (c_vars N)) <-> in_scopes l w).
  { intros w. clear -FL. unfold in_scopes. induction FL as [|N N' l l' (_ & [A _] & _) FL IH].
    - split; intros (X & [] & _).
    - split; intros (X & [<-|HX] & HW).
      + exists N. split; [left; auto|]. rewrite A. auto.
      + destruct (proj1 IH (ex_intro _ X (conj HX HW))) as (Y & HY & HZ). exists Y. split; [right|]; auto.
      + exists N'. split; [left; auto|]. rewrite <- A. auto.
      + destruct (proj2 IH (ex_intro _ X (conj HX HW))) as (Y & HY & HZ). exists Y. split; [right|]; auto. }
  assert (Sch : forall w, (exists N, In N l' /\ In w (children N)) <-> in_children l w).
  { intros w. clear -FL. unfold in_children. induction FL as [|N N' l l' (_ & A & _) FL IH].
    - split; intros (X & [] & _).
    - apply shape_children in A as [A _]. split; intros (X & [<-|HX] & HW).
      + exists N. split; [left; auto|]. rewrite A. auto.
      + destruct (proj1 IH (ex_intro _ X (conj HX HW))) as (Y & HY & HZ). exists Y. split; [right|]; auto.
      + exists N'. split; [left; auto|]. rewrite <- A. auto.
      + destruct (proj2 IH (ex_intro _ X (conj HX HW))) as (Y & HY & HZ). exists Y. split; [right|]; auto. }
  assert (AgE : agree (c_vars E) (c_vars P')).
  { rewrite SP1. intros v w Hv Hw Ev. apply SE in Hv as [Hv _]. apply Sc in Hv as (N & HN & Hv). symmetry. apply (P_agree N HN); auto. }
  assert (CP : children P' = children P) by (unfold children; rewrite SP1, SP2; auto).
  assert (DE : disjoint_children E P').
  { intros v w Hv Hw Ev. rewrite CP in Hw. apply CE in Hv as [Hv _]. apply Sch in Hv as (N & HN & Hv).
    destruct P_is as (_ & _ & _ & S). apply S in Hw as (N' & HN' & Hw). apply fit_app in F as (_ & _ & F).
    destruct (F N N' HN HN') as [_ D]. apply (D v w); auto. }
  destruct (product_ok E P' M WE WP AgE DE A4) as (WM & MM & SM & CM & _).
  split; auto. split; [eapply product_has_p; [exact WE|exact WP|auto|auto|exact A4]|]. split; [|split; [|split]].
  - intros a. rewrite MM, ME, MP, ev_full. unfold share. destruct (row_match (c_vars P) cx a) eqn:Em; [|ring].
    rewrite Qcmult_comm. f_equal. apply marg_ext_on. intros b Hb. apply (cond_pmass cx); auto.
    rewrite <- Em. apply row_match_ext. intros v Hv. apply Hb. intros Hn.
    apply in_map_iff in Hn as (u & Eu & Hu). apply (Dis u Hu). destruct P_is as (_ & _ & S & _). apply S in Hv as (N & HN & Hv).
    exists N. split; auto. rewrite Eu. apply in_map. auto.
  - intros v Hv. assert (HvP : In v (c_vars P)) by (apply P_vars; auto). assert (HvP' : In v (c_vars P')) by (rewrite SP1; auto).
    split; [apply SM; auto|].
    apply (basic_product E P' M v WE WP AgE DE A4). right. split; auto.
    eapply basic_condition; [exact W|exact EvP| |exact A1].
    destruct (product_list_keep cond P v (proj1 (proj2 (fit_app l cond F))) HP) as [_ KB]. apply KB. apply Bas. apply HK. auto.
  - intros v. rewrite SM, SE, SP1, P_vars. setoid_rewrite Sc. tauto.
  - intros v. rewrite CM, CE, CP. setoid_rewrite Sch. destruct P_is as (_ & _ & _ & S). rewrite S. reflexivity.
Qed.


(** the columns kept *)
Lemma name_index_In M n i : NoDup (names (c_vars M)) -> name_index M n = Ok i ->
  exists v, In v (c_vars M) /\ v_name v = n /\ pos (c_vars M) v = i.
Proof.
  intros N H. unfold name_index in H. destruct (find_idx _ (c_vars M)) as [j|] eqn:E; [|discriminate]. injection H as <-.
  apply find_idx_some in E as (v & Hv & E & _). apply String.eqb_eq in E. exists v.
  assert (In v (c_vars M)) by (eapply nth_error_In; eauto). split; auto. split; auto.
  unfold pos. rewrite (find_idx_pos _ _ _ N Hv). auto.
Qed.

Lemma col_ind M cn idx : NoDup (names (c_vars M)) -> incl K (c_vars M) -> (forall n, In n cn <-> In n (names K)) ->
  get_col_ind M cn = Ok idx -> kept_cols (c_vars M) idx = map (pos (c_vars M)) (others M K) /\ List.length idx = List.length cn.
Proof.
  intros N I Hc H. unfold get_col_ind in H. destruct (nodup_names cn); [|discriminate]. split; [|apply mapM_inv in H; apply Forall2_length in H; auto].
  rewrite <- kept_cols_eq by auto. unfold kept_cols. apply filter_ext. intros i. f_equal.
  assert (E : forall j, In j idx <-> In j (map (pos (c_vars M)) K)).
  { intros j. rewrite in_map_iff. split.
    - intros Hj. assert (X : exists n, In n cn /\ name_index M n = Ok j).
      { clear -H Hj. revert idx H Hj. induction cn as [|n cn IH]; intros idx H Hj; cbn [mapM] in H; [injection H as <-; destruct Hj|].
        destruct (name_index M n) as [k|] eqn:E1; cbn [bind] in H; [|discriminate]. destruct (mapM _ cn) as [ks|] eqn:E2; cbn [bind] in H; [|discriminate].
        injection H as <-. destruct Hj as [<-|Hj]; [exists n; split; [left|]; auto|]. destruct (IH ks eq_refl Hj) as (m & Hm & Em). exists m. split; [right|]; auto. }
      destruct X as (n & Hn & Hx). apply name_index_In in Hx as (v & Hv & En & Ep); auto. exists v. split; auto.
      apply Hc in Hn. apply in_map_iff in Hn as (w & Ew & Hw). rewrite (NoDup_names_inj (c_vars M) v w); auto. congruence.
    - intros (v & <- & Hv). assert (Hn : In (v_name v) cn) by (apply Hc, in_map; auto).
      assert (Hi := name_index_pos M v N (I v Hv)). clear -H Hn Hi. revert idx H. induction cn as [|n cn IH]; intros idx H; [destruct Hn|]. cbn [mapM] in H.
      destruct (name_index M n) as [k|] eqn:E1; cbn [bind] in H; [|discriminate]. destruct (mapM _ cn) as [ks|] eqn:E2; cbn [bind] in H; [|discriminate].
      injection H as <-. destruct Hn as [->|Hn]; [left; congruence|]. right. apply (IH Hn ks eq_refl). }
  destruct (existsb (Nat.eqb i) idx) eqn:E1, (existsb (Nat.eqb i) (map (pos (c_vars M)) K)) eqn:E2; auto; exfalso.
  - apply existsb_exists in E1 as (x & Hx & Ex). rewrite <- not_true_iff_false in E2. apply E2. apply existsb_exists. exists x. split; auto. apply E; auto.
  - apply existsb_exists in E2 as (x & Hx & Ex). rewrite <- not_true_iff_false in E1. apply E1. apply existsb_exists. exists x. split; auto. apply E; auto.
Qed.

Lemma filter_split_length {A} (f : A -> bool) (m : list A) : (List.length (filter f m) + List.length (filter (fun x => negb (f x)) m) = List.length m)%nat.
Proof. induction m as [|x m IH]; auto. cbn [filter]. destruct (f x); cbn [negb List.length]; lia. Qed.
Lemma K_length (m : list variable) : NoDup (names m) -> NoDup (names K) -> incl K m ->
  List.length (filter (fun v => mem_str (v_name v) (names K)) m) = List.length K.
Proof.
  intros N NK I. apply Permutation_length, NoDup_Permutation.
  - apply (NoDup_map_inv v_name). apply NoDup_names_sub. auto.
  - apply (NoDup_map_inv v_name). auto.
  - intros v. rewrite filter_In, mem_str_In. split.
    + intros [H1 H2]. apply in_map_iff in H2 as (w & E & Hw). rewrite (NoDup_names_inj m v w); auto.
    + intros H. split; auto. apply in_map; auto.
Qed.
Lemma others_length M : NoDup (names (c_vars M)) -> NoDup (names K) -> incl K (c_vars M) -> (List.length (others M K) + List.length K = List.length (c_vars M))%nat.
Proof.
  intros N NK I. pose proof (K_length (c_vars M) N NK I). pose proof (filter_split_length (fun v => mem_str (v_name v) (names K)) (c_vars M)). unfold others. cbn beta in *. lia.
Qed.
Lemma drop_children M : wf_cpm M -> NoDup (names K) -> incl K (children M) ->
  children (drop M K (c_nch M - List.length K)) = filter (fun v => negb (mem_str (v_name v) (names K))) (children M).
Proof.
  intros W NK I. assert (Nc := children_nodup M W). assert (Lc := children_length M W).
  unfold children at 1. cbn [drop c_nch c_vars]. unfold others. rewrite (children_parents M), filter_app.
  assert (E : (c_nch M - List.length K)%nat = List.length (filter (fun v => negb (mem_str (v_name v) (names K))) (children M))).
  { pose proof (K_length (children M) Nc NK I). pose proof (filter_split_length (fun v => mem_str (v_name v) (names K)) (children M)). cbn beta in *. lia. }
  rewrite E. apply firstn_app_len.
Qed.

Lemma merge_inv M1 M2 M : wf_cpm M1 -> has_p M1 -> has_p M2 -> c_vars M1 = c_vars M2 -> merge M1 M2 = Ok M ->
  wf_cpm M /\ has_p M /\ c_vars M = c_vars M1 /\ c_nch M = c_nch M1 /\ c_C M = c_C M1 /\ forall a, mass M a = (mass M1 a + mass M2 a)%Qc.
Proof.
  intros W P1 P2 Hv H. destruct (has_p_or M1 P1) as [Hp|Hp].
  - assert (D : (forall r, In r (c_C M2) -> In r (c_C M1)) \/ exists r, In r (c_C M2) /\ ~ In r (c_C M1)).
    { clear. induction (c_C M2) as [|r C IH]; [left; intros r []|]. destruct (in_dec (list_eq_dec Z.eq_dec) r (c_C M1)) as [X|X].
      - destruct IH as [IH|(r' & A & B)]; [left|right].
        + intros y [<-|Hy]; auto.
        + exists r'. split; [right|]; auto.
      - right. exists r. split; [left|]; auto. }
    destruct D as [D|(r & D1 & D2)].
    + destruct (merge_ok M1 M2 W Hp P2 Hv D) as (M' & E & W' & A & B & C & Q). assert (M' = M) by congruence. subst M'.
      split; auto. split; [|repeat (split; auto)].
      unfold has_p. destruct W' as (_ & _ & _ & _ & [X|X]); auto. exfalso. unfold merge in H.
      destruct (_ && _) in H; [|discriminate]. destruct (foldM _ _ _) as [p|] eqn:Ef in H; cbn [bind] in H; [|discriminate]. injection H as <-. cbn in X. subst p.
      destruct (merge_fold (c_C M1) (combine (c_C M2) (c_p M2)) (c_p M1)) as (p' & E1 & E2 & _); auto.
      { intros [r q] Hin. cbn. apply D. eapply in_combine_l; eauto. }
      rewrite Ef in E1. injection E1 as <-. cbn in E2. unfold has_p in P1. apply Hp. apply length_zero_iff_nil. congruence.
    + rewrite (merge_missing M1 M2 r) in H by auto. discriminate.
  - unfold has_p in P1. rewrite Hp in P1. apply length_zero_iff_nil in P1. unfold merge in H. destruct (_ && _) in H; [|discriminate].
    rewrite Hp, P1 in H. destruct (c_C M2) as [|r C] eqn:E2.
    + cbn [combine foldM bind] in H. injection H as <-. cbn [c_vars c_nch c_C c_p].
      split; [|split; [reflexivity|split; [auto|split; [auto|split; [auto|]]]]].
      * destruct W as (A & B & C & D & _). split; [auto|split; [auto|split; [auto|split; [intros row []|]]]]. left. auto.
      * intros a. rewrite !mass_if. cbn [c_C combine]. rewrite Hp, E2. cbn. ring.
    + unfold has_p in P2. rewrite E2 in P2. destruct (c_p M2) as [|q p]; [discriminate|]. cbn in H. discriminate.
Qed.

(** the loop *)
Definition reached (done : list (list Z)) (st : option (list nat) * option cpm) : Prop :=
  (done = [] /\ st = (None, None)) \/
  exists R cx0, In cx0 (c_C P) /\ pass cx0 R /\ done <> [] /\
    ((others R K = [] /\ st = (None, None)) \/
     (others R K <> [] /\ exists M, st = (Some (map (pos (c_vars R)) (others R K)), Some M) /\ wf_cpm M /\ has_p M /\
        c_vars M = others R K /\ c_nch M = (c_nch R - List.length K)%nat /\
        forall a, mass M a = qsum (map (fun cx => marg K (share cx) a) done))).

Let cn := nodup string_dec (flat_map (fun M => names (c_vars M)) cond).
Lemma cn_K n : In n cn <-> In n (names K).
Proof using HK.
  unfold cn. rewrite nodup_In, in_flat_map. unfold names. rewrite in_map_iff. split.
  - intros (N & HN & H). apply in_map_iff in H as (v & E & Hv). exists v. split; auto. apply HK. exists N. auto.
  - intros (v & E & Hv). apply HK in Hv as (N & HN & Hv). exists N. split; auto. apply in_map_iff. eauto.
Qed.
Lemma cn_length : List.length cn = List.length K.
Proof using HK.
  unfold names. rewrite <- (map_length v_name K). apply Permutation_length, NoDup_Permutation.
  - apply NoDup_nodup.
  - apply HK.
  - intros n. apply cn_K.
Qed.

Lemma qsum_snoc (q : list Qc) x : qsum (q ++ [x]) = (qsum q + x)%Qc.
Proof. rewrite qsum_app. cbn. ring. Qed.

Lemma step_reached done st cx st' : In cx (c_C P) -> reached done st -> vec_step l varis P cn st cx = Ok st' -> reached (done ++ [cx]) st'.
Proof using V HP HK.
  intros Hcx Hr H. unfold vec_step in H.
  destruct (condition P _ _) as [P'|] eqn:A1; cbn [bind] in H; [|discriminate].
  destruct (op_condition l _ _) as [l'|] eqn:A2; cbn [bind] in H; [|discriminate].
  destruct (variable_elim l' varis) as [E|] eqn:A3; cbn [bind] in H; [|discriminate].
  destruct (product E P') as [M|] eqn:A4; cbn [bind] in H; [|discriminate].
  destruct (get_col_ind M cn) as [idx|] eqn:A5; cbn [bind] in H; [|discriminate]. cbv zeta in H.
  assert (Pa : pass cx M) by (exists P', l', E; auto).
  destruct (pass_ok cx M Hcx Pa) as (W & Hp & Mm & KM & _).
  assert (IK : incl K (c_vars M)) by (intros v Hv; apply KM; auto).
  assert (NK : NoDup (names K)) by apply HK.
  destruct (col_ind M cn idx (proj1 W) IK cn_K A5) as [Ei Li]. rewrite cn_length in Li.
  change (filter (fun i => negb (existsb (Nat.eqb i) idx)) (seq 0 (ncols M))) with (kept_cols (c_vars M) idx) in H. rewrite Ei in H.
  assert (Hidv : match fst st with Some i => i | None => map (pos (c_vars M)) (others M K) end = map (pos (c_vars M)) (others M K)).
  { destruct Hr as [[_ ->]|(R & cx0 & H0 & PR & _ & [[_ ->]|[_ (M0 & -> & _)]])]; auto. cbn [fst].
    destruct (pass_shape cx cx0 M R Hcx H0 Pa PR) as [S _]. unfold others. rewrite S. auto. }
  rewrite Hidv in H. clear Hidv.
  assert (Ln := others_length M (proj1 W) NK IK).
  assert (Lc : (c_nch M <= List.length (c_vars M))%nat) by apply W.
  destruct (map (pos (c_vars M)) (others M K)) as [|i0 is0] eqn:Em.
  - injection H as <-. right. exists M, cx. split; auto. split; auto. split; [destruct done; discriminate|].
    assert (On : others M K = []) by (destruct (others M K); [auto|discriminate]). left. split; auto.
    destruct Hr as [[_ ->]|(R & cx0 & H0 & PR & _ & [[_ ->]|[On' _]])]; auto. exfalso. apply On'.
    destruct (pass_shape cx cx0 M R Hcx H0 Pa PR) as [S _]. unfold others in *. rewrite <- S. auto.
  - rewrite <- Em in H. rewrite take_rows_pos in H by (try apply W; intros v Hv; apply others_In in Hv; tauto).
    assert (On : others M K <> []) by (intros X; rewrite X in Em; discriminate).
    destruct (mk_cpm _ _ _ _) as [M2|] eqn:A6; cbn [bind] in H; [|discriminate]. apply mk_cpm_inv in A6.
    assert (E2 : M2 = drop M K (c_nch M - List.length K)).
    { subst M2. unfold drop. rewrite Li. f_equal. apply map_ext. intros row. unfold cols, proj. rewrite map_map. auto. }
    clear A6. subst M2.
    assert (Wd : wf_cpm (drop M K (c_nch M - List.length K))) by (apply drop_wf; auto; lia).
    assert (Hd : has_p (drop M K (c_nch M - List.length K))) by (unfold has_p; cbn; rewrite map_length; apply Hp).
    assert (Md : forall a, mass (drop M K (c_nch M - List.length K)) a = marg K (share cx) a).
    { intros a. rewrite drop_marg by (auto; intros v Hv; apply KM; auto). apply marg_ext. auto. }
    destruct Hr as [[-> ->]|(R & cx0 & H0 & PR & Hd0 & [[On' ->]|[On' (M0 & -> & W0 & P0 & V0 & C0 & Q0)]])]; cbn [snd bind] in H.
    + injection H as <-. right. exists M, cx. split; auto. split; auto. split; [discriminate|]. right. split; auto.
      eexists. split; [reflexivity|]. split; auto. split; auto. split; auto. split; auto. intros a. rewrite Md. cbn. ring.
    + exfalso. destruct (pass_shape cx cx0 M R Hcx H0 Pa PR) as [S _]. unfold others in *. congruence.
    + destruct (merge M0 _) as [M3|] eqn:A6; cbn [bind] in H; [|discriminate]. injection H as <-.
      destruct (pass_shape cx cx0 M R Hcx H0 Pa PR) as [S1 S2].
      assert (Ov : c_vars M0 = c_vars (drop M K (c_nch M - List.length K))) by (rewrite V0; cbn; unfold others; rewrite S1; auto).
      destruct (merge_inv M0 _ M3 W0 P0 Hd Ov A6) as (W3 & P3 & V3 & C3 & _ & Q3).
      right. exists R, cx0. split; auto. split; auto. split; [destruct done; discriminate|]. right. split; auto.
      exists M3. split; [unfold others; rewrite <- S1; auto|]. split; auto. split; auto. split; [congruence|]. split; [congruence|].
      intros a. rewrite Q3, Q0, Md, map_app. cbn [map]. rewrite qsum_snoc. auto.
Qed.

Lemma loop_reached rows : forall done st st', incl rows (c_C P) -> reached done st ->
  foldM (vec_step l varis P cn) rows st = Ok st' -> reached (done ++ rows) st'.
Proof using V HP HK.
  induction rows as [|cx rows IH]; intros done st st' I Hr H; cbn [foldM] in H.
  - injection H as <-. rewrite app_nil_r. auto.
  - destruct (vec_step l varis P cn st cx) as [st1|] eqn:E; cbn [bind] in H; [|discriminate].
    assert (R1 := step_reached done st cx st1 (I cx (or_introl eq_refl)) Hr E).
    change (cx :: rows) with ([cx] ++ rows). rewrite app_assoc. eapply IH; [intros r Hr'; apply I; right; auto|exact R1|exact H].
Qed.

Lemma shares_total a : one_row P -> qsum (map (fun cx => share cx a) (c_C P)) = (mass P a * marg varis (pmass l) a)%Qc.
Proof using.
  intros O. unfold share. rewrite (qsum_map_scale_r (marg varis (pmass l) a) (fun cx => if row_match (c_vars P) cx a then mass P a else 0%Qc)). f_equal.
  specialize (O a). destruct (filter (fun r => row_match (c_vars P) r a) (c_C P)) as [|r0 [|r1 rs]] eqn:E; cbn in O; try lia.
  - destruct (Qc_eq_dec (mass P a) 0%Qc) as [Z|Z].
    + rewrite Z. apply qsum_map_zero. intros cx _. destruct (row_match _ _ _); auto.
    + exfalso. destruct (mass_row_exists P a Z) as (row & Hr & Hm). assert (X : In row []); [rewrite <- E; apply filter_In; auto|destruct X].
  - rewrite <- (map_id (c_C P)) at 1. rewrite map_map.
    assert (G : forall C, qsum (map (fun cx => if row_match (c_vars P) cx a then mass P a else 0%Qc) C) = qsum (map (fun _ => mass P a) (filter (fun r => row_match (c_vars P) r a) C))).
    { induction C as [|r C IH]; auto. cbn [map filter]. destruct (row_match (c_vars P) r a); cbn [map qsum fold_right]; unfold qsum in *; rewrite IH; ring. }
    rewrite map_id || idtac. rewrite G, E. cbn. ring.
Qed.

End pass.

Theorem vec_main l varis cond K r : vec_ok l varis cond -> lists_scopes K cond -> variable_elim_cond l varis cond = Ok r ->
  match r with
  | Some M => wf_cpm M /\ (forall a, mass M a = marg (varis ++ K) (pmass (l ++ cond)) a) /\
      (forall v, In v (c_vars M) <-> in_scopes l v /\ ~ In v varis /\ ~ In v K) /\
      ((forall v, In v K -> in_children cond v) -> forall v, In v (children M) <-> in_children l v /\ ~ In v varis /\ ~ In v K)
  | None => (exists P, product_list cond = Ok P /\ c_C P = []) \/ (forall v, in_scopes l v -> In v varis \/ In v K)
  end.
Proof.
  intros V HK H. unfold variable_elim_cond in H. destruct (product_list cond) as [P|] eqn:HP; cbn [bind] in H; [|discriminate].
  destruct (foldM _ (c_C P) _) as [st|] eqn:E; cbn [bind] in H; [|discriminate]. injection H as <-.
  assert (R := loop_reached l varis cond P K V HP HK (c_C P) [] (None, None) st (fun r Hr => Hr) (or_introl (conj eq_refl eq_refl)) E).
  cbn [app] in R. destruct R as [[R1 ->]|(R & cx0 & H0 & PR & _ & [[On ->]|[On (M & -> & W & Hp & VM & CM & QM)]])]; cbn [snd].
  - left. exists P. auto.
  - right. intros v Hv. destruct (pass_ok l varis cond P K V HP HK cx0 R H0 PR) as (WR & _ & _ & _ & SR & _).
    destruct (in_dec string_dec (v_name v) (names varis)) as [X|X].
    { left. apply in_map_iff in X as (w & Ew & Hw). destruct V as (_ & _ & Ve & _). destruct Ve as (F & _ & B & _). destruct (B w Hw) as (N & HN & Hw' & _).
      destruct Hv as (N' & HN' & Hv'). destruct F as [FW FP]. destruct (pairwise_two l N N' FP HN HN') as [<-|[Ag _]].
      - rewrite <- (NoDup_names_inj (c_vars N) w v); auto. rewrite Forall_forall in FW. apply FW; auto.
      - rewrite <- (Ag w v); auto. }
    right. assert (HR : In v (c_vars R)) by (apply SR; left; split; auto; intros Y; apply X, in_map; auto).
    destruct (in_dec string_dec (v_name v) (names K)) as [Y|Y].
    + apply in_map_iff in Y as (w & Ew & Hw). rewrite <- (NoDup_names_inj (c_vars R) w v); auto; [apply WR|]. apply SR. auto.
    + exfalso. assert (Z : In v (others R K)) by (apply others_In; auto). rewrite On in Z. destruct Z.
  - destruct (pass_ok l varis cond P K V HP HK cx0 R H0 PR) as (WR & _ & _ & KR & SR & CR).
    assert (NK : NoDup (names K)) by apply HK.
    assert (KN : forall v, In v (c_vars R) -> (In (v_name v) (names K) <-> In v K)).
    { intros v Hv. split; [|intros; apply in_map; auto]. intros Y. apply in_map_iff in Y as (w & Ew & Hw).
      rewrite <- (NoDup_names_inj (c_vars R) w v); auto; [apply WR|]. apply KR. auto. }
    split; auto. split; [|split].
    + intros a. rewrite QM. rewrite <- (marg_qsum K (fun cx => share l varis P cx) (c_C P) a).
      pose proof V as (F & HPr & Ve & One & Dis & Bas). destruct (fit_app l cond F) as (F1 & F2 & F3).
      rewrite (marg_ext K _ (fun b => (mass P b * marg varis (pmass l) b)%Qc) a).
      2:{ intros b. apply shares_total. apply (one_row_list cond); auto. }
      assert (MP : forall b, mass P b = pmass cond b) by apply (P_is l varis cond P V HP).
      assert (G : forall b, (mass P b * marg varis (pmass l) b)%Qc = marg varis (pmass (l ++ cond)) b).
      { intros b. rewrite Qcmult_comm. rewrite <- marg_factor_list.
        - apply marg_ext. intros c. rewrite MP. unfold pmass. rewrite map_app. symmetry. apply qprod_app.
        - intros v Hv. apply mass_ignores. intros Hn. apply (Dis v Hv). apply in_map_iff in Hn as (w & Ew & Hw).
          apply (P_is l varis cond P V HP) in Hw as (N & HN & Hw). exists N. split; auto. rewrite <- Ew. apply in_map. auto. }
      rewrite (marg_ext K _ _ a G). rewrite <- marg_app. apply marg_perm; [apply pmass_ext|apply Permutation_app_comm|].
      unfold names. rewrite map_app. apply NoDup_app_intro; [auto|apply Ve|].
      intros n H1 H2. apply in_map_iff in H1 as (v & <- & H1). apply in_map_iff in H2 as (w & Ew & H2). apply (Dis w H2).
      apply HK in H1 as (N & HN & H1). exists N. split; auto. rewrite Ew. apply in_map; auto.
    + intros v. rewrite VM, others_In. split.
      * intros [H1 H2]. rewrite (KN v H1) in H2. apply SR in H1. tauto.
      * intros (H1 & H2 & H3). assert (X : In v (c_vars R)) by (apply SR; auto). split; auto. rewrite (KN v X). auto.
    + intros Hch v.
      assert (Ed : children M = children (drop R K (c_nch R - List.length K))) by (unfold children; cbn [drop c_vars c_nch]; rewrite VM, CM; auto).
      assert (Ic : incl K (children R)) by (intros w Hw; apply CR; right; auto).
      rewrite Ed, (drop_children K R WR NK Ic), filter_In.
      assert (Ch : forall w, In w (children R) -> In w (c_vars R)) by (intros w Hw; apply children_incl; auto).
      rewrite negb_true_iff. split.
      * intros [H1 H2]. assert (X : ~ In v K). { intros X. apply (KN v (Ch v H1)) in X. apply mem_str_In in X. congruence. }
        apply CR in H1 as [[H1 H3]|H1]; [tauto|]. exfalso. apply X. apply HK. destruct H1 as (N & HN & H1). exists N. split; auto. apply children_incl; auto.
      * intros (H1 & H2 & H3). assert (X : In v (children R)) by (apply CR; left; auto). split; auto.
        destruct (mem_str (v_name v) (names K)) eqn:Em; auto. apply mem_str_In in Em. apply (KN v (Ch v X)) in Em. contradiction.
Qed.

(** * [get_variables] *)
Lemma sort_by_key {A} (key : A -> nat) (m m' : list A) : Permutation m m' -> StronglySorted lt (map key m') ->
  sort_desc (fun y x => (key y <? key x)%nat) m = m'.
Proof.
  intros Pm S. set (s := sort_desc _ m). assert (Ps : Permutation s m') by (rewrite <- Pm; apply sort_desc_perm).
  assert (N : NoDup (map key m')).
  { clear -S. induction (map key m') as [|x k IH]; constructor; inversion S as [|? ? S1 F]; subst; auto. intros X. rewrite Forall_forall in F. apply F in X. lia. }
  assert (Ss : StronglySorted lt (map key s)).
  { assert (Ns : NoDup (map key s)) by (eapply Permutation_NoDup; [apply Permutation_map, Permutation_sym; exact Ps|auto]).
    assert (S0 : StronglySorted (fun x y => (key y <? key x)%nat = false) s).
    { apply sort_desc_sorted; intros x y; rewrite ?Nat.ltb_lt, ?Nat.ltb_ge; [lia|]. intros z. rewrite !Nat.ltb_ge. lia. }
    clear -S0 Ns. induction S0 as [|x s S0 IH F]; cbn [map]; constructor; inversion Ns as [|? ? N1 N2]; subst; auto.
    rewrite Forall_forall in *. intros k Hk. apply in_map_iff in Hk as (y & <- & Hy). specialize (F y Hy). apply Nat.ltb_ge in F.
    assert (key x <> key y) by (intros E; apply N1; rewrite E; apply in_map; auto). lia. }
  assert (E : map key s = map key m').
  { apply sorted_unique; auto. intros x. split; intros H; eapply Permutation_in; try exact H; apply Permutation_map; auto using Permutation_sym. }
  clear -E Ps N. assert (I : forall x y, In x m' -> In y m' -> key x = key y -> x = y).
  { clear -N. induction m' as [|z m IH]; intros x y Hx Hy E; [destruct Hx|]. inversion N as [|? ? N1 N2]; subst. destruct Hx as [<-|Hx], Hy as [<-|Hy]; auto.
    - exfalso. apply N1. rewrite E. apply in_map; auto.
    - exfalso. apply N1. rewrite <- E. apply in_map; auto. }
  assert (G : forall u t, map key u = map key t -> incl u m' -> incl t m' -> u = t).
  { induction u as [|x u IH]; intros [|y t] E1 J J'; cbn in E1; try discriminate; auto. injection E1 as E1 E2. f_equal.
    - apply I; auto; [apply J|apply J']; left; auto.
    - apply IH; auto; intros z Hz; [apply J|apply J']; right; auto. }
  apply G; auto; [|intros x; auto]. intros x Hx. eapply Permutation_in; eauto.
Qed.

Lemma first_var_name (l : list cpm) n v : first_var l n = Some v -> v_name v = n.
Proof.
  unfold first_var. destruct (find _ l) as [M|]; [|discriminate]. intros H. apply find_some in H as [_ H]. apply String.eqb_eq. auto.
Qed.
Lemma first_var_cons M l n : first_var (M :: l) n = if mem_str n (names (c_vars M)) then find (fun v => String.eqb (v_name v) n) (c_vars M) else first_var l n.
Proof. unfold first_var. cbn [find]. destruct (mem_str n (names (c_vars M))); auto. Qed.
Lemma somes_app {A} (l1 l2 : list (option A)) : somes (l1 ++ l2) = somes l1 ++ somes l2.
Proof. induction l1 as [|[x|] l1 IH]; cbn; auto. rewrite IH. auto. Qed.
Lemma somes_perm {A} (l1 l2 : list (option A)) : Permutation l1 l2 -> Permutation (somes l1) (somes l2).
Proof.
  induction 1 as [|[x|] l l' H IH|[x|] [y|] l|]; cbn; auto; try apply perm_swap. eapply Permutation_trans; eauto.
Qed.
Lemma filter_perm_split {A} (f : A -> bool) (m : list A) : Permutation m (filter f m ++ filter (fun x => negb (f x)) m).
Proof.
  induction m as [|x m IH]; auto. cbn [filter]. destruct (f x); cbn [negb app]; auto. apply Permutation_cons_app. auto.
Qed.

Lemma gv_scan_spec l : forall remain, exists r, gv_scan l remain = Ok r /\ Permutation r (somes (map (first_var l) remain)).
Proof.
  induction l as [|M l IH]; intros remain; cbn [gv_scan].
  - exists []. split; auto. assert (E : somes (map (first_var []) remain) = []); [|rewrite E; auto]. induction remain; auto.
  - set (here := fun n => mem_str n (names (c_vars M))). cbv zeta.
    change (exists r, (found <- mapM (get_variable M) (filter here remain) ;; rest <- gv_scan l (filter (fun n => negb (here n)) remain) ;; Ok (found ++ rest)) = Ok r /\
      Permutation r (somes (map (first_var (M :: l)) remain))).
    assert (F : mapM (get_variable M) (filter here remain) = Ok (somes (map (first_var (M :: l)) (filter here remain)))).
    { induction remain as [|n remain IHr]; auto. cbn [filter]. destruct (here n) eqn:Hn; auto. cbn [mapM map somes]. rewrite first_var_cons.
      change (mem_str n (names (c_vars M))) with (here n). rewrite Hn. unfold get_variable at 1.
      destruct (find (fun v => String.eqb (v_name v) n) (c_vars M)) as [v|] eqn:Ef.
      - cbn [bind]. rewrite IHr. reflexivity.
      - exfalso. unfold here in Hn. apply mem_str_In in Hn. apply in_map_iff in Hn as (v & <- & Hv). apply find_none with (x := v) in Ef; auto. rewrite String.eqb_refl in Ef. discriminate. }
    rewrite F. cbn [bind]. destruct (IH (filter (fun n => negb (here n)) remain)) as (r & Er & Pr). rewrite Er. cbn [bind].
    eexists. split; [reflexivity|]. rewrite (somes_perm _ _ (Permutation_map (first_var (M :: l)) (filter_perm_split here remain))).
    rewrite map_app, somes_app. apply Permutation_app_head. rewrite Pr.
    assert (E : map (first_var l) (filter (fun n => negb (here n)) remain) = map (first_var (M :: l)) (filter (fun n => negb (here n)) remain)); [|rewrite E; auto].
    apply map_ext_in. intros n Hn. apply filter_In in Hn as [_ Hn]. rewrite first_var_cons. unfold here in Hn. destruct (mem_str n (names (c_vars M))); auto. discriminate.
Qed.

Lemma somes_length {A} (m : list (option A)) : (List.length (somes m) <= List.length m)%nat /\ (List.length (somes m) = List.length m <-> ~ In None m).
Proof.
  induction m as [|[x|] m [I1 I2]]; cbn.
  - split; [lia|]. tauto.
  - split; [lia|]. split.
    + intros H [X|X]; [discriminate|]. apply I2; auto.
    + intros H. f_equal. apply I2. tauto.
  - split; [lia|]. split; [lia|]. intros H. exfalso. apply H. auto.
Qed.

Lemma ord_sorted ns : NoDup ns -> StronglySorted lt (map (ord_inf ns) ns).
Proof.
  intros N. assert (E : map (ord_inf ns) ns = seq 0 (List.length ns)).
  { apply nth_ext with (d := O) (d' := O); [rewrite map_length, seq_length; auto|]. intros i Hi. rewrite map_length in Hi.
    rewrite seq_nth by auto. cbn. destruct (nth_error ns i) as [n|] eqn:En; [|apply nth_error_None in En; lia].
    rewrite (nth_error_nth (map (ord_inf ns) ns) i O (x := ord_inf ns n)) by (apply map_nth_error; auto).
    unfold ord_inf. destruct (find_idx (String.eqb n) ns) as [j|] eqn:Ej.
    - apply find_idx_some in Ej as (m & Hm & Em & _). apply String.eqb_eq in Em. subst m.
      eapply (proj1 (NoDup_nth_error ns) N); [apply nth_error_Some; congruence|congruence].
    - exfalso. destruct (find_idx_in (String.eqb n) ns n (nth_error_In _ _ En) (String.eqb_refl n)) as [j X]. congruence. }
  rewrite E. generalize O. clear. induction (List.length ns) as [|k IH]; intros s; cbn [seq]; constructor; auto.
  rewrite Forall_forall. intros x Hx. apply in_seq in Hx. lia.
Qed.

Lemma get_variables_main l ns vs : NoDup ns -> Forall2 (fun n v => first_var l n = Some v) ns vs -> op_get_variables l ns = Ok vs.
Proof.
  intros N F. unfold op_get_variables. destruct (gv_scan_spec l ns) as (r & E & Pr). rewrite E. cbn [bind].
  assert (Es : somes (map (first_var l) ns) = vs) by (clear -F; induction F as [|n v ns vs H F IH]; auto; cbn [map]; rewrite H; cbn; congruence).
  assert (En : map v_name vs = ns) by (clear -F; induction F as [|n v ns vs H F IH]; auto; cbn [map]; rewrite (first_var_name _ _ _ H); congruence).
  rewrite Es in Pr. assert (L : List.length r = List.length ns) by (rewrite (Permutation_length Pr), <- En, map_length; auto).
  rewrite L, Nat.eqb_refl. f_equal. apply (sort_by_key (fun v => ord_inf ns (v_name v))); auto.
  rewrite <- map_map, En. apply ord_sorted; auto.
Qed.
Lemma get_variables_missing l ns n : In n ns -> first_var l n = None -> op_get_variables l ns = Err AssertionError.
Proof.
  intros Hn H. unfold op_get_variables. destruct (gv_scan_spec l ns) as (r & E & Pr). rewrite E. cbn [bind].
  destruct (Nat.eqb_spec (List.length r) (List.length ns)) as [L|]; auto. exfalso. rewrite (Permutation_length Pr), <- (map_length (first_var l)) in L.
  apply somes_length in L. apply L. rewrite <- H. apply in_map. auto.
Qed.
Lemma first_var_none l n : first_var l n = None <-> ~ exists N, In N l /\ In n (names (c_vars N)).
Proof.
  induction l as [|M l IH].
  - cbn. split; auto. intros _ (N & [] & _).
  - rewrite first_var_cons. destruct (mem_str n (names (c_vars M))) eqn:E.
    + apply mem_str_In in E. split.
      * intros H. exfalso. apply in_map_iff in E as (v & <- & Hv). apply find_none with (x := v) in H; auto. rewrite String.eqb_refl in H. discriminate.
      * intros H. exfalso. apply H. exists M. split; [left|]; auto.
    + rewrite IH. split; intros H (N & HN & X); apply H.
      * destruct HN as [<-|HN]; [|exists N; auto]. apply mem_str_In in X. congruence.
      * exists N. split; [right|]; auto.
Qed.

(** * Conditioning by values *)
Lemma cond_states_SS vs ss codes : List.length vs = List.length ss ->
  (forall i v s, nth_error vs i = Some v -> nth_error ss i = Some s ->
     exists c, nth_error codes i = Some (Z.of_nat c) /\ nth_error (v_values v) c = Some (VStr s) /\
               ~ In (VStr s) (firstn c (v_values v))) ->
  List.length codes = List.length vs -> cond_states vs (map SS ss) = Ok (map SI codes).
Proof.
  intros Hl H0 Lc. assert (H := values_codes vs ss codes Hl Lc H0). clear H0 Lc.
  destruct ss as [|s0 ss0]; [destruct vs; [|discriminate]; inversion H; subst; reflexivity|]. cbn [map cond_states].
  change (SS s0 :: map SS ss0) with (map SS (s0 :: ss0)). set (ss := s0 :: ss0) in *. clearbody ss. clear s0 ss0.
  revert ss codes Hl H. induction vs as [|v vs IH]; intros [|s ss] codes Hl H; cbn in Hl; try lia; cbn in H; inversion H; subst; auto.
  cbn [map combine mapM fst snd] in *. rewrite H2. cbn [bind]. rewrite (IH ss l'); auto.
Qed.
