(** When elimination row by row of the conditioning CPMs succeeds: the rows of the results for
    two states of the conditioning variables are compared. *)
From Coq Require Import ZArith List String Bool Arith Lia QArith Qcanon Permutation Sorted.
From Verif Require Import Py Num Vari Cpm SpecCpm Net MsysProd VeCond SpecVe PyFacts VariFacts CpmFacts CpmCond CpmProd CpmList CpmSum CpmMarg CpmProb CpmElim CpmMean VeFacts CalFacts.
Import ListNotations.
Open Scope string_scope.
Open Scope Z_scope.
Open Scope list_scope.

(** * Cells of conditioned rows and of products *)
Notation cell_of vars row v := (at_ row (pos vars v)).

Lemma cond_at vars vs codes row v : NoDup (names vars) -> ev_ok vars vs codes -> List.length row = List.length vars -> In v vars ->
  (exists s, In (v, s) (combine vs codes) /\ cell_of vars (cond_row vars vs codes row) v = new_code v (cell_of vars row v) s) \/
  (~ In v vs /\ cell_of vars (cond_row vars vs codes row) v = cell_of vars row v).
Proof.
  intros N E L Hv. destruct (cond_row_at vars vs codes N E row (pos vars v) v L (pos_In vars v N Hv)) as [(s & Hs & H)|[Hn H]].
  - left. exists s. split; [apply todo_In in Hs; tauto|auto].
  - right. split; auto. intros X. rewrite <- not_true_iff_false in Hn. apply Hn. apply existsb_v_In. eauto.
Qed.
Lemma cmp_iff vars vs codes row : NoDup (names vars) -> agree vs vars ->
  cmp vs codes vars row = true <->
  forall v s, In (v, s) (combine vs codes) -> In v vars -> meets (states_of v s) (states_of v (cell_of vars row v)) = true.
Proof.
  intros N Ag. unfold cmp, cmp_td. rewrite forallb_forall. split.
  - intros H v s Hs Hv. apply (H (v, s, pos vars v)). apply todo_In. split; auto. apply find_idx_pos; auto. apply pos_In; auto.
  - intros H [[v s] i] Ht. cbn [fst snd]. apply todo_In in Ht as [H1 H2].
    destruct (find_idx_agree vs vars v i Ag N (in_combine_l _ _ _ _ H1) H2) as [Hv Hi].
    assert (Ei : i = pos vars v) by (unfold pos; rewrite H2; auto). rewrite Ei. apply H; auto.
Qed.

Lemma in_combine_ex {A B} (l : list A) : forall (k : list B) x, List.length l = List.length k -> In x l -> exists y, In (x, y) (combine l k).
Proof.
  induction l as [|z l IH]; intros [|y k] x L H; cbn in L; try discriminate; [destruct H|]. destruct H as [<-|H].
  - exists y. left. auto.
  - destruct (IH k x ltac:(lia) H) as [y' Hy]. exists y'. right. auto.
Qed.
Lemma com_In M1 M2 v : wf_cpm M2 -> agree (c_vars M1) (c_vars M2) -> In v (com_vars M1 M2) <-> In v (c_vars M1) /\ In v (c_vars M2).
Proof.
  intros W Ag. unfold com_vars. rewrite filter_In. unfold com_of. split.
  - intros [H1 H2]. split; auto. apply existsb_name in H2. apply in_map_iff in H2 as (w & E & Hw). rewrite (Ag v w); auto.
  - intros [H1 H2]. split; auto. apply existsb_name. apply in_map; auto.
Qed.
Lemma com_codes_In M1 M2 r1 v c : wf_cpm M1 -> wf_cpm M2 -> agree (c_vars M1) (c_vars M2) -> In r1 (c_C M1) ->
  In (v, c) (combine (com_vars M1 M2) (com_codes M1 M2 r1)) <-> In v (c_vars M1) /\ In v (c_vars M2) /\ c = cell_of (c_vars M1) r1 v.
Proof.
  intros W1 W2 Ag H. assert (L := proj1 (wf_rows M1 r1 W1 H)).
  assert (D : forall c, In (v, c) (combine (com_vars M1 M2) (com_codes M1 M2 r1)) -> c = cell_of (c_vars M1) r1 v).
  { intros x Hx. apply com_pairs in Hx; auto. apply In_combine_at in Hx as [_ Hx]; auto. apply W1. }
  split.
  - intros Hx. assert (Hv := in_combine_l _ _ _ _ Hx). apply com_In in Hv; auto. repeat split; try tauto. auto.
  - intros (H1 & H2 & ->). destruct (com_ev_ok M1 M2 W1 Ag r1 H) as [Le _].
    destruct (in_combine_ex (com_vars M1 M2) (com_codes M1 M2 r1) v Le) as [y Hy]; [apply com_In; auto|].
    rewrite <- (D y Hy). auto.
Qed.

(** [row] of the product comes from [r1] and [r2] *)
Definition glue (M1 M2 : cpm) (r1 r2 row : list Z) : Prop :=
  forall v, In v (n_vars M1 M2) ->
    (In v (c_vars M1) /\ In v (c_vars M2) /\ cell_of (n_vars M1 M2) row v = new_code v (cell_of (c_vars M2) r2 v) (cell_of (c_vars M1) r1 v)) \/
    (~ In v (c_vars M1) /\ In v (c_vars M2) /\ cell_of (n_vars M1 M2) row v = cell_of (c_vars M2) r2 v) \/
    (In v (c_vars M1) /\ ~ In v (c_vars M2) /\ cell_of (n_vars M1 M2) row v = cell_of (c_vars M1) r1 v).
Definition compatible (M1 M2 : cpm) (r1 r2 : list Z) : Prop :=
  forall v, In v (c_vars M1) -> In v (c_vars M2) ->
    meets (states_of v (cell_of (c_vars M1) r1 v)) (states_of v (cell_of (c_vars M2) r2 v)) = true.

Lemma glue_prod M1 M2 r1 r2 : wf_cpm M1 -> wf_cpm M2 -> agree (c_vars M1) (c_vars M2) -> common_child M1 M2 = false ->
  In r1 (c_C M1) -> In r2 (c_C M2) -> cmp (com_vars M1 M2) (com_codes M1 M2 r1) (c_vars M2) r2 = true ->
  glue M1 M2 r1 r2 (prod_row M1 M2 r1 (cond_row (c_vars M2) (com_vars M1 M2) (com_codes M1 M2 r1) r2)).
Proof.
  intros W1 W2 Ag Cc H1 H2 Hc v Hv. pose proof W2 as (N2 & O2 & _ & R2 & _).
  assert (L1 := proj1 (wf_rows M1 r1 W1 H1)). assert (L2 := proj1 (wf_rows M2 r2 W2 H2)).
  assert (EV := com_ev_ok M1 M2 W1 Ag r1 H1).
  destruct (proj1 (cond_row_match (c_vars M2) (com_vars M1 M2) (com_codes M1 M2 r1) N2 O2 EV r2 (fun _ => 0) (R2 r2 H2)) Hc) as [R _].
  set (c2 := cond_row (c_vars M2) (com_vars M1 M2) (com_codes M1 M2 r1) r2) in *.
  assert (LR : List.length c2 = List.length (c_vars M2)) by (pose proof R as X; apply Forall2_length in X; auto).
  assert (LP : List.length (prod_row M1 M2 r1 c2) = List.length (n_vars M1 M2)).
  { assert (Y : Forall2 code_ok (c_vars M1) r1) by (apply W1; auto). assert (X := prod_row_ok M1 M2 W1 W2 Ag r1 _ Y R). apply Forall2_length in X. auto. }
  assert (NV := n_vars_nodup M1 M2 W1 W2 Cc).
  assert (X := proj2 (In_combine_at (n_vars M1 M2) _ v _ NV LP) (conj Hv eq_refl)).
  apply prod_row_pairs in X; auto. destruct X as [X|[X Nc]].
  - apply In_combine_at in X as [X1 X2]; auto. rewrite X2.
    destruct (cond_at (c_vars M2) (com_vars M1 M2) (com_codes M1 M2 r1) r2 v N2 EV L2 X1) as [(s & Hs & E)|[Hn E]]; fold c2 in E; rewrite E.
    + left. apply com_codes_In in Hs as (A & B & ->); auto.
    + right. left. split; [|auto]. intros A. apply Hn. apply com_In; auto.
  - apply In_combine_at in X as [X1 X2]; auto; [|apply W1]. right. right. split; auto. split; auto. intros A.
    unfold ncom_of, com_of in Nc. apply negb_true_iff in Nc. rewrite <- not_true_iff_false in Nc. apply Nc. apply existsb_name. apply in_map; auto.
Qed.
Lemma cmp_compatible M1 M2 r1 r2 : wf_cpm M1 -> wf_cpm M2 -> agree (c_vars M1) (c_vars M2) -> In r1 (c_C M1) ->
  cmp (com_vars M1 M2) (com_codes M1 M2 r1) (c_vars M2) r2 = true <-> compatible M1 M2 r1 r2.
Proof.
  intros W1 W2 Ag H1. rewrite cmp_iff; [|apply W2|apply (com_ev_ok M1 M2 W1 Ag r1 H1)]. split.
  - intros H v A B. apply H; auto. apply com_codes_In; auto.
  - intros H v s Hs Hv. apply com_codes_In in Hs as (A & B & ->); auto.
Qed.

Lemma rows_prod M1 M2 : wf_cpm M1 -> wf_cpm M2 -> agree (c_vars M1) (c_vars M2) -> common_child M1 M2 = false ->
  (forall row, In row (c_C (prod_result M1 M2)) -> exists r1 r2, In r1 (c_C M1) /\ In r2 (c_C M2) /\ compatible M1 M2 r1 r2 /\ glue M1 M2 r1 r2 row) /\
  (forall r1 r2, In r1 (c_C M1) -> In r2 (c_C M2) -> compatible M1 M2 r1 r2 -> exists row, In row (c_C (prod_result M1 M2)) /\ glue M1 M2 r1 r2 row).
Proof.
  intros W1 W2 Ag Cc. cbn [prod_result c_C]. split.
  - intros row H. apply (Permutation_in _ (prod_sorted_fst M1 M2 W1 W2 Ag)) in H. unfold prod_rows in H.
    apply in_concat in H as (l & Hl & H). apply in_map_iff in Hl as (r1 & <- & H1). cbn [parts_of fst] in H. apply in_map_iff in H as (r2 & <- & H2).
    rewrite Mc_rows in H2 by auto. apply in_map_iff in H2 as (r0 & <- & H2). apply filter_In in H2 as [H2 Hc]. exists r1, r0. split; auto. split; auto.
    split; [apply cmp_compatible; auto|apply glue_prod; auto].
  - intros r1 r2 H1 H2 Hc. apply cmp_compatible in Hc; auto.
    exists (prod_row M1 M2 r1 (cond_row (c_vars M2) (com_vars M1 M2) (com_codes M1 M2 r1) r2)). split; [|apply glue_prod; auto].
    apply (Permutation_in _ (Permutation_sym (prod_sorted_fst M1 M2 W1 W2 Ag))). unfold prod_rows. apply in_concat.
    eexists. split; [apply in_map_iff; exists r1; split; [reflexivity|auto]|]. cbn [parts_of fst]. apply in_map. rewrite Mc_rows by auto.
    apply in_map. apply filter_In. auto.
Qed.

(** * Comparison of rows outside the conditioning variables *)
Section sim.
Variables (K : list variable) (k : joint).

Definition pinned (N : cpm) : Prop :=
  forall row v, In row (c_C N) -> In v (c_vars N) -> In (v_name v) (names K) -> names_state v (cell_of (c_vars N) row v) (k (v_name v)).
Definition covers (N N' : cpm) : Prop :=
  forall row, In row (c_C N) -> exists row', In row' (c_C N') /\
    forall v, In v (c_vars N) -> ~ In (v_name v) (names K) -> cell_of (c_vars N) row' v = cell_of (c_vars N) row v.
Definition sim (N N' : cpm) : Prop := same_shape N N' /\ wf_cpm N /\ wf_cpm N' /\ pinned N' /\ covers N N'.

Lemma n_vars_shape2 M1 M2 N1 N2 : same_shape M1 N1 -> same_shape M2 N2 -> n_vars M1 M2 = n_vars N1 N2 /\ n_child M1 M2 = n_child N1 N2.
Proof. intros H1 H2. apply n_vars_shape; auto. Qed.

Lemma sim_prod_result M1 M2 N1 N2 : sim M1 N1 -> sim M2 N2 -> agree (c_vars M1) (c_vars M2) -> common_child M1 M2 = false ->
  sim (prod_result M1 M2) (prod_result N1 N2).
Proof.
  intros (S1 & W1 & X1 & P1 & C1) (S2 & W2 & X2 & P2 & C2) Ag Cc.
  destruct (n_vars_shape2 M1 M2 N1 N2 S1 S2) as [Nv Nc].
  assert (Ag' : agree (c_vars N1) (c_vars N2)) by (rewrite <- (proj1 S1), <- (proj1 S2); auto).
  assert (Cc' : common_child N1 N2 = false).
  { destruct (shape_children _ _ S1) as [A1 _]. destruct (shape_children _ _ S2) as [A2 _].
    apply common_child_spec. rewrite <- A1, <- A2. apply (proj1 (common_child_spec M1 M2) Cc). }
  destruct (rows_prod M1 M2 W1 W2 Ag Cc) as [RM _]. destruct (rows_prod N1 N2 X1 X2 Ag' Cc') as [RN RN'].
  split; [|split; [|split; [|split]]].
  - split; cbn [prod_result c_vars c_nch]; congruence.
  - apply prod_result_wf; auto.
  - apply prod_result_wf; auto.
  - intros row v Hr Hv Hk. destruct (RN row Hr) as (r1 & r2 & H1 & H2 & _ & G). cbn [prod_result c_vars] in *.
    assert (Ok : var_ok v) by (pose proof (n_vars_ok N1 N2 X1 X2 Ag') as O; rewrite Forall_forall in O; auto).
    destruct (G v Hv) as [(A & B & ->)|[(A & B & ->)|(A & B & ->)]]; auto. apply new_state; auto.
  - intros row Hr. destruct (RM row Hr) as (r1 & r2 & H1 & H2 & Cm & G).
    destruct (C1 r1 H1) as (r1' & H1' & E1). destruct (C2 r2 H2) as (r2' & H2' & E2).
    assert (Cm' : compatible N1 N2 r1' r2').
    { intros v A B. rewrite <- (proj1 S1) in A |- *. rewrite <- (proj1 S2) in B |- *. destruct (in_dec string_dec (v_name v) (names K)) as [Hk|Hk].
      - specialize (P1 r1' v H1'). specialize (P2 r2' v H2'). rewrite <- (proj1 S1) in P1. rewrite <- (proj1 S2) in P2.
        rewrite (meets_state v _ (k (v_name v)) _ (k (v_name v))); auto. apply Z.eqb_refl.
      - rewrite E1, E2 by auto. apply Cm; auto. }
    destruct (RN' r1' r2' H1' H2' Cm') as (row' & Hr' & G'). exists row'. split; auto.
    cbn [prod_result c_vars] in *. intros v Hv Hk. specialize (G v Hv). unfold glue in G'. rewrite <- Nv, <- (proj1 S1), <- (proj1 S2) in G'. specialize (G' v Hv).
    destruct G as [(A & B & ->)|[(A & B & ->)|(A & B & ->)]]; destruct G' as [(A' & B' & ->)|[(A' & B' & ->)|(A' & B' & ->)]]; try contradiction; auto.
    rewrite E1, E2 by auto. auto.
Qed.

Lemma sim_product M1 M2 N1 N2 M N : sim M1 N1 -> sim M2 N2 -> fit M1 M2 -> product M1 M2 = Ok M -> product N1 N2 = Ok N -> sim M N.
Proof.
  intros S1 S2 [Ag Di] H1 H2. assert (Sh1 := proj1 S1). assert (Sh2 := proj1 S2).
  pose proof S1 as (_ & W1 & X1 & _). pose proof S2 as (_ & W2 & X2 & _).
  assert (Ag' : agree (c_vars N1) (c_vars N2)) by (rewrite <- (proj1 Sh1), <- (proj1 Sh2); auto).
  assert (Di' : disjoint_children N1 N2).
  { destruct (shape_children _ _ Sh1) as [A1 _]. destruct (shape_children _ _ Sh2) as [A2 _]. unfold disjoint_children. rewrite <- A1, <- A2. auto. }
  unfold product in *. replace (ncols N2) with (ncols M2) in H2 by (unfold ncols; rewrite (proj1 Sh2); auto).
  replace (ncols N1) with (ncols M1) in H2 by (unfold ncols; rewrite (proj1 Sh1); auto).
  destruct (ncols M2 <? ncols M1)%nat.
  - assert (Hcc : common_child M2 M1 = false) by (apply common_child_spec, disj_sym; auto).
    assert (Hcc' : common_child N2 N1 = false) by (apply common_child_spec, disj_sym; auto).
    destruct (product_ord_inv M2 M1 Hcc M H1) as (I1 & I2 & I3). destruct (product_ord_inv N2 N1 Hcc' N H2) as (J1 & J2 & J3).
    rewrite (product_ord_spec M2 M1 W2 W1 (agree_sym _ _ Ag) Hcc I1 I2 I3) in H1. injection H1 as <-.
    rewrite (product_ord_spec N2 N1 X2 X1 (agree_sym _ _ Ag') Hcc' J1 J2 J3) in H2. injection H2 as <-.
    apply sim_prod_result; auto using agree_sym.
  - assert (Hcc : common_child M1 M2 = false) by (apply common_child_spec; auto).
    assert (Hcc' : common_child N1 N2 = false) by (apply common_child_spec; auto).
    destruct (product_ord_inv M1 M2 Hcc M H1) as (I1 & I2 & I3). destruct (product_ord_inv N1 N2 Hcc' N H2) as (J1 & J2 & J3).
    rewrite (product_ord_spec M1 M2 W1 W2 Ag Hcc I1 I2 I3) in H1. injection H1 as <-.
    rewrite (product_ord_spec N1 N2 X1 X2 Ag' Hcc' J1 J2 J3) in H2. injection H2 as <-.
    apply sim_prod_result; auto.
Qed.

Lemma sim_fold l : forall l' M N M' N', Forall2 sim l l' -> sim M N -> (forall A, In A l -> fit M A) -> fit_list l ->
  foldM product l M = Ok M' -> foldM product l' N = Ok N' -> sim M' N'.
Proof.
  induction l as [|A l IH]; intros l' M N M' N' F S HF [HW HP] H1 H2; inversion F as [|? B ? l'' FA FB]; subst; cbn [foldM] in *.
  - congruence.
  - destruct (product M A) as [MA|] eqn:E1; cbn [bind] in H1; [|congruence].
    destruct (product N B) as [NB|] eqn:E2; cbn [bind] in H2; [|congruence].
    inversion HW as [|? ? W1 HW']; subst. destruct HP as [HP1 HP2]. assert (F1 := HF A (or_introl eq_refl)).
    apply (IH l'' MA NB); auto.
    + apply (sim_product M A N B); auto.
    + intros X HX. destruct F1 as [F1 F2]. assert (PO := product_ok M A MA (proj1 (proj2 S)) W1 F1 F2 E1). eapply fit_product; [| |exact PO]; [apply HF; right; auto|apply HP1; auto].
    + split; auto.
Qed.
Lemma sim_product_list l l' M N : Forall2 sim l l' -> fit_list l -> product_list l = Ok M -> product_list l' = Ok N -> sim M N.
Proof.
  intros F [HW HP] H1 H2. inversion F; subst; cbn [product_list] in *; [congruence|]. inversion HW; subst. destruct HP as [HP1 HP2].
  eapply sim_fold; eauto. split; auto.
Qed.

Lemma sim_sum M N vs Ms Ns : sim M N -> sum M (Vars vs) true = Ok Ms -> sum N (Vars vs) true = Ok Ns -> sim Ms Ns.
Proof.
  intros (S & W & X & P & C) H1 H2. destruct (shape_children _ _ S) as [Sc Sp].
  assert (KK : kept N vs true = kept M vs true) by (unfold kept; rewrite Sc, Sp; auto).
  assert (K1 : kept M vs true <> []) by (intros Y; rewrite (sum_all M vs true W) in H1; auto; [congruence|discriminate]).
  assert (K2 : kept N vs true <> []) by (rewrite KK; auto).
  destruct (sum_spec M vs true W ltac:(discriminate) K1) as (Ms' & E1 & WM & VM & CM & PM & _ & RM & _). assert (Ms' = Ms) by congruence. subst Ms'.
  destruct (sum_spec N vs true X ltac:(discriminate) K2) as (Ns' & E2 & WN & VN & CN & PN & _ & RN & _). assert (Ns' = Ns) by congruence. subst Ns'.
  assert (NK : NoDup (names (kept M vs true))) by (rewrite <- VM; apply WM).
  assert (IK : incl (kept M vs true) (c_vars M)) by (intros v; apply kept_incl).
  split; [|split; [auto|split; [auto|split]]].
  - split; [congruence|]. rewrite <- (children_length Ms WM), <- (children_length Ns WN), CM, CN, Sc. auto.
  - intros row v Hr Hv Hk. apply RN in Hr as (r & Hr & ->). rewrite VN in *. rewrite KK in *. rewrite proj_at by auto.
    apply P; auto. rewrite <- (proj1 S). apply IK; auto.
  - intros row Hr. apply RM in Hr as (r & Hr & ->). destruct (C r Hr) as (r' & Hr' & E).
    exists (proj (c_vars N) (kept N vs true) r'). split; [apply RN; eauto|]. rewrite VM, KK. intros v Hv Hk. rewrite !proj_at by auto.
    rewrite <- (proj1 S). apply E; auto.
Qed.

Lemma sim_filter (f : cpm -> bool) l l' : (forall M N, same_shape M N -> f M = f N) -> Forall2 sim l l' -> Forall2 sim (filter f l) (filter f l').
Proof.
  intros Hf F. induction F as [|M N l l' HM F IH]; cbn [filter]; [constructor|]. rewrite <- (Hf M N) by apply HM. destruct (f M); auto.
Qed.

Lemma sim_elim vars : forall l l' m m', Forall2 sim l l' -> ve_ok l vars ->
  variable_elim_list l vars = Ok m -> variable_elim_list l' vars = Ok m' -> Forall2 sim m m'.
Proof.
  unfold variable_elim_list. induction vars as [|v vars IH]; intros l l' m m' F V H1 H2; cbn [foldM] in *; [congruence|].
  destruct (elim_step l v) as [l1|] eqn:E1; cbn [bind] in H1; [|discriminate].
  destruct (elim_step l' v) as [l2|] eqn:E2; cbn [bind] in H2; [|discriminate].
  assert (V1 := proj1 (elim_step_ok l v vars l1 V E1)). eapply IH; [|exact V1|exact H1|exact H2].
  assert (Sc : forall M N, same_shape M N -> in_scope v M = in_scope v N) by (intros M N [E _]; unfold in_scope; rewrite E; auto).
  unfold elim_step in E1, E2.
  destruct (product_list (filter (in_scope v) l)) as [P|] eqn:A1; cbn [bind] in E1; [|congruence].
  destruct (product_list (filter (in_scope v) l')) as [P'|] eqn:A2; cbn [bind] in E2; [|congruence].
  destruct (sum P (Vars [v]) true) as [S|] eqn:A3; cbn [bind] in E1; [|congruence].
  destruct (sum P' (Vars [v]) true) as [S'|] eqn:A4; cbn [bind] in E2; [|congruence].
  injection E1 as <-. injection E2 as <-. constructor.
  - eapply sim_sum; [|exact A3|exact A4]. eapply sim_product_list; [apply sim_filter; [exact Sc|exact F]|apply fit_list_filter, V|exact A1|exact A2].
  - apply sim_filter; auto. intros M N X. rewrite (Sc M N X). auto.
Qed.
Lemma sim_variable_elim l l' vars M N : Forall2 sim l l' -> ve_ok l vars ->
  variable_elim l vars = Ok M -> variable_elim l' vars = Ok N -> sim M N.
Proof.
  unfold variable_elim. intros F V H1 H2.
  destruct (variable_elim_list l vars) as [m|] eqn:E1; cbn [bind] in H1; [|congruence].
  destruct (variable_elim_list l' vars) as [m'|] eqn:E2; cbn [bind] in H2; [|congruence].
  eapply sim_product_list; [eapply sim_elim; [exact F|exact V|exact E1|exact E2]| |exact H1|exact H2].
  apply (elim_list_ok vars l m V E1).
Qed.

Lemma sim_drop M N n : sim M N -> forall r, In r (c_C (drop M K n)) -> In r (c_C (drop N K n)).
Proof.
  intros (S & W & X & P & C) r H. cbn [drop c_C] in *. apply in_map_iff in H as (row & <- & H). destruct (C row H) as (row' & H' & E).
  apply in_map_iff. exists row'. split; auto. unfold others. rewrite <- (proj1 S). unfold proj. apply map_ext_in. intros v Hv.
  apply others_In in Hv as [Hv Hk]. apply E; auto.
Qed.
End sim.

(** * The joint state of a row of basic states *)
Lemma choose_joint (Q : variable -> Z -> Prop) (vs : list variable) : NoDup (names vs) -> (forall v, In v vs -> exists s, Q v s) ->
  exists b : joint, forall v, In v vs -> Q v (b (v_name v)).
Proof.
  induction vs as [|v vs IH]; intros N H; [exists (fun _ => 0); intros v []|]. inversion N as [|? ? N1 N2]; subst.
  destruct (IH N2 (fun w Hw => H w (or_intror Hw))) as [b Hb]. destruct (H v (or_introl eq_refl)) as [s Hs].
  exists (fun n => if String.eqb n (v_name v) then s else b n). intros w [<-|Hw].
  - rewrite String.eqb_refl. auto.
  - destruct (String.eqb_spec (v_name w) (v_name v)) as [E|E]; [exfalso; apply N1; rewrite <- E; apply in_map; auto|auto].
Qed.

Lemma prod_allows M1 M2 M a : wf_cpm M1 -> wf_cpm M2 -> agree (c_vars M1) (c_vars M2) -> disjoint_children M1 M2 -> product M1 M2 = Ok M ->
  (0 < cnt M a)%nat -> (0 < cnt M1 a)%nat /\ (0 < cnt M2 a)%nat.
Proof.
  intros W1 W2 Ha Hd H O. unfold product in H. destruct (ncols M2 <? ncols M1)%nat.
  - assert (Hcc : common_child M2 M1 = false) by (apply common_child_spec, disj_sym; auto).
    destruct (product_ord_inv M2 M1 Hcc M H) as (I1 & I2 & I3).
    rewrite (product_ord_spec M2 M1 W2 W1 (agree_sym _ _ Ha) Hcc I1 I2 I3) in H. injection H as <-.
    rewrite cnt_prod_result in O by (auto using agree_sym, disj_sym). nia.
  - assert (Hcc : common_child M1 M2 = false) by (apply common_child_spec; auto).
    destruct (product_ord_inv M1 M2 Hcc M H) as (I1 & I2 & I3).
    rewrite (product_ord_spec M1 M2 W1 W2 Ha Hcc I1 I2 I3) in H. injection H as <-.
    rewrite cnt_prod_result in O by auto. nia.
Qed.
Lemma fold_allows a l : forall M0 M, wf_cpm M0 -> (forall M', In M' l -> fit M0 M') -> fit_list l ->
  foldM product l M0 = Ok M -> (0 < cnt M a)%nat -> (0 < cnt M0 a)%nat /\ forall N, In N l -> (0 < cnt N a)%nat.
Proof.
  induction l as [|M1 l IH]; intros M0 M W0 HF [HW HP] H O; cbn [foldM] in H; [injection H as <-; split; auto; intros N []|].
  destruct (product M0 M1) as [M01|] eqn:E; cbn [bind] in H; [|congruence].
  inversion HW as [|? ? W1 HW']; subst. destruct HP as [HP1 HP2].
  destruct (HF M1 (or_introl eq_refl)) as [F1 F2].
  assert (P := product_ok M0 M1 M01 W0 W1 F1 F2 E).
  destruct (IH M01 M) as [O1 O2]; auto.
  - apply P.
  - intros M' HM. eapply fit_product; [| |eauto]; [apply HF; right; auto|apply HP1; auto].
  - split; auto.
  - destruct (prod_allows M0 M1 M01 a W0 W1 F1 F2 E O1) as [A B]. split; auto. intros N [<-|HN]; auto.
Qed.
Lemma cnt_row M a : (0 < cnt M a)%nat <-> exists row, In row (c_C M) /\ row_match (c_vars M) row a = true.
Proof.
  unfold cnt. split.
  - destruct (filter _ (c_C M)) as [|r l] eqn:E; cbn; [lia|]. intros _. exists r. apply (proj1 (filter_In (fun r => row_match (c_vars M) r a) r (c_C M))). rewrite E. left; auto.
  - intros (row & H). apply (proj2 (filter_In (fun r => row_match (c_vars M) r a) row (c_C M))) in H. destruct (filter _ (c_C M)); [destruct H|cbn; lia].
Qed.
Lemma list_allows l M a row : fit_list l -> product_list l = Ok M -> In row (c_C M) -> row_match (c_vars M) row a = true -> allows l a.
Proof.
  destruct l as [|M0 l]; cbn [product_list]; [congruence|]. intros [HW [HP1 HP2]] H Hr Hm. inversion HW; subst.
  assert (O : (0 < cnt M a)%nat) by (apply cnt_row; eauto).
  destruct (fold_allows a l M0 M) as [A B]; auto; [split; auto|]. intros N [<-|HN]; apply cnt_row; auto.
Qed.

Section total.
Variables (l : list cpm) (varis : list variable) (cond : list cpm) (P : cpm) (K : list variable).
Hypothesis V : vec_ok l varis cond.
Hypothesis HP : product_list cond = Ok P.
Hypothesis HK : lists_scopes K cond.
Hypothesis T : vec_total l varis cond K.

Local Notation P_is := (VeFacts.P_is l varis cond P V HP).
Local Notation P_vars := (VeFacts.P_vars l varis cond P K V HP HK).
Local Notation P_names := (VeFacts.P_names l varis cond P K V HP HK).
Local Notation P_agree := (VeFacts.P_agree l varis cond P V HP).
Local Notation pass := (VeFacts.pass l varis P).

Lemma P_wf : wf_cpm P. Proof using V HP. apply P_is. Qed.
Lemma P_self : agree (c_vars P) (c_vars P). Proof using V HP. intros v w. apply NoDup_names_inj, P_wf. Qed.
Lemma fit_cond : fit_list cond. Proof using V. apply (fit_app l cond), V. Qed.
Lemma ev_P cx : In cx (c_C P) -> ev_ok (c_vars P) (c_vars P) cx.
Proof using V HP. intros H. apply ev_ok_row; auto; [apply P_wf|apply P_self]. Qed.

(** the state that the row [cx] stands for *)
Definition state_of (cx : list Z) (b : joint) : Prop :=
  forall v, In v (c_vars P) -> names_state v (cell_of (c_vars P) cx v) (b (v_name v)).
Lemma state_ex cx : In cx (c_C P) -> exists b, state_of cx b.
Proof using V HP HK.
  intros H. apply (choose_joint (fun v s => names_state v (cell_of (c_vars P) cx v) s)); [apply P_wf|].
  intros v Hv. assert (B : basic_in P v).
  { destruct V as (F & _ & _ & _ & _ & Bas). destruct (product_list_keep cond P v fit_cond HP) as [_ KB]. apply KB. apply Bas. apply HK. apply P_vars. auto. }
  assert (L := proj1 (wf_rows P cx P_wf H)).
  destruct (B cx (cell_of (c_vars P) cx v) H) as (s & _ & Hs); [apply In_combine_at; auto; apply P_wf|]. exists s. split; auto.
  apply (Forall2_at (c_vars P)); [apply P_wf; auto|apply pos_In; auto; apply P_wf].
Qed.
Lemma state_match cx b : In cx (c_C P) -> state_of cx b -> row_match (c_vars P) cx b = true.
Proof using V HP.
  intros H S. assert (L := proj1 (wf_rows P cx P_wf H)). unfold row_match. apply forallb_forall. intros [v c] Hin.
  apply In_combine_at in Hin as [Hv ->]; auto; [|apply P_wf]. apply mem_Z_In. apply (S v Hv). auto.
Qed.
Lemma state_allows cx b : In cx (c_C P) -> state_of cx b -> allows cond b.
Proof using V HP. intros H S. apply (list_allows cond P b cx); auto using fit_cond, state_match. Qed.
Lemma cx_cell cx v s : In cx (c_C P) -> In (v, s) (combine (c_vars P) cx) <-> In v (c_vars P) /\ s = cell_of (c_vars P) cx v.
Proof using V HP. intros H. apply In_combine_at; [apply P_wf|apply (wf_rows P cx P_wf H)]. Qed.

(** ** one CPM, conditioned on two rows *)
Lemma sim_cond N cx cx0 b0 N1 N0 : In N l -> In cx (c_C P) -> In cx0 (c_C P) -> state_of cx0 b0 ->
  condition N (Vars (c_vars P)) (map SI cx) = Ok N1 -> condition N (Vars (c_vars P)) (map SI cx0) = Ok N0 -> sim K b0 N1 N0.
Proof using V HP HK T.
  intros HN Hx H0 S0 E1 E0. destruct (state_ex cx Hx) as [b Sb].
  assert (WN : wf_cpm N) by (destruct V as ([F _] & _); rewrite Forall_forall in F; apply F, in_or_app; auto).
  assert (Ag := P_agree N HN). pose proof (proj1 WN) as NN.
  assert (Ev := fun y Hy => ev_ok_row N P y P_wf Ag Hy).
  destruct (condition_ok N _ cx WN (Ev cx Hx)) as (X1 & Y1 & W1 & V1 & C1 & _). assert (X1 = N1) by congruence. subst X1.
  destruct (condition_ok N _ cx0 WN (Ev cx0 H0)) as (X0 & Y0 & W0 & V0 & C0 & _). assert (X0 = N0) by congruence. subst X0.
  clear Y1 Y0. rewrite condition_spec in E1 by auto. rewrite condition_spec in E0 by auto. injection E1 as E1. injection E0 as E0.
  assert (Kv : forall v, In v (c_vars N) -> (In (v_name v) (names K) <-> In v K)).
  { intros v Hv. split; [|intros; apply in_map; auto]. intros Y. apply in_map_iff in Y as (w & Ew & Hw). rewrite <- (Ag w v); auto. apply P_vars; auto. }
  assert (Gw : forall row y by_, In row (c_C N) -> In y (c_C P) -> state_of y by_ ->
     (goes_with K N row by_ <-> cmp (c_vars P) y (c_vars N) row = true)).
  { intros row y b' Hr Hy Sy. assert (Lr := proj1 (wf_rows N row WN Hr)). rewrite cmp_iff by auto. split.
    - intros G v s Hs Hv. apply cx_cell in Hs as [HvP ->]; auto. apply meets_spec. exists (b' (v_name v)). split; [apply (Sy v HvP); auto|].
      apply (G v); [apply In_combine_at; auto|apply P_vars; auto].
    - intros G v c Hc HvK. apply In_combine_at in Hc as [Hv ->]; auto. assert (HvP : In v (c_vars P)) by (apply P_vars; auto).
      specialize (G v (cell_of (c_vars P) y v) (proj2 (cx_cell y v _ Hy) (conj HvP eq_refl)) Hv). apply meets_spec in G as (x & G1 & G2).
      apply (Sy v HvP) in G1. subst x. auto. }
  assert (Out : forall row y v, In row (c_C N) -> In y (c_C P) -> In v (c_vars N) -> ~ In (v_name v) (names K) ->
     cell_of (c_vars N) (cond_row (c_vars N) (c_vars P) y row) v = cell_of (c_vars N) row v).
  { intros row y v Hr Hy Hv Hk. destruct (cond_at (c_vars N) (c_vars P) y row v NN (Ev y Hy) (proj1 (wf_rows N row WN Hr)) Hv) as [(s & Hs & _)|[_ E]]; auto.
    exfalso. apply Hk. apply in_combine_l in Hs. apply in_map. apply P_vars; auto. }
  split; [split; congruence|]. split; auto. split; auto. split.
  - intros row v Hr Hv Hk. rewrite V0 in *. rewrite <- E0 in Hr. cbn [c_C] in Hr. apply in_map_iff in Hr as (r & <- & Hr).
    apply filter_In in Hr as [Hr Hc]. apply Kv in Hk; auto. assert (HvP : In v (c_vars P)) by (apply P_vars; auto).
    destruct (cond_at (c_vars N) (c_vars P) cx0 r v NN (Ev cx0 H0) (proj1 (wf_rows N r WN Hr)) Hv) as [(s & Hs & ->)|[X _]]; [|contradiction].
    pose proof (proj1 (cmp_iff (c_vars N) (c_vars P) cx0 r NN Ag) Hc v s Hs Hv) as Me.
    apply cx_cell in Hs as [_ ->]; auto. destruct (S0 v HvP) as [Cs Ss].
    destruct (new_code_spec v (cell_of (c_vars N) r v) (cell_of (c_vars P) cx0 v)) as [A B]; auto.
    { destruct WN as (_ & O & _). rewrite Forall_forall in O. auto. }
    { apply (Forall2_at (c_vars N)); [apply WN; auto|apply pos_In; auto]. }
    split; auto. intros x. rewrite B, Ss. apply meets_spec in Me as (y & M1 & M2). apply Ss in M1. subst y. split; [tauto|]. intros ->. auto.
  - intros row Hr. rewrite <- E1 in Hr. cbn [c_C] in Hr. apply in_map_iff in Hr as (r & <- & Hr). apply filter_In in Hr as [Hr Hc].
    destruct T as (_ & _ & _ & _ & _ & Even).
    destruct (Even N HN r b b0 Hr) as (r' & Hr' & G' & Eq); [apply (Gw r cx b); auto|apply (state_allows cx); auto|apply (state_allows cx0); auto|].
    exists (cond_row (c_vars N) (c_vars P) cx0 r'). split.
    + rewrite <- E0. cbn [c_C]. apply in_map. apply filter_In. split; auto. apply (Gw r' cx0 b0); auto.
    + rewrite V1. intros v Hv Hk. rewrite !Out by auto.
      assert (X := Eq v (cell_of (c_vars N) r v)). rewrite !In_combine_at in X by (auto; apply (wf_rows N _ WN); auto).
      destruct X as [_ X]; auto. intros Y. apply Hk. apply in_map. auto.
Qed.

Lemma sim_P cx cx0 b0 P1 P0 : In cx (c_C P) -> In cx0 (c_C P) -> state_of cx0 b0 ->
  condition P (Vars (c_vars P)) (map SI cx) = Ok P1 -> condition P (Vars (c_vars P)) (map SI cx0) = Ok P0 -> sim K b0 P1 P0.
Proof using V HP HK.
  intros Hx H0 S0 E1 E0. assert (W := P_wf). pose proof (proj1 W) as NN. assert (Ev := ev_P).
  destruct (condition_ok P _ cx W (Ev cx Hx)) as (X1 & Y1 & W1 & V1 & C1 & _). assert (X1 = P1) by congruence. subst X1.
  destruct (condition_ok P _ cx0 W (Ev cx0 H0)) as (X0 & Y0 & W0 & V0 & C0 & _). assert (X0 = P0) by congruence. subst X0.
  clear Y1 Y0. rewrite condition_spec in E1 by auto. rewrite condition_spec in E0 by auto. injection E1 as E1. injection E0 as E0.
  split; [split; congruence|]. split; auto. split; auto. split.
  - intros row v Hr Hv Hk. rewrite V0 in *. rewrite <- E0 in Hr. cbn [c_C] in Hr. apply in_map_iff in Hr as (r & <- & Hr).
    apply filter_In in Hr as [Hr Hc].
    destruct (cond_at (c_vars P) (c_vars P) cx0 r v NN (Ev cx0 H0) (proj1 (wf_rows P r W Hr)) Hv) as [(s & Hs & ->)|[X _]]; [|contradiction].
    pose proof (proj1 (cmp_iff (c_vars P) (c_vars P) cx0 r NN P_self) Hc v s Hs Hv) as Me.
    apply cx_cell in Hs as [_ ->]; auto. destruct (S0 v Hv) as [Cs Ss].
    destruct (new_code_spec v (cell_of (c_vars P) r v) (cell_of (c_vars P) cx0 v)) as [A B]; auto.
    { destruct W as (_ & O & _). rewrite Forall_forall in O. auto. }
    { apply (Forall2_at (c_vars P)); [apply W; auto|apply pos_In; auto]. }
    split; auto. intros x. rewrite B, Ss. apply meets_spec in Me as (y & M1 & M2). apply Ss in M1. subst y. split; [tauto|]. intros ->. auto.
  - intros row Hr. exists (cond_row (c_vars P) (c_vars P) cx0 cx0). split.
    + rewrite <- E0. cbn [c_C]. apply in_map. apply filter_In. split; auto. apply cmp_iff; auto using P_self.
      intros v s Hs Hv. apply cx_cell in Hs as [_ ->]; auto. destruct (S0 v Hv) as [_ Ss]. apply meets_spec. exists (b0 (v_name v)). split; apply Ss; auto.
    + rewrite V1. intros v Hv Hk. exfalso. apply Hk. apply in_map. apply P_vars; auto.
Qed.

Lemma sim_op cx cx0 b0 l1 l0 : In cx (c_C P) -> In cx0 (c_C P) -> state_of cx0 b0 ->
  op_condition l (Vars (c_vars P)) (map SI cx) = Ok l1 -> op_condition l (Vars (c_vars P)) (map SI cx0) = Ok l0 -> Forall2 (sim K b0) l1 l0.
Proof using V HP HK T.
  intros Hx H0 S0 E1 E0. unfold op_condition in *. cbn [bind] in *. rewrite cond_states_SI in *. cbn [bind] in *.
  assert (G' : forall N N1 N0, In N l -> condition N (Vars (c_vars P)) (map SI cx) = Ok N1 -> condition N (Vars (c_vars P)) (map SI cx0) = Ok N0 -> sim K b0 N1 N0).
  { intros N N1 N0 HN. exact (fun A B => sim_cond N cx cx0 b0 N1 N0 HN Hx H0 S0 A B). }
  clear -E1 E0 G'. revert l1 l0 E1 E0.
  induction l as [|N m IH]; intros l1 l0 E1 E0; cbn [mapM] in *.
  - injection E1 as <-. injection E0 as <-. constructor.
  - destruct (condition N (Vars (c_vars P)) (map SI cx)) as [N1|] eqn:A1; cbn [bind] in E1; [|discriminate].
    destruct (condition N (Vars (c_vars P)) (map SI cx0)) as [N0|] eqn:A0; cbn [bind] in E0; [|discriminate].
    destruct (mapM _ m) as [m1|] eqn:B1 in E1; cbn [bind] in E1; [|discriminate].
    destruct (mapM _ m) as [m0|] eqn:B0 in E0; cbn [bind] in E0; [|discriminate].
    injection E1 as <-. injection E0 as <-. constructor.
    + apply (G' N); auto. left; auto.
    + apply IH; auto. intros X X1 X0 HX. apply G'. right; auto.
Qed.

Lemma ve_cond cx l' : In cx (c_C P) -> op_condition l (Vars (c_vars P)) (map SI cx) = Ok l' -> ve_ok l' varis.
Proof using V HP.
  intros Hx E. assert (FL := cond_list l varis cond P V HP cx l' Hx E).
  eapply ve_ok_map; [apply V|]. clear -FL. induction FL as [|N N' l l' (A & B & C & D & _) FL IH]; constructor; auto.
Qed.

Lemma sim_pass cx cx0 b0 M R : In cx (c_C P) -> In cx0 (c_C P) -> state_of cx0 b0 -> pass cx M -> pass cx0 R -> sim K b0 M R.
Proof using V HP HK T.
  intros Hx H0 S0 (P1 & l1 & E1 & A1 & A2 & A3 & A4) (P0 & l0 & E0 & B1 & B2 & B3 & B4).
  assert (SE : sim K b0 E1 E0) by (eapply sim_variable_elim; [eapply sim_op; [exact Hx|exact H0|exact S0|exact A2|exact B2]|eapply ve_cond; [exact Hx|exact A2]|exact A3|exact B3]).
  assert (SP : sim K b0 P1 P0) by (eapply sim_P; [exact Hx|exact H0|exact S0|exact A1|exact B1]).
  eapply sim_product; [exact SE|exact SP| |exact A4|exact B4].
  assert (Ve' := ve_cond cx l1 Hx A2). destruct (variable_elim_ok l1 varis E1 Ve' A3) as (WE & _ & Sc & Ch).
  assert (FL := cond_list l varis cond P V HP cx l1 Hx A2).
  assert (Back : forall N', In N' l1 -> exists N, In N l /\ c_vars N = c_vars N' /\ children N = children N').
  { clear -FL. induction FL as [|N N' l l' (_ & B & _) FL IH]; [intros X []|]. intros X [<-|HX].
    - exists N. split; [left; auto|]. split; [apply B|apply (shape_children _ _ B)].
    - destruct (IH X HX) as (Y & HY & Z). exists Y. split; [right|]; auto. }
  destruct (condition_ok P _ cx P_wf (ev_P cx Hx)) as (X & Y & _ & VP & CP & _). assert (X = P1) by congruence. subst X.
  split.
  - intros v w Hv Hw Ev. rewrite VP in Hw. apply Sc in Hv as [(N' & HN' & Hv) _]. destruct (Back N' HN') as (N & HN & EN & _). symmetry. apply (P_agree N HN); auto. rewrite EN; auto.
  - intros v w Hv Hw Ev. assert (CC : children P1 = children P) by (unfold children; rewrite VP, CP; auto). rewrite CC in Hw.
    apply Ch in Hv as [(N' & HN' & Hv) _]. destruct (Back N' HN') as (N & HN & _ & EN).
    destruct P_is as (_ & _ & _ & S). apply S in Hw as (N2 & HN2 & Hw). destruct V as (F & _). apply fit_app in F as (_ & _ & F).
    destruct (F N N2 HN HN2) as [_ D]. apply (D v w); auto. rewrite EN. auto.
Qed.

(** ** every pass succeeds *)
Lemma op_cond_ok cx : In cx (c_C P) -> exists l', op_condition l (Vars (c_vars P)) (map SI cx) = Ok l'.
Proof using V HP.
  intros Hx. unfold op_condition. cbn [bind]. rewrite cond_states_SI. cbn [bind].
  assert (G : forall N, In N l -> exists N', condition N (Vars (c_vars P)) (map SI cx) = Ok N').
  { intros N HN. assert (WN : wf_cpm N) by (destruct V as ([F _] & _); rewrite Forall_forall in F; apply F, in_or_app; auto).
    destruct (condition_ok N _ cx WN (ev_ok_row N P cx P_wf (P_agree N HN) Hx)) as (N' & E & _). eauto. }
  clear -G. induction l as [|N m IH]; cbn [mapM]; [eauto|]. destruct (G N (or_introl eq_refl)) as [N' ->]. cbn [bind].
  destruct (IH (fun X HX => G X (or_intror HX))) as [m' ->]. cbn [bind]. eauto.
Qed.

Lemma linked_shape (m m' : list cpm) x y : (forall N, In N m -> exists N', In N' m' /\ c_vars N' = c_vars N) -> linked m x y -> linked m' x y.
Proof.
  intros H L. induction L as [x|N x y z A B C D IH]; [apply linked_refl|]. destruct (H N A) as (N' & HN' & E).
  apply (linked_step m' N' x y); auto; rewrite E; auto.
Qed.

Lemma ve_alive m vars a : ve_ok m vars -> m <> [] -> alive m a ->
  (forall v, In v vars -> exists q, linked m (v_name v) q /\ ~ In q (names vars)) ->
  exists M, variable_elim m vars = Ok M /\ (0 < mass M a)%Qc /\ c_vars M <> [].
Proof using.
  intros Ve Hl A H. destruct (elim_list_alive vars m a Ve Hl A H) as (l' & E & A' & V' & Hne). unfold variable_elim. rewrite E. cbn [bind].
  destruct (product_list_total l' a) as [M HM]; auto; [apply V'| |].
  - intros M X. destruct (A' M X) as (A1 & A2 & A3). split; [apply qc_pos_ne; auto|]. split; auto.
    destruct V' as (_ & Hp & _). rewrite Forall_forall in Hp. specialize (Hp M X). intros Y. unfold has_p in Hp. rewrite Y in Hp.
    apply (mass_rows M a (qc_pos_ne _ A2)). destruct (c_C M); [auto|discriminate].
  - exists M. split; auto. destruct (product_list_ok l' M (proj1 V') HM) as (_ & Mm & Vm & _). split.
    + rewrite Mm. apply qprod_pos. intros x Hx. apply in_map_iff in Hx as (N & <- & HN). apply A'. auto.
    + destruct l' as [|N m']; [congruence|]. destruct (A' N (or_introl eq_refl)) as (_ & _ & Nv). destruct (c_vars N) as [|v vs] eqn:Ev; [congruence|].
      intros X. assert (In v (c_vars M)); [apply Vm; exists N; split; [left; auto|rewrite Ev; left; auto]|]. rewrite X in *. auto.
Qed.

Lemma pos_rows M a : (0 < mass M a)%Qc -> c_C M <> [].
Proof. intros H. apply (mass_rows M a (qc_pos_ne _ H)). Qed.

Lemma pass_total cx : In cx (c_C P) -> exists M, pass cx M /\ c_C M <> [].
Proof using V HP HK T.
  intros Hx. destruct (state_ex cx Hx) as [b Sb]. pose proof T as (T1 & T2 & _ & T4 & T5 & _).
  destruct (T4 b (state_allows cx b Hx Sb)) as (a & Ea & Al).
  assert (Rm : row_match (c_vars P) cx a = true).
  { rewrite <- (state_match cx b Hx Sb). apply row_match_ext. intros v Hv. apply Ea. apply P_vars. auto. }
  destruct (condition_ok P _ cx P_wf (ev_P cx Hx)) as (P' & EP & WP & VP & CP & MP).
  destruct (op_cond_ok cx Hx) as [l' El].
  assert (FL := cond_list l varis cond P V HP cx l' Hx El). assert (Ve' := ve_cond cx l' Hx El).
  assert (Al' : alive l' a).
  { assert (Al0 : alive l a) by (intros N HN; apply Al, in_or_app; auto). clear -FL Al0 Rm.
    induction FL as [|N N' l l' (_ & [A _] & _ & _ & E) FL IH]; [intros X []|]. intros X [<-|HX].
    - destruct (Al0 N (or_introl eq_refl)) as (B1 & B2 & B3). split; [|split].
      + intros c. rewrite E. destruct (ev_match _ _ _ c); [auto|apply Qcle_refl].
      + rewrite E. assert (Y : ev_match (c_vars N) (c_vars P) cx a = true); [|rewrite Y; auto].
        unfold row_match in Rm. unfold ev_match. rewrite forallb_forall in *. intros vc Hvc. rewrite (Rm vc Hvc). apply orb_true_r.
      + rewrite <- A. auto.
    - apply IH; auto. intros Y HY. apply Al0. right; auto. }
  destruct (ve_alive l' varis a Ve') as (E & EE & PE & VE); auto.
  { intros ->. inversion FL; subst. auto. }
  { intros v Hv. destruct (T5 v Hv) as (q & L & Hq). exists q. split; auto. apply (linked_shape l l'); auto. clear -FL.
    induction FL as [|N N' l l' (_ & [A _] & _) FL IH]; [intros X []|]. intros X [<-|HX].
    - exists N'. split; [left; auto|]. auto.
    - destruct (IH X HX) as (Y & HY & Z). exists Y. split; [right|]; auto. }
  assert (PP : (0 < mass P' a)%Qc).
  { rewrite MP, ev_full, Rm. destruct P_is as (_ & Mm & _). rewrite Mm. apply qprod_pos. intros x HX. apply in_map_iff in HX as (N & <- & HN).
    apply Al. apply in_or_app; auto. }
  destruct (variable_elim_ok l' varis E Ve' EE) as (WE & _ & Sc & Ch).
  assert (Back : forall N', In N' l' -> exists N, In N l /\ c_vars N = c_vars N' /\ children N = children N').
  { clear -FL. induction FL as [|N N' l l' (_ & B & _) FL IH]; [intros X []|]. intros X [<-|HX].
    - exists N. split; [left; auto|]. split; [apply B|apply (shape_children _ _ B)].
    - destruct (IH X HX) as (Y & HY & Z). exists Y. split; [right|]; auto. }
  assert (Ag : agree (c_vars E) (c_vars P')).
  { intros v w Hv Hw Ev. rewrite VP in Hw. apply Sc in Hv as [(N' & HN' & Hv) _]. destruct (Back N' HN') as (N & HN & EN & _). symmetry. apply (P_agree N HN); auto. rewrite EN; auto. }
  assert (Di : disjoint_children E P').
  { intros v w Hv Hw Ev. assert (CC : children P' = children P) by (unfold children; rewrite VP, CP; auto). rewrite CC in Hw.
    apply Ch in Hv as [(N' & HN' & Hv) _]. destruct (Back N' HN') as (N & HN & _ & EN).
    destruct P_is as (_ & _ & _ & S). apply S in Hw as (N2 & HN2 & Hw). destruct V as (F & _). apply fit_app in F as (_ & _ & F).
    destruct (F N N2 HN HN2) as [_ D]. apply (D v w); auto. rewrite EN. auto. }
  assert (HpP : has_p P').
  { apply (condition_p P (c_vars P) cx P' P_wf (ev_P cx Hx)); auto.
    destruct cond as [|N0 m] eqn:Ec; [congruence|]. rewrite <- Ec in *. destruct (product_list_keep cond P (mkVar "" [] None None) fit_cond HP) as [KP _].
    apply KP. destruct V as (_ & Hp & _). apply Forall_app in Hp. tauto. }
  destruct (product_total E P' WE WP Ag Di) as [M EM]; eauto using pos_rows.
  { rewrite VP. destruct cond as [|N0 m] eqn:Ec; [congruence|]. rewrite <- Ec in *. assert (HN0 : In N0 cond) by (rewrite Ec; left; auto).
    destruct (Al N0 (in_or_app _ _ _ (or_intror HN0))) as (_ & _ & Nv). destruct (c_vars N0) as [|v vs] eqn:Ev; [congruence|].
    intros X. assert (In v (c_vars P)) by (apply P_is; exists N0; split; [auto|rewrite Ev; left; auto]). rewrite X in *. auto. }
  { right. intros X. unfold has_p in HpP. rewrite X in HpP. apply (pos_rows P' a PP). destruct (c_C P'); [auto|discriminate]. }
  exists M. split; [exists P', l', E; auto|]. apply (pos_rows M a).
  destruct (product_ok E P' M WE WP Ag Di EM) as (_ & MM & _). rewrite MM.
  replace (mass E a * mass P' a)%Qc with (qprod [mass E a; mass P' a]) by (cbn; ring). apply qprod_pos. intros x [<-|[<-|[]]]; auto.
Qed.

(** ** the loop *)
Definition reached2 (st : option (list nat) * option cpm) : Prop :=
  st = (None, None) \/
  exists R cx0 M, In cx0 (c_C P) /\ pass cx0 R /\ c_C R <> [] /\ others R K <> [] /\
    st = (Some (map (pos (c_vars R)) (others R K)), Some M) /\ wf_cpm M /\ has_p M /\
    c_vars M = others R K /\ c_C M = map (proj (c_vars R) (others R K)) (c_C R).

Let cn := nodup string_dec (flat_map (fun M => names (c_vars M)) cond).

Lemma col_ind_ok M : NoDup (names (c_vars M)) -> incl K (c_vars M) -> exists idx, get_col_ind M cn = Ok idx.
Proof using HK.
  intros N I. unfold get_col_ind.
  assert (E : nodup_names cn = true).
  { unfold nodup_names. apply Nat.eqb_eq. f_equal. apply nodup_fixed_point. apply NoDup_nodup. }
  rewrite E. assert (G : forall n, In n cn -> exists i, name_index M n = Ok i).
  { intros n Hn. apply (cn_K cond K HK) in Hn. apply in_map_iff in Hn as (v & <- & Hv). exists (pos (c_vars M) v). apply name_index_pos; auto. }
  clear -G. revert G. generalize cn. intros m. induction m as [|n m IH]; intros G; cbn [mapM]; [eauto|].
  destruct (G n (or_introl eq_refl)) as [i ->]. cbn [bind]. destruct (IH (fun X HX => G X (or_intror HX))) as [m' ->]. cbn [bind]. eauto.
Qed.

Lemma step_total st cx : In cx (c_C P) -> reached2 st -> exists st', vec_step l varis P cn st cx = Ok st' /\ reached2 st'.
Proof using V HP HK T.
  intros Hx Hr. destruct (pass_total cx Hx) as (M & Pa & Rows).
  destruct (pass_ok l varis cond P K V HP HK cx M Hx Pa) as (W & Hp & _ & KM & _).
  assert (IK : incl K (c_vars M)) by (intros v Hv; apply KM; auto). assert (NK : NoDup (names K)) by apply HK.
  destruct (col_ind_ok M (proj1 W) IK) as [idx A5].
  pose proof Pa as (P' & l' & E & A1 & A2 & A3 & A4).
  unfold vec_step. rewrite A1. cbn [bind]. rewrite A2. cbn [bind]. rewrite A3. cbn [bind]. rewrite A4. cbn [bind]. rewrite A5. cbn [bind]. cbv zeta.
  destruct (col_ind K M cn idx (proj1 W) IK (cn_K cond K HK) A5) as [Ei Li]. unfold cn in Li. rewrite (cn_length cond K HK) in Li.
  change (filter (fun i => negb (existsb (Nat.eqb i) idx)) (seq 0 (ncols M))) with (kept_cols (c_vars M) idx). rewrite Ei.
  assert (Hidv : match fst st with Some i => i | None => map (pos (c_vars M)) (others M K) end = map (pos (c_vars M)) (others M K)).
  { destruct Hr as [->|(R & cx0 & M0 & H0 & PR & _ & _ & -> & _)]; auto. cbn [fst].
    destruct (pass_shape l varis cond P V HP cx cx0 M R Hx H0 Pa PR) as [S _]. unfold others. rewrite S. auto. }
  rewrite Hidv. clear Hidv.
  assert (Ln := others_length K M (proj1 W) NK IK). assert (Lc : (c_nch M <= List.length (c_vars M))%nat) by apply W.
  destruct (map (pos (c_vars M)) (others M K)) as [|i0 is0] eqn:Em.
  - eexists. split; [reflexivity|]. left. f_equal. destruct Hr as [->|(R & cx0 & M0 & H0 & PR & _ & On' & _)]; auto.
    exfalso. apply On'. destruct (pass_shape l varis cond P V HP cx cx0 M R Hx H0 Pa PR) as [S _]. unfold others in *. rewrite <- S.
    destruct (filter _ (c_vars M)); [auto|discriminate].
  - rewrite <- Em. rewrite take_rows_pos by (try apply W; intros v Hv; apply others_In in Hv; tauto).
    assert (On : others M K <> []) by (intros X; rewrite X in Em; discriminate).
    replace (map (fun row => cols row (map (pos (c_vars M)) (others M K))) (c_C M)) with (map (proj (c_vars M) (others M K)) (c_C M)).
    2:{ apply map_ext. intros row. unfold cols, proj. rewrite map_map. auto. }
    rewrite Li. set (D := drop M K (c_nch M - List.length K)).
    assert (Wd : wf_cpm D) by (apply drop_wf; auto; lia).
    assert (Hd : has_p D) by (unfold has_p, D; cbn; rewrite map_length; apply Hp).
    rewrite (mk_cpm_ok (others M K) (c_nch M - List.length K) (map (proj (c_vars M) (others M K)) (c_C M)) (c_p M)); try apply Wd.
    cbn [bind]. change (mkCpm (others M K) (c_nch M - List.length K) (map (proj (c_vars M) (others M K)) (c_C M)) (c_p M)) with D.
    destruct Hr as [->|(R & cx0 & M0 & H0 & PR & RR & On' & -> & W0 & P0 & V0 & C0)]; cbn [snd bind].
    + eexists. split; [reflexivity|]. right. exists M, cx, D. split; auto. split; auto. split; auto. split; auto.
    + destruct (pass_shape l varis cond P V HP cx cx0 M R Hx H0 Pa PR) as [S1 S2]. destruct (state_ex cx0 H0) as [b0 S0].
      assert (Sm := sim_pass cx cx0 b0 M R Hx H0 S0 Pa PR).
      destruct (merge_ok M0 D) as (M3 & E3 & _); auto.
      { intros X. unfold has_p in P0. rewrite X, C0, map_length in P0. destruct (c_C R); [auto|discriminate]. }
      { rewrite V0. unfold D. cbn. unfold others. rewrite S1. auto. }
      { intros r Hrr. rewrite C0. exact (sim_drop K b0 M R (c_nch M - List.length K) Sm r Hrr). }
      rewrite E3. cbn [bind]. eexists. split; [reflexivity|]. right.
      assert (Ov : c_vars M0 = c_vars D) by (rewrite V0; cbn; unfold others; rewrite S1; auto).
      destruct (merge_inv M0 D M3 W0 P0 Hd Ov E3) as (W3 & P3 & V3 & C3 & R3 & _).
      exists R, cx0, M3. split; auto. split; auto. split; auto. split; auto. split; [unfold others; rewrite S1; auto|].
      split; auto. split; auto. split; congruence.
Qed.

Lemma loop_total rows : forall st, incl rows (c_C P) -> reached2 st ->
  exists st', foldM (vec_step l varis P cn) rows st = Ok st' /\ reached2 st'.
Proof using V HP HK T.
  induction rows as [|cx rows IH]; intros st I Hr; cbn [foldM]; [eauto|].
  destruct (step_total st cx (I cx (or_introl eq_refl)) Hr) as (st1 & E & R1). rewrite E. cbn [bind].
  apply IH; auto. intros r Hr'. apply I. right; auto.
Qed.
End total.

Theorem vec_succeeds l varis cond K : vec_ok l varis cond -> lists_scopes K cond -> vec_total l varis cond K ->
  exists r, variable_elim_cond l varis cond = Ok r /\ (r = None <-> forall v, in_scopes l v -> In v varis \/ In v K).
Proof.
  intros V HK T. pose proof T as (T1 & T2 & (b & Hb) & T4 & _). destruct (T4 b Hb) as (a & _ & Al).
  assert (F := fit_cond l varis cond V).
  assert (HpC : Forall has_p cond) by (destruct V as (_ & Hp & _); apply Forall_app in Hp; tauto).
  destruct (product_list_total cond a T2 F) as [P HP].
  { intros M HM. destruct (Al M (in_or_app _ _ _ (or_intror HM))) as (A1 & A2 & A3). split; [apply qc_pos_ne; auto|]. split; auto.
    rewrite Forall_forall in HpC. specialize (HpC M HM). intros Y. unfold has_p in HpC. rewrite Y in HpC.
    apply (mass_rows M a (qc_pos_ne _ A2)). destruct (c_C M); [auto|discriminate]. }
  destruct (loop_total l varis cond P K V HP HK T (c_C P) (None, None) (fun r Hr => Hr) (or_introl eq_refl)) as (st & E & R).
  exists (snd st). assert (Ex : variable_elim_cond l varis cond = Ok (snd st)) by (unfold variable_elim_cond; rewrite HP; cbn [bind]; rewrite E; reflexivity).
  split; auto. assert (Main := vec_main l varis cond K (snd st) V HK Ex). destruct R as [->|(R & cx0 & M & H0 & PR & _ & On & -> & WM & _ & VM & _)]; cbn [snd] in *.
  - split; auto. intros _. destruct Main as [(P0 & E0 & C0)|H]; auto. exfalso.
    assert (P0 = P) by congruence. subst P0. destruct (product_list_ok cond P F HP) as (_ & Mm & _).
    apply (pos_rows P a); auto. rewrite Mm. apply qprod_pos. intros x Hx. apply in_map_iff in Hx as (N & <- & HN). apply Al. apply in_or_app; auto.
  - split; [discriminate|]. intros H. exfalso. destruct Main as (_ & _ & Sc & _). rewrite VM in Sc. destruct (others R K) as [|v vs] eqn:Eo; [congruence|].
    destruct (proj1 (Sc v) (or_introl eq_refl)) as (A & B & C). destruct (H v A); auto.
Qed.
