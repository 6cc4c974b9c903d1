(** The system CPM of a network conditioned on a hazard: facts. *)
From Coq Require Import ZArith List String Bool Arith Lia QArith Qcanon Permutation Sorted Relations.
From Verif Require Import Py Num Vari Cpm SpecCpm PyFacts VariFacts CpmFacts CpmCond CpmProd CpmList CpmSum CpmMarg CpmElim CpmProb CpmMean Net SpecNet NetFacts MsysProd SpecProd MsysProdFacts VeCond SpecVe VeFacts.
Import ListNotations.
Open Scope string_scope.
Open Scope Z_scope.
Open Scope list_scope.

(** * Conditioning on one variable *)
Lemma v_eqb_names v w : v_name v <> v_name w -> v_eqb v w = false.
Proof. intros H. unfold v_eqb. apply String.eqb_neq. auto. Qed.
Lemma find_out h vars : ~ In (v_name h) (names vars) -> find_idx (v_eqb h) vars = None.
Proof. intros H. apply find_idx_none. intros w Hw. apply v_eqb_names. intros E. apply H. rewrite E. apply in_map. auto. Qed.

Lemma ev_out h e vars : ~ In (v_name h) (names vars) -> ev_ok vars [h] [e].
Proof.
  intros H. split; [reflexivity|]. split; [repeat constructor; tauto|]. split.
  - intros a b [<-|[]] Hb E. exfalso. apply H. rewrite E. apply in_map. auto.
  - intros v c [[= <- <-]|[]] Hv. exfalso. apply H. apply in_map. auto.
Qed.
Lemma ev_in h e vars : NoDup (names vars) -> In h vars -> code_ok h e -> ev_ok vars [h] [e].
Proof.
  intros N H K. split; [reflexivity|]. split; [repeat constructor; tauto|]. split.
  - intros a b [<-|[]] Hb E. apply (NoDup_names_inj vars); auto.
  - intros v c [[= <- <-]|[]] Hv. auto.
Qed.

Lemma select_all {A} (l : list A) bs : List.length bs = List.length l -> (forall b, In b bs -> b = true) -> select l bs = l.
Proof.
  revert bs. induction l as [|x l IH]; intros [|b bs] L H; cbn in L; try lia; auto.
  rewrite (H b (or_introl eq_refl)). change (select (x :: l) (true :: bs)) with (x :: select l bs). f_equal. apply IH; [lia|]. intros b0 Hb. apply H. right; auto.
Qed.

Lemma free_out vars h row : ~ In (v_name h) (names vars) -> List.length row = List.length vars -> free_row vars [h] row = row.
Proof.
  intros H L. apply (nth_ext _ _ 0 0); [rewrite free_row_length; auto|]. intros i Hi. rewrite free_row_length in Hi by auto.
  destruct (nth_error vars i) as [v|] eqn:E; [|apply nth_error_None in E; lia].
  assert (F := free_row_at vars [h] row i v L E). unfold at_ in F. rewrite F. cbn [existsb].
  rewrite v_eqb_names; [reflexivity|]. intros X. apply H. rewrite <- X. apply in_map. eapply nth_error_In; eauto.
Qed.

Lemma condition_out M h e : wf_cpm M -> ~ In (v_name h) (names (c_vars M)) -> condition M (Vars [h]) [SI e] = Ok M.
Proof.
  intros W H. change [SI e] with (map SI [e]). rewrite (condition_spec M [h] [e] W (ev_out h e _ H)).
  assert (T : todo_of [h] [e] (c_vars M) = []) by (unfold todo_of; cbn [combine flat_map fst]; rewrite find_out by auto; reflexivity).
  assert (F : filter (cmp [h] [e] (c_vars M)) (c_C M) = c_C M).
  { clear W. induction (c_C M) as [|r C IH]; [reflexivity|]. cbn [filter]. unfold cmp at 1. rewrite T. cbn. f_equal. auto. }
  rewrite F. f_equal. destruct M as [vars nch C p]; cbn [c_vars c_nch c_C c_p] in *. f_equal.
  - rewrite <- (map_id C) at 2. apply map_ext_in. intros row Hr. unfold cond_row. rewrite T. cbn [upd fold_left].
    apply free_out; auto. destruct W as (_ & _ & _ & W & _). specialize (W row Hr). cbn [c_vars] in W. apply Forall2_length in W. auto.
  - destruct p as [|p0 p]; [reflexivity|]. apply select_all.
    + rewrite map_length. destruct W as (_ & _ & _ & _ & [W|W]); [discriminate|auto].
    + intros b Hb. apply in_map_iff in Hb as (r & <- & _). unfold cmp. rewrite T. reflexivity.
Qed.

Lemma todo_two x h (e : Z) : v_name x <> v_name h -> todo_of [h] [e] [x; h] = [(h, e, 1%nat)].
Proof.
  intros N. unfold todo_of. cbn [combine flat_map fst find_idx]. rewrite v_eqb_names by auto. rewrite v_eqb_refl. reflexivity.
Qed.
Lemma cond_row_two x h e i c : v_name x <> v_name h -> cond_row [x; h] [h] [e] [i; c] = [i; new_code h c e].
Proof.
  intros N. unfold cond_row. rewrite todo_two by auto. unfold free_row, ismember. cbn [map find_idx]. rewrite v_eqb_names by auto.
  rewrite v_eqb_refl. reflexivity.
Qed.
Lemma cmp_two x h e i c : v_name x <> v_name h -> cmp [h] [e] [x; h] [i; c] = meets (states_of h e) (states_of h c).
Proof. intros N. unfold cmp. rewrite todo_two by auto. cbn. apply andb_true_r. Qed.
Lemma cond_row_one h e c : cond_row [h] [h] [e] [c] = [new_code h c e].
Proof.
  unfold cond_row, todo_of, free_row, ismember. cbn [combine flat_map map find_idx fst]. rewrite v_eqb_refl. reflexivity.
Qed.
Lemma cmp_one h e c : cmp [h] [e] [h] [c] = meets (states_of h e) (states_of h c).
Proof. unfold cmp, todo_of. cbn [combine flat_map map find_idx fst]. rewrite v_eqb_refl. cbn. apply andb_true_r. Qed.

(** a code of the basic state [k] *)
Definition names_state (h : variable) (e k : Z) : Prop := code_ok h e /\ forall x, In x (states_of h e) <-> x = k.
Lemma meets_state h e k c k' : names_state h e k -> names_state h c k' -> meets (states_of h e) (states_of h c) = (k =? k').
Proof.
  intros [_ E] [_ C]. apply eq_true_iff_eq. rewrite meets_spec, Z.eqb_eq. split.
  - intros (x & H1 & H2). apply E in H1. apply C in H2. congruence.
  - intros <-. exists k. split; [apply E|apply C]; auto.
Qed.
Lemma new_state h c e k : var_ok h -> names_state h c k -> names_state h e k -> names_state h (new_code h c e) k.
Proof.
  intros V [C1 C2] [E1 E2]. destruct (new_code_spec h c e V C1 E1) as [N1 N2].
  - apply meets_spec. exists k. split; [apply E2|apply C2]; auto.
  - split; auto. intros x. rewrite N2, C2, E2. tauto.
Qed.

(** ** a conditional probability table *)
Lemma cpt_row m x h row : cpt m x h -> In row (c_C m) -> exists i c, row = [i; c] /\ names_state x i i /\ 0 <= i < nvals x /\ names_state h c c /\ 0 <= c < nvals h.
Proof.
  intros (W & _ & V & _ & L & _) Hr. pose proof W as (_ & _ & _ & W4 & _). specialize (W4 row Hr). rewrite V in W4.
  inversion W4 as [|? i ? r1 R1 R2]; subst. inversion R2 as [|? c ? r2 R3 R4]; subst. inversion R4; subst.
  destruct (L _ x i Hr) as [L1 L2]; [rewrite V; left; auto|]. destruct (L _ h c Hr) as [L3 L4]; [rewrite V; right; left; auto|].
  exists i, c. unfold names_state. repeat (split; auto).
Qed.

Lemma cpt_names m x h : cpt m x h -> v_name x <> v_name h.
Proof. intros ((N & _) & _ & V & _) E. rewrite V in N. cbn in N. inversion N as [|? ? N1 _]; subst. apply N1. left. auto. Qed.

Lemma cpt_condition m x h e k : cpt m x h -> basic_table x -> names_state h e k -> 0 <= k < nvals h ->
  exists m', condition m (Vars [h]) [SI e] = Ok m' /\ comp_ok m' /\ basic_child m' /\ children m' = [x] /\ parents m' = [h] /\
    (forall row, In row (c_C m') -> nth_error row 1 = Some (new_code h k e)) /\
    (forall a, mass m' a = if a (v_name h) =? k then mass m a else 0%Qc).
Proof.
  intros HC HT HE Hk. pose proof HC as (W & Hp & V & N & L & D & F). assert (Nn := cpt_names m x h HC).
  assert (EV : ev_ok (c_vars m) [h] [e]).
  { apply ev_in; [apply W|rewrite V; right; left; auto|apply HE]. }
  destruct (condition_ok m [h] [e] W EV) as (m' & E & W' & V' & N' & Hm). exists m'. split; [exact E|].
  assert (Hp' : has_p m') by exact (condition_p m [h] [e] m' W EV Hp E).
  assert (RW : c_C m' = map (cond_row (c_vars m) [h] [e]) (filter (cmp [h] [e] (c_vars m)) (c_C m))).
  { rewrite (condition_spec m [h] [e] W EV) in E. injection E as <-. reflexivity. }
  assert (Hvh : var_ok h). { destruct W as (_ & W2 & _). rewrite Forall_forall in W2. apply W2. rewrite V. right; left; auto. }
  assert (R : forall row, In row (c_C m') <-> exists i, row = [i; new_code h k e] /\ 0 <= i < nvals x).
  { intros row. rewrite RW, in_map_iff, V. split.
    - intros (r & <- & Hr). apply filter_In in Hr as [Hr Hc]. destruct (cpt_row m x h r HC Hr) as (i & c & -> & S1 & R1 & S2 & R2).
      rewrite cmp_two in Hc by auto. rewrite (meets_state h e k c c) in Hc by auto. apply Z.eqb_eq in Hc. subst c.
      exists i. rewrite cond_row_two by auto. auto.
    - intros (i & -> & Hi). exists [i; k]. rewrite cond_row_two by auto. split; auto. apply filter_In. split; [apply F; auto|].
      rewrite cmp_two by auto. destruct (cpt_row m x h [i; k] HC (F i k Hi Hk)) as (i' & c' & [= <- <-] & _ & _ & S2 & _).
      rewrite (meets_state h e k k k) by auto. apply Z.eqb_refl. }
  assert (Nc : children m' = [x] /\ parents m' = [h]).
  { unfold children, parents. rewrite V', N', V, N. auto. }
  split; [|split; [|split; [tauto|split; [tauto|split]]]].
  - split; [auto|]. split; [auto|]. split; [congruence|]. exists x. split; [tauto|]. destruct HT as [HT0 HT].
    split; [|split; [|split; [|exact HT]]].
    + intros X. assert (Y : In [0; new_code h k e] (c_C m')) by (apply R; exists 0; split; [auto|lia]). rewrite X in Y. destruct Y.
    + rewrite RW, V, map_map.
      assert (G : forall l, NoDup l -> incl l (c_C m) -> NoDup (map (fun r => hd 0 (cond_row [x; h] [h] [e] r)) (filter (cmp [h] [e] [x; h]) l))).
      { induction l as [|r l IH]; intros Nd I; [constructor|]. inversion Nd as [|? ? N1 N2]; subst.
        assert (I' : incl l (c_C m)) by (intros y Hy; apply I; right; auto). cbn [filter].
        destruct (cmp [h] [e] [x; h] r) eqn:Hc; [|auto]. cbn [map]. constructor; [|auto].
        destruct (cpt_row m x h r HC (I r (or_introl eq_refl))) as (i & c & -> & _ & _ & S2 & _).
        rewrite cmp_two in Hc by auto. rewrite (meets_state h e k c c) in Hc by auto. apply Z.eqb_eq in Hc. subst c.
        rewrite cond_row_two by auto. cbn [hd]. intros X. apply in_map_iff in X as (r' & X & Hr'). apply filter_In in Hr' as [Hr' Hc'].
        destruct (cpt_row m x h r' HC (I' r' Hr')) as (i' & c' & -> & _ & _ & S2' & _).
        rewrite cmp_two in Hc' by auto. rewrite (meets_state h e k c' c') in Hc' by auto. apply Z.eqb_eq in Hc'. subst c'.
        rewrite cond_row_two in X by auto. cbn [hd] in X. subst i'. auto. }
      apply G; auto. intros y Hy. auto.
    + intros i. rewrite in_map_iff. split.
      * intros Hi. exists [i; new_code h k e]. split; auto. apply R. eauto.
      * intros (r & <- & Hr). apply R in Hr as (i' & -> & Hi). auto.
  - intros v row y Hv Hr. destruct Nc as [Nc _]. rewrite Nc in Hv. destruct Hv as [<-|[]]. apply R in Hr as (i & -> & Hi). cbn [hd].
    destruct (cpt_row m x h [i; k] HC (F i k Hi Hk)) as (i' & c' & [= <- <-] & [_ S1] & _). apply S1.
  - intros row Hr. apply R in Hr as (i & -> & _). reflexivity.
  - intros a. rewrite Hm. assert (X : ev_match (c_vars m) [h] [e] a = (a (v_name h) =? k)); [|rewrite X; auto].
    unfold ev_match. cbn [combine forallb fst snd]. rewrite V.
    assert (Y : mem_str (v_name h) (names [x; h]) = true) by (apply mem_str_In; right; left; auto). rewrite Y. cbn [negb orb].
    rewrite andb_true_r. apply eq_true_iff_eq. rewrite mem_Z_In, Z.eqb_eq. apply HE.
Qed.

(** * The codes of some variables in the rows *)
Definition has_codes (M : cpm) (V : list variable) (r : list Z) : Prop := exists row, In row (c_C M) /\ r = proj (c_vars M) V row.

Lemma proj_at vars K row v : NoDup (names K) -> In v K -> at_ (proj vars K row) (pos K v) = at_ row (pos vars v).
Proof.
  intros N H. unfold at_, proj. assert (P := pos_In K v N H).
  rewrite (nth_indep _ 0 ((fun v => nth (pos vars v) row 0) v)); [|rewrite map_length; apply nth_error_Some; congruence].
  rewrite (map_nth (fun v => nth (pos vars v) row 0)). f_equal. f_equal. apply nth_error_nth. auto.
Qed.
Lemma proj_proj vars K V row : NoDup (names K) -> incl V K -> proj K V (proj vars K row) = proj vars V row.
Proof. intros N I. unfold proj at 1 3. apply map_ext_in. intros v Hv. apply proj_at; auto. Qed.
Lemma proj_self vars row : NoDup (names vars) -> List.length row = List.length vars -> proj vars vars row = row.
Proof.
  intros N L. apply (nth_ext _ _ 0 0); [unfold proj; rewrite map_length; auto|]. unfold proj. rewrite map_length. intros i Hi.
  destruct (nth_error vars i) as [v|] eqn:E; [|apply nth_error_None in E; lia].
  rewrite (nth_indep _ 0 (at_ row (pos vars v))) by (rewrite map_length; auto).
  rewrite (map_nth (fun v => at_ row (pos vars v))). rewrite (nth_error_nth _ _ _ E). unfold at_. f_equal. unfold pos. rewrite (find_idx_pos vars v i N E). auto.
Qed.
Lemma codes_self M r : wf_cpm M -> In r (c_C M) <-> has_codes M (c_vars M) r.
Proof.
  intros (N & _ & _ & W & _). split.
  - intros H. exists r. split; auto. symmetry. apply proj_self; auto. specialize (W r H). apply Forall2_length in W. auto.
  - intros (row & H & ->). rewrite proj_self; auto. specialize (W row H). apply Forall2_length in W. auto.
Qed.

Lemma sum_codes M vs Ms V r : wf_cpm M -> kept M vs true <> [] -> sum M (Vars vs) true = Ok Ms -> incl V (kept M vs true) ->
  (has_codes Ms V r <-> has_codes M V r).
Proof.
  intros W K E I. destruct (sum_spec M vs true W ltac:(discriminate) K) as (Ms' & E' & WM & VM & _ & _ & _ & R & _).
  assert (Ms' = Ms) by congruence. subst Ms'. assert (N : NoDup (names (kept M vs true))) by (rewrite <- VM; apply WM).
  unfold has_codes. rewrite VM. split.
  - intros (row & H & ->). apply R in H as (row' & H & ->). exists row'. split; auto. apply proj_proj; auto.
  - intros (row & H & ->). exists (proj (c_vars M) (kept M vs true) row). split; [apply R; eauto|]. symmetry. apply proj_proj; auto.
Qed.

Lemma product_codes M1 M2 V r : wf_cpm M1 -> wf_cpm M2 -> agree (c_vars M1) (c_vars M2) -> common_child M1 M2 = false ->
  incl V (c_vars M2) -> (forall v, In v V -> ~ In (v_name v) (names (c_vars M1))) ->
  (forall r2, In r2 (c_C M2) -> exists r1, In r1 (c_C M1) /\ cmp (com_vars M1 M2) (com_codes M1 M2 r1) (c_vars M2) r2 = true) ->
  (has_codes (CpmProd.prod_result M1 M2) V r <-> has_codes M2 V r).
Proof.
  intros W1 W2 Ag Cc I O Cv.
  assert (K : forall r1 r2, In r1 (c_C M1) -> In r2 (c_C M2) ->
    cmp (com_vars M1 M2) (com_codes M1 M2 r1) (c_vars M2) r2 = true ->
    proj (n_vars M1 M2) V (prod_row M1 M2 r1 (cond_row (c_vars M2) (com_vars M1 M2) (com_codes M1 M2 r1) r2)) = proj (c_vars M2) V r2).
  { intros r1 r2 H1 H2 Hc. unfold proj. apply map_ext_in. intros v Hv.
    pose proof W2 as (N2 & O2 & _ & R2 & _).
    assert (L1 : List.length r1 = List.length (c_vars M1)) by (destruct W1 as (_ & _ & _ & R1 & _); specialize (R1 r1 H1); apply Forall2_length in R1; auto).
    assert (L2 : List.length r2 = List.length (c_vars M2)) by (specialize (R2 r2 H2); apply Forall2_length in R2; auto).
    assert (EV := com_ev_ok M1 M2 W1 Ag r1 H1).
    destruct (proj1 (cond_row_match (c_vars M2) (com_vars M1 M2) (com_codes M1 M2 r1) N2 O2 EV r2 (fun _ => 0) (R2 r2 H2)) Hc) as [R _].
    assert (LR : List.length (cond_row (c_vars M2) (com_vars M1 M2) (com_codes M1 M2 r1) r2) = List.length (c_vars M2)) by (pose proof R as X; apply Forall2_length in X; auto).
    assert (LP : List.length (prod_row M1 M2 r1 (cond_row (c_vars M2) (com_vars M1 M2) (com_codes M1 M2 r1) r2)) = List.length (n_vars M1 M2)).
    { assert (Y : Forall2 code_ok (c_vars M1) r1) by (apply W1; auto). assert (X := prod_row_ok M1 M2 W1 W2 Ag r1 _ Y R). apply Forall2_length in X. auto. }
    assert (NV := n_vars_nodup M1 M2 W1 W2 Cc).
    assert (Hn : In v (n_vars M1 M2)) by (apply (n_vars_In M1 M2 W1 W2 Ag); right; apply I; auto).
    assert (X := proj2 (In_combine_at (n_vars M1 M2) _ v _ NV LP) (conj Hn eq_refl)).
    apply prod_row_pairs in X; auto. destruct X as [X|[X _]].
    - apply In_combine_at in X as [_ X]; auto. rewrite X.
      destruct (cond_row_at (c_vars M2) (com_vars M1 M2) (com_codes M1 M2 r1) N2 EV r2 (pos (c_vars M2) v) v L2 (pos_In _ v N2 (I v Hv))) as [(s & Hs & _)|[_ Hs]]; [|exact Hs].
      exfalso. apply todo_In in Hs as [Hs _]. apply in_combine_l in Hs. unfold com_vars in Hs. apply filter_In in Hs as [Hs _].
      apply (O v Hv). apply in_map. auto.
    - exfalso. apply in_combine_l in X. apply (O v Hv). apply in_map. auto. }
  assert (RC : forall r1, In r1 (c_C M1) -> c_C (Mc M1 M2 r1) =
    map (cond_row (c_vars M2) (com_vars M1 M2) (com_codes M1 M2 r1)) (filter (cmp (com_vars M1 M2) (com_codes M1 M2 r1) (c_vars M2)) (c_C M2))).
  { intros r1 H1. destruct (Mc_spec M1 M2 W1 W2 Ag r1 H1) as (E & _).
    rewrite (condition_spec (M2w M2) (com_vars M1 M2) (com_codes M1 M2 r1) (M2w_wf M2 W2) (com_ev_ok M1 M2 W1 Ag r1 H1)) in E. injection E as <-. reflexivity. }
  unfold has_codes. cbn [CpmProd.prod_result c_C c_vars]. split.
  - intros (row & H & ->). apply (Permutation_in _ (prod_sorted_fst M1 M2 W1 W2 Ag)) in H. unfold prod_rows in H.
    apply in_concat in H as (l & Hl & H). apply in_map_iff in Hl as (r1 & <- & H1). cbn [parts_of fst] in H. apply in_map_iff in H as (r2 & <- & H2).
    rewrite RC in H2 by auto. apply in_map_iff in H2 as (r0 & <- & H2). apply filter_In in H2 as [H2 Hc]. exists r0. split; auto.
  - intros (r2 & H2 & ->). destruct (Cv r2 H2) as (r1 & H1 & Hc).
    exists (prod_row M1 M2 r1 (cond_row (c_vars M2) (com_vars M1 M2) (com_codes M1 M2 r1) r2)). split; [|symmetry; apply K; auto].
    apply (Permutation_in _ (Permutation_sym (prod_sorted_fst M1 M2 W1 W2 Ag))). unfold prod_rows. apply in_concat.
    eexists. split; [apply in_map_iff; exists r1; split; [reflexivity|auto]|]. cbn [parts_of fst]. apply in_map. rewrite RC by auto.
    apply in_map. apply filter_In. auto.
Qed.

(** * Components in the order of the parents *)
Lemma comp_for_pos X cs x m : NoDup (names X) -> Forall2 (fun x m => children m = [x]) X cs -> In (x, m) (combine X cs) -> comp_for cs x = Some m.
Proof.
  intros N F. induction F as [|y c X cs H F IH]; [intros []|]. cbn in N. inversion N as [|? ? N1 N2]; subst.
  unfold comp_for. cbn [combine find]. rewrite H. cbn [names map mem_str]. intros [[= -> ->]|Hin].
  - assert (X0 : mem_str (v_name x) [v_name x] = true) by (apply mem_str_In; left; auto). rewrite X0. auto.
  - assert (X0 : mem_str (v_name x) [v_name y] = false).
    { rewrite <- not_true_iff_false, mem_str_In. intros [E|[]]. apply N1. rewrite E. apply in_map. eapply in_combine_l; eauto. }
    rewrite X0. apply IH; auto.
Qed.
Lemma comps_for_all X cs : NoDup (names X) -> Forall2 (fun x m => children m = [x]) X cs -> comps_for cs X = cs /\ (forall x, In x X -> in_comps cs x = true).
Proof.
  intros N F.
  assert (G : forall x m, In (x, m) (combine X cs) -> comp_for cs x = Some m) by (intros x m; apply comp_for_pos; auto).
  assert (L : List.length X = List.length cs) by (pose proof F as F'; apply Forall2_length in F'; auto). split.
  - assert (H : forall cs0 X cs, (forall x m, In (x, m) (combine X cs) -> comp_for cs0 x = Some m) -> List.length X = List.length cs -> comps_for cs0 X = cs).
    { clear. intros cs0. unfold comps_for. induction X as [|x X IH]; intros [|c cs] G L; cbn in L; try lia; auto.
      cbn [flat_map]. rewrite (G x c (or_introl eq_refl)). cbn [app]. f_equal. apply IH; [|lia]. intros y m H. apply G. right. auto. }
    apply H; auto.
  - intros x Hx. unfold in_comps. assert (H : exists m, In (x, m) (combine X cs)).
    { clear -L Hx. revert cs L. induction X as [|y X IH]; intros [|c cs] L; cbn in L; try lia; [destruct Hx|]. destruct Hx as [->|Hx]; [exists c; left; auto|].
      destruct (IH Hx cs ltac:(lia)) as (m & Hm). exists m. right. auto. }
    destruct H as (m & Hm). rewrite (G x m Hm). auto.
Qed.

Lemma NoDup_app_disj {A} (l1 l2 : list A) x : NoDup (l1 ++ l2) -> In x l1 -> In x l2 -> False.
Proof.
  induction l1 as [|y l1 IH]; intros N H1 H2; [destruct H1|]. cbn in N. inversion N as [|? ? N1 N2]; subst.
  destruct H1 as [->|H1]; [apply N1; apply in_or_app; auto|auto].
Qed.

(** * One state of the hazard *)
Section step.
Variables (cpms : dict cpm) (sys : string) (h : variable) (S Ph : cpm) (comps : list cpm).
Hypothesis HN : hazard_net cpms sys h S Ph comps.
Notation X := (parents S).

Lemma wfS : wf_cpm S. Proof using HN. apply HN. Qed.
Lemma wfP : wf_cpm Ph. Proof using HN. apply HN. Qed.
Lemma varsP : c_vars Ph = [h]. Proof using HN. apply HN. Qed.
Lemma NS : NoDup (names (c_vars S)). Proof using HN. apply wfS. Qed.
Lemma NX : NoDup (names X).
Proof using HN. assert (N := NS). rewrite vars_split in N. unfold names in N. rewrite map_app in N. apply NoDup_app_r in N. auto. Qed.
Lemma hS : ~ In (v_name h) (names (c_vars S)). Proof using HN. apply HN. Qed.
Lemma hX x : In x X -> v_name x <> v_name h.
Proof using HN. intros H E. apply hS. rewrite <- E. apply in_map. apply parents_incl. auto. Qed.
Lemma hC x : In x (children S) -> v_name x <> v_name h.
Proof using HN. intros H E. apply hS. rewrite <- E. apply in_map. apply children_incl. auto. Qed.
Lemma XC x y : In x X -> In y (children S) -> v_name x <> v_name y.
Proof using HN.
  intros Hx Hy E. assert (N := NS). rewrite vars_split in N. unfold names in N. rewrite map_app in N.
  apply (NoDup_app_disj _ _ (v_name y) N); [apply in_map; auto|rewrite <- E; apply in_map; auto].
Qed.
Lemma okh : var_ok h.
Proof using HN. assert (W := wfP). destruct W as (_ & W & _). rewrite varsP in W. inversion W; auto. Qed.

Lemma row_of_P row : In row (c_C Ph) -> exists k, row = [k] /\ names_state h k k /\ 0 <= k < nvals h.
Proof using HN.
  intros Hr. assert (W := wfP). destruct W as (_ & _ & _ & W & _). specialize (W row Hr). rewrite varsP in W.
  inversion W as [|? k ? r R1 R2]; subst. inversion R2; subst.
  destruct HN as (_ & _ & _ & _ & _ & _ & _ & _ & _ & _ & _ & _ & _ & L & _). destruct (L [k] h k Hr) as [L1 L2]; [rewrite varsP; left; auto|].
  exists k. split; auto. split; [split; auto|auto].
Qed.

Lemma one_row_P : one_row Ph.
Proof using HN.
  intros a. enough (Gen : forall C, NoDup C -> incl C (c_C Ph) -> (List.length (filter (fun r => row_match [h] r a) C) <= 1)%nat).
  { rewrite varsP. apply Gen; [apply HN|intros x; auto]. }
  intros C D I.
  induction C as [|r C IH]; [cbn; lia|]. inversion D as [|? ? D1 D2]; subst. assert (I' : incl C (c_C Ph)) by (intros x Hx; apply I; right; auto).
  cbn [filter]. destruct (row_match [h] r a) eqn:E; [|auto]. cbn [List.length].
  enough (F : filter (fun r => row_match [h] r a) C = []) by (rewrite F; cbn; lia).
  destruct (row_of_P r (I r (or_introl eq_refl))) as (k & -> & [_ K] & _).
  assert (G : forall r', In r' C -> row_match [h] r' a = false).
  { intros r' H'. destruct (row_match [h] r' a) eqn:E'; auto. exfalso. destruct (row_of_P r' (I' r' H')) as (k' & -> & [_ K'] & _).
    unfold row_match in E, E'. cbn in E, E'. rewrite andb_true_r in E, E'. apply mem_Z_In in E. apply mem_Z_In in E'.
    apply K in E. apply K' in E'. assert (k = k') by congruence. subst. auto. }
  clear -G. induction C as [|r C IH]; auto. cbn [filter]. rewrite (G r) by (left; auto). apply IH. intros; apply G; right; auto.
Qed.

Definition W0 := sort_vars (h :: children S).
Definition V0 := filter (kept_child [h] true) W0 ++ fst (setdiff [h] W0).
Lemma V0_In v : In v V0 <-> In v (children S).
Proof using HN.
  unfold V0, W0. rewrite in_app_iff, filter_In.
  assert (SI : forall l (w : variable), In w (sort_vars l) <-> In w l) by (intros l w; split; apply Permutation_in; [apply sort_vars_perm|apply Permutation_sym, sort_vars_perm]).
  rewrite SI. unfold kept_child. split.
  - intros [[[<-|H] H2]|H]; auto.
    + cbn in H2. rewrite v_eqb_refl in H2. discriminate.
    + exfalso. unfold setdiff in H. cbn [fst] in H. apply filter_In in H as [H1 H2]. apply negb_true_iff in H2. rewrite <- not_true_iff_false in H2. apply H2.
      assert (v = h) by (cbn in H1; destruct H1 as [->|[]]; auto). subst v. apply existsb_exists. exists h. split; [apply SI; left; auto|apply v_eqb_refl].
  - intros H. left. split; [right; auto|]. cbn. rewrite v_eqb_names by (apply hC; auto). auto.
Qed.

Variable k : Z.
Hypothesis Hk : In [k] (c_C Ph).
Let e := new_code h k k.

Lemma k_state : names_state h k k /\ 0 <= k < nvals h.
Proof using HN Hk. destruct (row_of_P [k] Hk) as (k' & [= <-] & A & B). auto. Qed.
Lemma e_state : names_state h e k.
Proof using HN Hk. apply new_state; [apply okh|apply k_state|apply k_state]. Qed.

Lemma m1_ok : exists m1, condition Ph (Vars (c_vars Ph)) (map SI [k]) = Ok m1 /\ wf_cpm m1 /\ has_p m1 /\ c_vars m1 = [h] /\ c_nch m1 = 1%nat /\
  c_C m1 <> [] /\ (forall r, In r (c_C m1) -> r = [e]) /\ (forall a, mass m1 a = if a (v_name h) =? k then mass Ph a else 0%Qc) /\ basic_in m1 h.
Proof using HN Hk.
  destruct k_state as [Sk Rk]. assert (W := wfP). rewrite varsP.
  assert (EV : ev_ok (c_vars Ph) [h] [k]) by (apply ev_in; [apply W|rewrite varsP; left; auto|apply Sk]).
  destruct (condition_ok Ph [h] [k] W EV) as (m1 & E & W' & V' & N' & Hm). exists m1. split; [exact E|]. split; [auto|].
  assert (Hp : has_p Ph) by apply HN. split; [exact (condition_p Ph [h] [k] m1 W EV Hp E)|]. rewrite varsP in V'. split; [auto|].
  split; [rewrite N'; apply HN|].
  assert (RW : c_C m1 = map (cond_row (c_vars Ph) [h] [k]) (filter (cmp [h] [k] (c_vars Ph)) (c_C Ph))).
  { rewrite (condition_spec Ph [h] [k] W EV) in E. injection E as <-. reflexivity. }
  rewrite varsP in RW. split; [|split; [|split]].
  - intros Z. assert (Y : In [e] (c_C m1)); [|rewrite Z in Y; destruct Y]. rewrite RW. apply in_map_iff. exists [k]. split; [apply cond_row_one|].
    apply filter_In. split; auto. rewrite cmp_one, (meets_state h k k k k) by auto. apply Z.eqb_refl.
  - intros r Hr. rewrite RW in Hr. apply in_map_iff in Hr as (r0 & <- & Hr). apply filter_In in Hr as [Hr Hc].
    destruct (row_of_P r0 Hr) as (k' & -> & S' & _). rewrite cmp_one, (meets_state h k k k' k') in Hc by auto. apply Z.eqb_eq in Hc. subst k'. apply cond_row_one.
  - intros a. rewrite Hm. assert (X0 : ev_match (c_vars Ph) [h] [k] a = (a (v_name h) =? k)); [|rewrite X0; auto].
    unfold ev_match. cbn [combine forallb fst snd]. rewrite varsP.
    assert (Y : mem_str (v_name h) (names [h]) = true) by (apply mem_str_In; left; auto). rewrite Y. cbn [negb orb].
    rewrite andb_true_r. apply eq_true_iff_eq. rewrite mem_Z_In, Z.eqb_eq. apply Sk.
  - apply (basic_condition Ph [h] [k] m1 h W EV); auto. intros row c Hr Hin. rewrite varsP in Hin.
    destruct (row_of_P row Hr) as (k' & -> & [_ S'] & R'). destruct Hin as [[= <-]|[]]. exists k'. auto.
Qed.

Lemma comps_ok : exists comps', mapM (fun kM => M <- condition (snd kM) (Vars [h]) [SI e] ;; Ok (fst kM, M)) (combine (names X) comps) = Ok (combine (names X) comps') /\
  Forall2 (fun x m => comp_ok m /\ basic_child m /\ children m = [x] /\ parents m = [h] /\ forall row, In row (c_C m) -> nth_error row 1 = Some (new_code h k e)) X comps' /\
  forall a, a (v_name h) = k -> pmass comps' a = pmass comps a.
Proof using HN Hk.
  assert (F : Forall2 (fun x m => dfind cpms (v_name x) = Some m /\ cpt m x h /\ basic_table x) X comps) by apply HN.
  assert (SE := e_state). assert (SK := proj2 k_state). clearbody e. revert F. generalize X as l0. generalize comps as cs0. clear -SE SK. intros cs0 l0 F.
  induction F as [|x m X0 cs (D & C & T) F IH]; [exists []; split; [reflexivity|]; split; [constructor|auto]|].
  destruct IH as (cs' & E & F' & P). destruct (cpt_condition m x h e k C T SE SK) as (m' & Em & A1 & A2 & A3 & A4 & A5 & A6).
  exists (m' :: cs'). cbn [names map combine mapM fst snd]. rewrite Em. cbn [bind]. unfold names in E. rewrite E. cbn [bind]. split; [reflexivity|].
  split; [constructor; auto|]. intros a Ha. unfold pmass in *. cbn [map qprod fold_right]. unfold qprod in P. rewrite P by auto. rewrite A6, Ha, Z.eqb_refl. auto.
Qed.

Lemma step_ok inf ve_ord : inf = combine (names X) comps ++ [(sys, S)] -> ve_ord = names X ->
  exists m, cal_step inf [] sys [] ve_ord [v_name h] Ph [k] = Ok m /\ wf_cpm m /\ has_p m /\ c_C m <> [] /\ c_vars m = V0 /\
    (forall r, In r (c_C m) <-> has_codes S V0 r) /\
    forall a, mass m a = marg [h] (share (S :: comps) X Ph [k]) a.
Proof using HN Hk.
  intros -> ->. destruct m1_ok as (m1 & E1 & Wm1 & Pm1 & Vm1 & Nm1 & Cm1 & Rm1 & Qm1 & Bm1).
  destruct comps_ok as (comps' & Ec & Fc & Pc).
  unfold cal_step. rewrite E1. cbn [bind]. destruct (c_C m1) as [|r1 C1] eqn:EC; [congruence|].
  assert (r1 = [e]) by (apply Rm1; left; auto). subst r1. rewrite Vm1. cbn [map].
  assert (MA : forall d, mapM (fun kM : string * cpm => M <- condition (snd kM) (Vars [h]) [SI e] ;; Ok (fst kM, M)) d = Ok (combine (names X) comps') ->
     mapM (fun kM : string * cpm => M <- condition (snd kM) (Vars [h]) [SI e] ;; Ok (fst kM, M)) (d ++ [(sys, S)]) = Ok (combine (names X) comps' ++ [(sys, S)])).
  { generalize (combine (names X) comps'). intros d' d. revert d'. induction d as [|kM d IH]; intros d' H; cbn [mapM app] in *.
    - injection H as <-. cbn [fst snd]. rewrite (condition_out S h e wfS hS). reflexivity.
    - destruct (condition (snd kM) (Vars [h]) [SI e]); cbn [bind] in *; [|discriminate]. destruct (mapM _ d) as [d1|]; cbn [bind] in *; [|discriminate].
      injection H as <-. rewrite (IH d1 eq_refl). reflexivity. }
  rewrite (MA _ Ec). clear MA Ec. cbn [bind foldM].
  assert (Lc : List.length X = List.length comps') by (pose proof Fc as F'; apply Forall2_length in F'; auto).
  assert (sX : ~ In sys (names X)) by apply HN.
  assert (FI : map snd (filter (fun kM => negb (String.eqb (fst kM) sys)) (combine (names X) comps' ++ [(sys, S)])) = comps').
  { rewrite filter_app, map_app. cbn [filter fst]. rewrite String.eqb_refl. cbn [negb map]. rewrite app_nil_r.
    clear -Lc sX. revert comps' Lc sX. induction X as [|x l IH]; intros [|c cs] L N; cbn in L; try lia; auto.
    cbn [names map combine filter fst]. assert (String.eqb (v_name x) sys = false) as ->.
    { apply String.eqb_neq. intros Z. apply N. left. auto. }
    cbn [negb map snd]. f_equal. apply IH; [lia|]. intros Z. apply N. right. auto. }
  rewrite FI. clear FI. unfold variable_elim_list. cbn [foldM bind].
  assert (DG : dget (combine (names X) comps' ++ [(sys, S)]) sys = Ok S).
  { apply dget_ok. clear -sX. revert comps' sX. induction (names X) as [|n ns IH]; intros [|c cs] N; cbn; try (rewrite String.eqb_refl; auto; fail).
    destruct (String.eqb_spec sys n) as [->|]; [exfalso; apply N; left; auto|]. apply IH. intros Z. apply N. right; auto. }
  rewrite DG. cbn [bind]. clear DG.
  (* product with the components *)
  set (s0 := new_code h k e).
  assert (Ch : Forall2 (fun x m => children m = [x]) X comps') by (eapply Forall2_impl; [|exact Fc]; cbn; intros; tauto).
  destruct (comps_for_all X comps' NX Ch) as [CF IC].
  assert (Mu : mult_of S comps' = X).
  { unfold mult_of. clear -IC. induction X as [|x l IH]; auto. cbn [filter]. rewrite IC by (left; auto). f_equal. apply IH. intros; apply IC; right; auto. }
  assert (Re : rest_of S comps' = []).
  { unfold rest_of. clear -IC. induction X as [|x l IH]; auto. cbn [filter]. rewrite IC by (left; auto). cbn. apply IH. intros; apply IC; right; auto. }
  assert (HM : forall m, In m comps' -> exists x, In x X /\ comp_ok m /\ basic_child m /\ children m = [x] /\ parents m = [h] /\ forall row, In row (c_C m) -> nth_error row 1 = Some s0).
  { intros m Hm. clear -Fc Hm. induction Fc as [|x c l cs H F IH]; [destruct Hm|]. destruct Hm as [<-|Hm]; [exists x; split; [left; auto|tauto]|].
    destruct (IH Hm) as (y & Hy & H'). exists y. split; [right; auto|auto]. }
  assert (PO : prod_ok S comps' [(h, s0)]).
  { split; [apply wfS|]. split; [apply HN|]. split; [apply HN|]. split.
    { intros Z. rewrite Z in Lc. destruct HN as (_ & _ & _ & _ & _ & NX0 & _). destruct X; [congruence|discriminate]. }
    split; [apply Forall_forall; intros m Hm; destruct (HM m Hm) as (x & _ & H & _); auto|]. split.
    - right. exists h, s0. split; auto. intros m Hm. destruct (HM m Hm) as (x & _ & _ & _ & _ & H & H'). auto.
    - intros m Hm. destruct (HM m Hm) as (x & Hx & _ & _ & H1 & H2 & _). intros v1 v2 H3 H4 E. rewrite vars_split, H1, H2 in H4.
      destruct H4 as [<-|[<-|[]]].
      + apply (NoDup_names_inj (c_vars S)); auto; [apply NS|apply parents_incl; auto].
      + exfalso. apply hS. rewrite <- E. apply in_map. auto. }
  assert (Dis : forall y s v, In (y, s) [(h, s0)] -> In v (children S ++ mult_of S comps') -> v_name y <> v_name v).
  { intros y s v [[= <- <-]|[]] Hv. rewrite Mu in Hv. apply in_app_or in Hv as [Hv|Hv]; apply not_eq_sym; [apply hC|apply hX]; auto. }
  assert (NC : new_conds [(h, s0)] (rest_of S comps') = [(h, s0)]) by (rewrite Re; reflexivity).
  assert (ER := prod_sys_spec S comps' [(h, s0)] PO). assert (WR := prod_result_wf S comps' [(h, s0)] PO Dis).
  assert (NR : forall row, new_row S comps' [(h, s0)] row = proj (c_vars S) (children S ++ X) row ++ [s0]).
  { intros row. unfold new_row, part_vars. rewrite NC, Mu, Re, app_nil_r. reflexivity. }
  rewrite ER. cbn [bind]. set (R := mkCpm _ _ _ _) in *.
  assert (VR : c_vars R = children S ++ X ++ [h]).
  { unfold R. cbn [c_vars]. unfold part_vars. rewrite NC, Mu, Re, app_nil_r. cbn [map fst]. rewrite <- app_assoc. reflexivity. }
  assert (CR : children R = children S ++ X /\ parents R = [h]).
  { unfold children at 1, parents at 2. rewrite VR. unfold R. cbn [c_nch]. rewrite Mu, app_assoc. split.
    - rewrite firstn_app, firstn_all, Nat.sub_diag. cbn. apply app_nil_r.
    - rewrite skipn_app, skipn_all, Nat.sub_diag. reflexivity. }
  destruct CR as [CR PR].
  assert (PMR : mass_on (children S ++ [h]) R = mass_on (children S ++ rest_of S comps' ++ map fst [(h, s0)]) R) by (rewrite Re; reflexivity).
  (* elimination of the components *)
  assert (KR : kept R X true = children S ++ [h]).
  { unfold kept. rewrite CR, PR, filter_app. f_equal.
    assert (F1 : filter (kept_child X true) (children S) = children S).
    { assert (G : forall v, In v (children S) -> kept_child X true v = true).
      { intros v Hv. unfold kept_child. apply negb_true_iff. rewrite <- not_true_iff_false. intros Z. apply existsb_exists in Z as (w & Hw & Z). apply v_eqb_eq in Z.
        apply (XC w v); auto. }
      clear -G. induction (children S) as [|v l IH]; auto. cbn [filter]. rewrite G by (left; auto). f_equal. apply IH. intros; apply G; right; auto. }
    assert (F2 : filter (kept_child X true) X = []).
    { assert (G : forall v, In v X -> kept_child X true v = false).
      { intros v Hv. unfold kept_child. apply negb_false_iff. apply existsb_exists. exists v. split; auto. apply v_eqb_refl. }
      assert (G2 : forall l, (forall v, In v l -> kept_child X true v = false) -> filter (kept_child X true) l = []); [|apply G2; auto].
      clear. induction l as [|v l IH]; auto. intros G. cbn [filter]. rewrite G by (left; auto). apply IH. intros; apply G; right; auto. }
    rewrite F1, F2, app_nil_r. reflexivity. }
  assert (NKR : kept R X true <> []) by (rewrite KR; destruct (children S); discriminate).
  assert (CnR : c_C R <> []).
  { unfold R. cbn [c_C]. destruct HN as (_ & _ & _ & NC0 & _). destruct (c_C S); [congruence|discriminate]. }
  assert (PnR : c_p R <> []).
  { intros Z. assert (L : List.length (c_p R) = List.length (c_C R)); [|rewrite Z in L; destruct (c_C R); [congruence|discriminate]].
    unfold R. cbn [c_p c_C]. rewrite !map_length, combine_length. assert (Hp : has_p S) by apply HN. unfold has_p in Hp. lia. }
  assert (IX : incl X (c_vars R)) by (intros v Hv; rewrite VR, !in_app_iff; auto).
  rewrite (sum_names R X true (proj1 WR) IX).
  destruct (sum_spec R X true WR ltac:(discriminate) NKR) as (m' & E' & W' & V' & C' & P' & _ & R' & _ & Pn' & Q').
  rewrite E'. cbn [bind]. rewrite KR in V'. specialize (Pn' PnR CnR). specialize (Q' PnR).
  assert (Hp' : has_p m').
  { destruct W' as (_ & _ & _ & _ & [Z|Z]); [congruence|auto]. }
  assert (C'' : children m' = children S).
  { rewrite C', CR. rewrite filter_app. unfold kept in KR. rewrite CR, PR, filter_app in KR. apply app_inv_tail in KR. exact KR. }
  rewrite PR in P'.
  assert (HC' : forall r, has_codes m' V0 r <-> has_codes S V0 r).
  { intros r. assert (IV : incl V0 (kept R X true)) by (rewrite KR; intros v Hv; apply V0_In in Hv; apply in_or_app; auto).
    rewrite (sum_codes R X m' V0 r WR NKR E' IV). unfold has_codes. rewrite VR. unfold R. cbn [c_C].
    assert (PE : forall row, proj (children S ++ X ++ [h]) V0 (new_row S comps' [(h, s0)] row) = proj (c_vars S) V0 row).
    { intros row. rewrite NR. unfold proj at 1 3. apply map_ext_in. intros v Hv. apply V0_In in Hv.
      assert (Nd : NoDup (names (children S ++ X ++ [h]))) by (rewrite <- VR; apply WR).
      assert (Hv' : In v (children S ++ X)) by (apply in_or_app; auto).
      assert (Nd2 : NoDup (names (children S ++ X))) by (rewrite <- (vars_split S); apply NS).
      assert (Pv := pos_In (children S ++ X) v Nd2 Hv').
      assert (pos (children S ++ X ++ [h]) v = pos (children S ++ X) v) as ->.
      { unfold pos. rewrite app_assoc in Nd |- *. rewrite (find_idx_pos ((children S ++ X) ++ [h]) v (pos (children S ++ X) v) Nd).
        - unfold pos. destruct (find_idx _ (children S ++ X)); auto.
        - rewrite nth_error_app1; [auto|]. apply nth_error_Some. congruence. }
      unfold at_ at 1. rewrite app_nth1.
      + fold (at_ (proj (c_vars S) (children S ++ X) row) (pos (children S ++ X) v)). apply proj_at; auto.
      + unfold proj. rewrite map_length. apply nth_error_Some. congruence. }
    split.
    - intros (row & H & ->). apply in_map_iff in H as (row0 & <- & H). exists row0. split; auto.
    - intros (row & H & ->). exists (new_row S comps' [(h, s0)] row). split; [apply in_map; auto|symmetry; auto]. }
  assert (Mm' : forall a, a (v_name h) = k -> mass m' a = marg X (pmass (S :: comps)) a).
  { intros a Ha. rewrite mass_weighted. assert (weights m' = c_p m') as -> by (unfold weights; destruct (c_p m'); congruence).
    rewrite Q'. rewrite V'. transitivity (mass_on (children S ++ [h]) R a).
    - rewrite KR. unfold mass_on, total, weighted. f_equal. f_equal. apply filter_ext_in. intros [row q] Hin. cbn [fst].
      assert (Lr : List.length row = List.length (c_vars R)).
      { apply in_combine_l in Hin. destruct WR as (_ & _ & _ & WR & _). specialize (WR row Hin). apply Forall2_length in WR. auto. }
      rewrite row_match_proj, combine_pos by (auto; apply WR). apply eq_true_iff_eq. rewrite !forallb_forall. split.
      + intros H vc Hvc. apply in_map_iff in Hvc as (v & <- & Hv). cbn [fst snd].
        destruct (mem_str (v_name v) (names (children S ++ [h]))) eqn:Em; auto. cbn [negb orb]. apply mem_str_In in Em. apply in_map_iff in Em as (w & Ew & Hw).
        assert (Hw' : In w (c_vars R)) by (rewrite VR; apply in_app_or in Hw; rewrite !in_app_iff; tauto).
        rewrite <- (NoDup_names_inj (c_vars R) w v (proj1 WR) Hw' Hv Ew). exact (H w Hw).
      + intros H v Hv. assert (Hv' : In v (c_vars R)) by (rewrite VR; apply in_app_or in Hv; rewrite !in_app_iff; tauto).
        specialize (H (v, at_ row (pos (c_vars R) v)) (in_map (fun v => (v, at_ row (pos (c_vars R) v))) _ _ Hv')). cbn [fst snd] in H.
        assert (Em : mem_str (v_name v) (names (children S ++ [h])) = true) by (apply mem_str_In; apply in_map; auto). rewrite Em in H. exact H.
    - rewrite PMR. rewrite (prod_sys_mass S comps' [(h, s0)] R a PO).
      + rewrite Mu, CF. apply marg_ext_on. intros b Hb. unfold pmass. cbn [map qprod fold_right]. f_equal.
        change (pmass comps' b = pmass comps b). apply Pc. rewrite Hb; auto. intros Z. apply in_map_iff in Z as (x & Ex & Hx). apply (hX x); auto.
      + apply Forall_forall. intros m Hm. destruct (HM m Hm) as (x & _ & _ & H & _). auto.
      + intros y s v H1 H2. apply (Dis y s v H1). apply in_or_app. auto.
      + exact ER.
      + intros y s [[= <- <-]|[]]. rewrite Ha. destruct (new_state h k e k okh (proj1 k_state) e_state) as [_ Z]. apply Z. auto. }
  (* product with the hazard *)
  assert (NC0 : children S <> []) by apply HN.
  assert (Lt : (ncols m1 <? ncols m')%nat = true).
  { unfold ncols. rewrite Vm1, V', app_length. apply Nat.ltb_lt. cbn. destruct (children S); [congruence|cbn; lia]. }
  assert (Ag : agree (c_vars m1) (c_vars m')).
  { rewrite Vm1, V'. intros v w [<-|[]] Hw E. apply in_app_or in Hw as [Hw|[<-|[]]]; auto. exfalso. apply (hC w); auto. }
  assert (Ch1 : children m1 = [h]) by (unfold children; rewrite Vm1, Nm1; auto).
  assert (Pa1 : parents m1 = []) by (unfold parents; rewrite Vm1, Nm1; auto).
  assert (Dj : disjoint_children m1 m').
  { intros v w Hv Hw. rewrite Ch1 in Hv. destruct Hv as [<-|[]]. rewrite C'' in Hw. apply not_eq_sym. apply hC. auto. }
  assert (Cc : common_child m1 m' = false) by (apply common_child_spec; auto).
  assert (EP : product m' m1 = Ok (CpmProd.prod_result m1 m')).
  { unfold product. rewrite Lt. apply product_ord_spec; auto; [rewrite EC; discriminate|rewrite Vm1; discriminate]. }
  rewrite EP. cbn [bind]. set (m2 := CpmProd.prod_result m1 m') in *.
  assert (EP' := product_ok m' m1 m2 W' Wm1 (agree_sym _ _ Ag) (disj_sym _ _ Dj) EP). destruct EP' as (W2 & Q2 & V2 & C2 & N2).
  assert (Hp2 : has_p m2) by exact (product_has_p m' m1 m2 W' Wm1 (agree_sym _ _ Ag) (disj_sym _ _ Dj) EP).
  assert (Ihh : incl [h] (c_vars m2)) by (intros v [<-|[]]; apply V2; right; rewrite Vm1; left; auto).
  change [v_name h] with (names [h]). rewrite (sum_names m2 [h] true (proj1 W2) Ihh).
  assert (CH2 : children m2 = W0 /\ parents m2 = fst (setdiff [h] W0)).
  { unfold m2, CpmProd.prod_result, children, parents. cbn [c_vars c_nch]. unfold n_vars. rewrite firstn_app, firstn_all, Nat.sub_diag, skipn_app, skipn_all, Nat.sub_diag.
    cbn [firstn skipn app]. rewrite app_nil_r. unfold n_child. fold (children m1) (children m') (parents m1) (parents m'). rewrite Ch1, C'', Pa1, P'. auto. }
  destruct CH2 as [CH2 PA2].
  assert (K2 : kept m2 [h] true = V0) by (unfold kept, V0; rewrite CH2, PA2; auto).
  assert (NV0 : V0 <> []).
  { intros Z. destruct (children S) as [|c cs] eqn:Ecs; [congruence|]. assert (Y : In c V0) by (apply V0_In; rewrite Ecs; left; auto). rewrite Z in Y. destruct Y. }
  assert (NK2 : kept m2 [h] true <> []) by (rewrite K2; auto).
  destruct (sum_spec m2 [h] true W2 ltac:(discriminate) NK2) as (m3 & E3 & W3 & V3 & _ & _ & _ & R3 & _ & Pn3 & _).
  rewrite K2 in V3. exists m3. split; [exact E3|]. split; [auto|].
  assert (HP3 := proj1 (sum_keep m2 [h] true m3 h W2 ltac:(discriminate) NK2 E3) Hp2). split; [auto|].
  assert (HC3 : forall r, In r (c_C m3) <-> has_codes S V0 r).
  { intros r. rewrite (codes_self m3 r W3), V3, (sum_codes m2 [h] m3 V0 r W2 NK2 E3) by (rewrite K2; intros v; auto).
    unfold m2. rewrite product_codes; auto.
    - intros v Hv. apply V0_In in Hv. rewrite V'. apply in_or_app. auto.
    - intros v Hv. apply V0_In in Hv. rewrite Vm1. intros [Z|[]]. apply (hC v); auto.
    - intros r2 Hr2. exists [e]. split; [rewrite EC; left; auto|].
      assert (CV : com_vars m1 m' = [h]).
      { unfold com_vars. rewrite Vm1. cbn [filter]. assert (Z : com_of m' h = true); [|rewrite Z; auto]. unfold com_of. apply existsb_exists. exists h.
        split; [rewrite V'; apply in_or_app; right; left; auto|apply v_eqb_refl]. }
      assert (CO : com_codes m1 m' [e] = [e]).
      { unfold com_codes. rewrite Vm1. cbn [map]. assert (Z : com_of m' h = true); [|rewrite Z; auto]. unfold com_of. apply existsb_exists. exists h.
        split; [rewrite V'; apply in_or_app; right; left; auto|apply v_eqb_refl]. }
      rewrite CV, CO. unfold cmp, todo_of. cbn [combine flat_map fst]. rewrite app_nil_r.
      assert (Ph' : find_idx (v_eqb h) (c_vars m') = Some (List.length (children S))).
      { apply find_idx_pos; [apply W'|]. rewrite V', nth_error_app2 by lia. rewrite Nat.sub_diag. reflexivity. }
      rewrite Ph'. unfold cmp_td. cbn [forallb fst snd]. rewrite andb_true_r.
      apply R' in Hr2 as (row & Hr & ->). rewrite KR. unfold R in Hr. cbn [c_C] in Hr. apply in_map_iff in Hr as (row0 & <- & Hr).
      unfold at_ at 1. unfold proj. rewrite map_app, app_nth2 by (rewrite map_length; lia). rewrite map_length, Nat.sub_diag. cbn [map nth].
      rewrite NR. assert (Pz : pos (c_vars R) h = List.length (children S ++ X)).
      { unfold pos. rewrite (find_idx_pos (c_vars R) h (List.length (children S ++ X)) (proj1 WR)); auto. rewrite VR, app_assoc, nth_error_app2 by lia.
        rewrite Nat.sub_diag. reflexivity. }
      rewrite Pz. unfold at_. rewrite app_nth2 by (unfold proj; rewrite map_length; lia). unfold proj. rewrite map_length, Nat.sub_diag. cbn [nth].
      rewrite (meets_state h e k s0 k); [apply Z.eqb_refl|apply e_state|]. apply new_state; [apply okh|apply k_state|apply e_state]. }
  split.
  { destruct HN as (_ & _ & _ & NCS & _). destruct (c_C S) as [|row C] eqn:ES; [congruence|]. intros Z.
    assert (Y : In (proj (c_vars S) V0 row) (c_C m3)) by (apply HC3; exists row; split; [rewrite ES; left; auto|auto]). rewrite Z in Y. destruct Y. }
  split; [auto|]. split; [auto|].
  intros a. rewrite (sum_marg m2 [h] true m3 [h] W2 ltac:(discriminate) NK2 (has_p_or m2 Hp2) E3).
  - apply marg_ext. intros b. rewrite Q2, Qm1. unfold share. rewrite varsP. unfold row_match. cbn [combine forallb fst snd]. rewrite andb_true_r.
    assert (Z : mem_Z (b (v_name h)) (states_of h k) = (b (v_name h) =? k)).
    { apply eq_true_iff_eq. rewrite mem_Z_In, Z.eqb_eq. apply k_state. }
    rewrite Z. destruct (Z.eqb_spec (b (v_name h)) k) as [Eb|Eb]; [|ring]. rewrite (Mm' b Eb). ring.
  - cbn. constructor; [tauto|constructor].
  - intros v. rewrite V3. rewrite V0_In. rewrite V2, V', Vm1, in_app_iff. split.
    + intros [<-|[]]. split; [right; left; auto|]. intros Z. apply (hC h Z). auto.
    + intros [[[H|H]|H] H']; [contradiction|auto|auto].
  - intros v [<-|[]]. apply (basic_product m' m1 m2 h W' Wm1 (agree_sym _ _ Ag) (disj_sym _ _ Dj) EP). right. split; [rewrite Vm1; left; auto|auto].
Qed.
End step.

(** * All states of the hazard *)
Lemma hazard_relevant cpms sys h S Ph comps x : hazard_net cpms sys h S Ph comps -> relevant cpms [sys] x ->
  x = sys \/ In x (names (parents S)) \/ x = v_name h.
Proof.
  intros HN (v & [<-|[]] & R). pose proof HN as (DS & _ & _ & _ & _ & _ & _ & _ & DP & _ & _ & VP & NP & _ & _ & _ & F).
  assert (G : forall y z, clos_refl_trans_1n string (parent_of cpms) y z -> y = sys \/ In y (names (parents S)) \/ y = v_name h ->
    z = sys \/ In z (names (parents S)) \/ z = v_name h).
  { intros y z R'. induction R' as [y|y w z (M & DM & Hw) R' IH]; auto. intros Hy. apply IH. clear IH R'.
    destruct Hy as [->|[Hy| ->]].
    - rewrite DS in DM. injection DM as <-. auto.
    - right. right. apply in_map_iff in Hy as (p & <- & Hp).
      assert (Q : exists m, dfind cpms (v_name p) = Some m /\ cpt m p h).
      { clear -F Hp. induction F as [|p0 m l cs H F IH]; [destruct Hp|]. destruct Hp as [->|Hp]; [exists m; tauto|auto]. }
      destruct Q as (m & D & C). rewrite D in DM. injection DM as <-. destruct C as (_ & _ & V & N & _). unfold parents in Hw. rewrite V, N in Hw.
      destruct Hw as [<-|[]]. auto.
    - rewrite DP in DM. injection DM as <-. unfold parents in Hw. rewrite VP, NP in Hw. destruct Hw. }
  apply (G sys x R). auto.
Qed.

Lemma dset_fresh (d : dict cpm) n M : ~ In n (keys d) -> dset d n M = d ++ [(n, M)].
Proof.
  induction d as [|[k a] d IH]; intros H; auto. cbn in *. destruct (String.eqb_spec n k) as [->|]; [tauto|]. rewrite IH; auto.
Qed.
Lemma fold_dset ms : NoDup (map fst ms) -> fold_left (fun (d : dict cpm) kM => dset d (fst kM) (snd kM)) ms [] = ms.
Proof.
  enough (G : forall d, NoDup (keys d ++ map fst ms) -> fold_left (fun (d : dict cpm) kM => dset d (fst kM) (snd kM)) ms d = d ++ ms) by (intros; apply (G []); auto).
  induction ms as [|[k M] ms IH]; intros d N; cbn [fold_left]; [rewrite app_nil_r; auto|]. cbn [map fst snd] in *.
  rewrite dset_fresh by (intros H; apply (NoDup_app_disj _ _ k N H); left; auto).
  rewrite IH.
  - rewrite <- app_assoc. reflexivity.
  - unfold keys in *. rewrite map_app, <- app_assoc. exact N.
Qed.

Theorem cal_main cpms varis sys h S Ph comps ord : hazard_net cpms sys h S Ph comps -> incl (names (parents S)) ord -> ~ In sys ord ->
  exists M, cal_msys cpms varis [v_name h] ord sys = Ok M /\ wf_cpm M /\ (forall v, In v (c_vars M) <-> In v (children S)) /\
    forall a, mass M a = marg (h :: parents S) (pmass (Ph :: S :: comps)) a.
Proof.
  intros HN IO NO. pose proof HN as (DS & WS & _ & _ & _ & _ & hNS & sX & DP & WP & PP & VP & NP & _ & _ & CP & F).
  assert (NX0 := NX cpms sys h S Ph comps HN).
  assert (FX : forall x, In x (names (parents S)) -> exists m, dfind cpms x = Some m).
  { intros x Hx. apply in_map_iff in Hx as (p & <- & Hp). clear -F Hp. induction F as [|p0 m l cs H F IH]; [destruct Hp|]. destruct Hp as [->|Hp]; [exists m; tauto|auto]. }
  unfold cal_msys. destruct (inf_main cpms [sys] (Some ord)) as [(out & E & H1 & _)|(E & v & Hv & Hn)].
  2:{ exfalso. destruct (hazard_relevant _ _ _ _ _ _ _ HN Hv) as [->|[Hx| ->]]; [congruence| |congruence]. destruct (FX v Hx) as (m & Hm). congruence. }
  rewrite E. cbn [bind]. assert (dget cpms sys = Ok S) as -> by (apply dget_ok; auto). cbn [bind].
  assert (VE : filter (fun x => mem_str x ord && negb (mem_str x [v_name h]) && negb (mem_str x (names (parents S)))) out = []).
  { assert (G : forall x, In x out -> mem_str x ord && negb (mem_str x [v_name h]) && negb (mem_str x (names (parents S))) = false).
    { intros x Hx. apply H1 in Hx. destruct (hazard_relevant _ _ _ _ _ _ _ HN Hx) as [->|[Hy| ->]].
      - assert (mem_str sys ord = false) as -> by (apply mem_str_false; auto). auto.
      - apply mem_str_In in Hy. rewrite Hy. cbn. apply andb_false_r.
      - assert (Z : mem_str (v_name h) [v_name h] = true) by (apply mem_str_In; left; auto). rewrite Z. cbn. rewrite andb_false_r. auto. }
    clear -G. induction out as [|x l IH]; auto. cbn [filter]. rewrite G by (left; auto). apply IH. intros; apply G; right; auto. }
  rewrite VE. cbn [filter mapM bind].
  assert (JN : filter (fun x => negb (mem_str x ord)) (names (parents S)) = []).
  { clear -IO. induction (names (parents S)) as [|x l IH]; auto. cbn [filter]. assert (mem_str x ord = true) as -> by (apply mem_str_In; apply IO; left; auto).
    cbn. apply IH. intros y Hy. apply IO. right; auto. }
  rewrite JN. assert (EL : filter (fun x => negb (mem_str x [])) (names (parents S)) = names (parents S)).
  { clear. induction (names (parents S)) as [|x l IH]; auto. cbn in *. rewrite IH. auto. }
  rewrite EL. cbn [app]. rewrite app_nil_r.
  assert (MS : mapM (fun v => M <- dget cpms v ;; Ok (v, M)) (names (parents S)) = Ok (combine (names (parents S)) comps)).
  { clear -F. induction F as [|x m l cs (D & _) F IH]; auto. cbn [names map mapM combine]. apply dget_ok in D. rewrite D. cbn [bind]. unfold names in IH. rewrite IH. auto. }
  rewrite MS. cbn [bind].
  assert (Lc : List.length (names (parents S)) = List.length comps) by (unfold names; rewrite map_length; pose proof F as F'; apply Forall2_length in F'; auto).
  assert (FS : map fst (combine (names (parents S)) comps) = names (parents S)).
  { clear -Lc. revert comps Lc. induction (names (parents S)) as [|x l IH]; intros [|c cs] L; cbn in L; try lia; auto. cbn. rewrite IH by lia. auto. }
  rewrite fold_dset by (rewrite FS; auto). rewrite dset_fresh by (unfold keys; rewrite FS; auto).
  cbn [mapM]. assert (dget cpms (v_name h) = Ok Ph) as -> by (apply dget_ok; auto). cbn [bind product_list foldM].
  assert (HR := row_of_P cpms sys h S Ph comps HN).
  assert (ST : forall row, In row (c_C Ph) -> exists m, cal_step (combine (names (parents S)) comps ++ [(sys, S)]) [] sys [] (names (parents S)) [v_name h] Ph row = Ok m /\
     wf_cpm m /\ has_p m /\ c_C m <> [] /\ c_vars m = V0 h S /\ (forall r, In r (c_C m) <-> has_codes S (V0 h S) r) /\
     forall a, mass m a = marg [h] (share (S :: comps) (parents S) Ph row) a).
  { intros row Hr. destruct (HR row Hr) as (k & -> & _). exact (step_ok cpms sys h S Ph comps HN k Hr _ _ eq_refl eq_refl). }
  destruct (c_C Ph) as [|row rows] eqn:EC; [congruence|].
  destruct (ST row (or_introl eq_refl)) as (M0 & E0 & W0' & P0 & C0 & V0' & R0 & Q0). rewrite E0. cbn [bind].
  assert (LP : forall rs done acc, incl rs (c_C Ph) -> wf_cpm acc -> has_p acc -> c_C acc <> [] -> c_vars acc = V0 h S -> (forall r, In r (c_C acc) <-> has_codes S (V0 h S) r) ->
     (forall a, mass acc a = qsum (map (fun row => marg [h] (share (S :: comps) (parents S) Ph row) a) done)) ->
     exists M, foldM (fun acc r => m <- cal_step (combine (names (parents S)) comps ++ [(sys, S)]) [] sys [] (names (parents S)) [v_name h] Ph r ;; merge acc m) rs acc = Ok M /\
       wf_cpm M /\ c_vars M = V0 h S /\ forall a, mass M a = qsum (map (fun row => marg [h] (share (S :: comps) (parents S) Ph row) a) (done ++ rs))).
  { induction rs as [|r rs IH]; intros done acc I Wa Pa Ca Va Ra Qa; cbn [foldM].
    - exists acc. rewrite app_nil_r. auto.
    - destruct (ST r) as (m & Em & Wm & Pm & Cm & Vm & Rm & Qm); [rewrite <- EC; apply I; left; auto|]. rewrite Em. cbn [bind].
      assert (NP' : c_p acc <> []) by (intros Z; unfold has_p in Pa; rewrite Z in Pa; destruct (c_C acc); [congruence|discriminate]).
      destruct (merge_ok acc m Wa NP' Pm ltac:(congruence) ltac:(intros r' Hr'; apply Ra, Rm; auto)) as (M & EM & WM & VM & _ & CM & QM).
      assert (PM : has_p M) by (destruct (merge_inv acc m M Wa Pa Pm ltac:(congruence) EM) as (_ & Z & _); auto).
      rewrite EM. cbn [bind]. destruct (IH (done ++ [r]) M) as (M' & EM' & A & B & C); try congruence; auto.
      + intros y Hy. apply I. right; auto.
      + intros r'. rewrite CM. apply Ra.
      + intros a. rewrite QM, Qa, Qm, map_app. cbn [map]. rewrite qsum_snoc. auto.
      + exists M'. split; [exact EM'|]. split; [auto|]. split; [auto|]. intros a. rewrite C, <- app_assoc. reflexivity. }
  destruct (LP rows [row] M0) as (M & EM & WM & VM & QM); auto.
  { rewrite EC. intros y Hy. right; auto. }
  { intros a. rewrite Q0. cbn [map qsum fold_right]. ring. }
  exists M. split; [exact EM|]. split; [auto|]. split.
  { intros v. rewrite VM. apply (V0_In cpms sys h S Ph comps HN). }
  intros a. rewrite QM. cbn [app]. rewrite <- EC. rewrite <- (marg_qsum [h] (fun row => share (S :: comps) (parents S) Ph row) (c_C Ph) a).
  rewrite (marg_ext [h] _ (fun b => (mass Ph b * marg (parents S) (pmass (S :: comps)) b)%Qc) a).
  2:{ intros b. apply shares_total. exact (one_row_P cpms sys h S Ph comps HN). }
  cbn [marg]. f_equal. apply map_ext. intros x. rewrite Qcmult_comm. rewrite <- marg_factor_list.
  - apply marg_ext. intros b. unfold pmass. cbn [map qprod fold_right]. ring.
  - intros v Hv. apply mass_ignores. rewrite VP. intros [Z|[]]. apply (hX cpms sys h S Ph comps HN v Hv). auto.
Qed.
