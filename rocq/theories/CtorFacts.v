(** Facts about the setters of CPMs and about [Cpm.sort]. *)
From Coq Require Import ZArith List String Bool Arith Lia QArith Qcanon Permutation Sorted.
From Verif Require Import Py Num Vari Cpm Hybrid Ctor SpecCpm SpecCtor PyFacts VariFacts CpmFacts CpmCond CpmMarg CpmElim CpmProb PipeFacts PfMapRun.
Import ListNotations.
Open Scope string_scope.
Open Scope Z_scope.
Open Scope list_scope.

(** ** the test of [C] *)
Lemma in_seq_combine {A} (l : list A) n i v : In (i, v) (combine (seq n (List.length l)) l) <-> (n <= i)%nat /\ nth_error l (i - n) = Some v.
Proof.
  revert n. induction l as [|x l IH]; intros n; cbn [List.length seq combine In].
  - split; [tauto|]. intros [_ H]. destruct (i - n)%nat; discriminate.
  - rewrite IH. split.
    + intros [E|[H1 H2]].
      * injection E as -> ->. rewrite Nat.sub_diag. auto.
      * split; [lia|]. replace (i - n)%nat with (S (i - S n)) by lia. auto.
    + intros [H1 H2]. destruct (Nat.eq_dec i n) as [->|N].
      * rewrite Nat.sub_diag in H2. cbn in H2. left. congruence.
      * right. split; [lia|]. replace (i - n)%nat with (S (i - S n)) in H2 by lia. auto.
Qed.

Lemma fits_nth vars row : fits vars row <->
  List.length row = List.length vars /\ forall i v, nth_error vars i = Some v -> at_ row i <= 2 ^ nvals v - 1.
Proof.
  unfold fits, nvals, at_. split.
  - intros H. induction H as [|v c vars row H1 H2 [IH1 IH2]]; [split; auto; intros [|i] v; discriminate|].
    split; [cbn; lia|]. intros [|i] w E; cbn in *; [injection E as <-; auto|apply IH2; auto].
  - revert row. induction vars as [|v vars IH]; intros [|c row] [L H]; cbn in L; try lia; constructor.
    + apply (H O v); auto.
    + apply IH. split; [lia|]. intros i w E. apply (H (S i)); auto.
Qed.

Lemma check_C_iff vars C : (check_C vars C = Ok tt <-> forall row, In row C -> fits vars row) /\
  (check_C vars C = Ok tt \/ check_C vars C = Err AssertionError).
Proof.
  assert (X : forall rs, (if negb (forallb (fun row => (List.length row =? List.length vars)%nat) rs) then Err AssertionError
      else if forallb (col_max_ok rs) (combine (seq 0 (List.length vars)) vars) then Ok tt else Err AssertionError) = Ok tt
      <-> forall row, In row rs -> fits vars row).
  { intros rs. destruct (forallb _ rs) eqn:L; cbn [negb].
    - rewrite forallb_forall in L. destruct (forallb (col_max_ok rs) _) eqn:M.
      + split; auto. intros _ row Hr. apply fits_nth. split; [apply Nat.eqb_eq; auto|]. intros i v E. rewrite forallb_forall in M.
        specialize (M (i, v)). unfold col_max_ok in M. cbn [fst snd] in M. rewrite forallb_forall in M. apply Z.leb_le, M; auto.
        apply in_seq_combine. rewrite Nat.sub_0_r. split; auto. lia.
      + split; [discriminate|]. intros H. exfalso. assert (Y : forallb (col_max_ok rs) (combine (seq 0 (List.length vars)) vars) = true); [|congruence].
        apply forallb_forall. intros [i v] Hi. apply in_seq_combine in Hi as [_ Hi]. rewrite Nat.sub_0_r in Hi.
        unfold col_max_ok. cbn [fst snd]. apply forallb_forall. intros row Hr. apply Z.leb_le. apply H in Hr. apply fits_nth in Hr as [_ Hr]. auto.
    - split; [discriminate|]. intros H. exfalso. assert (Y : forallb (fun row => (List.length row =? List.length vars)%nat) rs = true); [|congruence].
      apply forallb_forall. intros row Hr. apply Nat.eqb_eq. apply H in Hr. apply fits_nth in Hr as [Hr _]. auto. }
  unfold check_C. destruct C as [|r C].
  - split; [split; auto; intros _ row []|auto].
  - split; [apply X|]. destruct (negb _); auto. destruct (forallb (col_max_ok _) _); auto.
Qed.

Lemma check_p_iff C p : check_p C p = Ok tt <-> p = [] \/ List.length p = List.length C.
Proof.
  unfold check_p. destruct p as [|q p]; [split; auto|]. destruct (Nat.eqb_spec (List.length (q :: p)) (List.length C)) as [E|E].
  - split; auto.
  - split; [discriminate|]. intros [H|H]; [discriminate|contradiction].
Qed.

Lemma mk_cpm_iff vars nch C p M : mk_cpm vars nch C p = Ok M <->
  M = mkCpm vars nch C p /\ (nch <= List.length vars)%nat /\ (forall row, In row C -> fits vars row) /\ (p = [] \/ List.length p = List.length C).
Proof.
  unfold mk_cpm. destruct (Nat.leb_spec nch (List.length vars)) as [L|L]; [|split; [discriminate|intros (_ & H & _); lia]].
  destruct (check_C_iff vars C) as [HC D]. rewrite <- HC, <- check_p_iff. destruct D as [D|D]; rewrite D; cbn [bind].
  - destruct (check_p C p) as [[]|e]; cbn [bind].
    + split; [intros [= <-]; auto|intros (-> & _); auto].
    + split; [discriminate|intros (_ & _ & _ & H); discriminate].
  - split; [discriminate|intros (_ & _ & H & _); discriminate].
Qed.

(** ** tables *)
Lemma full_table v : full v -> exists B, v_B v = Some B /\ Z.of_nat (List.length B) = codes_of v.
Proof.
  intros (n & vs & f & -> & H). destruct (mk_variable_B n vs f) as [E|E]; [|contradiction].
  exists (gen_B (List.length vs)). split; auto. rewrite gen_B_length_Z. reflexivity.
Qed.
Lemma full_ok v : full v -> var_ok v.
Proof.
  intros (n & vs & f & -> & H). destruct (v_B (mk_variable n vs f)) as [B|] eqn:E; [|contradiction]. eapply mk_variable_ok; eauto.
Qed.
Lemma full_code v c : full v -> (code_ok v c <-> 0 <= c < codes_of v).
Proof.
  intros H. destruct (full_table v H) as (B & E & L). unfold code_ok. rewrite <- L. split.
  - intros (B' & E' & R). rewrite E in E'. injection E' as <-. auto.
  - intros R. exists B. auto.
Qed.

Lemma Forall2_In_combine {A B} (R : A -> B -> Prop) l l' : List.length l' = List.length l ->
  (forall a b, In (a, b) (combine l l') -> R a b) -> Forall2 R l l'.
Proof.
  revert l'. induction l as [|a l IH]; intros [|b l'] L H; cbn in L; try lia; constructor.
  - apply H. left. auto.
  - apply IH; [lia|]. intros x y I. apply H. right. auto.
Qed.

Lemma accepted_wf vars nch C p M : NoDup (names vars) -> Forall full vars -> mk_cpm vars nch C p = Ok M ->
  (wf_cpm M <-> forall row v c, In row C -> In (v, c) (combine vars row) -> 0 <= c /\ c <> codes_of v).
Proof.
  intros N F H. apply mk_cpm_iff in H as (-> & L & R & P). unfold wf_cpm. cbn [c_vars c_nch c_C c_p]. rewrite Forall_forall in F. split.
  - intros (_ & _ & _ & W & _) row v c Hr Hc. specialize (W row Hr).
    assert (K : code_ok v c) by (clear -W Hc; induction W; [destruct Hc|cbn in Hc; destruct Hc as [[= <- <-]|Hc]; auto]).
    apply full_code in K; [|apply F; eapply in_combine_l; eauto]. lia.
  - intros H. split; [auto|]. split; [apply Forall_forall; intros v Hv; apply full_ok; auto|]. split; [auto|]. split; [|auto].
    intros row Hr. assert (Fr := R row Hr). apply fits_nth in Fr as [Lr Fr]. apply Forall2_In_combine; auto.
    intros v c Hc. apply full_code; [apply F; eapply in_combine_l; eauto|]. destruct (H row v c Hr Hc) as [H1 H2].
    apply In_nth_error in Hc as [i Hi]. assert (E1 : nth_error vars i = Some v /\ at_ row i = c).
    { clear -Hi. unfold at_. revert row i Hi. induction vars as [|x vars IH]; intros [|y row] [|i] Hi; try discriminate; cbn in *.
      - injection Hi as -> ->. auto.
      - auto. }
    destruct E1 as [E1 E2]. specialize (Fr i v E1). rewrite E2 in Fr. unfold codes_of, nvals in *. lia.
Qed.

(** ** negative codes *)
Lemma from_end_index v B c : v_B v = Some B -> Z.of_nat (List.length B) = codes_of v -> py_index B (from_end v c) = py_index B c.
Proof.
  intros E L. unfold py_index, from_end. rewrite L. destruct (Z.ltb_spec c 0) as [H|H]; cbn [andb].
  - destruct (Z.leb_spec (- codes_of v) c) as [G|G].
    + destruct (Z.ltb_spec (c + codes_of v) 0); [lia|]. reflexivity.
    + destruct (Z.ltb_spec c 0); [reflexivity|lia].
  - destruct (Z.ltb_spec c 0); [lia|reflexivity].
Qed.

Lemma lift_row_length vars row : List.length row = List.length vars -> List.length (lift_row vars row) = List.length vars.
Proof. intros H. unfold lift_row. rewrite map_length, combine_length. lia. Qed.
Lemma lift_row_at vars row i v : List.length row = List.length vars -> nth_error vars i = Some v -> at_ (lift_row vars row) i = from_end v (at_ row i).
Proof.
  unfold at_, lift_row. revert row i. induction vars as [|w vars IH]; intros [|c row] [|i] L E; cbn in *; try lia; try discriminate.
  - injection E as <-. auto.
  - apply IH; auto.
Qed.
Lemma lift_fits vars row : fits vars row -> fits vars (lift_row vars row).
Proof.
  intros H. unfold fits, lift_row in *. induction H as [|v c vars row H1 H2 IH]; cbn; constructor; auto. cbn [fst snd].
  unfold from_end, codes_of. destruct (Z.ltb_spec c 0); cbn [andb]; auto. destruct (- _ <=? c); lia.
Qed.

Lemma mapM_map_in {A B D} (g : A -> B) (f : B -> res D) l : mapM f (map g l) = mapM (fun x => f (g x)) l.
Proof. induction l as [|x l IH]; auto. cbn [map mapM]. rewrite IH. reflexivity. Qed.

Lemma select_map_any {A B} (f : A -> B) l is : select (map f l) is = map f (select l is).
Proof.
  unfold select. revert is. induction l as [|x l IH]; intros [|b is]; cbn [map combine]; auto. cbn [filter fst]. destruct b; cbn [map snd]; rewrite <- IH; auto.
Qed.
Lemma select_In {A} (l : list A) is x : In x (select l is) -> In x l.
Proof.
  unfold select. intros H. apply in_map_iff in H as ([b y] & <- & H). apply filter_In in H as [H _]. eapply in_combine_r; eauto.
Qed.

Lemma mt_column_lift vars C is v s col : (forall row, In row C -> List.length row = List.length vars) -> full v -> nth_error vars col = Some v ->
  mt_column (map (lift_row vars) C) true is v s col = mt_column C true is v s col.
Proof.
  intros L F E. destruct (full_table v F) as (B & EB & LB). unfold mt_column. rewrite select_map_any.
  assert (S : forall r, In r (select C is) -> In r C) by (intros r; apply select_In).
  assert (X : mapM (fun row => py_index B (at_ row col)) (map (lift_row vars) (select C is)) = mapM (fun row => py_index B (at_ row col)) (select C is)).
  { rewrite mapM_map_in. apply mapM_ext_in. intros r Hr. rewrite (lift_row_at vars r col v) by auto. apply from_end_index; auto. }
  destruct (select C is) as [|r rs] eqn:Es; auto. cbn [map] in *. rewrite EB. rewrite X. reflexivity.
Qed.

Lemma mt_iscompatible_lift vars C vs row : NoDup (names vars) -> Forall full vars -> (forall r, In r C -> List.length r = List.length vars) -> incl vs vars ->
  mt_iscompatible (map (lift_row vars) C) vars vs row true = mt_iscompatible C vars vs row true.
Proof.
  intros N F L I. unfold mt_iscompatible. destruct vs as [|v0 vs0]; auto. set (vs := v0 :: vs0) in *. cbv zeta.
  unfold get_value. destruct (List.length row =? _)%nat eqn:El; auto. cbn [bind].
  rewrite map_map. apply Nat.eqb_eq in El. unfold ismember in El. rewrite !map_length in El. rewrite todo_eq by lia.
  apply foldM_ext. intros [[v s] i] is Ht. cbn [fst snd]. apply todo_In in Ht as [T1 T2].
  assert (A : agree vs vars) by (intros a b Ha Hb Eab; apply (NoDup_names_inj vars); auto).
  destruct (find_idx_agree vs vars v i A N (in_combine_l _ _ _ _ T1) T2) as [I1 I2].
  apply mt_column_lift; auto. rewrite Forall_forall in F. auto.
Qed.

Lemma take_rows_map {A B} (f : A -> B) l idx : take_rows (map f l) idx = map f (take_rows l idx).
Proof.
  unfold take_rows. induction idx as [|i idx IH]; auto. cbn [flat_map]. rewrite nth_error_map, map_app, IH. destruct (nth_error l i); auto.
Qed.

Lemma get_prob_lift M vs sts flag : NoDup (names (c_vars M)) -> Forall full (c_vars M) -> incl vs (c_vars M) ->
  (forall row, In row (c_C M) -> fits (c_vars M) row) ->
  get_prob (lift M) (Vars vs) sts flag = get_prob M (Vars vs) sts flag.
Proof.
  intros N F I R. unfold get_prob. cbn [resolve bind]. destruct (List.length vs =? List.length sts)%nat; auto.
  destruct (convert_states vs sts) as [conv|e]; auto. cbn [bind]. cbv zeta. set (row := match conv with [] => _ | _ => _ end).
  destruct (mk_cpm vs _ [row] [0%Qc]) as [Mc|e]; auto. cbn [bind].
  change (c_C (lift M)) with (map (lift_row (c_vars M)) (c_C M)). change (c_vars (lift M)) with (c_vars M).
  rewrite mt_iscompatible_lift; auto. 2:{ intros r Hr. apply R in Hr. apply fits_nth in Hr as [Hr _]. auto. }
  destruct (mt_iscompatible _ _ _ _ _) as [is|e]; auto. cbn [bind].
  unfold get_subset, nrows, lift. cbn [c_C c_vars c_nch c_p]. rewrite map_length.
  assert (X : forall idx, mk_cpm (c_vars M) (c_nch M) (take_rows (map (lift_row (c_vars M)) (c_C M)) idx) (take_rows (c_p M) idx)
              = (x <- mk_cpm (c_vars M) (c_nch M) (take_rows (c_C M) idx) (take_rows (c_p M) idx) ;; Ok (lift x))).
  { intros idx. rewrite take_rows_map. unfold mk_cpm. destruct (_ <=? _)%nat; auto.
    assert (C1 : check_C (c_vars M) (take_rows (c_C M) idx) = Ok tt).
    { apply check_C_iff. intros r Hr. apply take_rows_In in Hr. auto. }
    assert (C2 : check_C (c_vars M) (map (lift_row (c_vars M)) (take_rows (c_C M) idx)) = Ok tt).
    { apply check_C_iff. intros r Hr. apply in_map_iff in Hr as (r0 & <- & Hr). apply take_rows_In in Hr. apply lift_fits; auto. }
    rewrite C1, C2. cbn [bind]. assert (C3 : check_p (map (lift_row (c_vars M)) (take_rows (c_C M) idx)) (take_rows (c_p M) idx) = check_p (take_rows (c_C M) idx) (take_rows (c_p M) idx)).
    { unfold check_p. rewrite map_length. auto. }
    rewrite C3. destruct (check_p (take_rows (c_C M) idx) (take_rows (c_p M) idx)); reflexivity. }
  destruct flag; [destruct (forallb _ (where_ is)); [|reflexivity]|]; cbn [bind]; rewrite X;
    match goal with |- context [mk_cpm ?a ?b ?c ?d] => destruct (mk_cpm a b c d) as [M'|e]; reflexivity end.
Qed.

(** ** a code above all sets *)
Lemma mapM_index_err {A} (f : A -> res (list Z)) l x : In x l -> f x = Err IndexError -> (forall y e, In y l -> f y = Err e -> e = IndexError) ->
  mapM f l = Err IndexError.
Proof.
  induction l as [|y l IH]; intros I E H; [destruct I|]. cbn [mapM]. destruct (f y) as [b|e] eqn:Ey.
  - cbn [bind]. destruct I as [->|I]; [congruence|]. rewrite IH; auto. intros z e Hz. apply H. right; auto.
  - cbn [bind]. f_equal. apply (H y); auto. left; auto.
Qed.
Lemma py_index_err {A} (l : list A) i e : py_index l i = Err e -> e = IndexError.
Proof. unfold py_index. destruct (_ && _); [destruct (nth_error _ _)|]; congruence. Qed.

Lemma get_prob_above M v c s flag row : NoDup (names (c_vars M)) -> In v (c_vars M) -> full v -> s <= codes_of v ->
  (forall r, In r (c_C M) -> List.length r = List.length (c_vars M)) ->
  In row (c_C M) -> In (v, c) (combine (c_vars M) row) -> (codes_of v <= c \/ c < - codes_of v) ->
  get_prob M (Vars [v]) [SI s] flag = Err IndexError.
Proof.
  intros N I F Hs L Hr Hc R. destruct (full_table v F) as (B & EB & LB). unfold get_prob. cbn [resolve bind List.length Nat.eqb convert_states ints_of flat_map app].
  assert (X : mk_cpm [v] 1 [[s]] [0%Qc] = Ok (mkCpm [v] 1 [[s]] [0%Qc])).
  { apply mk_cpm_iff. split; auto. split; [cbn; lia|]. split; [|auto]. intros r [<-|[]]. constructor; [auto|constructor]. }
  rewrite X. cbn [bind]. unfold mt_iscompatible. cbv zeta. cbn [ismember map].
  assert (P : find_idx (v_eqb v) (c_vars M) = Some (CpmFacts.pos (c_vars M) v)) by (apply find_idx_pos; auto; apply pos_In; auto).
  unfold ismember. cbn [map]. rewrite P. cbn [is_some map get_value List.length Nat.eqb]. unfold get_value. cbn [List.length Nat.eqb bind].
  cbn [select combine filter map snd fst somes foldM].
  assert (G : mt_column (c_C M) true (map (fun _ => true) (c_C M)) v s (CpmFacts.pos (c_vars M) v) = Err IndexError); [|rewrite G; reflexivity].
  unfold mt_column. rewrite select_map_id. assert (Ef : filter (fun _ : list Z => true) (c_C M) = c_C M).
  { clear. induction (c_C M) as [|r C IH]; auto. cbn. f_equal. auto. }
  rewrite Ef. rewrite EB. destruct (c_C M) as [|r0 C] eqn:EC; [destruct Hr|]. rewrite <- EC in *.
  rewrite (mapM_index_err _ (c_C M) row); auto.
  - apply In_combine_at in Hc as [_ Hc]; auto. subst c. unfold py_index. rewrite LB. destruct (Z.ltb_spec (at_ row (CpmFacts.pos (c_vars M) v)) 0).
    + destruct (Z.leb_spec 0 (at_ row (CpmFacts.pos (c_vars M) v) + codes_of v)); [lia|]. reflexivity.
    + destruct (Z.ltb_spec (at_ row (CpmFacts.pos (c_vars M) v)) (codes_of v)); [lia|]. rewrite andb_false_r. reflexivity.
  - intros y e _. apply py_index_err.
Qed.

(** ** [argsort] and [sort] *)
Lemma sort_desc_map {A B} (f : A -> B) (g : B -> B -> bool) l : sort_desc g (map f l) = map f (sort_desc (fun y x => g (f y) (f x)) l).
Proof.
  unfold sort_desc. induction l as [|x l IH]; auto. cbn [map fold_right]. rewrite IH. generalize (fold_right (insert_desc (fun y x0 => g (f y) (f x0))) [] l). clear.
  induction l as [|y l IH]; auto. cbn [map insert_desc]. destruct (g (f y) (f x)); auto. cbn [map]. rewrite IH. auto.
Qed.
Lemma sort_desc_stable {A} (g : A -> A -> bool) (f : A -> bool) l : (forall x y, f x = true -> f y = true -> g y x = false) ->
  filter f (sort_desc g l) = filter f l.
Proof.
  intros H. unfold sort_desc. induction l as [|x l IH]; auto. cbn [fold_right filter]. rewrite <- IH. generalize (fold_right (insert_desc g) [] l). clear -H.
  induction l as [|y l IH]; cbn [insert_desc filter]; auto. destruct (g y x) eqn:G; cbn [filter]; auto. rewrite IH.
  destruct (f y) eqn:Fy; auto. destruct (f x) eqn:Fx; auto. rewrite H in G by auto. discriminate.
Qed.
Lemma sort_desc_id {A} (g : A -> A -> bool) l : StronglySorted (fun x y => g y x = false) l -> sort_desc g l = l.
Proof.
  unfold sort_desc. induction 1 as [|x l S IH F]; auto. cbn [fold_right]. rewrite IH. destruct l as [|y l]; auto. cbn [insert_desc]. inversion F; subst. rewrite H1. auto.
Qed.

Lemma seq_combine_map {A B} (f : A -> B) l n : combine (map f l) (seq n (List.length l)) = map (fun t => (f (fst t), snd t)) (combine l (seq n (List.length l))).
Proof. revert n. induction l as [|x l IH]; intros n; auto. cbn [map List.length seq combine]. rewrite IH. auto. Qed.
Lemma in_combine_seq {A} (l : list A) n a i : In (a, i) (combine l (seq n (List.length l))) -> (n <= i)%nat /\ nth_error l (i - n) = Some a.
Proof.
  revert n. induction l as [|x l IH]; intros n; cbn [List.length seq combine In]; [tauto|]. intros [[= <- <-]|H].
  - rewrite Nat.sub_diag. auto.
  - apply IH in H as [H1 H2]. split; [lia|]. replace (i - n)%nat with (S (i - S n)) by lia. auto.
Qed.

Definition tagged {A K} (lt : K -> K -> bool) (key : A -> K) (l : list A) : list (A * nat) :=
  sort_desc (fun y x => lt (key (fst y)) (key (fst x))) (combine l (seq 0 (List.length l))).
Lemma argsort_tagged {A K} (lt : K -> K -> bool) (key : A -> K) l : argsort lt (map key l) = map snd (tagged lt key l).
Proof.
  unfold argsort, tagged. rewrite map_length, seq_combine_map, sort_desc_map, map_map. reflexivity.
Qed.
Lemma fst_tagged {A K} (lt : K -> K -> bool) (key : A -> K) l : map fst (tagged lt key l) = sort_desc (fun y x => lt (key y) (key x)) l.
Proof.
  unfold tagged. rewrite <- (sort_desc_map fst (fun y x => lt (key y) (key x))). f_equal.
  generalize 0%nat. induction l as [|x l IH]; intros n; auto. cbn [List.length seq combine map fst]. rewrite IH. auto.
Qed.
Lemma take_tagged {A K} (lt : K -> K -> bool) (key : A -> K) l : take l (map snd (tagged lt key l)) = Ok (sort_desc (fun y x => lt (key y) (key x)) l).
Proof.
  rewrite <- fst_tagged. unfold take. assert (H : forall t, In t (tagged lt key l) -> get_at l (snd t) = Ok (fst t)).
  { intros [a i] H. unfold tagged in H. apply (Permutation_in _ (sort_desc_perm _ _)) in H. apply in_combine_seq in H as [_ H].
    rewrite Nat.sub_0_r in H. unfold get_at. cbn [fst snd]. rewrite H. auto. }
  revert H. generalize (tagged lt key l). induction l0 as [|t l0 IH]; intros H; auto. cbn [map mapM]. rewrite H by (left; auto). cbn [bind].
  rewrite IH by (intros; apply H; right; auto). reflexivity.
Qed.
Lemma take_map {A B} (f : A -> B) l idx l' : take l idx = Ok l' -> take (map f l) idx = Ok (map f l').
Proof.
  unfold take. revert l'. induction idx as [|i idx IH]; intros l' H; cbn [mapM] in *; [injection H as <-; auto|].
  unfold get_at in *. rewrite nth_error_map. destruct (nth_error l i) as [a|]; [|discriminate]. cbn [bind option_map] in *.
  destruct (mapM _ idx) as [r|e] eqn:E; [|discriminate]. cbn [bind] in H. injection H as <-. rewrite (IH r) by auto. reflexivity.
Qed.

Lemma lex_asym a b : lex_ltb a b = true -> lex_ltb b a = false.
Proof.
  revert b. induction a as [|x a IH]; intros [|y b]; cbn; auto; try discriminate.
  destruct (Z.ltb_spec x y), (Z.eqb_spec x y), (Z.ltb_spec y x), (Z.eqb_spec y x); cbn; intros; try lia; auto.
Qed.
Lemma lex_trans a b c : lex_ltb b a = false -> lex_ltb c b = false -> lex_ltb c a = false.
Proof.
  revert b c. induction a as [|x a IH]; intros [|y b] [|z c]; cbn; auto; try discriminate.
  destruct (Z.ltb_spec y x), (Z.eqb_spec y x), (Z.ltb_spec z y), (Z.eqb_spec z y), (Z.ltb_spec z x), (Z.eqb_spec z x); cbn; intros; try lia; try discriminate; eauto.
Qed.
Lemma lex_before a b : List.length a = List.length b -> lex_ltb (rev b) (rev a) = false -> a = b \/ before a b.
Proof.
  intros L H. rewrite <- (rev_length a), <- (rev_length b) in L.
  assert (G : rev a = rev b \/ exists t x y a' b', rev a = t ++ x :: a' /\ rev b = t ++ y :: b' /\ x < y).
  { revert L H. generalize (rev a) (rev b). clear. intros a. induction a as [|x a IH]; intros [|y b]; cbn; intros L H; try lia; auto.
    destruct (Z.ltb_spec y x); [discriminate|]. destruct (Z.eqb_spec y x) as [->|N]; cbn in H.
    - destruct (IH b ltac:(lia) H) as [->|(t & u & w & a' & b' & -> & -> & R)]; auto. right. exists (x :: t), u, w, a', b'. auto.
    - right. exists [], x, y, a, b. repeat split; auto. lia. }
  destruct G as [G|(t & x & y & a' & b' & Ea & Eb & R)].
  - left. rewrite <- (rev_involutive a), <- (rev_involutive b), G. auto.
  - right. exists (rev a'), (rev b'), x, y, (rev t). rewrite <- (rev_involutive a), <- (rev_involutive b), Ea, Eb, !rev_app_distr. cbn. rewrite <- !app_assoc. auto.
Qed.
