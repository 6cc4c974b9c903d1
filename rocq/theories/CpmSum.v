(** Summing variables out of CPMs. *)
From Coq Require Import ZArith List String Bool Arith Lia QArith Qcanon Permutation Sorted.
From Verif Require Import Py Num Vari Cpm SpecCpm PyFacts VariFacts CpmFacts CpmCond CpmProd.
Import ListNotations.
Open Scope string_scope.
Open Scope Z_scope.
Open Scope list_scope.

(** ** comparison of rows with flag=False *)
Definition eq_td (td : list (variable * Z * nat)) (row : list Z) : bool :=
  forallb (fun t => snd (fst t) =? at_ row (snd t)) td.

Lemma max_ge C i row : In row C -> at_ row i <= fold_right Z.max 0 (map (fun row => at_ row i) C).
Proof. induction C as [|r C IH]; cbn; [tauto|]. intros [->|H]; [lia|]. specialize (IH H). lia. Qed.

Lemma singles_index m k : 0 <= k < m -> py_index (map (fun i => [i]) (zrange 0 m)) k = Ok [k].
Proof.
  intros H. rewrite <- (Z2Nat.id k) at 1 by lia. apply py_index_nth.
  rewrite nth_error_map. unfold zrange. rewrite nth_error_map.
  assert (E : nth_error (seq 0 (Z.to_nat (m - 0))) (Z.to_nat k) = Some (Z.to_nat k)).
  { rewrite (nth_error_nth' _ O) by (rewrite seq_length; lia). rewrite seq_nth by lia. auto. }
  rewrite E. cbn. do 2 f_equal. lia.
Qed.

Lemma meets_single s k : meets [s] [k] = (s =? k).
Proof. unfold meets. cbn. rewrite !orb_false_r. destruct (Z.eqb_spec s k), (Z.eqb_spec k s); auto; congruence. Qed.

Lemma mt_column_false C g v s i : (exists r, In r C /\ at_ r i = s) -> (forall row, In row C -> 0 <= at_ row i) ->
  mt_column C false (map g C) v s i = Ok (map (fun row => g row && (s =? at_ row i)) C).
Proof.
  intros (r0 & Hr0 & Hs) Hr. unfold mt_column. rewrite select_map_id.
  destruct (filter g C) as [|r rs] eqn:E.
  - f_equal. apply map_ext_in. intros row Hrow. destruct (g row) eqn:G; auto.
    assert (X : In row (filter g C)) by (apply filter_In; auto). rewrite E in X. destruct X.
  - rewrite <- E. rewrite (mapM_ok _ (fun row => [at_ row i])).
    2:{ intros row Hrow. apply filter_In in Hrow as [Hrow _]. apply singles_index. pose proof (max_ge C i row Hrow). specialize (Hr row Hrow). lia. }
    cbn [bind]. rewrite singles_index by (pose proof (max_ge C i r0 Hr0); specialize (Hr r0 Hr0); lia). cbn [bind].
    rewrite map_map, put_true_map. f_equal. apply map_ext. intros row. rewrite meets_single. auto.
Qed.

Lemma mt_loop_false C r : In r C -> (forall row i, In row C -> 0 <= at_ row i) -> forall td g,
  (forall v s i, In (v, s, i) td -> s = at_ r i) ->
  foldM (fun is t => mt_column C false is (fst (fst t)) (snd (fst t)) (snd t)) td (map g C)
  = Ok (map (fun row => g row && eq_td td row) C).
Proof.
  intros Hr Hpos. induction td as [|[[v s] i] td IH]; intros g H; cbn [map foldM fst snd].
  - f_equal. apply map_ext. intros row. cbn. rewrite andb_true_r. auto.
  - rewrite mt_column_false.
    + cbn [bind]. rewrite IH by (intros v' s' i' X; eapply H; right; eauto). f_equal. apply map_ext. intros row. cbn. rewrite andb_assoc. auto.
    + exists r. split; auto. symmetry. eapply H. left. eauto.
    + intros row Hrow. apply Hpos. auto.
Qed.

Lemma at_ext (a b : list Z) : List.length a = List.length b -> (forall i, (i < List.length a)%nat -> at_ a i = at_ b i) -> a = b.
Proof.
  revert b. unfold at_. induction a as [|x a IH]; intros [|y b] H1 H2; cbn in H1; try lia; auto. f_equal.
  - apply (H2 O). cbn. lia.
  - apply IH; [lia|]. intros i Hi. apply (H2 (S i)). cbn. lia.
Qed.

Lemma mt_self C vars r : NoDup (names vars) -> vars <> [] -> In r C ->
  (forall row, In row C -> List.length row = List.length vars /\ forall i, 0 <= at_ row i) ->
  mt_iscompatible C vars vars r false = Ok (map (row_eqb r) C).
Proof.
  intros Hn Hne Hr HC. unfold mt_iscompatible. destruct vars as [|v0 vs0]; [congruence|]. set (vars := v0 :: vs0) in *. cbv zeta.
  destruct (HC r Hr) as [Lr _].
  rewrite get_value_ok by (unfold ismember; rewrite !map_length; auto). cbn [bind]. rewrite todo_eq by auto.
  assert (T : forall v s i, In (v, s, i) (todo_of vars r vars) -> s = at_ r i /\ nth_error vars i = Some v).
  { intros v s i H. apply todo_In in H as [H1 H2]. rewrite combine_pos in H1 by auto. apply in_map_iff in H1 as (w & E & Hw).
    injection E as -> <-. unfold pos. rewrite H2. split; auto.
    apply find_idx_some in H2 as (u & Hu & Eu & _). apply v_eqb_eq in Eu. replace v with u; auto.
    apply (NoDup_names_inj vars); auto. eapply nth_error_In; eauto. }
  rewrite (mt_loop_false C r Hr) by (try (intros; apply HC; auto); intros v s i H; apply (T v s i H)).
  f_equal. apply map_ext_in. intros row Hrow. cbn [andb]. destruct (HC row Hrow) as [Lrow _].
  apply eq_true_iff_eq. unfold eq_td, row_eqb. rewrite forallb_forall, tuple_eqb_spec. split.
  - intros H. apply at_ext; [lia|]. intros i Hi.
    destruct (nth_error vars i) as [v|] eqn:Ev; [|apply nth_error_None in Ev; lia].
    specialize (H (v, at_ r i, i)). cbn [fst snd] in H. apply Z.eqb_eq. apply H. apply todo_In. split.
    + rewrite combine_pos by auto. apply in_map_iff. exists v. split; [|eapply nth_error_In; eauto]. rewrite (pos_nth vars v i); auto.
    + apply find_idx_pos; auto.
  - intros -> [[v s] i] Hin. cbn [fst snd]. destruct (T v s i Hin) as [-> _]. apply Z.eqb_refl.
Qed.

(** ** the loop *)
Lemma code_nonneg v c : code_ok v c -> 0 <= c.
Proof. intros (B & _ & H). lia. Qed.
Lemma row_nonneg vars row i : Forall2 code_ok vars row -> 0 <= at_ row i.
Proof.
  intros H. revert i. unfold at_. induction H as [|v c vs row Hc Hrest IH]; intros [|i]; cbn; try lia; auto.
  eapply code_nonneg; eauto.
Qed.
Lemma wf_rows M row : wf_cpm M -> In row (c_C M) -> List.length row = List.length (c_vars M) /\ forall i, 0 <= at_ row i.
Proof.
  intros (_ & _ & _ & H & _) Hr. specialize (H row Hr). split; [apply Forall2_length in H; auto|]. intros i. eapply row_nonneg; eauto.
Qed.

Lemma take_not_where {A} (l : list A) is : List.length l = List.length is ->
  take_rows l (filter (fun i => negb (existsb (Nat.eqb i) (where_ is))) (seq 0 (List.length is))) = select l (map negb is).
Proof. intros H. unfold where_. rewrite not_where. apply where_take. rewrite map_length. auto. Qed.

Lemma select_len {A} (l : list A) {B} (C : list B) h : List.length l = List.length C ->
  List.length (select l (map h C)) = List.length (filter h C).
Proof. intros H. rewrite <- (select_map_id h C). apply select_length. auto. Qed.

Lemma sub_wf M h : wf_cpm M ->
  wf_cpm (mkCpm (c_vars M) (c_nch M) (filter h (c_C M)) (match c_p M with [] => [] | _ => select (c_p M) (map h (c_C M)) end)).
Proof.
  intros (A & B & C & D & E). split; [auto|split; [auto|split; [auto|split]]]; cbn [c_vars c_nch c_C c_p].
  - intros row Hr. apply D. apply filter_In in Hr. tauto.
  - destruct (c_p M) eqn:Ep; auto. right. apply select_len. destruct E; [congruence|auto].
Qed.

Lemma get_subset_where M h (flag : bool) : wf_cpm M ->
  get_subset M (where_ (map h (c_C M))) flag =
  Ok (let h' := fun r => if flag then h r else negb (h r) in
      mkCpm (c_vars M) (c_nch M) (filter h' (c_C M)) (match c_p M with [] => [] | _ => select (c_p M) (map h' (c_C M)) end)).
Proof.
  intros W. unfold get_subset, nrows.
  set (h' := fun r => if flag then h r else negb (h r)). pose proof (sub_wf M h' W) as (A & B & C & D & E). cbn [c_vars c_nch c_C c_p] in *.
  assert (T : forall T (l : list T) idx, idx = (if flag then where_ (map h (c_C M)) else
      filter (fun i => negb (existsb (Nat.eqb i) (where_ (map h (c_C M))))) (seq 0 (List.length (c_C M)))) ->
      List.length l = List.length (c_C M) -> take_rows l idx = select l (map h' (c_C M))).
  { intros T l idx -> Hl. unfold h'. destruct flag.
    - apply where_take. rewrite map_length. auto.
    - replace (seq 0 (List.length (c_C M))) with (seq 0 (List.length (map h (c_C M)))) by (rewrite map_length; auto).
      rewrite take_not_where by (rewrite map_length; auto). rewrite map_map. reflexivity. }
  assert (P : forall idx, idx = (if flag then where_ (map h (c_C M)) else
      filter (fun i => negb (existsb (Nat.eqb i) (where_ (map h (c_C M))))) (seq 0 (List.length (c_C M)))) ->
      take_rows (c_p M) idx = match c_p M with [] => [] | _ => select (c_p M) (map h' (c_C M)) end).
  { intros idx Hidx. destruct W as (_ & _ & _ & _ & [W|W]).
    - rewrite W. clear. unfold take_rows. induction idx as [|i idx IH]; auto. cbn. destruct i; auto.
    - rewrite (T _ _ idx Hidx W). destruct (c_p M); auto. rewrite select_nil. auto. }
  destruct flag.
  - assert (F : forallb (fun i => (i <? List.length (c_C M))%nat) (where_ (map h (c_C M))) = true).
    { apply forallb_forall. intros i Hi. apply Nat.ltb_lt. apply where_from_bounds in Hi. rewrite map_length in Hi. lia. }
    rewrite F. cbn [bind]. rewrite (T _ (c_C M) _ eq_refl eq_refl), (P _ eq_refl), select_map_id. apply mk_cpm_ok; auto.
  - cbn [bind]. rewrite (T _ (c_C M) _ eq_refl eq_refl), (P _ eq_refl), select_map_id. apply mk_cpm_ok; auto.
Qed.

Definition weighted (f : list Z -> bool) (C : list (list Z)) (p : list Qc) : Qc :=
  qsum (map snd (filter (fun rp => f (fst rp)) (combine C p))).

Lemma weighted_split f h C p : weighted f C p = (weighted f (filter h C) (select p (map h C)) + weighted f (filter (fun r => negb (h r)) C) (select p (map (fun r => negb (h r)) C)))%Qc.
Proof.
  unfold weighted. revert p. induction C as [|r C IH]; intros [|q p].
  - reflexivity.
  - reflexivity.
  - assert (N : forall l : list (list Z), combine l (@nil Qc) = []) by (intros [|]; auto).
    assert (S0 : forall b, select (@nil Qc) b = []) by (intros [|]; reflexivity). rewrite !S0, !N. reflexivity.
  - cbn [combine filter map fst]. rewrite !select_cons. specialize (IH p). destruct (h r); cbn [negb combine filter fst];
      destruct (f r); cbn [map qsum fold_right snd]; unfold qsum in *; rewrite IH; ring.
Qed.

Lemma sum_loop_spec fuel : forall M, wf_cpm M -> c_vars M <> [] -> (List.length (c_C M) <= fuel)%nat ->
  exists Cs ps, sum_loop fuel M = Ok (Cs, ps) /\ NoDup Cs /\ (forall r, In r Cs <-> In r (c_C M)) /\
    (c_p M = [] -> ps = []) /\
    (c_p M <> [] -> List.length ps = List.length Cs /\ forall f, weighted f Cs ps = weighted f (c_C M) (c_p M)).
Proof.
  induction fuel as [|fuel IH]; intros M W Hv Hf; cbn [sum_loop].
  - destruct (c_C M) as [|r C] eqn:EC; [|cbn in Hf; lia]. exists [], []. split; auto. split; [constructor|]. split; [tauto|].
    split; auto.
  - destruct (c_C M) as [|r C] eqn:EC.
    { exists [], []. split; auto. split; [constructor|]. split; [tauto|].
      split; auto. }
    destruct (c_vars M) as [|v0 V0] eqn:EV; [congruence|]. rewrite <- EV, <- EC in *. 
    assert (Hr : In r (c_C M)) by (rewrite EC; left; auto).
    rewrite mt_self; auto; [|apply W|intros row Hrow; apply (wf_rows M row W Hrow)].
    cbn [bind]. rewrite (get_subset_where M (row_eqb r) false W). cbn [bind]. cbv zeta.
    set (h := row_eqb r). set (nh := fun r0 => negb (h r0)).
    assert (W' := sub_wf M nh W). set (M' := mkCpm _ _ _ _) in *.
    destruct (IH M') as (Cs & ps & E & N & I & P0 & P1); auto.
    { cbn [M' c_C]. rewrite EC. cbn [filter].
      assert (R : nh r = false) by (unfold nh, h; apply negb_false_iff; apply tuple_eqb_spec; auto). rewrite R.
      assert (L : forall l : list (list Z), (List.length (filter nh l) <= List.length l)%nat).
      { clear. induction l as [|x l IHl]; cbn; auto. destruct (nh x); cbn; lia. }
      specialize (L C). rewrite EC in Hf. cbn in Hf. lia. }
    change (filter (fun r0 : list Z => if false then h r0 else negb (h r0)) (c_C M)) with (filter nh (c_C M)).
    assert (ER : sum_loop fuel M' = Ok (Cs, ps)) by exact E.
    unfold M', nh, h in ER. cbv beta in ER. 
    match goal with |- context [sum_loop fuel ?X] => replace X with M' by reflexivity end.
    rewrite E. cbn [bind]. exists (r :: Cs). eexists. split; [reflexivity|].
    assert (Hnot : ~ In r Cs).
    { intros X. apply I in X. cbn [M' c_C] in X. apply filter_In in X as [_ X]. unfold nh, h in X. apply negb_true_iff in X.
      assert (R : row_eqb r r = true) by (apply tuple_eqb_spec; auto). congruence. }
    split; [constructor; auto|]. split; [|split].
    + intros x. cbn [In]. rewrite I. cbn [M' c_C]. rewrite filter_In. unfold nh, h. split.
      * intros [<-|[X _]]; auto.
      * intros X. destruct (row_eqb r x) eqn:R; [left; apply tuple_eqb_spec; auto|right; auto].
    + intros Hp. rewrite Hp in *. apply P0. cbn [M' c_p]. rewrite Hp. auto.
    + intros Hp. destruct (c_p M) as [|q0 p0] eqn:Ep; [congruence|]. rewrite <- Ep in *.
      assert (Lp : List.length (c_p M) = List.length (c_C M)) by (destruct W as (_ & _ & _ & _ & [W|W]); [congruence|auto]).
      rewrite where_take by (rewrite map_length; auto).
      assert (Q : List.length ps = List.length Cs /\ forall f, weighted f Cs ps = weighted f (filter nh (c_C M)) (select (c_p M) (map nh (c_C M)))).
      { assert (EM : c_p M' = select (c_p M) (map nh (c_C M))) by (cbn [M' c_p]; rewrite Ep; reflexivity).
        rewrite EM in P0, P1. change (c_C M') with (filter nh (c_C M)) in P1, I.
        destruct (select (c_p M) (map nh (c_C M))) as [|q1 p1] eqn:Es.
        - rewrite (P0 eq_refl). assert (Z : List.length (filter nh (c_C M)) = O) by (rewrite <- (select_len (c_p M) (c_C M) nh Lp), Es; auto).
          apply length_zero_iff_nil in Z. assert (Cs = []) as ->.
          { destruct Cs as [|x Cs]; auto. exfalso. assert (X : In x (filter nh (c_C M))) by (apply I; left; auto). rewrite Z in X. destruct X. }
          split; auto. intros f. rewrite Z. reflexivity.
        - apply P1. congruence. }
      destruct Q as [Q1 Q2]. split; [cbn; rewrite Q1; auto|]. intros f. rewrite (weighted_split f h (c_C M)).
      unfold weighted at 1. cbn [combine filter fst].
      assert (G : weighted f (filter h (c_C M)) (select (c_p M) (map h (c_C M))) = if f r then qsum (select (c_p M) (map h (c_C M))) else 0%Qc).
      { assert (A : forall x, In x (filter h (c_C M)) -> x = r).
        { intros x Hx. apply filter_In in Hx as [_ Hx]. symmetry. apply tuple_eqb_spec. exact Hx. }
        assert (L2 := select_len (c_p M) (c_C M) h Lp). revert A L2. generalize (select (c_p M) (map h (c_C M))).
        generalize (filter h (c_C M)). unfold weighted. clear. induction l as [|x l IHl]; intros [|q qs] A L; cbn in L; try lia.
        - cbn. destruct (f r); auto.
        - cbn [combine filter fst]. rewrite (A x (or_introl eq_refl)). rewrite <- (A x (or_introl eq_refl)) at 2.
          specialize (IHl qs (fun y Hy => A y (or_intror Hy)) ltac:(lia)). destruct (f r) eqn:F; cbn [map snd qsum fold_right] in *; unfold qsum in *; rewrite IHl; auto.
          }
      rewrite G. fold nh. rewrite <- Q2. unfold weighted. destruct (f r); cbn [map snd qsum fold_right]; unfold qsum; ring.
Qed.
