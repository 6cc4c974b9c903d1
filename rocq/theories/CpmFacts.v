(** Lemmas about the model of cpm.py: selections, matching of rows. *)
From Coq Require Import ZArith List String Bool Arith Lia QArith Qcanon Permutation.
From Verif Require Import Py Num Vari Cpm SpecCpm PyFacts VariFacts.
Import ListNotations.
Open Scope string_scope.
Open Scope Z_scope.
Open Scope list_scope.

Lemma v_eqb_eq a b : v_eqb a b = true <-> v_name a = v_name b.
Proof. unfold v_eqb. apply String.eqb_eq. Qed.
Lemma v_eqb_refl a : v_eqb a a = true.
Proof. apply v_eqb_eq. reflexivity. Qed.

(** ** selections *)
Lemma select_cons {A} (x : A) l (b : bool) m : select (x :: l) (b :: m) = if b then x :: select l m else select l m.
Proof. unfold select. cbn. destruct b; reflexivity. Qed.
Lemma select_nil {A} m : select (@nil A) m = [].
Proof. unfold select. destruct m; reflexivity. Qed.
Lemma select_map {A B} (f : A -> B) (g : A -> bool) l : select (map f l) (map g l) = map f (filter g l).
Proof. induction l; auto. cbn [map filter]. rewrite select_cons, IHl. destruct (g a); auto. Qed.
Lemma select_map_id {A} (g : A -> bool) l : select l (map g l) = filter g l.
Proof. rewrite <- (map_id l) at 1. rewrite select_map. apply map_id. Qed.
Lemma select_combine {A B} (l : list A) (l' : list B) m :
  combine (select l m) (select l' m) = select (combine l l') m \/ List.length l <> List.length l'.
Proof.
  revert l' m. induction l as [|x l IH]; intros [|y l'] m; cbn [List.length combine]; rewrite ?select_nil; auto.
  destruct m as [|b m]; [left; reflexivity|]. rewrite !select_cons. destruct (IH l' m) as [E|E]; [|right; lia].
  left. destruct b; cbn; rewrite E; auto.
Qed.
Lemma select_combine_eq {A B} (l : list A) (l' : list B) m : List.length l = List.length l' ->
  combine (select l m) (select l' m) = select (combine l l') m.
Proof. intros H. destruct (select_combine l l' m); auto. congruence. Qed.
Lemma select_length {A B} (l : list A) (l' : list B) m : List.length l = List.length l' ->
  List.length (select l m) = List.length (select l' m).
Proof.
  revert l' m. induction l as [|x l IH]; intros [|y l'] m H; cbn in H; try lia; rewrite ?select_nil; auto.
  destruct m as [|b m]; auto. rewrite !select_cons. destruct b; cbn; rewrite (IH l' m); auto.
Qed.
Lemma select_true {A B} (l : list A) (l' : list B) : List.length l = List.length l' -> select l (map (fun _ => true) l') = l.
Proof.
  revert l'. induction l as [|x l IH]; intros [|y l'] H; cbn in H; try lia; auto.
  cbn [map]. rewrite select_cons, IH; auto.
Qed.
Lemma select_combine_map {A B} (h : A -> bool) (l : list A) (l' : list B) : List.length l = List.length l' ->
  select (combine l l') (map h l) = filter (fun ab => h (fst ab)) (combine l l').
Proof.
  revert l'. induction l as [|x l IH]; intros [|y l'] H; cbn in H; try lia; auto.
  cbn [map combine filter]. rewrite select_cons, IH by lia. reflexivity.
Qed.
Lemma select_snd {A B} (h : A -> bool) (l : list A) (l' : list B) : List.length l = List.length l' ->
  select l' (map h l) = map snd (filter (fun ab => h (fst ab)) (combine l l')).
Proof.
  revert l'. induction l as [|x l IH]; intros [|y l'] H; cbn in H; try lia; auto.
  cbn [map combine filter]. rewrite select_cons, IH by lia. cbn [fst]. destruct (h x); reflexivity.
Qed.
Lemma select_In {A} (x : A) l m : In x (select l m) -> In x l.
Proof.
  unfold select. intros H. apply in_map_iff in H as ([b y] & <- & H). apply filter_In in H as [H _].
  apply in_combine_r in H. auto.
Qed.
Lemma get_value_ok {A B} (l : list A) (f : B -> bool) m : List.length l = List.length m -> get_value l (map f m) = Ok (select l (map f m)).
Proof. intros H. unfold get_value. rewrite map_length, H, Nat.eqb_refl. auto. Qed.

Lemma put_true_map {A} (g h : A -> bool) l : put_true (map g l) (map h (filter g l)) = map (fun r => g r && h r) l.
Proof. induction l; cbn; auto. destruct (g a); cbn; rewrite IHl; auto. Qed.

Lemma where_from_take {A} (l : list A) is : List.length l = List.length is ->
  forall pre, take_rows (pre ++ l) (where_from (List.length pre) is) = select l is.
Proof.
  revert is. induction l as [|x l IH]; intros [|b is] H pre; cbn in H; try lia; auto.
  rewrite select_cons. cbn [where_from].
  assert (E : take_rows (pre ++ x :: l) (where_from (S (List.length pre)) is) = select l is).
  { rewrite <- (IH is ltac:(lia) (pre ++ [x])). rewrite <- app_assoc, app_length. cbn. rewrite Nat.add_1_r. auto. }
  destruct b; auto. unfold take_rows in *. cbn [flat_map]. rewrite E, nth_error_app2, Nat.sub_diag by lia. reflexivity.
Qed.
Lemma where_take {A} (l : list A) is : List.length l = List.length is -> take_rows l (where_ is) = select l is.
Proof. intros H. apply (where_from_take l is H []). Qed.
Lemma where_from_bounds is : forall n i, In i (where_from n is) -> (n <= i < n + List.length is)%nat.
Proof.
  induction is as [|b is IH]; intros n i H; cbn in *; [tauto|].
  destruct b; [destruct H as [->|H]; [lia|]|]; apply IH in H; lia.
Qed.
Lemma where_from_In is : forall n i, In i (where_from n is) <-> (n <= i)%nat /\ nth_error is (i - n) = Some true.
Proof.
  induction is as [|b is IH]; intros n i; cbn [where_from].
  - split; [intros []|]. intros [_ H]. destruct (i - n)%nat; discriminate.
  - assert (E : In i (where_from (S n) is) <-> (S n <= i)%nat /\ nth_error is (i - S n) = Some true) by apply IH.
    destruct (Nat.eq_dec i n) as [->|Hne].
    + rewrite Nat.sub_diag. cbn [nth_error]. destruct b.
      * split; intros H; [split; auto|left; auto].
      * split; intros H; [apply E in H; lia|destruct H; discriminate].
    + assert (F : (n <= i)%nat /\ nth_error (b :: is) (i - n) = Some true <-> (S n <= i)%nat /\ nth_error is (i - S n) = Some true).
      { split; intros [H1 H2]; (split; [lia|]).
        - replace (i - n)%nat with (S (i - S n)) in H2 by lia. auto.
        - replace (i - n)%nat with (S (i - S n)) by lia. auto. }
      rewrite F, <- E. destruct b; cbn; [|tauto]. split; [intros [H|H]; [lia|auto]|auto].
Qed.
(** the complement of the selected rows *)
Lemma not_where is : forall n,
  filter (fun i => negb (existsb (Nat.eqb i) (where_from n is))) (seq n (List.length is)) = where_from n (map negb is).
Proof.
  assert (G : forall is n m, (m + List.length is)%nat = n \/ True -> forall pre,
     (forall i, In i pre -> (i < m)%nat) ->
     filter (fun i => negb (existsb (Nat.eqb i) (pre ++ where_from m is))) (seq m (List.length is)) = where_from m (map negb is)).
  { clear. induction is as [|b is IH]; intros n m _ pre Hp; auto. cbn [List.length seq filter where_from map].
    assert (Hex : existsb (Nat.eqb m) (pre ++ (if b then m :: where_from (S m) is else where_from (S m) is)) = b).
    { apply eq_true_iff_eq. rewrite existsb_exists. split.
      - intros (x & Hx & E). apply Nat.eqb_eq in E. subst x. apply in_app_or in Hx as [Hx|Hx].
        + apply Hp in Hx. lia.
        + destruct b; auto. apply where_from_bounds in Hx. lia.
      - intros ->. exists m. split; [apply in_or_app; right; left; auto|apply Nat.eqb_refl]. }
    rewrite Hex. destruct b; cbn [negb].
    - specialize (IH O (S m) (or_intror Logic.I) (pre ++ [m])). rewrite <- IH.
      + apply filter_ext. intros i. rewrite <- app_assoc. reflexivity.
      + intros i Hi. apply in_app_or in Hi as [Hi|[<-|[]]]; [apply Hp in Hi; lia|lia].
    - f_equal. apply (IH O (S m) (or_intror Logic.I) pre). intros i Hi. apply Hp in Hi. lia. }
  intros n. apply (G is O n (or_intror Logic.I) []). intros i [].
Qed.

Lemma forallb_map {A B} (f : B -> bool) (g : A -> B) l : forallb f (map g l) = forallb (fun x => f (g x)) l.
Proof. induction l; cbn; auto. rewrite IHl. auto. Qed.

(** ** positions of variables *)
Definition pos (vs : list variable) (v : variable) : nat := match find_idx (v_eqb v) vs with Some i => i | None => O end.

Lemma NoDup_names_inj vs v w : NoDup (names vs) -> In v vs -> In w vs -> v_name v = v_name w -> v = w.
Proof.
  unfold names. induction vs as [|x vs IH]; cbn; [tauto|]. intros H. inversion H as [|? ? H1 H2]; subst.
  intros [->|Hv] [->|Hw] E; auto.
  - exfalso. apply H1. rewrite E. apply in_map. auto.
  - exfalso. apply H1. rewrite <- E. apply in_map. auto.
Qed.

Lemma find_idx_pos vs v i : NoDup (names vs) -> nth_error vs i = Some v -> find_idx (v_eqb v) vs = Some i.
Proof.
  intros Hn Hi. destruct (find_idx_in (v_eqb v) vs v (nth_error_In _ _ Hi) (v_eqb_refl v)) as [j Hj].
  pose proof Hj as Hj'. apply find_idx_some in Hj' as (w & Hw & E & _). apply v_eqb_eq in E.
  rewrite Hj. f_equal. assert (Hm : nth_error (names vs) j = Some (v_name w)) by (apply map_nth_error; auto).
  assert (Hm' : nth_error (names vs) i = Some (v_name v)) by (apply map_nth_error; auto).
  rewrite <- E in Hm. eapply NoDup_nth_error; eauto.
  - apply nth_error_Some. congruence.
  - congruence.
Qed.
Lemma pos_nth vs v i : NoDup (names vs) -> nth_error vs i = Some v -> pos vs v = i.
Proof. intros H1 H2. unfold pos. rewrite (find_idx_pos vs v i); auto. Qed.
Lemma pos_In vs v : NoDup (names vs) -> In v vs -> nth_error vs (pos vs v) = Some v.
Proof. intros H1 H2. apply In_nth_error in H2 as [i Hi]. rewrite (pos_nth vs v i); auto. Qed.

Lemma combine_pos vs row : NoDup (names vs) -> List.length row = List.length vs ->
  combine vs row = map (fun v => (v, at_ row (pos vs v))) vs.
Proof.
  intros Hn Hl.
  assert (E : combine vs row = map (fun i => (nth i vs (mkVar "" [] None None), at_ row i)) (seq 0 (List.length vs))).
  { clear Hn. revert row Hl. induction vs as [|v vs IH]; intros [|r row] Hl; cbn in Hl; try lia; auto.
    cbn [combine List.length seq map nth]. f_equal. rewrite <- seq_shift, map_map. rewrite IH by lia. reflexivity. }
  rewrite E. set (d := mkVar "" [] None None).
  transitivity (map (fun v => (v, at_ row (pos vs v))) (map (fun i => nth i vs d) (seq 0 (List.length vs)))).
  - rewrite map_map. apply map_ext_in. intros i Hi. apply in_seq in Hi.
    assert (Hi' : nth_error vs i = Some (nth i vs d)) by (apply nth_error_nth'; lia).
    rewrite (pos_nth vs _ i Hn Hi'). reflexivity.
  - f_equal. clear. induction vs as [|v vs IH]; cbn; auto. f_equal. rewrite <- seq_shift, map_map. exact IH.
Qed.

(** does the code of [v] in [row] allow [a]? *)
Definition cell (vs : list variable) (row : list Z) (a : joint) (v : variable) : bool :=
  mem_Z (a (v_name v)) (states_of v (at_ row (pos vs v))).

Lemma row_match_cells vs row a : NoDup (names vs) -> List.length row = List.length vs ->
  row_match vs row a = forallb (cell vs row a) vs.
Proof.
  intros Hn Hl. unfold row_match. rewrite combine_pos by auto. rewrite forallb_map. reflexivity.
Qed.

Lemma row_match_app vs1 vs2 r1 r2 a : List.length vs1 = List.length r1 ->
  row_match (vs1 ++ vs2) (r1 ++ r2) a = row_match vs1 r1 a && row_match vs2 r2 a.
Proof.
  unfold row_match. revert r1. induction vs1 as [|v vs1 IH]; intros [|x r1] H; cbn in H; try lia; auto.
  cbn. rewrite IH by lia. apply andb_assoc.
Qed.
Lemma row_match_select vs row a m : List.length vs = List.length row -> List.length m = List.length vs ->
  row_match vs row a = row_match (select vs m) (select row m) a && row_match (select vs (map negb m)) (select row (map negb m)) a.
Proof.
  unfold row_match. revert row m. induction vs as [|v vs IH]; intros [|x row] [|b m] H1 H2; cbn in H1, H2; try lia; auto.
  cbn [map combine forallb]. rewrite !select_cons. rewrite (IH row m) by lia.
  destruct b; cbn; [apply andb_assoc|]. rewrite !andb_assoc. f_equal. apply andb_comm.
Qed.
Lemma forallb_same {A} (f : A -> bool) l1 l2 : (forall x, In x l1 <-> In x l2) -> forallb f l1 = forallb f l2.
Proof.
  intros H. apply eq_true_iff_eq. rewrite !forallb_forall. split; intros G x Hx; apply G, H; auto.
Qed.

(** columns rearranged *)
Lemma row_match_perm vs1 vs2 row a : NoDup (names vs1) -> NoDup (names vs2) -> List.length row = List.length vs2 ->
  (forall v, In v vs1 <-> In v vs2) ->
  row_match vs1 (cols row (somes (ismember vs1 vs2))) a = row_match vs2 row a.
Proof.
  intros H1 H2 Hl Hs.
  assert (E : somes (ismember vs1 vs2) = map (pos vs2) vs1).
  { unfold ismember. assert (I : incl vs1 vs2) by (intros v Hv; apply Hs; auto). clear -H2 I.
    induction vs1 as [|v vs1 IH]; auto. cbn [map somes].
    assert (Hv : nth_error vs2 (pos vs2 v) = Some v) by (apply pos_In; auto; apply I; left; auto).
    rewrite (find_idx_pos vs2 v _ H2 Hv). f_equal. apply IH. intros x Hx. apply I. right; auto. }
  rewrite E, (row_match_cells vs2) by auto. unfold row_match, cols. rewrite map_map.
  assert (C : forall l, combine l (map (fun v => at_ row (pos vs2 v)) l) = map (fun v => (v, at_ row (pos vs2 v))) l).
  { induction l; cbn; auto. f_equal; auto. }
  rewrite C, forallb_map. apply forallb_same. auto.
Qed.
