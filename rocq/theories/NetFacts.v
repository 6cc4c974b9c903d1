(** Proofs about the network traversals. *)
From Coq Require Import ZArith List String Bool Arith Lia Permutation Relations Sorted.
From Verif Require Import Py PyFacts Vari VariFacts Cpm CpmFacts SpecCpm Net SpecNet.
Import ListNotations.
Open Scope string_scope.
Open Scope list_scope.

(** * [get_inf_vars] *)

Lemma mem_str_false x l : mem_str x l = false <-> ~ In x l.
Proof. rewrite <- mem_str_In. destruct (mem_str x l); split; congruence || tauto. Qed.

Lemma NoDup_snoc {A} (l : list A) x : NoDup l -> ~ In x l -> NoDup (l ++ [x]).
Proof.
  intros H1 H2. apply (Permutation_NoDup (Permutation_cons_append l x)). constructor; auto.
Qed.

(** the queue grows by new names from the scope; afterwards all of the scope is known *)
Lemma queue_scope_spec inf scope : forall cp, exists new,
  queue_scope inf cp scope = cp ++ new /\ NoDup new /\ incl new scope /\
  (forall x, In x new -> ~ In x inf /\ ~ In x cp) /\ (forall x, In x scope -> In x (inf ++ cp ++ new)).
Proof.
  unfold queue_scope. induction scope as [|p scope IH]; intros cp; cbn [fold_left].
  - exists []. rewrite app_nil_r. repeat split; auto using NoDup_nil; cbn; try tauto. intros x [].
  - destruct (negb (mem_str p inf) && negb (mem_str p cp)) eqn:E.
    + apply andb_true_iff in E as [E1 E2]. apply negb_true_iff, mem_str_false in E1, E2.
      destruct (IH (cp ++ [p])) as (new & H1 & H2 & H3 & H4 & H5). exists (p :: new).
      rewrite H1, <- app_assoc. split; [reflexivity|]. split; [|split; [|split]].
      * constructor; auto. intros X. apply H4 in X as [_ X]. apply X. apply in_app_iff. right. left. auto.
      * intros x [<- |X]; [left; auto|right; auto].
      * intros x [<- |X]; [auto|]. apply H4 in X as [X1 X2]. split; auto. intros Y. apply X2, in_app_iff. auto.
      * intros x [<- |X]; [apply in_app_iff; right; apply in_app_iff; right; left; auto|].
        apply H5 in X. rewrite <- app_assoc in X. exact X.
    + destruct (IH cp) as (new & H1 & H2 & H3 & H4 & H5). exists new. split; [auto|]. split; [auto|].
      split; [intros x X; right; auto|]. split; [auto|]. intros x [<- |X]; [|auto].
      apply andb_false_iff in E as [E|E]; apply negb_false_iff, mem_str_In in E; apply in_app_iff; [auto|].
      right. apply in_app_iff. auto.
Qed.

Definition all_scopes (cpms : dict cpm) : list string := List.concat (map (fun kM => names (parents (snd kM))) cpms).
Lemma scope_in cpms v M p : dfind cpms v = Some M -> In p (names (parents M)) -> In p (all_scopes cpms).
Proof.
  intros H1 H2. apply dfind_In in H1. apply in_concat. exists (names (parents M)). split; auto.
  apply in_map_iff. exists (v, M). auto.
Qed.

Definition inf_inv (cpms : dict cpm) (varis inf cp : list string) : Prop :=
  (exists added, inf ++ cp = varis ++ added /\ NoDup added /\ incl added (all_scopes cpms) /\ (forall x, In x added -> ~ In x varis)) /\
  (forall x, In x (inf ++ cp) -> relevant cpms varis x) /\
  (forall v, In v inf -> exists M, dfind cpms v = Some M /\ forall p, In p (names (parents M)) -> In p (inf ++ cp)).

Lemma rt_snoc {A} (R : A -> A -> Prop) x y z : clos_refl_trans_1n A R x y -> R y z -> clos_refl_trans_1n A R x z.
Proof. induction 1; intros H2; [eapply Relation_Operators.rt1n_trans; [eauto|constructor]|eapply Relation_Operators.rt1n_trans; eauto]. Qed.

Lemma inf_step cpms varis inf v cp M : inf_inv cpms varis inf (v :: cp) -> dfind cpms v = Some M ->
  inf_inv cpms varis (inf ++ [v]) (queue_scope (inf ++ [v]) cp (names (parents M))).
Proof.
  intros ((added & E & Hn & Hi & Hd) & Hr & Hc) HM.
  destruct (queue_scope_spec (inf ++ [v]) (names (parents M)) cp) as (new & Q1 & Q2 & Q3 & Q4 & Q5).
  rewrite Q1.
  assert (E' : (inf ++ [v]) ++ cp ++ new = (inf ++ v :: cp) ++ new) by (rewrite <- !app_assoc; reflexivity).
  assert (Hnew : forall x, In x new -> ~ In x (inf ++ v :: cp)).
  { intros x Hx. destruct (Q4 x Hx) as [X1 X2]. intros Y. apply in_app_iff in Y as [Y|[Y|Y]].
    - apply X1, in_app_iff. auto.
    - apply X1, in_app_iff. right. left. auto.
    - auto. }
  split; [|split].
  - exists (added ++ new). rewrite E', E, <- app_assoc. split; [reflexivity|]. split; [|split].
    + apply NoDup_app_intro; auto. intros x X Y. apply (Hnew x Y). rewrite E. apply in_app_iff. auto.
    + apply incl_app; auto. intros x X. eapply scope_in; eauto.
    + intros x X Y. apply in_app_iff in X as [X|X]; [eapply Hd; eauto|].
      apply (Hnew x X). rewrite E. apply in_app_iff. auto.
  - intros x X. rewrite E' in X. apply in_app_iff in X as [X|X]; [auto|].
    destruct (Hr v) as (w & W1 & W2); [apply in_app_iff; right; left; auto|].
    exists w. split; auto. eapply rt_snoc; eauto. exists M. auto.
  - intros w W. rewrite E'. apply in_app_iff in W as [W|[<- |[]]].
    + destruct (Hc w W) as (M' & M1 & M2). exists M'. split; auto. intros p P. apply in_app_iff. auto.
    + exists M. split; auto. intros p P. rewrite <- E'. apply Q5; auto.
Qed.

Lemma inf_bound cpms varis inf cp : inf_inv cpms varis inf cp ->
  (List.length inf + List.length cp <= List.length varis + List.length (all_scopes cpms))%nat.
Proof.
  intros ((added & E & Hn & Hi & _) & _). apply (f_equal (@List.length _)) in E. rewrite !app_length in E.
  assert (H := NoDup_incl_length Hn Hi). lia.
Qed.

Lemma inf_loop_spec cpms varis fuel : forall inf cp, inf_inv cpms varis inf cp ->
  (List.length varis + List.length (all_scopes cpms) <= fuel + List.length inf)%nat ->
  (exists out, inf_loop fuel cpms inf cp = Ok out /\ inf_inv cpms varis out []) \/
  (inf_loop fuel cpms inf cp = Err KeyError /\ exists v, relevant cpms varis v /\ dfind cpms v = None).
Proof.
  induction fuel as [|fuel IH]; intros inf cp HI Hf.
  - assert (B := inf_bound _ _ _ _ HI). destruct cp; cbn in *; [left; eauto|lia].
  - destruct cp as [|v cp]; cbn [inf_loop]; [left; eauto|]. unfold dget. destruct (dfind cpms v) as [M|] eqn:EM; cbn [bind].
    + apply IH; [apply inf_step; auto|]. rewrite app_length. cbn. lia.
    + right. split; auto. exists v. split; auto. destruct HI as (_ & H & _). apply H, in_app_iff. right. left. auto.
Qed.

Lemma inf_start cpms varis : inf_inv cpms varis [] varis.
Proof.
  split; [|split].
  - exists []. rewrite app_nil_r. split; auto. split; [constructor|]. split; [intros x []|tauto].
  - intros x X. exists x. split; auto. constructor.
  - intros v [].
Qed.

Lemma inf_final cpms varis out : inf_inv cpms varis out [] ->
  (forall x, In x out <-> relevant cpms varis x) /\ (forall x, In x out -> dfind cpms x <> None) /\ (NoDup varis -> NoDup out).
Proof.
  intros ((added & E & Hn & Hi & Hd) & Hr & Hc). rewrite app_nil_r in *.
  split; [|split].
  - intros x. split; [auto|]. intros (v & Hv & R).
    assert (Hv' : In v out) by (rewrite E; apply in_app_iff; auto). clear Hv. induction R as [|x y z HR _ IH]; auto.
    apply IH. destruct (Hc x Hv') as (M & M1 & M2). destruct HR as (M' & M1' & M2'). rewrite M1 in M1'. injection M1' as <-. auto.
  - intros x X. destruct (Hc x X) as (M & M1 & _). congruence.
  - intros H. rewrite E. apply NoDup_app_intro; auto. intros x X Y. eapply Hd; eauto.
Qed.

Definition ord_sorted (o : list string) (l : list string) : Prop :=
  StronglySorted (fun x y => ord_inf o x <= ord_inf o y)%nat l.

Lemma insert_sorted {A} (k : A -> nat) x l : StronglySorted (fun a b => k a <= k b)%nat l ->
  StronglySorted (fun a b => k a <= k b)%nat (insert_desc (fun y x => (k y <? k x)%nat) x l).
Proof.
  induction 1 as [|y l Hl IH Hy]; cbn [insert_desc]; [repeat constructor|].
  destruct (k y <? k x)%nat eqn:E.
  - apply Nat.ltb_lt in E. constructor; auto. apply Forall_forall. intros z Z.
    apply (Permutation_in _ (insert_desc_perm _ x l)) in Z. destruct Z as [<- |Z]; [lia|]. rewrite Forall_forall in Hy. auto.
  - apply Nat.ltb_ge in E. constructor; [constructor; auto|]. constructor; auto.
    eapply Forall_impl; [|exact Hy]. cbn. intros; lia.
Qed.
Lemma sort_key_sorted {A} (k : A -> nat) l :
  StronglySorted (fun a b => k a <= k b)%nat (sort_desc (fun y x => (k y <? k x)%nat) l).
Proof. induction l; cbn; [constructor|]. apply insert_sorted; auto. Qed.

(** position in an order: the first occurrence *)
Lemma ord_inf_spec o x : (ord_inf o x < List.length o)%nat <-> In x o.
Proof.
  unfold ord_inf. destruct (find_idx (String.eqb x) o) as [i|] eqn:E.
  - apply find_idx_some in E as (y & Hy & Ey & _). apply String.eqb_eq in Ey. subst y. split; intros H.
    + eapply nth_error_In; eauto.
    + apply nth_error_Some. congruence.
  - split; [lia|]. intros H. exfalso. destruct (find_idx_in (String.eqb x) o x H (String.eqb_refl x)) as [i X]. congruence.
Qed.

Lemma inf_main cpms varis ord :
  (exists out, get_inf_vars cpms varis ord = Ok out /\
     (forall x, In x out <-> relevant cpms varis x) /\ (forall x, In x out -> dfind cpms x <> None) /\ (NoDup varis -> NoDup out) /\
     (forall o, ord = Some o -> ord_sorted o out)) \/
  (get_inf_vars cpms varis ord = Err KeyError /\ exists v, relevant cpms varis v /\ dfind cpms v = None).
Proof.
  unfold get_inf_vars.
  destruct (inf_loop_spec cpms varis (inf_fuel cpms varis) [] varis (inf_start _ _)) as [(out & E & HI)|[E HI]].
  - unfold inf_fuel. cbn [List.length]. rewrite Nat.add_0_r. apply Nat.le_refl.
  - left. rewrite E. cbn [bind]. destruct (inf_final _ _ _ HI) as (F1 & F2 & F3). destruct ord as [o|].
    + set (k := ord_inf o). assert (P := sort_desc_perm (fun y x => (k y <? k x)%nat) out).
      eexists. split; [reflexivity|]. assert (I : forall x, In x (sort_desc (fun y x => (k y <? k x)%nat) out) <-> In x out).
      { intros x. split; apply Permutation_in; auto. apply Permutation_sym; auto. }
      split; [intros x; rewrite (I x); auto|]. split; [intros x X; apply F2, I; auto|]. split.
      * intros H. eapply Permutation_NoDup; [apply Permutation_sym; exact P|auto].
      * intros o' [= <-]. apply sort_key_sorted.
    + exists out. split; [auto|]. split; [auto|]. split; [auto|]. split; [auto|]. discriminate.
  - right. rewrite E. auto.
Qed.

(** * [get_sample_order] *)

Lemma pop_at_perm {A} k : forall (l : list A) x, nth_error l k = Some x -> Permutation l (x :: pop_at k l).
Proof.
  induction k as [|k IH]; intros [|y l] x H; cbn in *; try discriminate.
  - injection H as <-. auto.
  - rewrite (IH l x H) at 1. apply perm_swap.
Qed.

Lemma parents_ready M vs : forallb (fun p => existsb (v_eqb p) vs) (parents M) = true <->
  incl (names (parents M)) (names vs).
Proof.
  rewrite forallb_forall. split.
  - intros H n Hn. apply in_map_iff in Hn as (p & <- & Hp). specialize (H p Hp). apply existsb_exists in H as (w & Hw & E).
    apply v_eqb_eq in E. rewrite E. apply in_map. auto.
  - intros H p Hp. apply existsb_exists. specialize (H _ (in_map v_name _ _ Hp)). apply in_map_iff in H as (w & E & Hw).
    exists w. split; auto. apply v_eqb_eq. auto.
Qed.

Definition child_names (cpms : list cpm) (l : list nat) : list string :=
  flat_map (fun j => match nth_error cpms j with Some M => names (children M) | None => [] end) l.
Lemma child_names_In cpms l n : In n (child_names cpms l) <-> exists j, In j l /\ defines cpms j n.
Proof.
  unfold child_names, defines. rewrite in_flat_map. split.
  - intros (j & Hj & H). destruct (nth_error cpms j) as [M|] eqn:E; [|destruct H]. eauto.
  - intros (j & Hj & M & E & H). exists j. rewrite E. auto.
Qed.

Lemma nth_error_combine_seq {A} (l : list A) a j x : nth_error (combine (seq a (List.length l)) l) j = Some x <->
  (exists M, nth_error l j = Some M /\ x = (a + j, M)%nat).
Proof.
  revert a j. induction l as [|y l IH]; intros a j; cbn [List.length seq combine].
  - split; [destruct j; discriminate|]. intros (M & H & _). destruct j; discriminate.
  - destruct j as [|j]; cbn [nth_error].
    + rewrite Nat.add_0_r. split; [intros [= <-]; eauto|intros (M & [= <-] & ->); auto].
    + rewrite IH. rewrite Nat.add_succ_comm. tauto.
Qed.
Lemma In_combine_seq {A} (l : list A) j M : In (j, M) (combine (seq 0 (List.length l)) l) <-> nth_error l j = Some M.
Proof.
  split.
  - intros H. apply In_nth_error in H as [k H]. apply nth_error_combine_seq in H as (M' & E & X). cbn in X. injection X as -> ->. auto.
  - intros H. apply nth_error_In with j. apply nth_error_combine_seq. eauto.
Qed.

(** invariant of the loop *)
Definition so_inv (cpms : list cpm) (s : sample_st) : Prop :=
  (forall j M, In (j, M) (s_rest s) -> nth_error cpms j = Some M) /\
  Permutation (s_order s ++ map fst (s_rest s)) (seq 0 (List.length cpms)) /\
  incl (names (s_vars s)) (child_names cpms (s_order s)) /\
  (forall l1 j l2 n, s_order s = l1 ++ j :: l2 -> needs cpms j n -> exists i, In i l1 /\ defines cpms i n).

Lemma snoc_split {A} (l l1 l2 : list A) x y : l ++ [x] = l1 ++ y :: l2 ->
  (l1 = l /\ y = x) \/ (exists l2', l = l1 ++ y :: l2').
Proof.
  revert l1. induction l as [|a l IH]; intros [|b l1]; cbn; intros [= E1 E2].
  - left. auto.
  - destruct l1; discriminate.
  - right. exists l. subst. auto.
  - subst b. destruct (IH l1 E2) as [[-> ->]|(l2' & ->)]; [left; auto|right; eauto].
Qed.

Lemma so_pass cpms s i : so_inv cpms s -> so_inv cpms (sample_pass s i) /\
  (forall k, get_prod_idx (map snd (s_rest s)) (s_vars s) = Some k ->
     List.length (s_order (sample_pass s i)) = S (List.length (s_order s))).
Proof.
  intros (I1 & I2 & I3 & I4). unfold sample_pass.
  destruct (get_prod_idx (map snd (s_rest s)) (s_vars s)) as [k|] eqn:E.
  2:{ split; [split; auto|discriminate]. }
  unfold get_prod_idx in E. apply find_idx_some in E as (M' & Hk & HM & _).
  rewrite nth_error_map in Hk. destruct (nth_error (s_rest s) k) as [[j M]|] eqn:Ek; [|discriminate].
  cbn in Hk. injection Hk as ->. apply parents_ready in HM.
  assert (Hj : nth_error cpms j = Some M') by (apply I1; eapply nth_error_In; eauto).
  assert (P := pop_at_perm k (s_rest s) (j, M') Ek).
  split.
  - split; [|split; [|split]]; cbn [s_rest s_order s_vars s_add].
    + intros j2 M2 H2. apply I1. apply (Permutation_in _ (Permutation_sym P)). right. auto.
    + rewrite <- I2. rewrite <- app_assoc. apply Permutation_app_head. cbn [app].
      apply Permutation_sym. apply (Permutation_map fst) in P. exact P.
    + assert (X : forall n, In n (child_names cpms (s_order s)) -> In n (child_names cpms (s_order s ++ [j]))).
      { intros n. rewrite !child_names_In. intros (j2 & H1 & H2). exists j2. split; auto. apply in_app_iff. auto. }
      destruct (existsb _ (s_vars s)).
      * intros n Hn. apply X, I3. auto.
      * intros n Hn. unfold names in Hn. rewrite map_app in Hn. apply in_app_iff in Hn as [Hn|Hn]; [apply X, I3; auto|].
        apply child_names_In. exists j. split; [apply in_app_iff; right; left; auto|]. exists M'. auto.
    + intros l1 j2 l2 n Hs Hn. apply snoc_split in Hs as [[-> ->]|(l2' & Hs)].
      * destruct Hn as (M2 & E2 & Hn). rewrite Hj in E2. injection E2 as <-. apply child_names_In, I3, HM. auto.
      * eapply I4; eauto.
  - intros _ _. cbn [s_order]. rewrite app_length. cbn. lia.
Qed.

Lemma so_start cpms : so_inv cpms (mkSS (combine (seq 0 (List.length cpms)) cpms) [] [] []).
Proof.
  split; [|split; [|split]]; cbn [s_rest s_order s_vars s_add app].
  - intros j M. apply In_combine_seq.
  - replace (map fst (combine (seq 0 (List.length cpms)) cpms)) with (seq 0 (List.length cpms)); auto.
    assert (X : forall a, seq a (List.length cpms) = map fst (combine (seq a (List.length cpms)) cpms)).
    { induction cpms as [|M cpms IH]; intros a; cbn; [auto|]. f_equal. apply IH. }
    auto.
  - intros n [].
  - intros l1 j l2 n E. destruct l1; discriminate.
Qed.

Lemma so_fold cpms l : forall s, so_inv cpms s -> so_inv cpms (fold_left sample_pass l s).
Proof. induction l as [|i l IH]; intros s H; cbn; auto. apply IH, so_pass; auto. Qed.

Lemma so_topological cpms s : so_inv cpms s -> topological cpms (s_order s).
Proof.
  intros (I1 & I2 & I3 & I4). split; [|split].
  - assert (N : NoDup (s_order s ++ map fst (s_rest s))).
    { eapply Permutation_NoDup; [apply Permutation_sym; exact I2|apply seq_NoDup]. }
    clear -N. induction (s_order s) as [|x l IH]; [constructor|]. inversion N; subst. constructor; auto.
    intros X. apply H1, in_app_iff. auto.
  - intros j Hj. assert (X : In j (seq 0 (List.length cpms))) by (apply (Permutation_in _ I2), in_app_iff; auto).
    apply in_seq in X. lia.
  - exact I4.
Qed.

(** with one definition per variable, [sample_vars] collects all children *)
Definition so_full (cpms : list cpm) (s : sample_st) : Prop :=
  names (s_vars s) = child_names cpms (s_order s).

Lemma so_full_pass cpms s i : one_definition cpms -> so_inv cpms s -> so_full cpms s -> so_full cpms (sample_pass s i).
Proof.
  intros H1 (I1 & I2 & I3 & I4) HF. unfold sample_pass, so_full in *.
  destruct (get_prod_idx (map snd (s_rest s)) (s_vars s)) as [k|] eqn:E; [|auto].
  destruct (nth_error (s_rest s) k) as [[j M]|] eqn:Ek; [|auto]. cbn [s_vars s_order].
  assert (Hin : In (j, M) (s_rest s)) by (eapply nth_error_In; eauto).
  assert (Hj : nth_error cpms j = Some M) by (apply I1; auto).
  replace (existsb (fun v => existsb (v_eqb v) (children M)) (s_vars s)) with false.
  - unfold names in *. rewrite map_app, HF. unfold child_names. rewrite flat_map_app. cbn. rewrite Hj, app_nil_r. auto.
  - symmetry. apply not_true_is_false. intros X. apply existsb_exists in X as (v & Hv & X). apply existsb_exists in X as (w & Hw & X).
    apply v_eqb_eq in X. assert (Y : In (v_name v) (names (s_vars s))) by (apply in_map; auto). rewrite HF in Y.
    apply child_names_In in Y as (i2 & Hi2 & Hd). assert (D : defines cpms j (v_name v)).
    { exists M. split; auto. rewrite X. apply in_map. auto. }
    assert (i2 = j) by (eapply H1; eauto). subst i2.
    assert (N : NoDup (s_order s ++ map fst (s_rest s))).
    { eapply Permutation_NoDup; [apply Permutation_sym; exact I2|apply seq_NoDup]. }
    apply (in_map fst) in Hin. cbn in Hin. clear -N Hin Hi2. induction (s_order s) as [|x l IH]; [destruct Hi2|].
    cbn in N. inversion N; subst. destruct Hi2 as [-> |Hi2]; [apply H1, in_app_iff; auto|auto].
Qed.

(** a CPM of least rank is ready *)
Lemma min_rank (r : nat -> nat) (l : list (nat * cpm)) : l <> [] -> exists x, In x l /\ forall y, In y l -> (r (fst x) <= r (fst y))%nat.
Proof.
  induction l as [|x l IH]; [tauto|]. intros _. destruct l as [|y l].
  - exists x. split; [left; auto|]. intros y [<- |[]]; auto.
  - destruct IH as (z & Hz & Hm); [discriminate|]. destruct (le_lt_dec (r (fst x)) (r (fst z))).
    + exists x. split; [left; auto|]. intros w [<- |Hw]; [auto|]. specialize (Hm w Hw). lia.
    + exists z. split; [right; auto|]. intros w [<- |Hw]; [lia|auto].
Qed.

Lemma so_ready cpms s : acyclic cpms -> so_inv cpms s -> so_full cpms s -> s_rest s <> [] ->
  exists k, get_prod_idx (map snd (s_rest s)) (s_vars s) = Some k.
Proof.
  intros (r & Hr) (I1 & I2 & I3 & I4) HF Hne. destruct (min_rank r (s_rest s) Hne) as ([j M] & Hin & Hm).
  unfold get_prod_idx. apply find_idx_in with (x := M); [change M with (snd (j, M)); apply in_map; auto|].
  apply parents_ready. intros n Hn. rewrite HF. apply child_names_In.
  destruct (Hr j n) as (i & Hd & Hlt); [exists M; auto|]. exists i. split; auto.
  assert (X : In i (s_order s ++ map fst (s_rest s))).
  { apply (Permutation_in _ (Permutation_sym I2)). apply in_seq. destruct Hd as (M' & E & _).
    assert (i < List.length cpms)%nat by (apply nth_error_Some; congruence). lia. }
  apply in_app_iff in X as [X|X]; auto. exfalso. apply in_map_iff in X as ([i' M'] & <- & X). specialize (Hm _ X). cbn in *. lia.
Qed.

Lemma so_fold_full cpms l : one_definition cpms -> acyclic cpms -> forall s, so_inv cpms s -> so_full cpms s ->
  (List.length (s_rest s) <= List.length l)%nat ->
  s_rest (fold_left sample_pass l s) = [] /\ so_full cpms (fold_left sample_pass l s).
Proof.
  intros H1 HA. induction l as [|i l IH]; intros s HI HF Hl; cbn [fold_left].
  - destruct (s_rest s); cbn in *; [auto|lia].
  - apply IH; [apply so_pass; auto|apply so_full_pass; auto|].
    destruct (s_rest s) as [|x rest] eqn:E.
    + unfold sample_pass. rewrite E. cbn. rewrite E. cbn. lia.
    + destruct (so_ready cpms s HA HI HF) as [k Hk]; [congruence|].
      destruct (so_pass cpms s i HI) as [(_ & P' & _) HL]. specialize (HL k Hk).
      destruct HI as (_ & P & _). apply Permutation_length in P, P'. rewrite app_length, map_length in P, P'.
      rewrite E in P. cbn in *. lia.
Qed.

Lemma sample_order_main cpms order vars add : get_sample_order cpms = (order, vars, add) ->
  topological cpms order /\
  (one_definition cpms -> acyclic cpms ->
     Permutation order (seq 0 (List.length cpms)) /\ names vars = child_names cpms order).
Proof.
  unfold get_sample_order. set (s := fold_left sample_pass _ _). intros [= <- <- <-].
  assert (HI : so_inv cpms s) by (apply so_fold, so_start). split; [apply so_topological; auto|].
  intros H1 HA. destruct (so_fold_full cpms (seq 0 (List.length cpms)) H1 HA _ (so_start cpms)) as [R F].
  - reflexivity.
  - cbn [s_rest]. rewrite combine_length, seq_length. lia.
  - fold s in R, F. split; [|exact F]. destruct HI as (_ & P & _). rewrite R in P. cbn in P. rewrite app_nil_r in P. auto.
Qed.

(** a topological listing of all CPMs ranks them *)
Lemma topological_acyclic cpms l : topological cpms l -> Permutation l (seq 0 (List.length cpms)) -> acyclic cpms.
Proof.
  intros (N & _ & H) P. exists (fun j => match find_idx (Nat.eqb j) l with Some i => i | None => O end).
  intros j n Hn. assert (Hj : In j l).
  { destruct Hn as (M & E & _). apply (Permutation_in _ (Permutation_sym P)), in_seq.
    assert (j < List.length cpms)%nat by (apply nth_error_Some; congruence). lia. }
  apply in_split in Hj as (l1 & l2 & ->). destruct (H l1 j l2 n eq_refl Hn) as (i & Hi & Hd). exists i. split; auto.
  rewrite !find_idx_app. destruct (find_idx_in (Nat.eqb i) l1 i Hi (Nat.eqb_refl i)) as [a Ea]. rewrite Ea.
  destruct (find_idx (Nat.eqb j) l1) as [b|] eqn:Eb.
  - exfalso. apply find_idx_some in Eb as (y & Hy & E & _). apply Nat.eqb_eq in E. subst y. apply nth_error_In in Hy.
    apply NoDup_remove_2 in N. apply N, in_app_iff. auto.
  - cbn [find_idx]. rewrite Nat.eqb_refl. cbn. apply find_idx_some in Ea as (y & Hy & _).
    assert (a < List.length l1)%nat by (apply nth_error_Some; congruence). lia.
Qed.

(** the exact lists of variables and of pass numbers *)
Definition child_vars (cpms : list cpm) (l : list nat) : list variable :=
  flat_map (fun j => match nth_error cpms j with Some M => children M | None => [] end) l.
Fixpoint add_of (cpms : list cpm) (k : nat) (l : list nat) : list nat :=
  match l with
  | [] => []
  | j :: l' => map (fun _ => k) (match nth_error cpms j with Some M => children M | None => [] end) ++ add_of cpms (S k) l'
  end.
Lemma add_of_app cpms l1 : forall k l2, add_of cpms k (l1 ++ l2) = add_of cpms k l1 ++ add_of cpms (k + List.length l1) l2.
Proof.
  induction l1 as [|j l1 IH]; intros k l2; cbn [app add_of List.length]; [rewrite Nat.add_0_r; auto|].
  rewrite IH, app_assoc. do 2 f_equal. lia.
Qed.

Definition so_exact (cpms : list cpm) (s : sample_st) : Prop :=
  s_vars s = child_vars cpms (s_order s) /\ s_add s = add_of cpms 0 (s_order s).
Lemma so_exact_full cpms s : so_exact cpms s -> so_full cpms s.
Proof.
  intros [H _]. unfold so_full. rewrite H. unfold child_vars, child_names, names. clear H.
  induction (s_order s) as [|j l IH]; cbn; auto. rewrite map_app, IH. destruct (nth_error cpms j); auto.
Qed.

Lemma so_exact_pass cpms s : one_definition cpms -> so_inv cpms s -> so_exact cpms s ->
  (exists k, get_prod_idx (map snd (s_rest s)) (s_vars s) = Some k) ->
  so_exact cpms (sample_pass s (List.length (s_order s))).
Proof.
  intros H1 HI HE (k & Hk). assert (HF := so_exact_full _ _ HE). pose proof (so_full_pass cpms s (List.length (s_order s)) H1 HI HF) as HF'.
  destruct HI as (I1 & I2 & I3 & I4). destruct HE as [E1 E2]. unfold sample_pass in *. rewrite Hk in *.
  unfold get_prod_idx in Hk. apply find_idx_some in Hk as (M' & Hk & _). rewrite nth_error_map in Hk.
  destruct (nth_error (s_rest s) k) as [[j M]|] eqn:Ek; [|discriminate].
  assert (Hj : nth_error cpms j = Some M) by (apply I1; eapply nth_error_In; eauto).
  unfold so_exact, so_full in *. cbn [s_vars s_order s_add] in *. split.
  - unfold child_vars. rewrite flat_map_app. cbn [flat_map]. rewrite Hj, app_nil_r.
    destruct (existsb _ (s_vars s)) eqn:X.
    + rewrite HF in HF'. unfold child_names in HF'. rewrite flat_map_app in HF'. cbn [flat_map] in HF'. rewrite Hj, app_nil_r in HF'.
      assert (Y : names (children M) = []).
      { apply length_zero_iff_nil. apply (f_equal (@List.length _)) in HF'. rewrite app_length in HF'. lia. }
      unfold names in Y. apply map_eq_nil in Y. rewrite Y, app_nil_r. auto.
    + rewrite E1. reflexivity.
  - rewrite add_of_app, E2. cbn [add_of Nat.add]. rewrite Hj, app_nil_r. reflexivity.
Qed.

Lemma so_fold_exact cpms n : one_definition cpms -> acyclic cpms -> forall s, so_inv cpms s -> so_exact cpms s ->
  List.length (s_rest s) = n -> so_exact cpms (fold_left sample_pass (seq (List.length (s_order s)) n) s).
Proof.
  intros H1 HA. induction n as [|n IH]; intros s HI HE Hn; cbn [seq fold_left]; auto.
  destruct (so_ready cpms s HA HI (so_exact_full _ _ HE)) as [k Hk]; [intros X; rewrite X in Hn; discriminate|].
  destruct (so_pass cpms s (List.length (s_order s)) HI) as [HI' HL]. specialize (HL k Hk).
  rewrite <- HL. apply IH; auto.
  - apply so_exact_pass; eauto.
  - destruct HI as (_ & P & _), HI' as (_ & P' & _). apply Permutation_length in P, P'. rewrite app_length, map_length in P, P'. lia.
Qed.

Lemma sample_order_exact cpms order vars add : get_sample_order cpms = (order, vars, add) ->
  one_definition cpms -> acyclic cpms -> vars = child_vars cpms order /\ add = add_of cpms 0 order.
Proof.
  unfold get_sample_order. intros H H1 HA.
  pose proof (so_fold_exact cpms (List.length cpms) H1 HA (mkSS (combine (seq 0 (List.length cpms)) cpms) [] [] []) (so_start cpms)) as E.
  cbn [s_order List.length] in E. injection H as <- <- <-. apply E; [split; reflexivity|].
  cbn [s_rest]. rewrite combine_length, seq_length. lia.
Qed.
