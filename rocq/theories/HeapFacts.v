(** Proofs about programs on CPM objects that share arrays. *)
From Coq Require Import ZArith List String Bool Arith Lia QArith Qcanon.
From Verif Require Import Py Num Vari Cpm SpecCpm PyFacts VariFacts CpmFacts CpmCond CpmProd CpmList CpmSum CpmMarg CpmElim CpmProb Heap SpecHeap.
Import ListNotations.
Open Scope string_scope.
Open Scope Z_scope.
Open Scope list_scope.

(** * Lists *)
Lemma put_length {A} (l : list A) i x : (i < List.length l)%nat -> List.length (put l i x) = List.length l.
Proof. intros H. unfold put. rewrite app_length. cbn [List.length]. rewrite firstn_length, skipn_length. lia. Qed.
Lemma put_same {A} (l : list A) i x : (i < List.length l)%nat -> nth_error (put l i x) i = Some x.
Proof.
  intros H. unfold put. rewrite nth_error_app2; rewrite firstn_length; [|lia]. replace (i - Nat.min i (List.length l))%nat with 0%nat by lia. reflexivity.
Qed.
Lemma put_other {A} (l : list A) i j x : (i < List.length l)%nat -> j <> i -> nth_error (put l i x) j = nth_error l j.
Proof.
  intros H N. revert i j H N. induction l as [|y l IH]; intros i j H N; cbn [List.length] in H; [lia|].
  destruct i as [|i]; destruct j as [|j]; try reflexivity; [congruence|].
  change (put (y :: l) (S i) x) with (y :: put l i x). cbn [nth_error]. apply IH; lia.
Qed.
Lemma nth_put_same {A} (l : list A) i x d : (i < List.length l)%nat -> nth i (put l i x) d = x.
Proof. intros H. erewrite nth_error_nth; [reflexivity|apply put_same; auto]. Qed.
Lemma nth_put_other {A} (l : list A) i j x d : (i < List.length l)%nat -> j <> i -> nth j (put l i x) d = nth j l d.
Proof. intros H N. rewrite !nth_default_eq || idtac. rewrite <- !nth_default_eq. unfold nth_default. rewrite put_other; auto. Qed.
Lemma put_put {A} (l : list A) i x y : (i < List.length l)%nat -> put (put l i x) i y = put l i y.
Proof.
  revert i. induction l as [|z l IH]; intros i H; cbn [List.length] in H; [lia|]. destruct i as [|i]; [reflexivity|].
  change (put (z :: l) (S i) x) with (z :: put l i x). change (put (z :: put l i x) (S i) y) with (z :: put (put l i x) i y).
  change (put (z :: l) (S i) y) with (z :: put l i y). f_equal. apply IH. lia.
Qed.
Lemma put_id {A} (l : list A) i d : (i < List.length l)%nat -> put l i (nth i l d) = l.
Proof.
  revert i. induction l as [|z l IH]; intros i H; cbn [List.length] in H; [lia|]. destruct i as [|i]; [reflexivity|].
  change (put (z :: l) (S i) (nth (S i) (z :: l) d)) with (z :: put l i (nth i l d)). f_equal. apply IH. lia.
Qed.

(** * Every operation keeps the rows supplied with probabilities *)
Lemma take_rows_len {A B} (l : list A) (k : list B) idx : List.length l = List.length k -> List.length (take_rows l idx) = List.length (take_rows k idx).
Proof.
  intros E. unfold take_rows. induction idx as [|i idx IH]; auto. cbn [flat_map]. rewrite !app_length, IH. f_equal.
  destruct (nth_error l i) eqn:E1, (nth_error k i) eqn:E2; auto.
  - apply nth_error_None in E2. assert (i < List.length l)%nat by (apply nth_error_Some; congruence). lia.
  - apply nth_error_None in E1. assert (i < List.length k)%nat by (apply nth_error_Some; congruence). lia.
Qed.
Lemma mk_cpm_inv vars nch C p M : mk_cpm vars nch C p = Ok M -> M = mkCpm vars nch C p.
Proof. unfold mk_cpm. destruct (_ <=? _)%nat; [|congruence]. destruct (check_C _ _); cbn [bind]; [|congruence]. destruct (check_p _ _); cbn [bind]; congruence. Qed.
Lemma subset_has_p M rows flag M' : has_p M -> get_subset M rows flag = Ok M' -> has_p M'.
Proof.
  intros P H. unfold get_subset in H. destruct (if flag then _ else _) as [idx|]; cbn [bind] in H; [|congruence]. apply mk_cpm_inv in H. subst M'.
  unfold has_p in *. cbn [c_p c_C]. apply take_rows_len. auto.
Qed.
Lemma select_len {A B} (l : list A) (k : list B) is : List.length l = List.length k -> List.length (select l is) = List.length (select k is).
Proof.
  intros E. unfold select. rewrite !map_length. revert l k E. induction is as [|b is IH]; intros [|x l] [|y k] E; cbn in E; try lia; auto.
  cbn [combine filter fst]. destruct b; cbn [List.length]; rewrite (IH l k); auto.
Qed.
Lemma mapM_len {A B} (f : A -> res B) l r : mapM f l = Ok r -> List.length r = List.length l.
Proof.
  revert r. induction l as [|x l IH]; intros r H; cbn [mapM] in H; [injection H as <-; auto|].
  destruct (f x) as [y|]; cbn [bind] in H; [|congruence]. destruct (mapM f l) as [r'|]; cbn [bind] in H; [|congruence].
  injection H as <-. cbn. f_equal. apply IH. auto.
Qed.
Lemma condition_has_p M vs sts M' : has_p M -> condition M vs sts = Ok M' -> has_p M'.
Proof.
  intros P H. unfold condition in H. destruct (resolve M vs) as [vs'|]; cbn [bind] in H; [|congruence].
  destruct (cond_states vs' sts) as [st|]; cbn [bind] in H; [|congruence]. destruct (fn_iscompatible _ _ _ _) as [is|]; cbn [bind] in H; [|congruence].
  destruct (get_value _ _) as [st'|]; cbn [bind] in H; [|congruence]. destruct (foldM _ _ _) as [Cn|] eqn:EF; cbn [bind] in H; [|congruence].
  apply mk_cpm_inv in H. subst M'. unfold has_p in *. cbn [c_p c_C].
  assert (L : List.length Cn = List.length (select (c_C M) is)).
  { revert EF. set (C := select (c_C M) is). assert (L0 : List.length (map (fun row => map (fun fx : bool * Z => if fst fx then snd fx else 0) (combine (map (fun o => negb (is_some o)) (ismember (c_vars M) vs')) row)) C) = List.length C) by apply map_length.
    revert L0. generalize (map (fun row => map (fun fx : bool * Z => if fst fx then snd fx else 0) (combine (map (fun o => negb (is_some o)) (ismember (c_vars M) vs')) row)) C) as acc.
    generalize (combine (combine (select vs' (map is_some (ismember vs' (c_vars M)))) st') (somes (ismember vs' (c_vars M)))) as todo.
    induction todo as [|t todo IH]; intros acc L0 EF; cbn [foldM] in EF; [injection EF as <-; auto|].
    destruct (cond_column C acc (fst (fst t)) (snd (fst t)) (snd t)) as [acc'|] eqn:EC; cbn [bind] in EF; [|congruence]. apply (IH acc'); auto.
    unfold cond_column in EC. destruct (v_B _); [|congruence]. apply mapM_len in EC. rewrite EC, combine_length, L0. lia. }
  rewrite L. destruct (c_p M) as [|q p] eqn:EP.
  - assert (EC : c_C M = []) by (destruct (c_C M); [auto|discriminate]). rewrite EC. unfold select. destruct is; reflexivity.
  - apply select_len. auto.
Qed.
Lemma sum_loop_len fuel : forall M Cs ps, has_p M -> sum_loop fuel M = Ok (Cs, ps) -> List.length ps = List.length Cs.
Proof.
  induction fuel as [|fuel IH]; intros M Cs ps P H; cbn [sum_loop] in H.
  - destruct (c_C M); [injection H as <- <-; auto|]. destruct (c_vars M); [injection H as <- <-; auto|congruence].
  - destruct (c_C M) as [|r C] eqn:EC; [injection H as <- <-; auto|]. destruct (c_vars M) eqn:EV; [injection H as <- <-; auto|].
    destruct (mt_iscompatible _ _ _ _ _) as [is|]; cbn [bind] in H; [|congruence]. destruct (get_subset _ _ _) as [M'|] eqn:ES; cbn [bind] in H; [|congruence].
    destruct (sum_loop fuel M') as [[Cs' ps']|] eqn:EL; cbn [bind] in H; [|congruence]. injection H as <- <-.
    assert (L := IH M' Cs' ps' (subset_has_p _ _ _ _ P ES) EL). unfold has_p in P. rewrite EC in P. destruct (c_p M); [discriminate|]. cbn. lia.
Qed.
Lemma sum_has_p M vs flag M' : has_p M -> sum M vs flag = Ok M' -> has_p M'.
Proof.
  intros P H. unfold sum in H. destruct (resolve M vs) as [vs'|]; cbn [bind] in H; [|congruence].
  destruct (if flag then _ else _) as [rem idx]. destruct (mk_cpm (take_rows _ _) _ _ _) as [M1|] eqn:E1; cbn [bind] in H; [|congruence].
  destruct (sum_loop _ _) as [[Cs ps]|] eqn:EL; cbn [bind] in H; [|congruence]. destruct (idx ++ _); [congruence|].
  apply mk_cpm_inv in H. subst M'. apply mk_cpm_inv in E1. unfold has_p. cbn [c_p c_C]. apply (sum_loop_len (nrows M1) M1); auto.
  subst M1. unfold has_p in *. cbn [c_p c_C]. rewrite map_length. auto.
Qed.
Lemma merge_rows_len C : forall rows p p', foldM (merge_row C) rows p = Ok p' -> List.length p' = List.length p.
Proof.
  induction rows as [|r rows IH]; intros p p' H; cbn [foldM] in H; [injection H as <-; auto|].
  destruct (merge_row C p r) as [p1|] eqn:E; cbn [bind] in H; [|congruence]. rewrite (IH _ _ H). unfold merge_row in E.
  destruct (find_idx _ _) as [k|]; [|congruence]. destruct p as [|q0 p0] eqn:Ep; [congruence|]. injection E as <-. exact (add_at_length (q0 :: p0) k (snd r)).
Qed.
Lemma merge_has_p M1 M2 M : has_p M1 -> merge M1 M2 = Ok M -> has_p M.
Proof.
  intros P H. unfold merge in H. destruct (_ && _); [|congruence]. destruct (foldM _ _ _) as [p|] eqn:E; cbn [bind] in H; [|congruence].
  injection H as <-. unfold has_p in *. cbn [c_p c_C]. rewrite (merge_rows_len _ _ _ _ E). auto.
Qed.
Lemma product_ord_has_p M1 M2 M : product_ord M1 M2 = Ok M -> has_p M.
Proof.
  intros H. unfold product_ord in H. destruct (common_child M1 M2); [congruence|]. destruct (c_C M1); [congruence|]. destruct (c_vars M1); [congruence|].
  destruct (mk_cpm (c_vars M2) _ _ _) in H; cbn [bind] in H; [|congruence]. destruct (mapM _ _) in H; cbn [bind] in H; [|congruence].
  destruct (match c_p M1 with [] => _ | _ => _ end) in H; [congruence|].
  destruct (mk_cpm _ _ _ _) in H; cbn [bind] in H; [|congruence]. apply mk_cpm_inv in H. subst M. unfold has_p. cbn [c_p c_C]. rewrite !map_length. auto.
Qed.

(** * Objects and values *)
Definition inv (s : store) (env : list cpm) (gone : list nat) : Prop :=
  List.length (s_objs s) = List.length env /\
  (forall o, In o (s_objs s) -> (o_arr o < List.length (s_arrs s))%nat) /\
  (forall i, ~ In i gone -> load s i = nth_error env i) /\
  (forall i i' o o', nth_error (s_objs s) i = Some o -> nth_error (s_objs s) i' = Some o' -> ~ In i gone -> ~ In i' gone -> o_arr o = o_arr o' -> i = i') /\
  Forall has_p env.

Lemma view_new (arrs : list (list Qc)) M p : view_obj (arrs ++ [p]) (mkObj (c_vars M) (c_nch M) (c_C M) (List.length arrs)) = mkCpm (c_vars M) (c_nch M) (c_C M) p.
Proof. unfold view_obj. cbn. f_equal. rewrite app_nth2 by lia. rewrite Nat.sub_diag. reflexivity. Qed.
Lemma view_old arrs p o : (o_arr o < List.length arrs)%nat -> view_obj (arrs ++ [p]) o = view_obj arrs o.
Proof. intros H. unfold view_obj. f_equal. apply app_nth1. auto. Qed.
Lemma cpm_eta M : mkCpm (c_vars M) (c_nch M) (c_C M) (c_p M) = M.
Proof. destruct M; reflexivity. Qed.

Lemma alloc_inv s env gone M : inv s env gone -> has_p M -> inv (alloc s M) (env ++ [M]) gone.
Proof.
  intros (L & B & V & D & P) HM. unfold alloc. split; [|split; [|split; [|split]]]; cbn [s_objs s_arrs].
  - rewrite !app_length, L. reflexivity.
  - intros o H. rewrite app_length. cbn [List.length]. apply in_app_or in H as [H|[<-|[]]]; [specialize (B o H); lia|cbn; lia].
  - intros i Hi. unfold load. cbn [s_objs s_arrs]. destruct (Nat.lt_ge_cases i (List.length (s_objs s))) as [H|H].
    + rewrite !nth_error_app1 by lia. rewrite <- (V i Hi). unfold load. destruct (nth_error (s_objs s) i) as [o|] eqn:E; [|reflexivity].
      cbn. f_equal. apply view_old. apply B. eapply nth_error_In; eauto.
    + rewrite !nth_error_app2 by lia. rewrite L. destruct (i - List.length env)%nat as [|d] eqn:Ed.
      * cbn. f_equal. rewrite view_new. apply cpm_eta.
      * cbn. destruct d; reflexivity.
  - intros i i' o o' H H' G G' E.
    assert (S : forall k x, nth_error (s_objs s ++ [mkObj (c_vars M) (c_nch M) (c_C M) (List.length (s_arrs s))]) k = Some x ->
      (nth_error (s_objs s) k = Some x /\ (o_arr x < List.length (s_arrs s))%nat) \/ (k = List.length (s_objs s) /\ o_arr x = List.length (s_arrs s))).
    { intros k x Hk. destruct (Nat.lt_ge_cases k (List.length (s_objs s))) as [X|X].
      - rewrite nth_error_app1 in Hk by lia. left. split; auto. apply B. eapply nth_error_In; eauto.
      - rewrite nth_error_app2 in Hk by lia. destruct (k - List.length (s_objs s))%nat as [|d] eqn:Ed; [|destruct d; discriminate].
        cbn in Hk. injection Hk as <-. right. split; [lia|reflexivity]. }
    apply S in H. apply S in H'. destruct H as [[H1 H2]|[H1 H2]], H' as [[H3 H4]|[H3 H4]]; try lia. eapply D; eauto.
  - apply Forall_app. split; auto.
Qed.

Lemma rebind_inv s env gone i M : inv s env gone -> nth_error env i = Some M -> ~ In i gone -> inv (rebind s i (c_p M)) env gone.
Proof.
  intros (L & B & V & D & P) HM G. assert (Hi : (i < List.length (s_objs s))%nat) by (rewrite L; apply nth_error_Some; congruence).
  assert (V0 := V i G). rewrite HM in V0. unfold load in V0. unfold rebind. destruct (nth_error (s_objs s) i) as [o|] eqn:Eo; [|discriminate].
  cbn in V0. injection V0 as V0. split; [|split; [|split; [|split]]]; cbn [s_objs s_arrs]; auto.
  - rewrite put_length by auto. auto.
  - intros x H. rewrite app_length. cbn [List.length]. unfold put in H. apply in_app_or in H as [H|[<-|H]].
    + assert (H' := B x ltac:(rewrite <- (firstn_skipn i (s_objs s)); apply in_or_app; left; auto)). lia.
    + cbn. lia.
    + assert (H' := B x ltac:(rewrite <- (firstn_skipn (S i) (s_objs s)); apply in_or_app; right; auto)). lia.
  - intros k Gk. unfold load. cbn [s_objs s_arrs]. destruct (Nat.eq_dec k i) as [->|N].
    + rewrite put_same by auto. rewrite HM. cbn. f_equal. rewrite <- V0. unfold view_obj at 1. cbn.
      rewrite app_nth2 by lia. rewrite Nat.sub_diag. reflexivity.
    + rewrite put_other by auto. rewrite <- (V k Gk). unfold load. destruct (nth_error (s_objs s) k) as [x|] eqn:E; [|reflexivity].
      cbn. f_equal. apply view_old. apply B. eapply nth_error_In; eauto.
  - intros k k' x x' H H' Gk Gk' E.
    assert (S : forall k x, nth_error (put (s_objs s) i (mkObj (o_vars o) (o_nch o) (o_C o) (List.length (s_arrs s)))) k = Some x ->
      (k <> i /\ nth_error (s_objs s) k = Some x /\ (o_arr x < List.length (s_arrs s))%nat) \/ (k = i /\ o_arr x = List.length (s_arrs s))).
    { clear -Hi B. intros k x Hk. destruct (Nat.eq_dec k i) as [->|N].
      - rewrite put_same in Hk by auto. injection Hk as <-. right. auto.
      - rewrite put_other in Hk by auto. left. split; auto. split; auto. apply B. eapply nth_error_In; eauto. }
    apply S in H. apply S in H'. destruct H as [(N1 & H1 & H2)|[H1 H2]], H' as [(N3 & H3 & H4)|[H3 H4]]; try lia. eapply D; eauto.
Qed.

Lemma merge_loop_spec C : forall rows s a, (a < List.length (s_arrs s))%nat ->
  (forall p', foldM (merge_row C) rows (nth a (s_arrs s) []) = Ok p' -> merge_loop s a C rows = (mkStore (s_objs s) (put (s_arrs s) a p'), Ok tt)) /\
  (forall e, foldM (merge_row C) rows (nth a (s_arrs s) []) = Err e -> exists p', merge_loop s a C rows = (mkStore (s_objs s) (put (s_arrs s) a p'), Err e)).
Proof.
  induction rows as [|[cx px] rows IH]; intros s a Ha; cbn [foldM merge_loop].
  - split; [intros p' H; injection H as <-|congruence]. rewrite put_id by auto. destruct s; reflexivity.
  - unfold merge_row at 1 3. cbn [fst snd].
    assert (Id : s = mkStore (s_objs s) (put (s_arrs s) a (nth a (s_arrs s) []))) by (rewrite put_id by auto; destruct s; reflexivity).
    destruct (find_idx (row_eqb cx) C) as [k|]; cbn [bind].
    + destruct (nth a (s_arrs s) []) as [|q0 p0] eqn:Ep; cbn [bind].
      * split; [congruence|]. intros e H. injection H as <-. exists []. rewrite <- Id. reflexivity.
      * rewrite <- Ep. set (s1 := mkStore (s_objs s) (put (s_arrs s) a (add_at (nth a (s_arrs s) []) k px))).
        assert (Ha1 : (a < List.length (s_arrs s1))%nat) by (cbn; rewrite put_length; auto).
        destruct (IH s1 a Ha1) as [I1 I2]. cbn [s_arrs s_objs s1] in I1, I2. rewrite nth_put_same in I1, I2 by auto. split.
        -- intros p' H. rewrite (I1 p' H). rewrite put_put by auto. reflexivity.
        -- intros e H. destruct (I2 e H) as (p' & ->). exists p'. rewrite put_put by auto. reflexivity.
    + split; [congruence|]. intros e H. injection H as <-. exists (nth a (s_arrs s) []). rewrite <- Id. reflexivity.
Qed.

(** writing into the array of object [i], which is not used any more *)
Lemma write_inv s env gone i o p : inv s env gone -> nth_error (s_objs s) i = Some o -> ~ In i gone ->
  inv (mkStore (s_objs s) (put (s_arrs s) (o_arr o) p)) env (i :: gone).
Proof.
  intros (L & B & V & D & P) Ho G. assert (Ha : (o_arr o < List.length (s_arrs s))%nat) by (apply B; eapply nth_error_In; eauto).
  split; [|split; [|split; [|split]]]; cbn [s_objs s_arrs]; auto.
  - intros x Hx. rewrite put_length; auto.
  - intros k Gk. cbn in Gk. rewrite <- V by tauto. unfold load. cbn [s_objs s_arrs]. destruct (nth_error (s_objs s) k) as [x|] eqn:E; [|reflexivity].
    cbn. f_equal. unfold view_obj. f_equal. apply nth_put_other; auto. intros X. apply Gk. left. apply (D i k o x); auto; tauto.
  - intros k k' x x' H H' Gk Gk'. cbn in Gk, Gk'. apply (D k k' x x'); tauto.
Qed.
Lemma copy_inv s env gone i o M : inv s env gone -> nth_error (s_objs s) i = Some o -> In i gone ->
  (forall k x, nth_error (s_objs s) k = Some x -> ~ In k gone -> o_arr x <> o_arr o) ->
  view_obj (s_arrs s) o = M -> has_p M -> inv (mkStore (s_objs s ++ [o]) (s_arrs s)) (env ++ [M]) gone.
Proof.
  intros (L & B & V & D & P) Ho G N HM HP. split; [|split; [|split; [|split]]]; cbn [s_objs s_arrs].
  - rewrite !app_length, L. reflexivity.
  - intros x Hx. apply in_app_or in Hx as [Hx|[<-|[]]]; auto. apply B. eapply nth_error_In; eauto.
  - intros k Gk. unfold load. cbn [s_objs s_arrs]. destruct (Nat.lt_ge_cases k (List.length (s_objs s))) as [H|H].
    + rewrite !nth_error_app1 by lia. rewrite <- (V k Gk). reflexivity.
    + rewrite !nth_error_app2 by lia. rewrite L. destruct (k - List.length env)%nat as [|d] eqn:Ed.
      * cbn. f_equal. exact HM.
      * cbn. destruct d; reflexivity.
  - intros k k' x x' H H' Gk Gk' E.
    assert (S : forall k x, nth_error (s_objs s ++ [o]) k = Some x -> nth_error (s_objs s) k = Some x \/ (k = List.length (s_objs s) /\ x = o)).
    { clear. intros k x Hk. destruct (Nat.lt_ge_cases k (List.length (s_objs s))) as [X|X].
      - rewrite nth_error_app1 in Hk by lia. auto.
      - rewrite nth_error_app2 in Hk by lia. destruct (k - List.length (s_objs s))%nat as [|d] eqn:Ed; [|destruct d; discriminate].
        cbn in Hk. injection Hk as <-. right. split; [lia|auto]. }
    apply S in H. apply S in H'. destruct H as [H|[H ->]], H' as [H'|[H' ->]].
    + eapply D; eauto.
    + exfalso. eapply N; eauto.
    + exfalso. eapply (N k' x'); eauto.
    + congruence.
  - apply Forall_app. split; auto.
Qed.

(** one statement *)
Lemma step_sim s env gone o : inv s env gone -> (forall i, In i (operands o) -> ~ In i gone) ->
  match value_of env o with
  | Ok M => exists s', step_h s o = (s', Ok tt) /\ inv s' (env ++ [M]) (merged o ++ gone)
  | Err e => exists s', step_h s o = (s', Err e) /\ inv s' env (merged o ++ gone)
  end.
Proof.
  intros I G. assert (I' := I). destruct I' as (L & B & V & D & P).
  assert (PV : forall i M, nth_error env i = Some M -> has_p M).
  { intros i M H. rewrite Forall_forall in P. apply P. eapply nth_error_In; eauto. }
  assert (FR : forall i f, ~ In i gone -> (forall M M', has_p M -> f M = Ok M' -> has_p M') ->
    match (match nth_error env i with Some a => f a | None => Err NameError end) with
    | Ok M => exists s', fresh_h s i f = (s', Ok tt) /\ inv s' (env ++ [M]) gone
    | Err e => exists s', fresh_h s i f = (s', Err e) /\ inv s' env gone
    end).
  { intros i f Gi Hf. unfold fresh_h. rewrite (V i Gi). destruct (nth_error env i) as [M|] eqn:EM; [|eauto].
    destruct (f M) as [M'|e] eqn:Ef; [|eauto]. eexists. split; [reflexivity|]. apply alloc_inv; eauto. }
  destruct o as [i j|i j|i vs sts|i vs flag|i rows flag]; cbn [value_of step_h merged operands app] in *.
  - assert (Gi := G i (or_introl eq_refl)). assert (Gj := G j (or_intror (or_introl eq_refl))).
    unfold product_h. rewrite (V i Gi), (V j Gj).
    destruct (nth_error env i) as [M1|] eqn:E1; [|eauto]. destruct (nth_error env j) as [M2|] eqn:E2; [|eauto].
    assert (PO : forall i j M1 M2, nth_error env i = Some M1 -> nth_error env j = Some M2 -> ~ In i gone -> ~ In j gone ->
      match product_ord M1 M2 with
      | Ok M => exists s', product_ord_h s i j M1 M2 = (s', Ok tt) /\ inv s' (env ++ [M]) gone
      | Err e => exists s', product_ord_h s i j M1 M2 = (s', Err e) /\ inv s' env gone
      end).
    { clear i j M1 M2 G Gi Gj E1 E2. intros i j M1 M2 E1 E2 Gi Gj. unfold product_ord_h.
      destruct (common_child M1 M2) eqn:Ec; [unfold product_ord; rewrite Ec; eauto|].
      set (s1 := match c_p M1, c_p M2 with [], _ :: _ => _ | _, _ => _ end).
      assert (I1 : inv s1 env gone).
      { unfold s1. destruct (c_p M1) as [|q1 p1] eqn:P1, (c_p M2) as [|q2 p2] eqn:P2; auto.
        - assert (X := PV i M1 E1). unfold has_p in X. rewrite P1 in X. destruct (c_C M1); [|discriminate].
          cbn [map]. rewrite <- P1. apply rebind_inv; auto.
        - assert (X := PV j M2 E2). unfold has_p in X. rewrite P2 in X. destruct (c_C M2); [|discriminate].
          cbn [map]. rewrite <- P2. apply rebind_inv; auto. }
      destruct (product_ord M1 M2) as [M|e] eqn:EP; [|eauto]. eexists. split; [reflexivity|]. apply alloc_inv; auto. eapply product_ord_has_p; eauto. }
    unfold product. destruct (ncols M2 <? ncols M1)%nat.
    + exact (PO j i M2 M1 E2 E1 Gj Gi).
    + exact (PO i j M1 M2 E1 E2 Gi Gj).
  - assert (Gi := G i (or_introl eq_refl)). assert (Gj := G j (or_intror (or_introl eq_refl))).
    unfold merge_h. assert (Vi := V i Gi). rewrite Vi, (V j Gj). unfold load in Vi.
    destruct (nth_error (s_objs s) i) as [ob|] eqn:Eo; cbn in Vi; rewrite <- Vi.
    2: { exists s. split; auto. split; [auto|]. split; [auto|]. split; [intros k Hk; apply V; cbn in Hk; tauto|]. split; [|auto].
         intros k k' x x' H H' Hk Hk'. apply (D k k' x x'); cbn in *; tauto. }
    set (M1 := view_obj (s_arrs s) ob) in *. assert (W := fun p => write_inv s env gone i ob p I Eo Gi).
    assert (Ha : (o_arr ob < List.length (s_arrs s))%nat) by (apply B; eapply nth_error_In; eauto).
    assert (W0 : inv s env (i :: gone)).
    { specialize (W (nth (o_arr ob) (s_arrs s) [])). rewrite put_id in W by auto. destruct s; exact W. }
    destruct (nth_error env j) as [M2|] eqn:E2; [|eauto]. unfold merge.
    change (List.length (c_vars M1)) with (List.length (o_vars ob)). change (c_vars M1) with (o_vars ob).
    destruct (_ && _) eqn:Ev; [|eauto].
    destruct (merge_loop_spec (c_C M1) (combine (c_C M2) (c_p M2)) s (o_arr ob) Ha) as [S1 S2].
    change (nth (o_arr ob) (s_arrs s) []) with (c_p M1) in S1, S2.
    destruct (foldM (merge_row (c_C M1)) (combine (c_C M2) (c_p M2)) (c_p M1)) as [p'|e] eqn:EF; cbn [bind].
    + rewrite (S1 p' eq_refl). eexists. split; [reflexivity|]. cbn [s_objs s_arrs].
      apply (copy_inv (mkStore (s_objs s) (put (s_arrs s) (o_arr ob) p')) env (i :: gone) i ob); auto.
      * left; auto.
      * cbn [s_objs]. intros k x Hk Gk E. apply Gk. left. apply (D i k ob x); auto; cbn in Gk; tauto.
      * unfold view_obj. cbn [s_arrs]. rewrite nth_put_same by auto. reflexivity.
      * assert (X := PV i M1 (eq_sym Vi)). unfold has_p in *. cbn [c_p c_C]. rewrite (merge_rows_len _ _ _ _ EF). exact X.
    + destruct (S2 e eq_refl) as (p' & ->). eexists. split; [reflexivity|]. apply W.
  - apply (FR i (fun M => condition M vs sts) (G i (or_introl eq_refl))). intros M M'. apply condition_has_p.
  - apply (FR i (fun M => sum M vs flag) (G i (or_introl eq_refl))). intros M M'. apply sum_has_p.
  - apply (FR i (fun M => get_subset M rows flag) (G i (or_introl eq_refl))). intros M M'. apply subset_has_p.
Qed.

Lemma inv_weaken s env gone gone' : inv s env gone -> incl gone gone' -> inv s env gone'.
Proof.
  intros (L & B & V & D & P) H. split; [auto|]. split; [auto|]. split; [|split; [|auto]].
  - intros i Hi. apply V. auto.
  - intros i i' o o' X X' G G'. apply (D i i' o o'); auto.
Qed.
Lemma run_sim ops : forall s env gone, inv s env gone -> once gone ops ->
  let '(s', r) := run_h s ops in let '(env', r') := run_values env ops in
  r = r' /\ inv s' env' (gone ++ flat_map merged ops).
Proof.
  induction ops as [|o ops IH]; intros s env gone I O; cbn [run_h run_values flat_map].
  - rewrite app_nil_r. auto.
  - destruct O as [O1 O2]. assert (S := step_sim s env gone o I O1). destruct (value_of env o) as [M|e].
    + destruct S as (s1 & -> & I1). specialize (IH s1 (env ++ [M]) (merged o ++ gone) I1 O2).
      destruct (run_h s1 ops) as [s' r]. destruct (run_values (env ++ [M]) ops) as [env' r']. destruct IH as [E I']. split; auto.
      apply (inv_weaken _ _ _ _ I'). intros x. rewrite !in_app_iff. tauto.
    + destruct S as (s1 & -> & I1). split; auto. apply (inv_weaken _ _ _ _ I1). intros x. rewrite !in_app_iff. tauto.
Qed.

Lemma store_of_inv l : Forall has_p l -> inv (store_of l) l [].
Proof.
  unfold store_of. assert (G : forall l s env, inv s env [] -> Forall has_p l -> inv (fold_left alloc l s) (env ++ l) []).
  { induction l0 as [|M l0 IH]; intros s env I H; cbn [fold_left]; [rewrite app_nil_r; auto|]. inversion H; subst.
    replace (env ++ M :: l0) with ((env ++ [M]) ++ l0) by (rewrite <- app_assoc; reflexivity). apply IH; auto. apply alloc_inv; auto. }
  intros H. apply (G l (mkStore [] []) []); [|exact H]. split; [reflexivity|]. split; [intros o []|]. split; [intros i _; destruct i; reflexivity|].
  split; [|constructor]. intros i i' o o' X. destruct i; discriminate X.
Qed.
