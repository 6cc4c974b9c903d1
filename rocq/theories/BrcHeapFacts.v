(** Proofs for C104. *)
From Coq Require Import ZArith List String Bool Arith Lia QArith Qcanon.
From Verif Require Import Py Num Vari Brc BrcHeap SpecBrcHeap PyFacts VariFacts BrcFacts CtorFacts.
Import ListNotations.
Open Scope Z_scope.
Open Scope list_scope.

(** * Lists *)
Lemma upd_length {A} (l : list A) i x : (i < List.length l)%nat -> List.length (upd l i x) = List.length l.
Proof. intros H. unfold upd. rewrite app_length, firstn_length. cbn [List.length]. rewrite skipn_length. lia. Qed.
Lemma upd_same {A} (l : list A) i x d : (i < List.length l)%nat -> nth i (upd l i x) d = x.
Proof.
  intros H. unfold upd. rewrite app_nth2; rewrite firstn_length; [|lia]. replace (i - Nat.min i (List.length l))%nat with 0%nat by lia. auto.
Qed.
Lemma upd_other {A} (l : list A) i j x d : (i < List.length l)%nat -> i <> j -> nth j (upd l i x) d = nth j l d.
Proof.
  revert i j. induction l as [|a l IH]; intros i j Hi N; [cbn in Hi; lia|]. destruct i as [|i], j as [|j]; try congruence; auto.
  unfold upd in *. cbn [firstn skipn app nth]. apply IH; [cbn in Hi; lia|congruence].
Qed.
Lemma upd_self {A} (l : list A) i d : (i < List.length l)%nat -> upd l i (nth i l d) = l.
Proof.
  revert i. induction l as [|a l IH]; intros i Hi; [cbn in Hi; lia|]. destruct i as [|i]; [reflexivity|].
  unfold upd in *. cbn [firstn skipn app nth]. f_equal. apply IH. cbn in Hi. lia.
Qed.
Lemma upd_upd {A} (l : list A) i x y : (i < List.length l)%nat -> upd (upd l i x) i y = upd l i y.
Proof.
  revert i. induction l as [|a l IH]; intros i Hi; [cbn in Hi; lia|]. destruct i as [|i]; [reflexivity|].
  unfold upd in *. cbn [firstn skipn app]. f_equal. apply IH. cbn in Hi. lia.
Qed.
Lemma upd_in {A} (l : list A) i x y : In y (upd l i x) -> y = x \/ In y l.
Proof.
  unfold upd. intros H. apply in_app_iff in H as [H|[H|H]]; auto.
  - right. rewrite <- (firstn_skipn i l). apply in_or_app. auto.
  - right. rewrite <- (firstn_skipn (S i) l). apply in_or_app. auto.
Qed.
Lemma nth_app1 {A} (l l' : list A) i d : (i < List.length l)%nat -> nth i (l ++ l') d = nth i l d.
Proof. apply app_nth1. Qed.

(** * Growing heaps *)
Definition ext (h h' : heap) : Prop := exists D O, h_ds h' = h_ds h ++ D /\ h_bs h' = h_bs h ++ O /\ h_rs h' = h_rs h.
Lemma ext_refl h : ext h h.
Proof. exists [], []. rewrite !app_nil_r. auto. Qed.
Lemma ext_trans h1 h2 h3 : ext h1 h2 -> ext h2 h3 -> ext h1 h3.
Proof.
  intros (D & O & A & B & C) (D' & O' & A' & B' & C'). exists (D ++ D'), (O ++ O'). rewrite A', B', C', A, B, C, <- !app_assoc. auto.
Qed.
Lemma ext_dict h h' r : ext h h' -> (r < List.length (h_ds h))%nat -> hdict h' r = hdict h r.
Proof. intros (D & O & A & _) H. unfold hdict. rewrite A. apply app_nth1. auto. Qed.
Lemma ext_obj h h' r : ext h h' -> live h r -> hobj h' r = hobj h r.
Proof. intros (D & O & _ & B & _) H. unfold hobj. rewrite B. apply app_nth1. auto. Qed.
Lemma ext_live h h' r : ext h h' -> live h r -> live h' r.
Proof. intros (D & O & _ & B & _) H. unfold live in *. rewrite B, app_length. lia. Qed.
Lemma ext_rules h h' r : ext h h' -> hrules h' r = hrules h r.
Proof. intros (D & O & _ & _ & C). unfold hrules. rewrite C. auto. Qed.
Lemma ext_len h h' : ext h h' -> (List.length (h_ds h) <= List.length (h_ds h'))%nat /\ (List.length (h_bs h) <= List.length (h_bs h'))%nat.
Proof. intros (D & O & A & B & _). rewrite A, B, !app_length. lia. Qed.
Lemma sane_obj h r : sane h -> live h r -> (o_down (hobj h r) < List.length (h_ds h))%nat /\ (o_up (hobj h r) < List.length (h_ds h))%nat.
Proof. intros S H. apply S. unfold hobj. apply nth_In. exact H. Qed.
Lemma ext_view h h' r : sane h -> ext h h' -> live h r -> view h' r = view h r.
Proof.
  intros S E L. destruct (sane_obj h r S L) as [D U]. unfold view. rewrite (ext_obj h h' r E L), (ext_dict h h' _ E D), (ext_dict h h' _ E U). auto.
Qed.

(** * Relabelling one branch *)
Definition relabel (o : bobj) (ds us : st) : bobj := mkO (o_down o) (o_up o) ds us (o_p o).
Lemma set_obj_sane h r o : sane h -> live h r -> o_down o = o_down (hobj h r) -> o_up o = o_up (hobj h r) -> sane (set_obj h r o).
Proof.
  intros S L A B x Hx. cbn in *. apply upd_in in Hx as [->|Hx]; [|apply S; auto]. rewrite A, B. apply sane_obj; auto.
Qed.
Lemma set_obj_live h r o q : live h r -> (live (set_obj h r o) q <-> live h q).
Proof. intros L. unfold live in *. cbn. rewrite upd_length by auto. tauto. Qed.
Lemma set_obj_same h r o : live h r -> hobj (set_obj h r o) r = o.
Proof. intros L. apply upd_same. auto. Qed.
Lemma set_obj_other h r o q : live h r -> r <> q -> hobj (set_obj h r o) q = hobj h q.
Proof. intros L N. apply upd_other; auto. Qed.
Lemma set_obj_twice h r o o' : live h r -> set_obj (set_obj h r o) r o' = set_obj h r o'.
Proof. intros L. unfold set_obj. cbn. rewrite upd_upd by auto. auto. Qed.
Lemma set_obj_view h r o q : live h r -> r <> q -> view (set_obj h r o) q = view h q.
Proof. intros L N. unfold view. rewrite set_obj_other by auto. auto. Qed.

Lemma allM_true {A} (f : A -> res bool) l : allM f l = Ok true -> forall x, In x l -> f x = Ok true.
Proof.
  unfold allM. destruct (mapM f l) as [bs|] eqn:E; cbn [bind]; [|discriminate]. intros H x Hx. injection H as H. apply mapM_inv in E.
  revert H. induction E as [|a b l bs Eb E IH]; intros H; [destruct Hx|]. cbn in H. apply andb_true_iff in H as [H1 H2]. subst b.
  destruct Hx as [<-|Hx]; auto.
Qed.
Lemma all_ge_true d rule : all_ge d rule = Ok true -> at_least d rule.
Proof.
  intros H k v Hin. assert (X := allM_true _ _ H _ Hin). cbn [fst snd] in X. unfold dget in X. destruct (dfind d k) as [x|]; [|discriminate].
  cbn in X. injection X as X. exists x. split; [auto|apply Z.leb_le; auto].
Qed.
Lemma all_le_true d rule : all_le d rule = Ok true -> at_most d rule.
Proof.
  intros H k v Hin. assert (X := allM_true _ _ H _ Hin). cbn [fst snd] in X. unfold dget in X. destruct (dfind d k) as [x|]; [|discriminate].
  cbn in X. injection X as X. exists x. split; [auto|apply Z.leb_le; auto].
Qed.
Lemma eval_loop_known test rs rules cur : cur <> U_ -> eval_loop test rs rules cur = Ok cur.
Proof. intros N. destruct rules; cbn; [auto|]. destruct cur; try congruence; auto. Qed.
Lemma eval_loop_spec test rs rules : forall cur s, rs <> U_ -> eval_loop test rs rules cur = Ok s -> s = cur \/ (cur = U_ /\ s = rs /\ exists r, In r rules /\ test r = Ok true).
Proof.
  induction rules as [|r rules IH]; intros cur s N H; cbn in H; [injection H as <-; auto|].
  destruct (st_eqb cur U_) eqn:C; cbn [negb] in H; [|injection H as <-; auto].
  assert (cur = U_) by (destruct cur; try discriminate; auto). subst cur.
  destruct (test r) as [b|] eqn:T; cbn [bind] in H; [|discriminate]. destruct b.
  - rewrite eval_loop_known in H by auto. injection H as <-. right. split; [auto|]. split; [auto|]. exists r. cbn. auto.
  - apply IH in H as [->|(A & -> & q & Q1 & Q2)]; auto. right. split; [auto|]. split; [auto|]. exists q. cbn. auto.
Qed.
Lemma label_two rules d s s1 s2 :
  (s1 = s \/ (s = U_ /\ s1 = S_ /\ exists r, In r (r_s rules) /\ all_ge d r = Ok true)) ->
  (s2 = s1 \/ (s1 = U_ /\ s2 = F_ /\ exists r, In r (r_f rules) /\ all_le d r = Ok true)) -> label_after rules d s s2.
Proof.
  intros [->|(-> & -> & r & R1 & R2)] [->|(A & -> & q & Q1 & Q2)]; unfold label_after; auto; try congruence.
  - right. right. split; [auto|]. split; [auto|]. exists q. split; [auto|apply all_le_true; auto].
  - right. left. split; [auto|]. split; [auto|]. exists r. split; [auto|apply all_ge_true; auto].
Qed.
Lemma label_one rules d s s1 : (s1 = s \/ (s = U_ /\ s1 = S_ /\ exists r, In r (r_s rules) /\ all_ge d r = Ok true)) -> label_after rules d s s1.
Proof. intros H. eapply label_two; [exact H|]. auto. Qed.

(** what [eval_state] writes *)
Definition written (rules : ruleset) (h h' : heap) (r : nat) : Prop :=
  exists ds us, h' = set_obj h r (relabel (hobj h r) ds us) /\
    label_after rules (hdict h (o_down (hobj h r))) (o_ds (hobj h r)) ds /\ label_after rules (hdict h (o_up (hobj h r))) (o_us (hobj h r)) us.
Lemma set_us_eq h r ds us s : live h r -> set_us (set_obj h r (relabel (hobj h r) ds us)) r s = set_obj h r (relabel (hobj h r) ds s).
Proof. intros L. unfold set_us. rewrite set_obj_same by auto. cbn. rewrite set_obj_twice by auto. reflexivity. Qed.
Lemma set_ds_eq h r ds us s : live h r -> set_ds (set_obj h r (relabel (hobj h r) ds us)) r s = set_obj h r (relabel (hobj h r) s us).
Proof. intros L. unfold set_ds. rewrite set_obj_same by auto. cbn. rewrite set_obj_twice by auto. reflexivity. Qed.
Lemma relabel_id o : relabel o (o_ds o) (o_us o) = o.
Proof. destruct o; reflexivity. Qed.
Lemma set_obj_id h r : live h r -> set_obj h r (hobj h r) = h.
Proof. intros L. unfold set_obj, hobj. rewrite upd_self by auto. destruct h; reflexivity. Qed.

Lemma eval_h_spec h r rules : live h r ->
  written rules h (fst (eval_h h r rules)) r /\
  match eval_state (view h r) rules with
  | Ok b => eval_h h r rules = (set_obj h r (relabel (hobj h r) (b_down_state b) (b_up_state b)), Ok tt)
  | Err e => snd (eval_h h r rules) = Err e
  end.
Proof.
  intros L. unfold eval_h, eval_state. cbn [b_up b_down b_up_state b_down_state b_p view].
  set (up := hdict h (o_up (hobj h r))). set (dn := hdict h (o_down (hobj h r))).
  assert (E0 : h = set_obj h r (relabel (hobj h r) (o_ds (hobj h r)) (o_us (hobj h r)))) by (rewrite relabel_id, set_obj_id; auto).
  assert (LA : forall d s, label_after rules d s s) by (intros; left; auto).
  destruct (eval_loop (all_ge up) S_ (r_s rules) (o_us (hobj h r))) as [us|e] eqn:E1; cbn [bind].
  2:{ split; [|reflexivity]. exists (o_ds (hobj h r)), (o_us (hobj h r)). split; [exact E0|auto]. }
  apply eval_loop_spec in E1; [|discriminate].
  assert (H1 : set_us h r us = set_obj h r (relabel (hobj h r) (o_ds (hobj h r)) us)) by reflexivity.
  destruct (eval_loop (all_ge dn) S_ (r_s rules) (o_ds (hobj h r))) as [ds|e] eqn:E2; cbn [bind].
  2:{ split; [|reflexivity]. cbn [fst]. exists (o_ds (hobj h r)), us. split; [exact H1|]. split; [auto|]. apply label_one. auto. }
  apply eval_loop_spec in E2; [|discriminate]. rewrite H1, set_ds_eq by auto.
  destruct (eval_loop (all_le up) F_ (r_f rules) us) as [us'|e] eqn:E3; cbn [bind].
  2:{ split; [|reflexivity]. cbn [fst]. exists ds, us. split; [auto|]. split; apply label_one; auto. }
  apply eval_loop_spec in E3; [|discriminate]. rewrite set_us_eq by auto.
  destruct (eval_loop (all_le dn) F_ (r_f rules) ds) as [ds'|e] eqn:E4; cbn [bind].
  2:{ split; [|reflexivity]. cbn [fst]. exists ds, us'. split; [auto|]. split; [apply label_one; auto|eapply label_two; eauto]. }
  apply eval_loop_spec in E4; [|discriminate]. rewrite set_ds_eq by auto. cbn [fst b_down_state b_up_state]. split; [|reflexivity].
  exists ds', us'. split; [auto|]. split; eapply label_two; eauto.
Qed.

(** * Changes during a pass: objects of [touched] may be relabelled, dictionaries stay *)
Definition changed (rules : ruleset) (touched : nat -> Prop) (h h' : heap) : Prop :=
  (exists D, h_ds h' = h_ds h ++ D) /\ h_rs h' = h_rs h /\ (List.length (h_bs h) <= List.length (h_bs h'))%nat /\
  forall r, live h r ->
    o_down (hobj h' r) = o_down (hobj h r) /\ o_up (hobj h' r) = o_up (hobj h r) /\ o_p (hobj h' r) = o_p (hobj h r) /\
    (~ touched r -> hobj h' r = hobj h r) /\
    label_after rules (hdict h (o_down (hobj h r))) (o_ds (hobj h r)) (o_ds (hobj h' r)) /\
    label_after rules (hdict h (o_up (hobj h r))) (o_us (hobj h r)) (o_us (hobj h' r)).
Lemma changed_ext rules (t : nat -> Prop) h h' : ext h h' -> changed rules t h h'.
Proof.
  intros E. assert (E' := E). destruct E' as (D & O & A & B & C). split; [eauto|]. split; [auto|]. split; [apply (ext_len h h' E)|].
  intros r L. rewrite (ext_obj h h' r E L). do 3 (split; [auto|]). split; [auto|]. split; left; auto.
Qed.
Lemma changed_written rules (t : nat -> Prop) h h' r : live h r -> t r -> written rules h h' r -> changed rules t h h'.
Proof.
  intros L T (ds & us & -> & A & B). split; [exists []; cbn; rewrite app_nil_r; auto|]. split; [auto|]. split; [cbn; rewrite upd_length by auto; lia|].
  intros q Lq. destruct (Nat.eq_dec r q) as [->|N].
  - rewrite set_obj_same by auto. cbn. do 3 (split; [auto|]). split; [tauto|]. auto.
  - rewrite set_obj_other by auto. do 3 (split; [auto|]). split; [auto|]. split; left; auto.
Qed.
Lemma changed_weaken rules (t t' : nat -> Prop) h h' : (forall r, t r -> t' r) -> changed rules t h h' -> changed rules t' h h'.
Proof.
  intros W (A & B & C & D). do 3 (split; [auto|]). intros r L. destruct (D r L) as (D1 & D2 & D3 & D4 & D5 & D6).
  do 3 (split; [auto|]). split; auto.
Qed.
Lemma changed_trans rules (t t1 t2 : nat -> Prop) h h1 h2 : sane h -> (forall r, t1 r -> t r) -> (forall r, live h r -> t2 r -> t r) ->
  changed rules t1 h h1 -> changed rules t2 h1 h2 -> changed rules t h h2.
Proof.
  intros S W1 W2 (A1 & B1 & C1 & D1) (A2 & B2 & C2 & D2). split; [destruct A1 as (X & A1), A2 as (Y & A2); exists (X ++ Y); rewrite A2, A1, app_assoc; auto|].
  split; [congruence|]. split; [lia|]. intros r L. assert (L1 : live h1 r) by (unfold live in *; lia).
  destruct (D1 r L) as (E1 & E2 & E3 & E4 & E5 & E6), (D2 r L1) as (F1 & F2 & F3 & F4 & F5 & F6).
  do 3 (split; [congruence|]). split; [intros N; rewrite F4, E4; auto|].
  destruct (sane_obj h r S L) as [Ld Lu].
  assert (Hdd : forall x, (x < List.length (h_ds h))%nat -> hdict h1 x = hdict h x) by (intros x Hx; destruct A1 as (X & A1); unfold hdict; rewrite A1; apply app_nth1; auto).
  rewrite E1, Hdd in F5 by auto. rewrite E2, Hdd in F6 by auto.
  assert (Comb : forall d s s1 s2, label_after rules d s s1 -> label_after rules d s1 s2 -> label_after rules d s s2).
  { intros d s s1 s2 [->|[(-> & -> & X)|(-> & -> & X)]] [->|[(Y1 & -> & Y)|(Y1 & -> & Y)]]; unfold label_after; auto; try congruence. }
  split; eapply Comb; eauto.
Qed.
Lemma changed_live rules (t : nat -> Prop) h h' r : changed rules t h h' -> live h r -> live h' r.
Proof. intros (_ & _ & C & _) L. unfold live in *. lia. Qed.
Lemma changed_view rules (t : nat -> Prop) h h' r : sane h -> changed rules t h h' -> live h r -> ~ t r -> view h' r = view h r.
Proof.
  intros S (A & _ & _ & D) L N. destruct (D r L) as (_ & _ & _ & D4 & _). unfold view. rewrite (D4 N). destruct (sane_obj h r S L) as [Ld Lu].
  destruct A as (X & A). unfold hdict. rewrite A, !app_nth1 by auto. auto.
Qed.

(** * New branches *)
Lemma nth_last {A} (l : list A) x d : nth (List.length l) (l ++ [x]) d = x.
Proof. rewrite app_nth2, Nat.sub_diag; auto. Qed.
Lemma view_last ds bs rs o : view (mkHeap ds (bs ++ [o]) rs) (List.length bs) =
  mkBr (nth (o_down o) ds []) (nth (o_up o) ds []) (o_ds o) (o_us o) (o_p o).
Proof. unfold view, hobj, hdict. cbn [h_bs h_ds]. rewrite nth_last. auto. Qed.
Lemma new_branch_spec h r rules probs xd v up : sane h -> live h r ->
  match get_new_branch (view h r) rules probs xd v up with
  | Err e => new_branch_h h r rules probs xd v up = (h, Err e)
  | Ok b => exists h', new_branch_h h r rules probs xd v up = (h', Ok (List.length (h_bs h))) /\ ext h h' /\ sane h' /\
      List.length (h_bs h') = S (List.length (h_bs h)) /\ view h' (List.length (h_bs h)) = b
  end.
Proof.
  intros S L. destruct (sane_obj h r S L) as [Ld Lu]. unfold new_branch_h. destruct (get_new_branch (view h r) rules probs xd v up) as [b|e] eqn:E; [|auto].
  assert (Hb : if up then b_down b = hdict h (o_down (hobj h r)) else b_up b = hdict h (o_up (hobj h r))).
  { revert E. unfold get_new_branch. destruct up; cbn [b_up b_down b_up_state b_down_state view].
    - destruct (get_state _ rules) as [u|]; cbn [bind]; [|discriminate]. unfold mk_branch. destruct (_ =? _)%nat; cbn [bind]; [|discriminate].
      destruct (approx_prob_by_comps _ _ _); cbn [bind]; [|discriminate]. intros X. injection X as <-. reflexivity.
    - destruct (get_state _ rules) as [u|]; cbn [bind]; [|discriminate]. unfold mk_branch. destruct (_ =? _)%nat; cbn [bind]; [|discriminate].
      destruct (approx_prob_by_comps _ _ _); cbn [bind]; [|discriminate]. intros X. injection X as <-. reflexivity. }
  destruct up; cbn [new_dict new_obj]; (eexists; split; [reflexivity|]; split; [eexists [_], [_]; cbn; auto|]; split; [|split]).
  - intros o Ho. cbn in Ho |- *. rewrite app_length. cbn [List.length]. apply in_app_iff in Ho as [Ho|[<-|[]]]; [destruct (S o Ho); lia|cbn; lia].
  - cbn. rewrite app_length. cbn. lia.
  - cbn [h_bs h_ds h_rs]. rewrite view_last. cbn [o_down o_up o_ds o_us o_p]. rewrite nth_last, nth_app1 by auto. fold (hdict h (o_down (hobj h r))). rewrite <- Hb. destruct b; reflexivity.
  - intros o Ho. cbn in Ho |- *. rewrite app_length. cbn [List.length]. apply in_app_iff in Ho as [Ho|[<-|[]]]; [destruct (S o Ho); lia|cbn; lia].
  - cbn. rewrite app_length. cbn. lia.
  - cbn [h_bs h_ds h_rs]. rewrite view_last. cbn [o_down o_up o_ds o_us o_p]. rewrite nth_last, nth_app1 by auto. fold (hdict h (o_up (hobj h r))). rewrite <- Hb. destruct b; reflexivity.
Qed.
Lemma init_h_spec h varis rules : sane h ->
  match init_branch varis rules with
  | Err e => init_h h varis rules = (h, Err e)
  | Ok bs => exists h', init_h h varis rules = (h', Ok [List.length (h_bs h)]) /\ ext h h' /\ sane h' /\ live h' (List.length (h_bs h)) /\
      map (view h') [List.length (h_bs h)] = bs
  end.
Proof.
  intros S. unfold init_h. destruct (init_branch varis rules) as [bs|e] eqn:E; [|auto].
  assert (Hb : exists b, bs = [b]).
  { revert E. unfold init_branch. destruct (get_state _ _); cbn [bind]; [|discriminate]. destruct (get_state _ _); cbn [bind]; [|discriminate].
    unfold mk_branch. destruct (_ =? _)%nat; cbn [bind]; [|discriminate]. intros X. injection X as <-. eauto. }
  destruct Hb as (b & ->). cbn [new_dict new_obj]. eexists. split; [reflexivity|]. split; [eexists [_; _], [_]; cbn; rewrite <- app_assoc; cbn; auto|]. split; [|split].
  - intros o Ho. cbn in Ho |- *. rewrite !app_length. cbn [List.length]. apply in_app_iff in Ho as [Ho|[<-|[]]]; [destruct (S o Ho); lia|cbn; rewrite app_length; cbn; lia].
  - unfold live. cbn. rewrite app_length. cbn. lia.
  - cbn [map]. f_equal. cbn [h_bs h_ds h_rs]. rewrite view_last. cbn [o_down o_up o_ds o_us o_p]. rewrite nth_last, nth_app1 by (rewrite app_length; cbn; lia). rewrite nth_last. destruct b; reflexivity.
Qed.

(** * A pass *)
Definition vw (h : heap) (x : nat * ruleset) : branch * ruleset := (view h (fst x), snd x).
Lemma vw_ext h h' l : (forall x, In x l -> view h' (fst x) = view h (fst x)) -> map (vw h') l = map (vw h) l.
Proof. intros H. apply map_ext_in. intros x Hx. unfold vw. rewrite H; auto. Qed.

Lemma pass_spec rules probs max_nb nb : forall todo h acc, sane h -> NoDup (map fst (acc ++ todo)) -> (forall x, In x (acc ++ todo) -> live h (fst x)) ->
  let o := pass_h h rules probs max_nb nb todo acc in
  changed rules (fun r => In r (map fst todo)) h (fst o) /\ sane (fst o) /\
  match decomp_pass rules probs max_nb nb (map (vw h) todo) (map (vw h) acc) with
  | Err e => snd o = Err e
  | Ok (l', go) => exists l, snd o = Ok (l, go) /\ map (vw (fst o)) l = l' /\ NoDup (map fst l) /\ forall x, In x l -> live (fst o) (fst x)
  end.
Proof.
  induction todo as [|[r cr] rest IH]; intros h acc S N Lv.
  - cbn. split; [apply changed_ext, ext_refl|]. split; [auto|]. rewrite app_nil_r in N. exists acc. split; [auto|]. split; [auto|]. split; [auto|].
    intros x Hx. apply Lv. apply in_or_app. auto.
  - assert (Lr : live h r) by (apply (Lv (r, cr)); apply in_or_app; cbn; auto).
    assert (Nr : ~ In r (map fst acc) /\ ~ In r (map fst rest)).
    { rewrite map_app in N. cbn in N. apply NoDup_remove_2 in N. rewrite in_app_iff in N. tauto. }
    destruct Nr as [Nacc Nrest].
    destruct (eval_h_spec h r rules Lr) as [W E]. cbn [map pass_h]. change (vw h (r, cr)) with (view h r, cr). cbn [decomp_pass].
    assert (Wc : changed rules (fun q => q = r) h (fst (eval_h h r rules))) by (eapply changed_written; eauto; cbn; auto).
    assert (Ws : sane (fst (eval_h h r rules))) by (destruct W as (? & ? & -> & _); apply set_obj_sane; auto).
    change (view h r) with (view h (fst (r, cr))) in E. cbn [fst] in E.
    destruct (eval_state (view h r) rules) as [b|e] eqn:Ev; cbn [bind].
    2:{ destruct (eval_h h r rules) as [h1 [x|e1]]; cbn [fst snd] in *; [discriminate|]. injection E as ->. split; [|auto].
        eapply changed_weaken; [|exact Wc]. cbn. intros q ->. auto. }
    rewrite E in Wc, Ws |- *. cbn [fst] in Wc, Ws. set (h1 := set_obj h r (relabel (hobj h r) (b_down_state b) (b_up_state b))) in *.
    assert (Vb : view h1 r = b).
    { unfold view, h1. rewrite set_obj_same by auto. cbn. assert (X := Ev). unfold eval_state in X.
      destruct (eval_loop _ _ _ _) as [u|]; cbn [bind] in X; [|discriminate]. destruct (eval_loop _ _ _ _) as [d|]; cbn [bind] in X; [|discriminate].
      destruct (eval_loop _ _ _ _) as [u'|]; cbn [bind] in X; [|discriminate]. destruct (eval_loop _ _ _ _) as [d'|]; cbn [bind] in X; [|discriminate].
      injection X as <-. reflexivity. }
    assert (Vo : forall q, q <> r -> view h1 q = view h q) by (intros q Hq; apply set_obj_view; auto).
    assert (L1 : forall q, live h q -> live h1 q) by (intros q; apply set_obj_live; auto).
    assert (Vrest : map (vw h1) rest = map (vw h) rest).
    { apply vw_ext. intros x Hx. apply Vo. intros X. apply Nrest. rewrite <- X. apply in_map. auto. }
    assert (Vacc : map (vw h1) acc = map (vw h) acc).
    { apply vw_ext. intros x Hx. apply Vo. intros X. apply Nacc. rewrite <- X. apply in_map. auto. }
    rewrite Vb. destruct (keep_branch b cr) eqn:K.
    + specialize (IH h1 (acc ++ [(r, mkRules [] [])]) Ws). cbv zeta in IH. rewrite (map_app (vw h1) acc) in IH. change (map (vw h1) [(r, mkRules [] [])]) with [(view h1 r, mkRules [] [])] in IH. rewrite Vrest, Vacc, Vb in IH.
      destruct IH as (I1 & I2 & I3).
      { rewrite <- app_assoc. cbn [app]. rewrite map_app in N |- *. exact N. }
      { intros x Hx. apply L1. rewrite <- app_assoc in Hx. cbn [app] in Hx. apply in_app_iff in Hx as [Hx|[<-|Hx]]; [apply Lv; apply in_or_app; auto|auto|].
        apply Lv. apply in_or_app. cbn. auto. }
      split; [|auto]. eapply (changed_trans rules _ (fun q => q = r) (fun q => In q (map fst rest))); eauto; cbn; intros q; auto.
    + assert (W0 : changed rules (fun q => r = q \/ In q (map fst rest)) h h1) by (eapply changed_weaken; [|exact Wc]; cbn; auto).
      destruct (get_decomp_comp b cr probs) as [[[xd xs]|]|e]; cbn [bind]; [|auto|auto].
      assert (Lr1 := L1 r Lr).
      assert (B1 := new_branch_spec h1 r rules probs xd xs true Ws Lr1). rewrite Vb in B1.
      destruct (get_new_branch b rules probs xd xs true) as [b1|e]; cbn [bind]; [|rewrite B1; auto].
      destruct B1 as (h2 & -> & X2 & S2 & N2 & V2). rewrite V2.
      assert (Ch2 : changed rules (fun q => r = q \/ In q (map fst rest)) h h2).
      { eapply (changed_trans rules _ (fun q => r = q \/ In q (map fst rest)) (fun _ => False)); [exact S|auto|tauto|exact W0|apply changed_ext; auto]. }
      destruct (get_compat_rules b1 rules) as [c1|e]; cbn [bind]; [|auto].
      assert (Lr2 := ext_live h1 h2 r X2 Lr1).
      assert (B2 := new_branch_spec h2 r rules probs xd xs false S2 Lr2). rewrite (ext_view h1 h2 r Ws X2 Lr1), Vb in B2.
      destruct (get_new_branch b rules probs xd xs false) as [b2|e]; cbn [bind]; [|rewrite B2; auto].
      destruct B2 as (h3 & -> & X3 & S3 & N3 & V3). rewrite V3.
      assert (Ch3 : changed rules (fun q => r = q \/ In q (map fst rest)) h h3).
      { eapply (changed_trans rules _ (fun q => r = q \/ In q (map fst rest)) (fun _ => False)); [exact S|auto|tauto|exact Ch2|apply changed_ext; auto]. }
      destruct (get_compat_rules b2 rules) as [c2|e]; cbn [bind]; [|auto].
      assert (X13 := ext_trans _ _ _ X2 X3).
      set (r1 := List.length (h_bs h1)) in *. set (r2 := List.length (h_bs h2)) in *.
      assert (V1' : view h3 r1 = b1). { rewrite (ext_view h2 h3 r1 S2 X3); [auto|]. unfold live. fold r2. lia. }
      assert (Len1 : List.length (h_bs h1) = List.length (h_bs h)) by (unfold h1; cbn; apply upd_length; auto).
      assert (Old : forall q, live h q -> (q < r1)%nat) by (intros q Hq; unfold r1; rewrite Len1; exact Hq).
      assert (L3 : forall q, live h q -> live h3 q) by (intros q Hq; apply (ext_live h1 h3 q X13); auto).
      assert (Vrest3 : map (vw h3) rest = map (vw h) rest).
      { rewrite <- Vrest. apply vw_ext. intros x Hx. apply (ext_view h1 h3 _ Ws X13). apply L1. apply Lv. apply in_or_app. cbn. auto. }
      assert (Vacc3 : map (vw h3) acc = map (vw h) acc).
      { rewrite <- Vacc. apply vw_ext. intros x Hx. apply (ext_view h1 h3 _ Ws X13). apply L1. apply Lv. apply in_or_app. auto. }
      assert (Lb : live h3 r1 /\ live h3 r2). { unfold live. rewrite N3. fold r2. lia. }
      assert (Vacc' : map (vw h3) (acc ++ [(r1, c1); (r2, c2)]) = map (vw h) acc ++ [(b1, c1); (b2, c2)]).
      { rewrite map_app, Vacc3. unfold vw. cbn [map fst snd]. rewrite V1', V3. auto. }
      assert (Nd : NoDup (map fst ((acc ++ [(r1, c1); (r2, c2)]) ++ rest))).
      { rewrite map_app in N. cbn [map fst] in N. apply NoDup_remove_1 in N. rewrite <- app_assoc, map_app. cbn [app map fst].
        assert (Fr : forall q, In q (map fst acc ++ map fst rest) -> (q < r1)%nat).
        { intros q Hq. apply Old. rewrite <- map_app in Hq. apply in_map_iff in Hq as (x & <- & Hx). apply Lv. apply in_app_iff in Hx as [Hx|Hx]; apply in_or_app; cbn; auto. }
        apply (Permutation.Permutation_NoDup (l := r1 :: r2 :: map fst acc ++ map fst rest)).
        - eapply Permutation.perm_trans; [apply Permutation.perm_skip, Permutation.Permutation_middle|]. apply Permutation.Permutation_middle.
        - constructor; [|constructor; [|exact N]]; intros Hq; [destruct Hq as [Hq|Hq]; [lia|]|]; apply Fr in Hq; lia. }
      assert (Lv3 : forall x, In x ((acc ++ [(r1, c1); (r2, c2)]) ++ rest) -> live h3 (fst x)).
      { intros x Hx. apply in_app_iff in Hx as [Hx|Hx]; [apply in_app_iff in Hx as [Hx|[<-|[<-|[]]]]; try tauto|]; apply L3; apply Lv; apply in_or_app; cbn; auto. }
      rewrite <- Vacc', <- Vrest3. rewrite map_length.
      destruct (gt_bound _ max_nb) eqn:G.
      * cbn [fst snd]. split; [exact Ch3|]. split; [exact S3|]. eexists. split; [reflexivity|]. split; [apply map_app|]. auto.
      * destruct (IH h3 (acc ++ [(r1, c1); (r2, c2)]) S3 Nd Lv3) as (I1 & I2 & I3). split; [|split; [exact I2|exact I3]].
        eapply (changed_trans rules _ (fun q => r = q \/ In q (map fst rest)) (fun q => In q (map fst rest))); [exact S|auto|cbn; auto|exact Ch3|exact I1].
Qed.

(** * The deep copy *)
Lemma pos_spec r l d : In r l -> (pos r l < List.length l)%nat /\ nth (pos r l) l d = r.
Proof.
  unfold pos. induction l as [|a l IH]; intros H; [destruct H|]. cbn [find_idx]. destruct (r =? a)%nat eqn:E.
  - apply Nat.eqb_eq in E as ->. cbn. split; [lia|auto].
  - destruct H as [->|H]; [rewrite Nat.eqb_refl in E; discriminate|]. specialize (IH H). destruct (find_idx (Nat.eqb r) l) as [i|] eqn:F; cbn [nth List.length].
    + destruct IH. split; [lia|auto].
    + exfalso. clear - F H. induction l as [|b l IH]; [destruct H|]. cbn in F. destruct (r =? b)%nat eqn:E; [discriminate|].
      destruct H as [->|H]; [rewrite Nat.eqb_refl in E; discriminate|]. destruct (find_idx _ l); [discriminate|auto].
Qed.
Lemma nth_map_in {A B} (f : A -> B) l i d d' : (i < List.length l)%nat -> nth i (map f l) d' = f (nth i l d).
Proof. intros H. rewrite (nth_indep _ d' (f d)) by (rewrite map_length; auto). apply map_nth. Qed.
Definition fresh (h h' : heap) (refs : list nat) : Prop :=
  NoDup refs /\ forall r, In r refs -> live h' r /\ (List.length (h_bs h) <= r)%nat /\
    (List.length (h_ds h) <= o_down (hobj h' r))%nat /\ (List.length (h_ds h) <= o_up (hobj h' r))%nat.

Lemma copy_spec h refs : sane h -> NoDup refs -> (forall r, In r refs -> live h r) ->
  let o := copy_h h refs in
  ext h (fst o) /\ sane (fst o) /\ fresh h (fst o) (snd o) /\ map (view (fst o)) (snd o) = map (view h) refs.
Proof.
  intros S N Lv o. set (R := flat_map (fun r => [o_down (hobj h r); o_up (hobj h r)]) refs).
  set (nd := fun r => (List.length (h_ds h) + pos r R)%nat).
  set (cp := fun r => let b := hobj h r in mkO (nd (o_down b)) (nd (o_up b)) (o_ds b) (o_us b) (o_p b)).
  assert (Eo : o = (mkHeap (h_ds h ++ map (hdict h) R) (h_bs h ++ map cp refs) (h_rs h), map (fun r => (List.length (h_bs h) + pos r refs)%nat) refs)) by reflexivity.
  clearbody o. subst o. cbn [fst snd]. set (h2 := mkHeap _ _ _).
  assert (InR : forall r, In r refs -> In (o_down (hobj h r)) R /\ In (o_up (hobj h r)) R).
  { intros r Hr. split; apply in_flat_map; exists r; cbn; auto. }
  assert (Ob : forall r, In r refs -> hobj h2 (List.length (h_bs h) + pos r refs) = cp r).
  { intros r Hr. destruct (pos_spec r refs 0%nat Hr) as [P1 P2]. unfold hobj, h2. cbn [h_bs]. rewrite app_nth2 by lia.
    replace (List.length (h_bs h) + pos r refs - List.length (h_bs h))%nat with (pos r refs) by lia. rewrite (nth_map_in cp refs _ 0%nat) by auto. rewrite P2. auto. }
  assert (Di : forall r, In r R -> hdict h2 (nd r) = hdict h r).
  { intros r Hr. destruct (pos_spec r R 0%nat Hr) as [P1 P2]. unfold hdict at 1, h2, nd. cbn [h_ds]. rewrite app_nth2 by lia.
    replace (List.length (h_ds h) + pos r R - List.length (h_ds h))%nat with (pos r R) by lia. rewrite (nth_map_in (hdict h) R _ 0%nat) by auto. rewrite P2. auto. }
  assert (Ll : List.length (h_bs h2) = (List.length (h_bs h) + List.length refs)%nat) by (cbn; rewrite app_length, map_length; auto).
  split; [eexists _, _; cbn; auto|]. split; [|split; [split|]].
  - intros b Hb. cbn in Hb |- *. rewrite app_length, map_length. apply in_app_iff in Hb as [Hb|Hb]; [destruct (S b Hb); lia|].
    apply in_map_iff in Hb as (r & <- & Hr). cbn. destruct (InR r Hr) as [I1 I2]. unfold nd.
    destruct (pos_spec _ R 0%nat I1), (pos_spec _ R 0%nat I2). lia.
  - clear - N. assert (G : forall l, incl l refs -> NoDup l -> NoDup (map (fun r => (List.length (h_bs h) + pos r refs)%nat) l)).
    { induction l as [|a l IH]; intros I Nl; cbn; [constructor|]. inversion Nl; subst. constructor; [|apply IH; [intros x Hx; apply I; cbn; auto|auto]].
      intros H. apply in_map_iff in H as (b & Hb & Hin). assert (pos b refs = pos a refs) by lia.
      assert (Ia : In a refs) by (apply I; cbn; auto). assert (Ib : In b refs) by (apply I; cbn; auto).
      destruct (pos_spec a refs 0%nat Ia) as [_ A2], (pos_spec b refs 0%nat Ib) as [_ B2]. congruence. }
    apply G; [intros x; auto|auto].
  - intros q Hq. apply in_map_iff in Hq as (r & <- & Hr). rewrite (Ob r Hr). unfold live. rewrite Ll. destruct (pos_spec r refs 0%nat Hr) as [P1 _].
    cbn. unfold nd. lia.
  - rewrite map_map. apply map_ext_in. intros r Hr. unfold view. rewrite (Ob r Hr). unfold cp. cbn [o_down o_up o_ds o_us o_p]. destruct (InR r Hr) as [I1 I2]. rewrite !Di by auto. auto.
Qed.

(** * The while loop *)
Lemma combine_fst {A B} (l : list A) (l' : list B) : List.length l = List.length l' -> map fst (combine l l') = l.
Proof. revert l'. induction l as [|a l IH]; intros [|b l'] H; cbn in *; try discriminate; [auto|]. f_equal. apply IH. lia. Qed.
Lemma combine_map_vw h l l' : List.length l = List.length l' -> map (vw h) (combine l l') = combine (map (view h) l) l'.
Proof. revert l'. induction l as [|a l IH]; intros [|b l'] H; cbn in *; try discriminate; [auto|]. f_equal. apply IH. lia. Qed.
Lemma combine_split_map {A B} (l : list (A * B)) : combine (map fst l) (map snd l) = l.
Proof. induction l as [|[a b] l IH]; cbn; [auto|]. rewrite IH. auto. Qed.
Lemma fst_vw h l : map fst (map (vw h) l) = map (view h) (map fst l).
Proof. rewrite !map_map. auto. Qed.
Lemma snd_vw h l : map snd (map (vw h) l) = map snd l.
Proof. rewrite map_map. auto. Qed.
Lemma forallb_snd (f : ruleset -> bool) {A} (l : list (A * ruleset)) : forallb (fun bc => f (snd bc)) l = forallb f (map snd l).
Proof. induction l as [|[a b] l IH]; cbn; [auto|]. rewrite IH. auto. Qed.

Lemma loop_spec rules probs max_nb : forall fuel h bcs, sane h -> NoDup (map fst bcs) -> (forall x, In x bcs -> live h (fst x)) ->
  let o := loop_h fuel h rules probs max_nb bcs in
  changed rules (fun r => In r (map fst bcs)) h (fst o) /\ sane (fst o) /\
  match decomp_loop fuel rules probs max_nb (map (vw h) bcs) with
  | Err e => snd o = Err e
  | Ok l => exists refs, snd o = Ok refs /\ map (view (fst o)) refs = map fst l /\ fresh h (fst o) refs
  end.
Proof.
  induction fuel as [|fuel IH]; intros h bcs S N Lv; cbn [loop_h decomp_loop].
  { split; [apply changed_ext, ext_refl|]. auto. }
  rewrite (sort_desc_map (vw h)). cbn [vw fst view b_p].
  change (fun y x : nat * ruleset => qc_ltb (b_p (fst (vw h x))) (b_p (fst (vw h y)))) with (fun y x : nat * ruleset => qc_ltb (o_p (hobj h (fst x))) (o_p (hobj h (fst y)))).
  set (sorted := sort_desc _ bcs). rewrite map_length.
  assert (P : Permutation.Permutation sorted bcs) by apply sort_desc_perm.
  assert (P1 := pass_spec rules probs max_nb (List.length sorted) sorted h []). cbv zeta in P1. destruct P1 as (C1 & S1 & R1); [auto| | |].
  { cbn [app]. eapply Permutation.Permutation_NoDup; [apply Permutation.Permutation_sym, Permutation.Permutation_map, P|auto]. }
  { cbn [app]. intros x Hx. apply Lv. eapply Permutation.Permutation_in; eauto. }
  assert (C1' : changed rules (fun r => In r (map fst bcs)) h (fst (pass_h h rules probs max_nb (List.length sorted) sorted []))).
  { eapply changed_weaken; [|exact C1]. cbn. intros r Hr. eapply Permutation.Permutation_in; [apply Permutation.Permutation_map, P|auto]. }
  cbn [map] in R1. destruct (decomp_pass rules probs max_nb (List.length sorted) (map (vw h) sorted) []) as [[l' go]|e]; cbn [bind].
  2:{ destruct (pass_h h rules probs max_nb (List.length sorted) sorted []) as [h1 r1]. cbn [fst snd] in *. subst r1. auto. }
  destruct R1 as (l & E1 & V1 & N1 & L1).
  destruct (pass_h h rules probs max_nb (List.length sorted) sorted []) as [h1 r1]. cbn [fst snd] in *. subst r1.
  assert (Cp := copy_spec h1 (map fst l) S1 N1). cbv zeta in Cp. destruct Cp as (X2 & S2 & F2 & V2).
  { intros r Hr. apply in_map_iff in Hr as (x & <- & Hx). auto. }
  destruct (copy_h h1 (map fst l)) as [h2 refs]. cbn [fst snd] in *.
  assert (Gr : (List.length (h_ds h) <= List.length (h_ds h1))%nat /\ (List.length (h_bs h) <= List.length (h_bs h1))%nat).
  { destruct C1 as ((D & ->) & _ & Cl & _). rewrite app_length. lia. }
  assert (C2 : changed rules (fun r => In r (map fst bcs)) h h2).
  { eapply (changed_trans rules _ (fun r => In r (map fst bcs)) (fun _ => False)); [exact S|auto|tauto|exact C1'|apply changed_ext; auto]. }
  rewrite <- V1. rewrite !(forallb_snd no_rules), snd_vw.
  assert (Ll : List.length refs = List.length (map snd l)).
  { rewrite <- (map_length (view h2)), V2, !map_length. auto. }
  destruct (go && negb (forallb no_rules (map snd l)))%bool.
  - assert (Eq : map (vw h2) (combine refs (map snd l)) = map (vw h1) l).
    { rewrite combine_map_vw by auto. rewrite V2, <- fst_vw, <- (snd_vw h1 l). apply combine_split_map. }
    assert (I := IH h2 (combine refs (map snd l)) S2). cbv zeta in I. rewrite Eq in I. destruct I as (I1 & I2 & I3).
    { rewrite combine_fst by auto. apply F2. }
    { intros x Hx. apply F2. rewrite <- (combine_fst refs (map snd l) Ll). apply in_map. auto. }
    split; [|split; [exact I2|]].
    + eapply (changed_trans rules _ (fun r => In r (map fst bcs)) (fun r => In r (map fst (combine refs (map snd l))))); [exact S|auto| |exact C2|exact I1].
      cbn. intros r Lr Hr. exfalso. rewrite combine_fst in Hr by auto. apply F2 in Hr as (_ & Hr & _). unfold live in Lr. lia.
    + destruct (decomp_loop fuel rules probs max_nb (map (vw h1) l)) as [l2|e]; [|exact I3]. destruct I3 as (rf & I3 & I4 & I5 & I6).
      exists rf. split; [exact I3|]. split; [exact I4|]. split; [exact I5|]. intros r Hr. destruct (I6 r Hr) as (J1 & J2 & J3 & J4). destruct (ext_len _ _ X2). split; [auto|]. lia.
  - cbn [fst snd]. split; [exact C2|]. split; [exact S2|]. exists refs. split; [auto|]. split; [rewrite V2, <- fst_vw; auto|].
    destruct F2 as [F2 F3]. split; [exact F2|]. intros r Hr. destruct (F3 r Hr) as (J1 & J2 & J3 & J4). split; [auto|]. lia.
Qed.

Lemma mapM_map {A B C} (f : A -> B) (g : B -> res C) l : mapM g (map f l) = mapM (fun x => g (f x)) l.
Proof. induction l as [|a l IH]; cbn; [auto|]. rewrite IH. auto. Qed.
Lemma decomp_spec h varis rules probs max_nb refs : sane h -> NoDup refs -> (forall r, In r refs -> live h r) ->
  let o := decomp_h h varis rules probs max_nb refs in
  changed rules (fun r => In r refs) h (fst o) /\ sane (fst o) /\
  match decomp_depth_first varis rules probs max_nb (map (view h) refs) with
  | Err e => snd o = Err e
  | Ok l => exists rf, snd o = Ok rf /\ map (view (fst o)) rf = l /\ fresh h (fst o) rf
  end.
Proof.
  intros S N Lv. cbv zeta. unfold decomp_h, decomp_depth_first.
  assert (G : forall h1 rf, ext h h1 -> sane h1 -> NoDup rf -> (forall r, In r rf -> live h1 r) -> (forall r, live h r -> In r rf -> In r refs) ->
    let o := match mapM (fun r => get_compat_rules (view h1 r) rules) rf with
      | Err e => (h1, Err e)
      | Ok crules => loop_h (decomp_fuel (map (view h1) rf)) h1 rules probs max_nb (combine rf crules)
      end in
    changed rules (fun r => In r refs) h (fst o) /\ sane (fst o) /\
    match (crules <- mapM (fun br => get_compat_rules br rules) (map (view h1) rf) ;;
           bcs <- decomp_loop (decomp_fuel (map (view h1) rf)) rules probs max_nb (combine (map (view h1) rf) crules) ;; Ok (map fst bcs)) with
    | Err e => snd o = Err e
    | Ok l => exists rf, snd o = Ok rf /\ map (view (fst o)) rf = l /\ fresh h (fst o) rf
    end).
  { intros h1 rf X S1 N1 L1 O1. cbv zeta. rewrite mapM_map. destruct (mapM (fun r => get_compat_rules (view h1 r) rules) rf) as [cr|e] eqn:E; cbn [bind].
    2:{ cbn. split; [apply changed_ext; auto|auto]. }
    assert (Ll : List.length rf = List.length cr) by (apply mapM_inv in E; eapply Forall2_length; eauto).
    assert (I := loop_spec rules probs max_nb (decomp_fuel (map (view h1) rf)) h1 (combine rf cr) S1). cbv zeta in I. destruct I as (I1 & I2 & I3).
    { rewrite combine_fst; auto. }
    { intros x Hx. apply L1. rewrite <- (combine_fst rf cr Ll). apply in_map. auto. }
    rewrite combine_map_vw in I3 by auto. split; [|split; [exact I2|]].
    - eapply (changed_trans rules _ (fun r => In r refs) (fun r => In r (map fst (combine rf cr)))); [exact S|auto| |apply changed_ext; exact X|exact I1].
      cbn. intros r Lr Hr. rewrite combine_fst in Hr; auto.
    - destruct (decomp_loop _ rules probs max_nb _) as [l|e]; cbn [bind]; [|exact I3]. destruct I3 as (rf2 & J1 & J2 & J3 & J4). exists rf2. split; [auto|]. split; [auto|].
      split; [auto|]. intros r Hr. destruct (J4 r Hr) as (K1 & K2 & K3 & K4). destruct (ext_len _ _ X). split; [auto|]. lia. }
  destruct refs as [|r refs].
  - cbn [map]. assert (I := init_h_spec h varis rules S). destruct (init_branch varis rules) as [bs|e]; cbn [bind].
    + destruct I as (h' & -> & X & S' & L' & V'). rewrite <- V'. apply G; auto.
      * constructor; [intros []|constructor].
      * intros q [<-|[]]. auto.
      * unfold live. intros q Hq [<-|[]]. lia.
    + rewrite I. cbn. split; [apply changed_ext, ext_refl|auto].
  - cbn [map bind]. apply (G h (r :: refs)); auto. apply ext_refl.
Qed.
