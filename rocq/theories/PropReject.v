(** C107: what further functions accept, and which exception they raise otherwise. *)
From Coq Require Import ZArith List String Bool Arith Lia QArith Qcanon.
From Verif Require Import Py Num Vari Cpm Brc Mcs Hybrid WriteNet Ctor Legacy PyFacts VariFacts McsFacts LegacyFacts.
Import ListNotations.
Open Scope string_scope.
Open Scope Z_scope.
Open Scope list_scope.

(** * brc.get_csys *)
(** the rows of branches, each coded with the variables the branches before it have left *)
Inductive coded (f : st -> res Z) : dict variable -> list branch -> list (list Z) -> dict variable -> Prop :=
| coded_nil V : coded f V [] [] V
| coded_cons V V1 V2 b brs r rows : get_c b V f = Ok (V1, r) -> coded f V1 brs rows V2 -> coded f V (b :: brs) (r :: rows) V2.
Lemma coded_loop f V brs rows V' : coded f V brs rows V' -> forall acc, get_csys_loop brs V f acc = Ok (acc ++ rows, V').
Proof.
  induction 1 as [V|V V1 V2 b brs r rows E _ IH]; intros acc; cbn [get_csys_loop]; [rewrite app_nil_r; auto|].
  rewrite E. cbn [bind]. rewrite IH, <- app_assoc. auto.
Qed.
Theorem C107_get_csys f V :
  get_csys [] V f = Err IndexError /\
  forall b brs rows V', coded f V (b :: brs) rows V' ->
    ((forall r, In r rows -> List.length r = S (List.length (b_up b))) -> get_csys (b :: brs) V f = Ok (rows, V')) /\
    ((exists r, In r rows /\ List.length r <> S (List.length (b_up b))) -> get_csys (b :: brs) V f = Err ValueError).
Proof.
  split; [auto|]. intros b brs rows V' H. unfold get_csys. rewrite (coded_loop _ _ _ _ _ H []). cbn [bind app]. split.
  - intros G. replace (forallb _ rows) with true; auto. symmetry. apply forallb_forall. intros r Hr. apply Nat.eqb_eq. auto.
  - intros (r & Hr & N). destruct (forallb _ rows) eqn:E; auto. rewrite forallb_forall in E. apply E, Nat.eqb_eq in Hr. contradiction.
Qed.
Definition rj_v := mkVar "x" [VStr "0"; VStr "1"] (Some [[0]; [1]; [0; 1]]) None.
Definition rj_b1 := mkBr [("x", 0)] [("x", 1)] U_ U_ 0%Qc.
Definition rj_b2 := mkBr [("x", 1); ("y", 0)] [("x", 1); ("y", 0)] S_ S_ 0%Qc.
Definition rj_f (s : st) : res Z := Ok (match s with F_ => 0 | S_ => 1 | U_ => 2 end).
Example C107_get_csys_ex :
  coded rj_f [("x", rj_v)] [rj_b1; rj_b2] [[2; 2]; [1; 1; 0]] [("x", rj_v)] /\
  get_csys [rj_b1; rj_b2] [("x", rj_v)] rj_f = Err ValueError /\
  get_csys [rj_b1; rj_b1] [("x", rj_v)] rj_f = Ok ([[2; 2]; [2; 2]], [("x", rj_v)]).
Proof.
  split; [|split; reflexivity]. apply coded_cons with [("x", rj_v)]; [reflexivity|]. apply coded_cons with [("x", rj_v)]; [reflexivity|]. constructor.
Qed.

(** * Cpm.__init__ *)
(** one entry per variable, no larger than the last code of a full table *)
Definition fits (vars : list variable) (C : list (list Z)) : Prop :=
  forall row, In row C -> Forall2 (fun v x => x <= 2 ^ Z.of_nat (List.length (v_values v)) - 1) vars row.
Lemma all2_dec {A B} (R : A -> B -> Prop) (d : forall a b, {R a b} + {~ R a b}) l m : {Forall2 R l m} + {~ Forall2 R l m}.
Proof.
  revert m. induction l as [|a l IH]; intros [|b m]; [left; constructor|right; intros H; inversion H|right; intros H; inversion H|].
  destruct (d a b); [destruct (IH m)|]; [left; constructor; auto|right; intros H; inversion H; auto|right; intros H; inversion H; auto].
Qed.
Lemma check_C_iff vars C : (fits vars C -> check_C vars C = Ok tt) /\ (~ fits vars C -> check_C vars C = Err AssertionError).
Proof.
  assert (D : C = [] \/ exists r C', C = r :: C') by (destruct C; eauto).
  destruct D as [->|(r0 & C0 & E0)]; [split; [auto|]; intros H; exfalso; apply H; intros row []|].
  assert (U : check_C vars C = if negb (forallb (fun row => (List.length row =? List.length vars)%nat) C) then Err AssertionError
    else if forallb (col_max_ok C) (combine (seq 0 (List.length vars)) vars) then Ok tt else Err AssertionError) by (subst C; reflexivity).
  rewrite U. clear U E0 r0 C0.
  assert (K : forall row vs k, List.length row = (k + List.length vs)%nat ->
     (Forall2 (fun v x => x <= 2 ^ Z.of_nat (List.length (v_values v)) - 1) vs (skipn k row) <->
      forall iv, In iv (combine (seq k (List.length vs)) vs) -> at_ row (fst iv) <= 2 ^ nvals (snd iv) - 1)).
  { intros row vs. induction vs as [|v vs IH]; intros k L; cbn [List.length seq combine].
    - replace (skipn k row) with (@nil Z). split; [intros _ iv []|constructor]. symmetry. apply skipn_all2. cbn in L. lia.
    - assert (X : skipn k row = at_ row k :: skipn (S k) row).
      { cbn in L. clear - L. unfold at_. revert row L. induction k as [|k IH]; intros [|x row] L; cbn in *; try lia; auto. }
      rewrite X. specialize (IH (S k)). cbn in L. specialize (IH ltac:(lia)). split.
      + intros H. inversion H as [|? ? ? ? H1 H2]. subst. intros iv [<-|Hi]; [exact H1|]. apply IH; auto.
      + intros H. constructor; [apply (H (k, v)); cbn; auto|]. apply IH. intros iv Hi. apply H. cbn. auto. }
  split; intros H.
  - replace (forallb (fun row => (List.length row =? List.length vars)%nat) C) with true.
    2:{ symmetry. apply forallb_forall. intros row Hr. apply Nat.eqb_eq. specialize (H row Hr). clear - H. induction H; cbn; auto. }
    cbn [negb]. replace (forallb (col_max_ok C) _) with true; auto. symmetry. apply forallb_forall. intros iv Hi. unfold col_max_ok. apply forallb_forall.
    intros row Hr. apply Z.leb_le. specialize (H row Hr). assert (L : List.length row = List.length vars) by (clear - H; induction H; cbn; auto).
    apply (proj1 (K row vars 0%nat L) H). auto.
  - destruct (forallb (fun row => (List.length row =? List.length vars)%nat) C) eqn:L; cbn [negb]; [|auto].
    destruct (forallb (col_max_ok C) _) eqn:M; [|auto]. exfalso. apply H. intros row Hr.
    rewrite forallb_forall in L, M. specialize (L row Hr). apply Nat.eqb_eq in L. apply (proj2 (K row vars 0%nat L)).
    intros iv Hi. specialize (M iv Hi). unfold col_max_ok in M. rewrite forallb_forall in M. specialize (M row Hr). apply Z.leb_le in M. auto.
Qed.
Definition cpm_ok (vars : list variable) (nch : nat) (C : list (list Z)) (p : list Qc) : Prop :=
  (nch <= List.length vars)%nat /\ fits vars C /\ (p = [] \/ List.length p = List.length C).
Lemma check_p_iff C p : ((p = [] \/ List.length p = List.length C) -> check_p C p = Ok tt) /\
  (~ (p = [] \/ List.length p = List.length C) -> check_p C p = Err AssertionError).
Proof.
  destruct p as [|x p]; [split; [auto|]; intros H; exfalso; auto|]. unfold check_p. destruct (_ =? _)%nat eqn:E.
  - apply Nat.eqb_eq in E. split; [auto|]. intros H. exfalso. auto.
  - apply Nat.eqb_neq in E. split; [intros [H|H]; [discriminate|contradiction]|auto].
Qed.
Theorem C107_mk_cpm vars nch C p :
  (cpm_ok vars nch C p -> mk_cpm vars nch C p = Ok (mkCpm vars nch C p)) /\
  (~ cpm_ok vars nch C p -> mk_cpm vars nch C p = Err AssertionError).
Proof.
  unfold mk_cpm, cpm_ok. destruct (check_C_iff vars C) as [A A']. destruct (check_p_iff C p) as [B B']. split.
  - intros (H1 & H2 & H3). apply Nat.leb_le in H1. rewrite H1, A by auto. cbn [bind]. rewrite B by auto. auto.
  - intros H. destruct (nch <=? List.length vars)%nat eqn:L; [|auto]. apply Nat.leb_le in L.
    destruct (check_C vars C) as [[]|e] eqn:EC; cbn [bind].
    + destruct (check_p C p) as [[]|e] eqn:EP; cbn [bind].
      * exfalso. apply H. split; [auto|]. split.
        -- intros row Hr. destruct (all2_dec (fun v x => x <= 2 ^ Z.of_nat (List.length (v_values v)) - 1) (fun v x => Z_le_dec _ _) vars row) as [Y|N]; [auto|].
           exfalso. assert (NF : ~ fits vars C) by (intros X; apply N, X; auto). specialize (A' NF). discriminate A'.
        -- destruct p as [|x p]; [auto|]. destruct (Nat.eq_dec (List.length (x :: p)) (List.length C)); [auto|].
           exfalso. assert (NF : ~ (x :: p = [] \/ List.length (x :: p) = List.length C)) by (intros [X|X]; [discriminate X|contradiction]). specialize (B' NF). discriminate B'.
      * unfold check_p in EP. destruct p; [discriminate|]. destruct (_ =? _)%nat; congruence.
    + unfold check_C in EC. destruct C; [discriminate|]. destruct (negb _); [congruence|]. destruct (forallb _ _); congruence.
Qed.
Example C107_mk_cpm_ex :
  cpm_ok [rj_v] 1 [[0]; [3]] [1%Qc; 0%Qc] /\ mk_cpm [rj_v] 2 [[0]] [1%Qc] = Err AssertionError /\
  mk_cpm [rj_v] 1 [[4]] [1%Qc] = Err AssertionError /\ mk_cpm [rj_v] 1 [[0; 0]] [1%Qc] = Err AssertionError /\ mk_cpm [rj_v] 1 [[0]] [1%Qc; 0%Qc] = Err AssertionError.
Proof.
  split; [|do 3 (split; [reflexivity|]); reflexivity]. split; [cbn; lia|]. split; [|auto].
  intros row [<-|[<-|[]]]; (constructor; [cbn; lia|constructor]).
Qed.
(** The same for a one-dimensional C: it becomes a column; every variable limits it. *)
Theorem C107_flat vars C :
  ((forall v x, In v vars -> In x C -> x <= 2 ^ Z.of_nat (List.length (v_values v)) - 1) -> flat_C vars C = Ok (map (fun c => [c]) C)) /\
  ((exists v x, In v vars /\ In x C /\ 2 ^ Z.of_nat (List.length (v_values v)) - 1 < x) -> flat_C vars C = Err AssertionError).
Proof.
  unfold flat_C. split; intros H.
  - replace (forallb _ vars) with true; auto. symmetry. apply forallb_forall. intros v Hv. apply forallb_forall. intros x Hx. apply Z.leb_le. apply H; auto.
  - destruct H as (v & x & Hv & Hx & L). destruct (forallb _ vars) eqn:E; auto. rewrite forallb_forall in E. apply E in Hv. rewrite forallb_forall in Hv. apply Hv, Z.leb_le in Hx.
    unfold nvals in Hx. lia.
Qed.
Example C107_flat_ex : flat_C [rj_v] [0; 3] = Ok [[0]; [3]] /\ flat_C [rj_v] [4; 0] = Err AssertionError.
Proof. split; reflexivity. Qed.

(** * Cpm.get_variables, Cpm.merge, the state of [condition], products of nothing *)
Theorem C107_get_variable M name :
  (forall v pre post, c_vars M = pre ++ v :: post -> v_name v = name -> ~ In name (map v_name pre) -> get_variable M name = Ok v) /\
  (~ In name (map v_name (c_vars M)) -> get_variable M name = Err IndexError).
Proof.
  unfold get_variable. split.
  - intros v pre post -> E N. induction pre as [|w pre IH]; cbn [app find].
    + rewrite (proj2 (String.eqb_eq _ _) E). auto.
    + destruct (String.eqb (v_name w) name) eqn:X; [apply String.eqb_eq in X; exfalso; apply N; cbn; auto|]. apply IH. intros Y. apply N. cbn. auto.
  - induction (c_vars M) as [|w l IH]; cbn [find map In]; [auto|]. intros N. destruct (String.eqb (v_name w) name) eqn:X; [apply String.eqb_eq in X; exfalso; auto|]. auto.
Qed.
Theorem C107_merge M1 M2 : map v_name (c_vars M1) <> map v_name (c_vars M2) -> merge M1 M2 = Err AssertionError.
Proof.
  intros H. unfold merge. destruct (_ && _) eqn:E; [|auto]. exfalso. apply H. apply andb_true_iff in E as [L E]. apply Nat.eqb_eq in L.
  revert L E. generalize (c_vars M2). clear. induction (c_vars M1) as [|a l IH]; intros [|b l'] L E; cbn in *; try discriminate; auto.
  apply andb_true_iff in E as [E1 E2]. unfold v_eqb in E1. cbn in E1. apply String.eqb_eq in E1. f_equal; auto.
Qed.
(** a string among states whose first is a number *)
Theorem C107_cond_column B C Cc v s col : v_B v = Some B ->
  (combine C Cc <> [] -> cond_column C Cc v (SS s) col = Err TypeError) /\ (combine C Cc = [] -> cond_column C Cc v (SS s) col = Ok []).
Proof. intros E. unfold cond_column. rewrite E. split; intros H; [|rewrite H; auto]. destruct (combine C Cc); [congruence|auto]. Qed.
Theorem C107_products : product_list [] = Err AssertionError /\ h_product_list [] = Err AssertionError.
Proof. auto. Qed.
Definition rj_w := mkVar "y" [VStr "0"; VStr "1"] None None.
Definition rj_M (v : variable) := mkCpm [v] 1 [[0]] [1%Qc].
Example C107_cpm_ex : get_variable (mkCpm [rj_w; rj_v] 1 [] []) "x" = Ok rj_v /\ get_variable (rj_M rj_w) "x" = Err IndexError /\
  merge (rj_M rj_v) (rj_M rj_w) = Err AssertionError /\ merge (rj_M rj_v) (mkCpm [rj_v; rj_w] 1 [] []) = Err AssertionError /\
  cond_column [[0]] [[0]] rj_v (SS "0") 0 = Err TypeError.
Proof. do 4 (split; [reflexivity|]). reflexivity. Qed.

(** * Rounds of sampling *)
Theorem C107_rounds n repeat :
  rounds n 0 = Ok (1%nat, n) /\
  (forall k, (0 < repeat)%nat -> n = (k * repeat)%nat -> rounds n repeat = Ok (k, repeat)) /\
  ((0 < repeat)%nat -> (forall k, n <> (k * repeat)%nat) -> rounds n repeat = Err AssertionError).
Proof.
  split; [auto|]. unfold rounds. destruct repeat as [|r]; [split; [intros k H; lia|intros H; lia]|]. split.
  - intros k _ ->. rewrite Nat.mod_mul, Nat.div_mul by lia. auto.
  - intros _ H. destruct (n mod S r =? 0)%nat eqn:E; [|auto]. apply Nat.eqb_eq in E. exfalso. apply (H (n / S r)%nat).
    pose proof (Nat.div_mod n (S r) ltac:(lia)). rewrite E in H0. lia.
Qed.
Example C107_rounds_ex : rounds 6 3 = Ok (2%nat, 3%nat) /\ rounds 7 3 = Err AssertionError /\ rounds 7 0 = Ok (1%nat, 7%nat) /\ rounds 0 3 = Ok (0%nat, 3%nat).
Proof. do 3 (split; [reflexivity|]). reflexivity. Qed.

(** * Drawing a sample *)
(** The outcomes of a draw, exceptions among them, have total probability 1. *)
Lemma qsum_app a b : qsum (a ++ b) = (qsum a + qsum b)%Qc.
Proof. induction a as [|x a IH]; cbn [app qsum fold_right]; [ring|]. unfold qsum in *. cbn. rewrite IH. ring. Qed.
Lemma qsum_scale c l : qsum (map (fun x => (c * x)%Qc) l) = (c * qsum l)%Qc.
Proof. induction l as [|x l IH]; unfold qsum in *; cbn; [ring|]. rewrite IH. ring. Qed.
Lemma choice_total {A} (xs : list A) ps os : np_choice xs ps = Ok os -> qsum (map fst os) = 1%Qc.
Proof.
  unfold np_choice. destruct (_ =? 0)%nat; [discriminate|]. destruct (negb _) eqn:L; [discriminate|]. destruct (_ && _) eqn:E; [|discriminate].
  intros H. injection H as <-. apply andb_true_iff in E as [_ E]. apply qc_eqb_eq in E. rewrite <- E. clear E.
  apply negb_false_iff, Nat.eqb_eq in L. revert xs L. induction ps as [|p ps IH]; intros [|x xs] L; cbn in L; try discriminate; auto.
  cbn [combine filter fst]. destruct (qc_eqb p 0%Qc) eqn:Z0; cbn [negb map fst].
  - apply qc_eqb_eq in Z0. subst p. unfold qsum in *. cbn [fold_right]. rewrite IH by lia. ring.
  - unfold qsum in *. cbn [fold_right map fst]. rewrite IH by lia. auto.
Qed.
Lemma flat_total {A B C} (os : list (Qc * A)) (k : Qc * A -> list (Qc * B)) (h : Qc * A -> Qc * B -> C) :
  (forall o, qsum (map fst (k o)) = 1%Qc) ->
  qsum (map fst (flat_map (fun o => map (fun r => ((fst o * fst r)%Qc, h o r)) (k o)) os)) = qsum (map fst os).
Proof.
  intros K. induction os as [|o os IH]; [auto|]. cbn [flat_map map]. rewrite map_app, qsum_app, IH, map_map. cbn [fst].
  replace (map (fun x => (fst o * fst x)%Qc) (k o)) with (map (fun x => (fst o * x)%Qc) (map fst (k o))) by (rewrite map_map; auto).
  rewrite qsum_scale, K. unfold qsum. cbn [fold_right]. ring.
Qed.
Lemma single_total : qsum [1%Qc] = 1%Qc. Proof. unfold qsum. cbn. ring. Qed.
Lemma box_total probs up down : qsum (map fst (draw_box probs up down)) = 1%Qc.
Proof.
  induction down as [|[e d] down IH]; cbn [draw_box]; [exact single_total|].
  destruct (u <- dget up e ;; draw_state probs e d u) as [os|x] eqn:E; [|exact single_total].
  etransitivity; [exact (flat_total os (fun _ => draw_box probs up down) (fun o r => x <- snd r ;; Ok ((e, snd o) :: x)) (fun _ => IH))|].
  destruct (dget up e) as [u|]; cbn [bind] in E; [|discriminate]. unfold draw_state in E. destruct (d <? u).
  - destruct (p_state probs e d) as [pd|]; cbn [bind] in E; [|discriminate]. destruct (p_state probs e u) as [pu|]; cbn [bind] in E; [|discriminate]. apply choice_total in E. auto.
  - injection E as <-. exact single_total.
Qed.
Theorem C107_draw_sample brs probs :
  qsum (map fst (draw_sample brs probs)) = 1%Qc /\
  ((forall b, In b brs -> b_down_state b <> U_ /\ b_up_state b <> U_) -> draw_sample brs probs = [(1%Qc, Err ValueError)]).
Proof.
  unfold draw_sample. split.
  - destruct (np_choice _ _) as [os|e] eqn:E; [|exact single_total].
    rewrite (flat_total os (fun o => draw_box probs (b_up (snd o)) (b_down (snd o))) (fun o r => snd r)); [apply choice_total in E; auto|].
    intros o. apply box_total.
  - intros H. replace (mcs_brs_u brs) with (@nil branch); [reflexivity|]. unfold mcs_brs_u. induction brs as [|b brs IH]; [auto|]. cbn [filter].
    replace (has_unknown b) with false; [apply IH; intros; apply H; cbn; auto|]. destruct (H b (or_introl eq_refl)) as [A B]. unfold has_unknown.
    destruct (b_down_state b), (b_up_state b); auto; congruence.
Qed.
Example C107_draw_sample_ex :
  draw_sample [mkBr [("x", 0)] [("x", 0)] U_ U_ 0%Qc] [] = [(1%Qc, Err ValueError)] /\
  draw_sample [mkBr [] [] F_ F_ 1%Qc] [] = [(1%Qc, Err ValueError)] /\
  map snd (draw_sample [mkBr [("x", 0)] [("x", 1)] U_ U_ 1%Qc] [("x", PDict [(0, Q2Qc (1 # 4)); (1, Q2Qc (3 # 4))])]) = [Ok [("x", 0)]; Ok [("x", 1)]] /\
  map snd (draw_sample [mkBr [("x", 0)] [("x", 1)] U_ U_ 1%Qc] []) = [Err KeyError].
Proof. do 3 (split; [vm_compute; reflexivity|]). vm_compute. reflexivity. Qed.

(** * Storing samples *)
(** Csys has one column for the system and one per entry of [probs]; a further variable of the
    system's CPM has no column, an IndexError (after the CPM of the variable was changed). *)
Theorem C107_alloc samples sprobs width cpms : 
  (forall i vs Csys r, alloc samples sprobs width i vs cpms Csys = Ok r -> vs = [] \/ (i + List.length vs <= width)%nat) /\
  (forall i v vs Csys col M M1 q M2 M3, (width <= i)%nat ->
    mapM (fun s => dget s (v_name v)) samples = Ok col -> dget cpms (v_name v) = Ok M -> set_Cs_vec M col = Ok M1 ->
    mapM (fun s => dget s (v_name v)) sprobs = Ok q -> set_q M1 q = Ok M2 -> set_idx M2 (map Z.of_nat (seq 0 (List.length samples))) = Ok M3 ->
    alloc samples sprobs width i (v :: vs) cpms Csys = Err IndexError).
Proof.
  split.
  - intros i vs. revert i cpms. induction vs as [|v vs IH]; intros i cpms Csys r H; [auto|]. right. cbn [alloc] in H.
    repeat (match type of H with bind ?e _ = Ok _ => destruct e; cbn [bind] in H; [|discriminate H] end).
    destruct (i <? width)%nat eqn:L; [|discriminate]. apply Nat.ltb_lt in L. apply IH in H as [->|H]; cbn in *; lia.
  - intros i v vs Csys col M M1 q M2 M3 L E1 E2 E3 E4 E5 E6. cbn [alloc]. rewrite E1. cbn [bind]. rewrite E2. cbn [bind]. rewrite E3. cbn [bind]. rewrite E4. cbn [bind].
    rewrite E5. cbn [bind]. rewrite E6. cbn [bind]. apply Nat.ltb_ge in L. rewrite L. auto.
Qed.
Definition rj_scpm := mkScpm [rj_v] [] [] [].
Example C107_alloc_ex :
  alloc [[("x", 1)]] [[("x", 1%Qc)]] 1 1 [rj_v] [("x", rj_scpm)] [[0]] = Err IndexError.
Proof. vm_compute. reflexivity. Qed.

(** * Rules and branches *)
Theorem C107_rules rules probs : eval_rules_prob rules U_ probs = Err ValueError.
Proof. auto. Qed.
Theorem C107_mk_branch down up ds us p :
  (List.length down = List.length up -> mk_branch down up ds us p = Ok (mkBr down up ds us p)) /\
  (List.length down <> List.length up -> mk_branch down up ds us p = Err AssertionError).
Proof.
  unfold mk_branch. split; intros H; [rewrite (proj2 (Nat.eqb_eq _ _) H); auto|]. apply Nat.eqb_neq in H. rewrite H. auto.
Qed.
(** the first candidate that lies on a path or is an arc *)
Theorem C107_next_comp paths arcs cand :
  (forall c pre post, cand = pre ++ c :: post -> (forall x, In x pre -> ~ In x (List.concat paths) /\ ~ In x arcs) ->
    In c (List.concat paths) \/ In c arcs -> bnb_next_comp paths arcs cand = Ok c) /\
  ((forall x, In x cand -> ~ In x (List.concat paths) /\ ~ In x arcs) -> bnb_next_comp paths arcs cand = Err IndexError).
Proof.
  assert (N : forall cand l, (forall i, In i l -> ~ In (nth i cand "") (List.concat paths) /\ ~ In (nth i cand "") arcs) ->
    filter (fun i => mem_str (nth i cand "") (comps_order paths arcs)) l = []).
  { intros cd l. induction l as [|i l IH]; intros H; [auto|]. cbn [filter]. destruct (mem_str _ _) eqn:E.
    - apply mem_str_In, comps_order_In in E. destruct (H i (or_introl eq_refl)) as [A B]. tauto.
    - apply IH. intros j Hj. apply H. cbn. auto. }
  split.
  - intros c pre post -> H Hc. unfold bnb_next_comp. rewrite app_length. cbn [List.length]. rewrite seq_app, filter_app. rewrite N.
    + cbn [seq Nat.add app filter]. rewrite app_nth2, Nat.sub_diag by lia. cbn [nth]. rewrite (proj2 (mem_str_In c _)) by (apply comps_order_In; auto).
      unfold py_index. rewrite app_length. cbn [List.length]. replace (Z.of_nat (List.length pre) <? 0) with false by (symmetry; apply Z.ltb_ge; lia).
      replace (0 <=? Z.of_nat (List.length pre)) with true by (symmetry; apply Z.leb_le; lia).
      replace (Z.of_nat (List.length pre) <? _) with true by (symmetry; apply Z.ltb_lt; lia). cbn [andb].
      rewrite Nat2Z.id, nth_error_app2, Nat.sub_diag by lia. auto.
    + intros i Hi. apply in_seq in Hi. apply H. rewrite app_nth1 by lia. apply nth_In. lia.
  - intros H. unfold bnb_next_comp. rewrite N; [auto|]. intros i Hi. apply in_seq in Hi. apply H. apply nth_In. lia.
Qed.
Example C107_branch_ex : bnb_next_comp [["a"; "b"]] ["c"] ["z"; "c"; "a"] = Ok "c" /\ bnb_next_comp [["a"]] [] ["z"] = Err IndexError /\
  mk_branch [] [("x", 0)] U_ U_ 0%Qc = Err AssertionError.
Proof. do 2 (split; [reflexivity|]). reflexivity. Qed.

(** * demos/EMA/batch.py *)
Theorem C107_join a b :
  (m_out_flag a = None \/ m_out_flag b = None -> join_monitors a b = Err TypeError) /\
  (forall fa fb, m_out_flag a = Some fa -> m_out_flag b = Some fb -> exists m, join_monitors a b = Ok (m, String.append (flag_name fa) (flag_name fb)) /\
    m_pf_up m = m_pf_up a ++ m_pf_up b /\ m_pf_low m = m_pf_low a ++ m_pf_low b /\ m_pr_bu m = m_pr_bu a ++ m_pr_bu b /\ m_no_br m = m_no_br a ++ m_no_br b /\
    m_no_bs m = m_no_bs a ++ m_no_bs b /\ m_no_bf m = m_no_bf a ++ m_no_bf b /\ m_no_bu m = m_no_bu a ++ m_no_bu b /\ m_no_rs m = m_no_rs a ++ m_no_rs b /\
    m_no_rf m = m_no_rf a ++ m_no_rf b /\ m_no_ra m = m_no_ra a ++ m_no_ra b /\ m_no_sf m = m_no_sf a ++ m_no_sf b /\
    m_min_len_rf m = m_min_len_rf a ++ m_min_len_rf b /\ m_avg_len_rf m = m_avg_len_rf a ++ m_avg_len_rf b).
Proof.
  unfold join_monitors. split.
  - intros [->| ->]; [auto|]. destruct (m_out_flag a); auto.
  - intros fa fb -> ->. eexists. split; [reflexivity|]. cbn. repeat split.
Qed.
Theorem C107_probs_set c :
  match probs_set c with
  | Ok (a, b, d) => (c = 0 \/ c = 1 \/ c = 2) /\ (a + b + d = 1)%Qc /\ (0 < a)%Qc /\ b = (qz 4 * a)%Qc /\ (b < d)%Qc /\ d = nth (Z.to_nat c) [Q2Qc (95 # 100); Q2Qc (85 # 100); Q2Qc (70 # 100)] 0%Qc
  | Err e => e = KeyError /\ c <> 0 /\ c <> 1 /\ c <> 2
  end.
Proof.
  unfold probs_set. destruct c as [|[p|[p|p|]|]|p]; cbn [nth Z.to_nat Pos.to_nat Pos.iter_op Nat.add];
    try (split; [reflexivity|repeat split; discriminate]);
    (split; [auto|]; split; [apply Qc_is_canon; vm_compute; reflexivity|]; split; [vm_compute; reflexivity|]; split; [apply Qc_is_canon; vm_compute; reflexivity|]; split; [vm_compute; reflexivity|apply Qc_is_canon; vm_compute; reflexivity]).
Qed.
Definition rj_mon (f : option oflag) := mkMon [1%Qc] [] [] [1] [] [] [] [] [] [] [] [] [] f.
Example C107_join_ex : join_monitors (rj_mon (Some O_complete)) (rj_mon None) = Err TypeError /\
  match join_monitors (rj_mon (Some O_max_nb)) (rj_mon (Some O_complete)) with Ok (m, s) => m_pf_up m = [1%Qc; 1%Qc] /\ s = "max_nbcomplete" | Err _ => False end.
Proof. split; [reflexivity|]. split; reflexivity. Qed.
