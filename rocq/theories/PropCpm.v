(** Final theorems C26-C35: conditional probability matrices (cpm.py) and
    variable elimination (operation.py).  The vocabulary is in SpecCpm.v. *)
From Coq Require Import ZArith List String Bool Arith Lia QArith Qcanon Permutation.
From Verif Require Import Py Num Vari VariFacts Cpm SpecCpm CpmFacts CpmCond CpmProd CpmList CpmSum CpmMarg CpmElim CpmProb.
Import ListNotations.
Open Scope string_scope.
Open Scope Z_scope.
Open Scope list_scope.

(** * Example network: components x (two states) and y (three states), and a
    system s that fails if x fails or y is in state 0.  The rows of the system use
    composite states: code 5 of y is {1,2}, code 6 is {0,1,2}. *)
Definition cv (name : string) (n : nat) : variable :=
  mk_variable name (map (fun i => VStr (String (Ascii.ascii_of_nat (97 + i)) "")) (seq 0 n)) None.
Definition ex_g (n : string) : variable := cv n (if String.eqb n "y" then 3 else 2)%nat.
Definition vx := ex_g "x".
Definition vy := ex_g "y".
Definition vs := ex_g "s".
Definition q (n : Z) (d : positive) : Qc := Q2Qc (n # d).
Definition Px := mkCpm [vx] 1 [[0]; [1]] [q 1 10; q 9 10].
Definition Py := mkCpm [vy] 1 [[0]; [1]; [2]] [q 1 5; q 3 10; q 1 2].
Definition Ms := mkCpm [vs; vx; vy] 1 [[0; 0; 6]; [0; 1; 0]; [1; 1; 5]] [q 1 1; q 1 1; q 1 1].

(** checkers used for the examples only; results are compared by the rational
    numbers, without the proofs that these are in lowest terms *)
Definition view (r : res cpm) : res (list variable * nat * list (list Z) * list Q) :=
  match r with Ok M => Ok (c_vars M, c_nch M, c_C M, map this (c_p M)) | Err e => Err e end.
Definition val (r : res Qc) : res Q := match r with Ok x => Ok (this x) | Err e => Err e end.
Definition vals (r : res (option Qc * Qc)) : res (option Q * Q) :=
  match r with Ok (o, x) => Ok (option_map this o, this x) | Err e => Err e end.
Definition row_okb (vs : list variable) (row : list Z) : bool :=
  (List.length row =? List.length vs)%nat &&
  forallb (fun vc => match v_B (fst vc) with Some B => (0 <=? snd vc) && (snd vc <? Z.of_nat (List.length B)) | None => false end) (combine vs row).
Definition wf_b (M : cpm) : bool :=
  nodup_names (names (c_vars M)) && (c_nch M <=? List.length (c_vars M))%nat && forallb (row_okb (c_vars M)) (c_C M) &&
  (List.length (c_p M) =? List.length (c_C M))%nat.
Definition disj_b (M1 M2 : cpm) : bool :=
  forallb (fun v => negb (mem_str (v_name v) (names (children M2)))) (children M1).
Fixpoint disj_all (l : list cpm) : bool :=
  match l with [] => true | M :: l' => forallb (disj_b M) l' && disj_all l' end.

Lemma row_okb_ok vs row : row_okb vs row = true -> Forall2 code_ok vs row.
Proof.
  unfold row_okb. rewrite andb_true_iff, Nat.eqb_eq. intros [L H]. revert row L H.
  induction vs as [|v vs' IH]; intros [|c row] L H; cbn in L; try lia; constructor.
  - cbn [combine forallb fst snd] in H. apply andb_true_iff in H as [H _]. destruct (v_B v) as [B|] eqn:E; [|discriminate].
    exists B. split; auto. apply andb_true_iff in H as [H1 H2]. lia.
  - apply IH; [lia|]. cbn [combine forallb] in H. apply andb_true_iff in H. tauto.
Qed.
Lemma nodup_names_ok l : nodup_names l = true -> NoDup l.
Proof.
  unfold nodup_names. rewrite Nat.eqb_eq. intros H. apply (@NoDup_incl_NoDup _ (nodup string_dec l)).
  - apply NoDup_nodup.
  - lia.
  - intros x Hx. apply nodup_In in Hx. auto.
Qed.
Lemma wf_b_ok M : Forall var_ok (c_vars M) -> wf_b M = true -> wf_cpm M.
Proof.
  unfold wf_b. rewrite !andb_true_iff, Nat.leb_le, Nat.eqb_eq. intros V [[[H1 H2] H3] H4].
  split; [apply nodup_names_ok; auto|]. split; [auto|]. split; [auto|]. split; [|auto].
  rewrite forallb_forall in H3. intros row Hr. apply row_okb_ok. auto.
Qed.
Lemma has_p_b M : wf_b M = true -> has_p M.
Proof. unfold wf_b. rewrite !andb_true_iff, Nat.eqb_eq. intros [_ H]. auto. Qed.
Lemma agree_g g l1 l2 : Forall (fun v => v = g (v_name v)) l1 -> Forall (fun v => v = g (v_name v)) l2 -> agree l1 l2.
Proof. rewrite !Forall_forall. intros H1 H2 a b Ha Hb E. rewrite (H1 a Ha), (H2 b Hb), E. auto. Qed.
Lemma disj_b_ok M1 M2 : disj_b M1 M2 = true -> disjoint_children M1 M2.
Proof.
  unfold disj_b. rewrite forallb_forall. intros H v w Hv Hw E. specialize (H v Hv). rewrite E in H. apply negb_true_iff in H.
  rewrite <- not_true_iff_false in H. apply H. apply mem_str_In. apply in_map. auto.
Qed.
Lemma fit_list_g g l : Forall (fun M => Forall var_ok (c_vars M) /\ Forall (fun v => v = g (v_name v)) (c_vars M)) l ->
  forallb wf_b l = true -> disj_all l = true -> fit_list l.
Proof.
  intros H W D. split.
  - rewrite Forall_forall in *. rewrite forallb_forall in W. intros M HM. apply wf_b_ok; auto. apply H. auto.
  - clear W. induction l as [|M l IH]; cbn [pairwise]; auto. inversion H as [|? ? H1 H2]; subst. cbn [disj_all] in D.
    apply andb_true_iff in D as [D1 D2]. split; auto. intros M' HM. split.
    + apply (agree_g g); [tauto|]. rewrite Forall_forall in H2. apply H2. auto.
    + apply disj_b_ok. rewrite forallb_forall in D1. auto.
Qed.
Definition basic_b (M : cpm) (v : variable) : bool :=
  forallb (fun row => forallb (fun wc => negb (String.eqb (v_name (fst wc)) (v_name v)) ||
    match states_of (fst wc) (snd wc) with [s] => (0 <=? s) && (s <? nvals (fst wc)) | _ => false end) (combine (c_vars M) row)) (c_C M).
Lemma basic_b_ok M v : basic_b M v = true -> basic_in M v.
Proof.
  unfold basic_b. rewrite forallb_forall. intros H row c Hr Hin. specialize (H row Hr). rewrite forallb_forall in H.
  specialize (H (v, c) Hin). cbn [fst snd] in H. rewrite String.eqb_refl in H. cbn [negb orb] in H.
  destruct (states_of v c) as [|s [|]]; try discriminate. exists s. split; [lia|]. intros x. cbn. intuition.
Qed.
Lemma ex_g_ok n : var_ok (ex_g n).
Proof. unfold ex_g. destruct (String.eqb n "y"); (eapply mk_variable_ok; vm_compute; reflexivity). Qed.
Lemma ex_g_name n : v_name (ex_g n) = n.
Proof. unfold ex_g. destruct (String.eqb n "y"); reflexivity. Qed.
Ltac ex_vars := repeat (constructor; [solve [split; repeat (constructor; [apply ex_g_ok || reflexivity|]); constructor]|]); constructor.
Ltac ex_code := eexists; split; [vm_compute; reflexivity|vm_compute; split; [discriminate|reflexivity]].
Lemma ex_fit : fit_list [Px; Py; Ms].
Proof. apply (fit_list_g ex_g); [ex_vars|reflexivity|reflexivity]. Qed.
Lemma ex_wf M : In M [Px; Py; Ms] -> wf_cpm M.
Proof. destruct ex_fit as [H _]. rewrite Forall_forall in H. auto. Qed.

(** * C26 *)
Theorem C26_condition :
  forall M vs codes, wf_cpm M -> ev_ok (c_vars M) vs codes ->
    exists M', condition M (Vars vs) (map SI codes) = Ok M' /\ wf_cpm M' /\
      c_vars M' = c_vars M /\ c_nch M' = c_nch M /\
      forall a, mass M' a = if ev_match (c_vars M) vs codes a then mass M a else 0%Qc.
Proof. exact condition_ok. Qed.
Print Assumptions C26_condition.

(** the variables may be given by name, the states by their values *)
Theorem C26_condition_by_name :
  forall M vs sts, NoDup (names (c_vars M)) -> incl vs (c_vars M) ->
    condition M (Names (names vs)) sts = condition M (Vars vs) sts.
Proof. exact condition_names. Qed.
Print Assumptions C26_condition_by_name.

Theorem C26_condition_by_value :
  forall M vs ss codes, List.length vs = List.length ss ->
    (forall i v s, nth_error vs i = Some v -> nth_error ss i = Some s ->
       exists c, nth_error codes i = Some (Z.of_nat c) /\ nth_error (v_values v) c = Some (VStr s) /\
                 ~ In (VStr s) (firstn c (v_values v))) ->
    List.length codes = List.length vs ->
    condition M (Vars vs) (map SS ss) = condition M (Vars vs) (map SI codes).
Proof. exact condition_values. Qed.
Print Assumptions C26_condition_by_value.

Example C26_condition_ex :
  wf_cpm Ms /\ ev_ok (c_vars Ms) [vy; vs] [3; 2] /\
  condition Ms (Vars [vy; vs]) [SI 3; SI 2] =
    Ok (mkCpm [vs; vx; vy] 1 [[0; 0; 3]; [0; 1; 0]; [1; 1; 1]] [q 1 1; q 1 1; q 1 1]) /\
  condition Ms (Names ["x"]) [SS "b"] = condition Ms (Vars [vx]) [SI 1].
Proof.
  split; [apply ex_wf; cbn; auto|]. split.
  - split; [reflexivity|]. split; [apply nodup_names_ok; reflexivity|]. split.
    + apply (agree_g ex_g); repeat (constructor; [reflexivity|]); constructor.
    + intros v c [H|[H|[]]] _; injection H as <- <-; ex_code.
  - split; vm_compute; reflexivity.
Qed.

(** * C27 *)
Theorem C27_product :
  forall M1 M2 M, wf_cpm M1 -> wf_cpm M2 -> agree (c_vars M1) (c_vars M2) -> disjoint_children M1 M2 ->
    product M1 M2 = Ok M ->
    wf_cpm M /\ (forall a, mass M a = (mass M1 a * mass M2 a)%Qc) /\
    (forall v, In v (c_vars M) <-> In v (c_vars M1) \/ In v (c_vars M2)) /\
    (forall v, In v (children M) <-> In v (children M1) \/ In v (children M2)) /\
    c_nch M = (c_nch M1 + c_nch M2)%nat.
Proof. exact product_ok. Qed.
Print Assumptions C27_product.

Theorem C27_product_succeeds :
  forall M1 M2, wf_cpm M1 -> wf_cpm M2 -> agree (c_vars M1) (c_vars M2) -> disjoint_children M1 M2 ->
    c_C M1 <> [] -> c_C M2 <> [] -> c_vars M1 <> [] -> c_vars M2 <> [] -> (c_p M1 <> [] \/ c_p M2 <> []) ->
    exists M, product M1 M2 = Ok M.
Proof. exact product_total. Qed.
Print Assumptions C27_product_succeeds.

Theorem C27_common_child :
  forall M1 M2 v w, In v (children M1) -> In w (children M2) -> v_name v = v_name w ->
    product M1 M2 = Err AssertionError.
Proof. exact product_common_child. Qed.
Print Assumptions C27_common_child.

Example C27_product_ex :
  fit_list [Py; Ms] /\
  product Py Ms = Ok (mkCpm [vs; vy; vx] 2 [[0; 0; 0]; [0; 1; 0]; [0; 2; 0]; [0; 0; 1]; [1; 1; 1]; [1; 2; 1]]
                            [q 1 5; q 3 10; q 1 2; q 1 5; q 3 10; q 1 2]) /\
  product Ms Ms = Err AssertionError.
Proof. split; [apply (fit_list_g ex_g); [ex_vars|reflexivity|reflexivity]|]. split; vm_compute; reflexivity. Qed.

(** * C28 *)
Theorem C28_order_partial :
  forall l l' M M', fit_list l -> Permutation l l' -> product_list l = Ok M -> product_list l' = Ok M' ->
    (forall a, mass M a = mass M' a) /\ (forall v, In v (c_vars M) <-> In v (c_vars M')) /\
    (forall v, In v (children M) <-> In v (children M')).
Proof.
  intros l l' M M' F P H H'. destruct (product_list_ok l M F H) as (_ & A1 & A2 & A3).
  destruct (product_list_ok l' M' (fit_list_perm l l' P F) H') as (_ & B1 & B2 & B3).
  assert (PI : forall N, In N l <-> In N l') by (intros N; split; apply Permutation_in; auto using Permutation_sym).
  split; [intros a; rewrite A1, B1; apply qprod_perm_map; auto|].
  split; intros v; [rewrite A2, B2|rewrite A3, B3]; split; intros (N & HN & Hv); exists N; split; auto; apply PI; auto.
Qed.
Print Assumptions C28_order_partial.

(** every order succeeds if the CPMs are all non-zero at some joint state *)
Theorem C28_order_succeeds :
  forall l a, l <> [] -> fit_list l ->
    (forall M, In M l -> mass M a <> 0%Qc /\ c_vars M <> [] /\ c_p M <> []) ->
    forall l', Permutation l l' -> exists M, product_list l' = Ok M.
Proof.
  intros l a Hn F H l' P. apply (product_list_total l' a).
  - intros ->. apply Hn. apply Permutation_nil. apply Permutation_sym. auto.
  - apply (fit_list_perm l); auto.
  - intros M HM. apply H. apply (Permutation_in _ (Permutation_sym P)). auto.
Qed.
Print Assumptions C28_order_succeeds.

(** Missing: without such a state one order can fail and another succeed. *)
Definition Z1 := mkCpm [vx] 1 [[0]] [q 1 1].
Definition Z2 := mkCpm [vy; vx] 1 [[0; 1]] [q 1 1].
Definition Z3 := mkCpm [vs; vx; vy] 1 [[1; 0; 6]] [q 1 1].
Theorem C28_order_refuted :
  exists l l', fit_list l /\ Permutation l l' /\ product_list l = Err UnboundLocalError /\ exists M, product_list l' = Ok M.
Proof.
  exists [Z1; Z2; Z3], [Z1; Z3; Z2]. split; [apply (fit_list_g ex_g); [ex_vars|reflexivity|reflexivity]|].
  split; [repeat constructor|]. split; [vm_compute; reflexivity|]. eexists. vm_compute. reflexivity.
Qed.
Print Assumptions C28_order_refuted.

Example C28_order_ex :
  fit_list [Px; Py; Ms] /\ Permutation [Px; Py; Ms] [Ms; Px; Py] /\
  (forall M, In M [Px; Py; Ms] -> mass M (fun _ => 1) <> 0%Qc /\ c_vars M <> [] /\ c_p M <> []) /\
  exists M M', product_list [Px; Py; Ms] = Ok M /\ product_list [Ms; Px; Py] = Ok M' /\ children M = [vs; vx; vy].
Proof.
  split; [exact ex_fit|]. split; [apply (Permutation_cons_append [Px; Py] Ms) || (apply Permutation_sym, (Permutation_cons_append [Px; Py] Ms))|]. split.
  - intros M [<-|[<-|[<-|[]]]]; (split; [intros H; apply (f_equal this) in H; vm_compute in H; discriminate|split; discriminate]).
  - eexists. eexists. split; [vm_compute; reflexivity|]. split; vm_compute; reflexivity.
Qed.

(** * C29 *)
Theorem C29_sum :
  forall M vs flag, wf_cpm M -> (flag = false -> NoDup (names vs)) -> sum_keeps M vs flag <> [] ->
    exists Ms, sum M (Vars vs) flag = Ok Ms /\ wf_cpm Ms /\
      c_vars Ms = sum_keeps M vs flag /\ parents Ms = parents M /\
      qsum (c_p Ms) = qsum (c_p M) /\ NoDup (c_C Ms) /\
      (forall r, In r (c_C Ms) <-> exists row, In row (c_C M) /\ restricts (c_vars M) row (c_vars Ms) r) /\
      (* marginalisation *)
      (forall R, (c_p M <> [] \/ c_C M = []) -> NoDup (names R) -> (forall v, In v R <-> In v (c_vars M) /\ ~ In v (c_vars Ms)) ->
         (forall v, In v R -> basic_in M v) -> forall a, mass Ms a = marg R (mass M) a).
Proof. exact sum_main. Qed.
Print Assumptions C29_sum.

Theorem C29_sum_by_name :
  forall M vs flag, NoDup (names (c_vars M)) -> incl vs (c_vars M) ->
    sum M (Names (names vs)) flag = sum M (Vars vs) flag.
Proof. exact sum_names. Qed.
Print Assumptions C29_sum_by_name.

(** removing every variable fails *)
Theorem C29_sum_nothing_left :
  forall M vs flag, wf_cpm M -> (flag = false -> NoDup (names vs)) -> sum_keeps M vs flag = [] ->
    sum M (Vars vs) flag = Err ValueError.
Proof. exact sum_nothing. Qed.
Print Assumptions C29_sum_nothing_left.

Definition Pxy := mkCpm [vx; vy] 2 [[0; 0]; [1; 0]; [0; 1]; [1; 1]; [0; 2]; [1; 2]]
                                   [q 1 50; q 9 50; q 3 100; q 27 100; q 1 20; q 9 20].
Example C29_sum_ex :
  wf_cpm Pxy /\ sum_keeps Pxy [vx] true = [vy] /\ basic_in Pxy vx /\
  view (sum Pxy (Vars [vx]) true) = view (Ok Py) /\ view (sum Pxy (Names ["x"]) false) = view (Ok Px) /\
  sum Px (Vars [vx]) true = Err ValueError.
Proof.
  split; [apply wf_b_ok; [repeat (constructor; [apply ex_g_ok|]); constructor|reflexivity]|]. split; [reflexivity|]. split.
  - apply basic_b_ok. vm_compute. reflexivity.
  - split; [vm_compute; reflexivity|]. split; vm_compute; reflexivity.
Qed.

(** * C30 *)
Theorem C30_get_prob :
  forall M vs codes, wf_cpm M -> ev_ok (c_vars M) vs codes -> vs <> [] -> codes_small vs codes ->
    get_prob M (Vars vs) (map SI codes) true = Ok (total (fun row => hits (c_vars M) row vs codes) M) /\
    get_prob M (Vars vs) (map SI codes) false = Ok (total (fun row => negb (hits (c_vars M) row vs codes)) M).
Proof.
  intros M vs codes W E N S. rewrite !get_prob_spec by auto. split; apply (f_equal Ok); apply total_ext; intros r;
    destruct (hits (c_vars M) r vs codes); reflexivity.
Qed.
Print Assumptions C30_get_prob.

Theorem C30_complement :
  forall M vs codes p p', wf_cpm M -> ev_ok (c_vars M) vs codes -> vs <> [] -> codes_small vs codes ->
    get_prob M (Vars vs) (map SI codes) true = Ok p -> get_prob M (Vars vs) (map SI codes) false = Ok p' ->
    (p + p' = qsum (c_p M))%Qc.
Proof.
  intros M vs codes p p' W E N S. rewrite !get_prob_spec by auto. intros H H'. injection H as <-. injection H' as <-.
  apply total_complement. auto.
Qed.
Print Assumptions C30_complement.

Theorem C30_monotone :
  forall M vs codes codes' p p', wf_cpm M -> (forall x, In x (c_p M) -> 0 <= x)%Qc -> vs <> [] ->
    ev_ok (c_vars M) vs codes -> codes_small vs codes -> ev_ok (c_vars M) vs codes' -> codes_small vs codes' ->
    (forall i v c c', nth_error vs i = Some v -> nth_error codes i = Some c -> nth_error codes' i = Some c' ->
       forall x, In x (states_of v c) -> In x (states_of v c')) ->
    get_prob M (Vars vs) (map SI codes) true = Ok p -> get_prob M (Vars vs) (map SI codes') true = Ok p' -> (p <= p')%Qc.
Proof.
  intros M vs codes codes' p p' W P N E S E' S' H. rewrite !get_prob_spec by auto. intros A A'. injection A as <-. injection A' as <-.
  apply total_mono; auto. intros r _ Hr. apply eqb_prop in Hr. apply eqb_true_iff.
  apply (hits_mono _ _ _ codes); auto. destruct E as [E _], E' as [E' _]. congruence.
Qed.
Print Assumptions C30_monotone.

(** for rows of basic states it is the sum of the values of all joint states in
    the event *)
Theorem C30_event_probability :
  forall M vs codes p, wf_cpm M -> has_p M -> ev_ok (c_vars M) vs codes -> vs <> [] -> codes_small vs codes ->
    (forall v, In v (c_vars M) -> basic_in M v) ->
    get_prob M (Vars vs) (map SI codes) true = Ok p ->
    forall a, p = marg (c_vars M) (fun b => if ev_match (c_vars M) vs codes b then mass M b else 0%Qc) a.
Proof.
  intros M vs codes p W P E N S B H a. rewrite get_prob_spec in H by auto. injection H as <-. rewrite event_sum by auto.
  apply total_ext. intros r. destruct (hits (c_vars M) r vs codes); reflexivity.
Qed.
Print Assumptions C30_event_probability.

Theorem C30_by_name :
  forall M vs sts flag, NoDup (names (c_vars M)) -> incl vs (c_vars M) ->
    get_prob M (Names (names vs)) sts flag = get_prob M (Vars vs) sts flag.
Proof. exact get_prob_names. Qed.
Print Assumptions C30_by_name.

Theorem C30_by_value :
  forall M vs ss codes flag, vs <> [] -> List.length vs = List.length ss ->
    (forall i v s, nth_error vs i = Some v -> nth_error ss i = Some s ->
       exists c, nth_error codes i = Some (Z.of_nat c) /\ nth_error (v_values v) c = Some (VStr s) /\
                 ~ In (VStr s) (firstn c (v_values v))) ->
    List.length codes = List.length vs ->
    get_prob M (Vars vs) (map SS ss) flag = get_prob M (Vars vs) (map SI codes) flag.
Proof. exact get_prob_values. Qed.
Print Assumptions C30_by_value.

(** an event without variables fails *)
Theorem C30_no_variables : forall M flag, get_prob M (Vars []) [] flag = Err UnboundLocalError.
Proof. reflexivity. Qed.
Print Assumptions C30_no_variables.

Example C30_get_prob_ex :
  wf_cpm Pxy /\ ev_ok (c_vars Pxy) [vx; vy] [1; 5] /\ codes_small [vx; vy] [1; 5] /\
  val (get_prob Pxy (Vars [vx; vy]) [SI 1; SI 5] true) = val (Ok (q 18 25)) /\
  val (get_prob Pxy (Vars [vx; vy]) [SI 1; SI 5] false) = val (Ok (q 7 25)) /\
  val (get_prob Pxy (Names ["y"]) [SS "c"] true) = val (Ok (q 1 2)).
Proof.
  split; [exact (proj1 C29_sum_ex)|]. split; [|split].
  - split; [reflexivity|]. split; [apply nodup_names_ok; reflexivity|]. split.
    + apply (agree_g ex_g); repeat (constructor; [reflexivity|]); constructor.
    + intros v c [H|[H|[]]] _; injection H as <- <-; ex_code.
  - intros v c [H|[H|[]]]; injection H as <- <-; reflexivity.
  - repeat split; vm_compute; reflexivity.
Qed.

(** * C31 *)
Theorem C31_bounds :
  forall M M' vs codes flag lo hi p,
    wf_cpm M -> has_p M -> wf_cpm M' -> completes M M' -> ev_ok (c_vars M) vs codes -> vs <> [] -> codes_small vs codes ->
    (forall x, In x (c_p M) -> 0 <= x)%Qc ->
    get_prob_bnd M (Vars vs) (map SI codes) flag (Vars []) [] true = Ok (lo, hi) ->
    get_prob M' (Vars vs) (map SI codes) flag = Ok p ->
    exists l, lo = Some l /\ (l <= p /\ p <= hi /\ hi <= 1)%Qc.
Proof. exact bounds_main. Qed.
Print Assumptions C31_bounds.

(** with a condition: the event must contain the condition ("x and c" given "c") *)
Theorem C31_conditional_bounds_partial :
  forall M M' vs codes cvs ccodes lo hi p pc,
    wf_cpm M -> has_p M -> wf_cpm M' -> completes M M' ->
    ev_ok (c_vars M) vs codes -> vs <> [] -> codes_small vs codes ->
    ev_ok (c_vars M) cvs ccodes -> cvs <> [] -> codes_small cvs ccodes ->
    incl (combine cvs ccodes) (combine vs codes) ->
    (forall x, In x (c_p M) -> 0 <= x)%Qc ->
    get_prob_bnd M (Vars vs) (map SI codes) true (Vars cvs) (map SI ccodes) true = Ok (lo, hi) ->
    get_prob M' (Vars vs) (map SI codes) true = Ok p -> get_prob M' (Vars cvs) (map SI ccodes) true = Ok pc -> (0 < pc)%Qc ->
    exists l, lo = Some l /\ (l <= p / pc /\ p / pc <= hi /\ hi <= 1)%Qc.
Proof. exact cond_bounds_main. Qed.
Print Assumptions C31_conditional_bounds_partial.

(** Missing: for an event that does not contain the condition the interval is
    wrong.  Here the CPM is complete and x, y are independent, yet the lower bound
    of P(x=1 | y=0) is 9/2. *)
Theorem C31_conditional_bounds_refuted :
  exists M vs codes cvs ccodes lo hi,
    wf_cpm M /\ has_p M /\ qsum (c_p M) = 1%Qc /\ (forall x, In x (c_p M) -> 0 <= x)%Qc /\
    ev_ok (c_vars M) vs codes /\ ev_ok (c_vars M) cvs ccodes /\
    get_prob_bnd M (Vars vs) (map SI codes) true (Vars cvs) (map SI ccodes) true = Ok (Some lo, hi) /\
    (1 < lo)%Qc.
Proof.
  exists Pxy, [vx], [1], [vy], [0]. eexists. eexists.
  split; [exact (proj1 C29_sum_ex)|]. split; [reflexivity|]. split; [apply Qc_is_canon; vm_compute; reflexivity|]. split.
  { intros x Hx. cbn in Hx. repeat destruct Hx as [<-|Hx]; try destruct Hx; vm_compute; discriminate. }
  split; [|split; [|split; [vm_compute; reflexivity|vm_compute; reflexivity]]].
  - split; [reflexivity|]. split; [apply nodup_names_ok; reflexivity|]. split.
    + apply (agree_g ex_g); repeat (constructor; [reflexivity|]); constructor.
    + intros v c [H|[]] _; injection H as <- <-; ex_code.
  - split; [reflexivity|]. split; [apply nodup_names_ok; reflexivity|]. split.
    + apply (agree_g ex_g); repeat (constructor; [reflexivity|]); constructor.
    + intros v c [H|[]] _; injection H as <- <-; ex_code.
Qed.
Print Assumptions C31_conditional_bounds_refuted.

(** a CPM with probability 4/5 known *)
Definition Pinc := mkCpm [vx; vy] 2 [[0; 0]; [1; 0]; [0; 1]; [1; 1]] [q 1 10; q 1 5; q 2 5; q 1 10].
Definition Pfull := mkCpm [vx; vy] 2 [[0; 0]; [1; 0]; [0; 1]; [1; 1]; [0; 2]; [1; 1]] [q 1 10; q 1 5; q 2 5; q 1 10; q 1 20; q 3 20].
Example C31_bounds_ex :
  wf_cpm Pinc /\ has_p Pinc /\ wf_cpm Pfull /\ completes Pinc Pfull /\
  vals (get_prob_bnd Pinc (Vars [vy]) [SI 1] true (Vars []) [] true) = vals (Ok (Some (q 1 2), q 7 10)) /\
  val (get_prob Pfull (Vars [vy]) [SI 1] true) = val (Ok (q 13 20)) /\
  incl (combine [vy] [1]) (combine [vx; vy] [0; 1]) /\
  vals (get_prob_bnd Pinc (Vars [vx; vy]) [SI 0; SI 1] true (Vars [vy]) [SI 1] true) = vals (Ok (Some (q 4 7), q 1 1)) /\
  val (get_prob Pfull (Vars [vx; vy]) [SI 0; SI 1] true) = val (Ok (q 2 5)).
Proof.
  assert (V : Forall var_ok [vx; vy]) by (repeat (constructor; [apply ex_g_ok|]); constructor).
  split; [apply wf_b_ok; [exact V|reflexivity]|]. split; [reflexivity|]. split; [apply wf_b_ok; [exact V|reflexivity]|]. split.
  { exists [[0; 2]; [1; 1]], [q 1 20; q 3 20]. split; [reflexivity|]. split.
    - intros x [<-|[<-|[]]]; vm_compute; discriminate.
    - split; [reflexivity|]. apply Qc_is_canon. vm_compute. reflexivity. }
  split; [vm_compute; reflexivity|]. split; [vm_compute; reflexivity|]. split; [intros x [<-|[]]; right; left; reflexivity|].
  split; vm_compute; reflexivity.
Qed.

(** * C32 *)
Theorem C32_merge_partial :
  forall M1 M2, wf_cpm M1 -> c_p M1 <> [] -> has_p M2 -> c_vars M1 = c_vars M2 ->
    (forall r, In r (c_C M2) -> In r (c_C M1)) ->
    exists M, merge M1 M2 = Ok M /\ wf_cpm M /\ c_vars M = c_vars M1 /\ c_nch M = c_nch M1 /\ c_C M = c_C M1 /\
      forall a, mass M a = (mass M1 a + mass M2 a)%Qc.
Proof. exact merge_ok. Qed.
Print Assumptions C32_merge_partial.

(** Missing: any row of the second CPM that the first does not have makes it fail. *)
Theorem C32_merge_refuted :
  forall M1 M2 r, wf_cpm M1 -> c_p M1 <> [] -> has_p M2 -> c_vars M1 = c_vars M2 -> In r (c_C M2) -> ~ In r (c_C M1) ->
    merge M1 M2 = Err ValueError.
Proof. exact merge_missing. Qed.
Print Assumptions C32_merge_refuted.

Example C32_merge_ex :
  view (merge Pxy Pinc) = view (Ok (mkCpm [vx; vy] 2 (c_C Pxy) [q 3 25; q 19 50; q 43 100; q 37 100; q 1 20; q 9 20])) /\
  (forall r, In r (c_C Pinc) -> In r (c_C Pxy)) /\ In [0; 2] (c_C Pxy) /\ ~ In [0; 2] (c_C Pinc) /\
  merge Pinc Pxy = Err ValueError.
Proof.
  split; [vm_compute; reflexivity|]. split; [intros r; cbn; tauto|]. split; [cbn; auto 8|]. split; [|vm_compute; reflexivity].
  cbn. intuition discriminate.
Qed.

(** * C33 *)
Theorem C33_variable_elim_partial :
  forall l vars M, ve_ok l vars -> variable_elim l vars = Ok M ->
    wf_cpm M /\ (forall a, mass M a = marg vars (pmass l) a) /\
    (forall w, In w (c_vars M) <-> (exists N, In N l /\ In w (c_vars N)) /\ ~ In w vars) /\
    (forall w, In w (children M) <-> (exists N, In N l /\ In w (children N)) /\ ~ In w vars).
Proof. exact variable_elim_ok. Qed.
Print Assumptions C33_variable_elim_partial.

Theorem C33_any_order_partial :
  forall l vars vars' M M', ve_ok l vars -> Permutation vars vars' ->
    variable_elim l vars = Ok M -> variable_elim l vars' = Ok M' ->
    (forall a, mass M a = mass M' a) /\ (forall w, In w (c_vars M) <-> In w (c_vars M')) /\
    (forall w, In w (children M) <-> In w (children M')).
Proof. exact elim_orders. Qed.
Print Assumptions C33_any_order_partial.

(** It succeeds, for every order, when one CPM contains all eliminated variables
    and one more (as the system CPM does). *)
Theorem C33_variable_elim_succeeds :
  forall l vars a M0 q, ve_ok l vars -> alive l a ->
    In M0 l -> incl vars (c_vars M0) -> In q (c_vars M0) -> ~ In (v_name q) (names vars) ->
    exists M, variable_elim l vars = Ok M.
Proof. intros l vars a M0 q0 H1 H2 H3 H4 H5 H6. exact (variable_elim_total l vars a q0 M0 H1 H2 H3 H5 H6 H4). Qed.
Print Assumptions C33_variable_elim_succeeds.

(** Exactly when it succeeds, for CPMs that are positive together at some joint state: every
    eliminated variable is connected by the CPMs with one that stays. *)
Theorem C33_succeeds_iff :
  forall l vars a, ve_ok l vars -> l <> [] -> alive l a ->
    ((exists M, variable_elim l vars = Ok M) <->
     forall v, In v vars -> exists q, linked l (v_name v) q /\ ~ In q (names vars)).
Proof. exact variable_elim_iff. Qed.
Print Assumptions C33_succeeds_iff.

(** Missing: eliminating a variable whose product contains nothing else fails. *)
Theorem C33_variable_elim_refuted :
  exists l vars w a, ve_ok l vars /\ alive l a /\ ~ In w vars /\ (exists N, In N l /\ In w (c_vars N)) /\
    variable_elim l vars = Err ValueError.
Proof.
  exists [Px; Py], [vx], vy, (fun _ => 1). split; [|split; [|split; [|split]]].
  - split; [apply (fit_list_g ex_g); [ex_vars|reflexivity|reflexivity]|]. split; [repeat (constructor; [reflexivity|]); constructor|].
    split; [|split].
    + intros v [<-|[]]. exists Px. split; [left; auto|]. split; [left; auto|].
    apply basic_b_ok. vm_compute. reflexivity.
    + intros v [<-|[]]. exists Px. split; left; auto.
    + apply nodup_names_ok. reflexivity.
  - apply alive_b. vm_compute. reflexivity.
  - intros [H|[]]. discriminate H.
  - exists Py. split; [right; left; auto|left; auto].
  - vm_compute. reflexivity.
Qed.
Print Assumptions C33_variable_elim_refuted.

Lemma ex_basic v : In v [vx; vy] -> exists M, In M [Px; Py; Ms] /\ In v (c_vars M) /\ basic_in M v.
Proof.
  intros [<-|[<-|[]]].
  - exists Px. split; [left; auto|]. split; [left; auto|].
    apply basic_b_ok. vm_compute. reflexivity.
  - exists Py. split; [right; left; auto|]. split; [left; auto|].
    apply basic_b_ok. vm_compute. reflexivity.
Qed.
Example C33_variable_elim_ex :
  ve_ok [Px; Py; Ms] [vx; vy] /\ alive [Px; Py; Ms] (fun _ => 1) /\
  incl [vx; vy] (c_vars Ms) /\ In vs (c_vars Ms) /\ ~ In (v_name vs) (names [vx; vy]) /\
  view (variable_elim [Px; Py; Ms] [vx; vy]) = view (Ok (mkCpm [vs] 1 [[0]; [1]] [q 7 25; q 18 25])) /\
  view (variable_elim [Px; Py; Ms] [vy; vx]) = view (Ok (mkCpm [vs] 1 [[0]; [1]] [q 7 25; q 18 25])).
Proof.
  split; [|split; [|split; [|split; [|split]]]].
  - split; [exact ex_fit|]. split; [repeat (constructor; [reflexivity|]); constructor|]. split; [exact ex_basic|]. split.
    + intros v [<-|[<-|[]]]; [exists Px|exists Py]; cbn; auto.
    + apply nodup_names_ok. reflexivity.
  - apply alive_b. vm_compute. reflexivity.
  - intros v [<-|[<-|[]]]; cbn; auto.
  - cbn; auto.
  - cbn. intuition discriminate.
  - split; vm_compute; reflexivity.
Qed.

(** a chain: no CPM contains both eliminated variables and the remaining one *)
Definition Qyx := mkCpm [vy; vx] 1 [[0; 0]; [1; 0]; [2; 0]; [0; 1]; [1; 1]; [2; 1]] [q 1 2; q 1 4; q 1 4; q 1 10; q 1 5; q 7 10].
Definition Qsy := mkCpm [vs; vy] 1 [[0; 0]; [1; 5]] [q 1 1; q 1 1].
Example C33_succeeds_iff_ex :
  ve_ok [Px; Qyx; Qsy] [vx; vy] /\ alive [Px; Qyx; Qsy] (fun _ => 1) /\
  (forall v, In v [vx; vy] -> exists q, linked [Px; Qyx; Qsy] (v_name v) q /\ ~ In q (names [vx; vy])) /\
  view (variable_elim [Px; Qyx; Qsy] [vx; vy]) = view (Ok (mkCpm [vs] 1 [[0]; [1]] [q 7 50; q 43 50])).
Proof.
  split; [|split; [|split]].
  - split; [apply (fit_list_g ex_g); [ex_vars|reflexivity|reflexivity]|]. split; [repeat (constructor; [reflexivity|]); constructor|]. split; [|split].
    + intros v [<-|[<-|[]]]; [exists Px|exists Qyx]; (split; [cbn; auto|]); (split; [cbn; auto|]); apply basic_b_ok; vm_compute; reflexivity.
    + intros v [<-|[<-|[]]]; [exists Px|exists Qyx]; cbn; auto.
    + apply nodup_names_ok. reflexivity.
  - apply alive_b. vm_compute. reflexivity.
  - assert (Y : linked [Px; Qyx; Qsy] "y" "s") by (apply (linked_step _ Qsy "y" "s"); cbn; auto; apply linked_refl).
    intros v [<-|[<-|[]]]; exists "s"; (split; [|cbn; intuition discriminate]); [|exact Y].
    apply (linked_step _ Qyx "x" "y"); cbn; auto.
  - vm_compute. reflexivity.
Qed.

(** * C34 *)
Theorem C34_get_subset :
  forall M rows, wf_cpm M -> (forall i, In i rows -> (i < nrows M)%nat) ->
    get_subset M rows true = Ok (rows_of M rows) /\ get_subset M rows false = Ok (rows_of M (other_rows (nrows M) rows)).
Proof.
  intros M rows W H. split.
  - exact (get_subset_ok M rows true W (fun _ => H)).
  - exact (get_subset_ok M rows false W (fun e => match Bool.diff_false_true e with end)).
Qed.
Print Assumptions C34_get_subset.

(** the two selections contain every row once *)
Theorem C34_partition :
  forall M rows M1 M2, wf_cpm M -> has_p M -> NoDup rows ->
    get_subset M rows true = Ok M1 -> get_subset M rows false = Ok M2 ->
    Permutation (combine (c_C M1) (c_p M1) ++ combine (c_C M2) (c_p M2)) (combine (c_C M) (c_p M)).
Proof. exact subset_partition. Qed.
Print Assumptions C34_partition.

Theorem C34_out_of_range :
  forall M rows i, In i rows -> (nrows M <= i)%nat -> get_subset M rows true = Err AssertionError.
Proof. exact get_subset_err. Qed.
Print Assumptions C34_out_of_range.

Example C34_get_subset_ex :
  view (get_subset Pxy [4; 1]%nat true) = view (Ok (mkCpm [vx; vy] 2 [[0; 2]; [1; 0]] [q 1 20; q 9 50])) /\
  view (get_subset Pxy [4; 1]%nat false) = view (Ok (mkCpm [vx; vy] 2 [[0; 0]; [0; 1]; [1; 1]; [1; 2]] [q 1 50; q 3 100; q 27 100; q 9 20])).
Proof. split; vm_compute; reflexivity. Qed.

(** * C35: the code table of every Variable that stores one is usable ... *)
Theorem C35_stored_tables_partial :
  forall name values flag B, v_B (mk_variable name values flag) = Some B -> var_ok (mk_variable name values flag).
Proof. exact mk_variable_ok. Qed.
Print Assumptions C35_stored_tables_partial.

(** ... but conditioning on a variable without a table fails, and so does asking
    for the probability of an event of it. *)
Theorem C35_on_the_fly_refuted :
  forall M v c, In v (c_vars M) -> NoDup (names (c_vars M)) -> v_B v = None -> c_C M <> [] -> c < 2 ^ nvals v -> forall flag,
    condition M (Vars [v]) [SI c] = Err AttributeError /\ get_prob M (Vars [v]) [SI c] flag = Err AttributeError.
Proof. exact no_table_fails. Qed.
Print Assumptions C35_on_the_fly_refuted.

(** a variable of seven states, as [Variable(...)] makes it *)
Definition v7 := cv "w" 7.
Definition P7 := mkCpm [v7] 1 [[0]; [1]; [2]; [3]; [4]; [5]; [6]] [q 1 7; q 1 7; q 1 7; q 1 7; q 1 7; q 1 7; q 1 7].
Example C35_on_the_fly_refuted_ex :
  v_B v7 = None /\ mk_cpm (c_vars P7) 1 (c_C P7) (c_p P7) = Ok P7 /\
  condition P7 (Vars [v7]) [SI 0] = Err AttributeError /\ get_prob P7 (Names ["w"]) [SS "a"] true = Err AttributeError.
Proof. repeat split; vm_compute; reflexivity. Qed.
