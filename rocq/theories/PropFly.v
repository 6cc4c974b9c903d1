(** C114: variables without a stored table ([B_flag='fly']) in the function and the method
    [iscompatible], cpm.py 289-382 and 1025-1074. *)
From Coq Require Import ZArith List String Bool Arith QArith Qcanon Lia.
From Verif Require Import Py Num Vari Cpm SpecTest TestCpm.
Import ListNotations.
Open Scope string_scope.
Open Scope Z_scope.
Open Scope list_scope.

(** no row is compatible *)
Definition none_of (C : list (list Z)) (is : list bool) : Prop := is = map (fun _ => false) C.

Lemma select_nil (C : list (list Z)) : forall is, List.length is = List.length C -> select C is = [] -> none_of C is.
Proof.
  unfold none_of, select. induction C as [|r C IH]; intros [|b is] L; cbn in L |- *; try discriminate; auto.
  destruct b; cbn; [discriminate|]. intros H. f_equal. apply IH; auto.
Qed.
Lemma select_none (C : list (list Z)) is : none_of C is -> select C is = [].
Proof. unfold none_of, select. intros ->. induction C; cbn; auto. Qed.
Lemma put_len is : forall ck, List.length (put_true is ck) = List.length is.
Proof. induction is as [|[] is IH]; intros ck; cbn; auto. destruct ck; cbn; auto. Qed.

Section Loop.
Context {T : Type} (C : list (list Z)) (step : list bool -> T -> res (list bool)) (bad : T -> Prop).
Hypothesis step_len : forall is t is', step is t = Ok is' -> List.length is' = List.length is.
Hypothesis step_none : forall is t is', none_of C is -> step is t = Ok is' -> is' = is.
Hypothesis step_bad : forall is t is', bad t -> step is t = Ok is' -> select C is = [] /\ is' = is.
Lemma loop_none todo : forall is is', none_of C is -> foldM step todo is = Ok is' -> is' = is.
Proof.
  induction todo as [|t todo IH]; intros is is' N E; cbn in E; [congruence|].
  destruct (step is t) as [is1|e] eqn:E1; cbn in E; [|discriminate].
  pose proof (step_none _ _ _ N E1) as ->. eauto.
Qed.
Lemma loop_bad todo : forall is is' t, List.length is = List.length C -> In t todo -> bad t -> foldM step todo is = Ok is' -> none_of C is'.
Proof.
  induction todo as [|t0 todo IH]; intros is is' t L Ht B E; [contradiction|]. cbn in E.
  destruct (step is t0) as [is1|e] eqn:E1; cbn in E; [|discriminate].
  destruct Ht as [->|Ht].
  - destruct (step_bad _ _ _ B E1) as [S ->]. pose proof (select_nil C is L S) as N. pose proof (loop_none _ _ _ N E) as ->. auto.
  - apply (IH is1 is' t); auto. rewrite (step_len _ _ _ E1). auto.
Qed.
End Loop.

Lemma fn_len C is v s col is' : fn_column C is v s col = Ok is' -> List.length is' = List.length is.
Proof.
  unfold fn_column. destruct (match s with SI z => Ok z | SS _ => value_index v s end) as [z|e]; cbn [bind]; [|discriminate].
  destruct (select C is); [intros [= <-]; auto|]. destruct (v_B v) as [B|]; [|discriminate].
  destruct (mapM _ _); cbn [bind]; [|discriminate]. destruct (py_index B z); intros [= <-]; auto using put_len.
Qed.
Lemma fn_bad C is v s col is' : v_B v = None -> fn_column C is v s col = Ok is' -> select C is = [] /\ is' = is.
Proof.
  unfold fn_column. intros ->. destruct (match s with SI z => Ok z | SS _ => value_index v s end) as [z|e]; cbn [bind]; [|discriminate].
  destruct (select C is); [|discriminate]. intros [= <-]. auto.
Qed.
Lemma fn_none C is v s col is' : none_of C is -> fn_column C is v s col = Ok is' -> is' = is.
Proof.
  unfold fn_column. intros N. rewrite (select_none C is N). destruct (match s with SI z => Ok z | SS _ => value_index v s end) as [z|e]; cbn [bind]; [|discriminate]. intros [= <-]. auto.
Qed.
Lemma mt_len C f is v s col is' : mt_column C f is v s col = Ok is' -> List.length is' = List.length is.
Proof.
  unfold mt_column. destruct (select C is); [intros [= <-]; auto|]. destruct (if f then v_B v else _) as [B|]; [|discriminate].
  destruct (mapM _ _); cbn [bind]; [|discriminate]. destruct (py_index B s); cbn; intros [= <-]; auto using put_len.
Qed.
Lemma mt_bad C is v s col is' : v_B v = None -> mt_column C true is v s col = Ok is' -> select C is = [] /\ is' = is.
Proof. unfold mt_column. cbn. intros ->. destruct (select C is); [|discriminate]. intros [= <-]. auto. Qed.
Lemma mt_none C f is v s col is' : none_of C is -> mt_column C f is v s col = Ok is' -> is' = is.
Proof. unfold mt_column. intros N. rewrite (select_none C is N). intros [= <-]. auto. Qed.

(** a checked variable that is in scope is processed *)
Lemma in_todo {A} (cv : list variable) : forall vars (sts : list A) v, In v cv -> existsb (v_eqb v) vars = true ->
  List.length sts = List.length cv ->
  exists s col, In (v, s, col) (combine (combine (select cv (map is_some (ismember cv vars))) (select sts (map is_some (ismember cv vars)))) (somes (ismember cv vars))).
Proof.
  induction cv as [|a cv IH]; intros vars [|s0 sts] v Hv Hs L; cbn in L; try discriminate; [contradiction|].
  cbn [ismember map]. destruct (find_idx (v_eqb a) vars) as [n|] eqn:E.
  - unfold select. cbn. destruct Hv as [->|Hv]; [exists s0, n; left; auto|].
    destruct (IH vars sts v Hv Hs ltac:(lia)) as (s & col & H). exists s, col. right. exact H.
  - destruct Hv as [->|Hv].
    + exfalso. revert Hs E. clear. induction vars as [|x vars IH]; cbn; [discriminate|]. destruct (v_eqb v x); cbn; [discriminate|].
      intros Hs E. destruct (find_idx (v_eqb v) vars); [discriminate|]. auto.
    + unfold select. cbn. destruct (IH vars sts v Hv Hs ltac:(lia)) as (s & col & H). exists s, col. exact H.
Qed.
Lemma scope_b v vars : In (v_name v) (names vars) -> existsb (v_eqb v) vars = true.
Proof.
  unfold names. rewrite in_map_iff. intros (w & E & Hw). apply existsb_exists. exists w. split; auto. unfold v_eqb. rewrite E. apply String.eqb_refl.
Qed.
Lemma none_false C is b : none_of C is -> In b is -> b = false.
Proof. unfold none_of. intros ->. rewrite in_map_iff. intros (r & <- & _). auto. Qed.

(** the function: when a checked variable in scope has no table, a result never marks a row *)
Theorem C114_function : forall C vars check_vars check_states v is,
  In v check_vars -> In (v_name v) (names vars) -> v_B v = None ->
  fn_iscompatible C vars check_vars check_states = Ok is -> List.length is = List.length C /\ forall b, In b is -> b = false.
Proof.
  intros C vars cv sts v is Hv Hn HB. unfold fn_iscompatible, get_value. rewrite map_length. unfold ismember at 1. rewrite map_length.
  destruct (List.length sts =? List.length cv)%nat eqn:L; [|discriminate]. apply Nat.eqb_eq in L. cbn [bind]. intros E.
  destruct (in_todo cv vars sts v Hv (scope_b v vars Hn) L) as (s & col & Ht).
  assert (none_of C is) as N.
  { eapply (loop_bad C (fun is t => fn_column C is (fst (fst t)) (snd (fst t)) (snd t)) (fun t => v_B (fst (fst t)) = None)
             (fun is t is' => fn_len C is _ _ _ is') (fun is t is' N => fn_none C is _ _ _ is' N) (fun is t is' B => fn_bad C is _ _ _ is' B));
      [|exact Ht|exact HB|exact E]. apply map_length. }
  split; [rewrite N; apply map_length|intros b; apply (none_false C is b N)].
Qed.
Print Assumptions C114_function.

(** the method, with the default [flag=True] *)
Theorem C114_method : forall C vars mvars mrow v is,
  In v mvars -> In (v_name v) (names vars) -> v_B v = None ->
  mt_iscompatible C vars mvars mrow true = Ok is -> List.length is = List.length C /\ forall b, In b is -> b = false.
Proof.
  intros C vars mv sts v is Hv Hn HB. unfold mt_iscompatible. destruct mv as [|m0 mv']; [contradiction|]. remember (m0 :: mv') as mv eqn:Em. clear Em.
  unfold get_value. rewrite map_length. unfold ismember at 1. rewrite map_length.
  destruct (List.length sts =? List.length mv)%nat eqn:L; [|discriminate]. apply Nat.eqb_eq in L. cbn [bind]. intros E.
  destruct (in_todo mv vars sts v Hv (scope_b v vars Hn) L) as (s & col & Ht).
  assert (none_of C is) as N.
  { eapply (loop_bad C (fun is t => mt_column C true is (fst (fst t)) (snd (fst t)) (snd t)) (fun t => v_B (fst (fst t)) = None)
             (fun is t is' => mt_len C true is _ _ _ is') (fun is t is' N => mt_none C true is _ _ _ is' N) (fun is t is' B => mt_bad C is _ _ _ is' B));
      [|exact Ht|exact HB|exact E]. apply map_length. }
  split; [rewrite N; apply map_length|intros b; apply (none_false C is b N)].
Qed.
Print Assumptions C114_method.

(** one variable is checked, and there is a row: an AttributeError *)
Theorem C114_error : forall r C vars v z,
  In (v_name v) (names vars) -> v_B v = None ->
  fn_iscompatible (r :: C) vars [v] [SI z] = Err AttributeError /\ mt_iscompatible (r :: C) vars [v] [z] true = Err AttributeError.
Proof.
  intros r C vars v z Hn HB.
  assert (exists n, find_idx (v_eqb v) vars = Some n) as [n E].
  { apply scope_b in Hn. revert Hn. clear. induction vars as [|x vars IH]; cbn; [discriminate|]. destruct (v_eqb v x); cbn; [eauto|].
    intros H. destruct (IH H) as [n ->]. eauto. }
  unfold fn_iscompatible, mt_iscompatible, ismember, get_value. cbn [map]. rewrite E. cbn. unfold fn_column, mt_column. cbn. rewrite HB. auto.
Qed.
Print Assumptions C114_error.

(** a variable with the flag has no table *)
Theorem C114_no_table : forall name values, v_B (mk_variable name values (Some FFly)) = None.
Proof. intros name values. cbn. unfold stores_B. cbn. rewrite !andb_false_r. reflexivity. Qed.
Print Assumptions C114_no_table.

(** The tests with [B_flag='fly'] (test_cpm.py 595-616, 910-922, 937-962, 1083-1096) expect the
    results of the tests with stored tables. *)
Theorem C114_fly_refuted :
  fn_test1 tv = Ok [true; true; false; false] /\ fn_test1 tf = Err AttributeError /\
  fn_test1s tv = Ok [true; true; false; false] /\ fn_test1s tf = Err AttributeError /\
  method_test tv (N4 tv) = Ok [false; true; false; true] /\ method_test tf (N4 tf) = Err AttributeError.
Proof. vm_compute. repeat split; reflexivity. Qed.
Print Assumptions C114_fly_refuted.

(** hypotheses of C114_function and C114_method: a variable with a table leaves no row for the one without *)
Example C114_example :
  In (tf "b" ["x"; "y"]) [tv "a" ["x"; "y"]; tf "b" ["x"; "y"]] /\
  fn_iscompatible [[0; 0]; [0; 1]] [tv "a" ["x"; "y"]; tf "b" ["x"; "y"]] [tv "a" ["x"; "y"]; tf "b" ["x"; "y"]] [SI 1; SI 0] = Ok [false; false] /\
  mt_iscompatible [[0; 0]; [0; 1]] [tv "a" ["x"; "y"]; tf "b" ["x"; "y"]] [tv "a" ["x"; "y"]; tf "b" ["x"; "y"]] [1; 0] true = Ok [false; false] /\
  fn_iscompatible [[0; 0]; [0; 1]] [tv "a" ["x"; "y"]; tf "b" ["x"; "y"]] [tv "a" ["x"; "y"]; tf "b" ["x"; "y"]] [SI 0; SI 0] = Err AttributeError /\
  fn_iscompatible [[0; 0]; [0; 1]] [tv "a" ["x"; "y"]; tv "b" ["x"; "y"]] [tv "a" ["x"; "y"]; tv "b" ["x"; "y"]] [SI 0; SI 0] = Ok [true; false].
Proof. vm_compute. auto 10. Qed.
