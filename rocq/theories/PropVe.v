(** Final theorems about look-up and conditioning over lists of CPMs and inference by
    conditioning (C63, C64). *)
From Coq Require Import ZArith List String Bool Arith Lia Permutation QArith Qcanon.
From Verif Require Import Py PyFacts Num Vari VariFacts Cpm CpmFacts SpecCpm CpmCond CpmProd CpmSum CpmMarg CpmElim CpmProb MsysProd SpecProd VeCond SpecVe VeFacts VeTotal PropCpm PropProd.
Import ListNotations.
Open Scope string_scope.
Open Scope Z_scope.
Open Scope list_scope.

(** * C63 *)

(** Every name gets the variable of the first CPM that has it, in the order of the names. *)
Theorem C63_get_variables :
  forall l ns vs, NoDup ns -> Forall2 (fun n v => first_var l n = Some v) ns vs -> op_get_variables l ns = Ok vs.
Proof. exact get_variables_main. Qed.
Print Assumptions C63_get_variables.

(** A name that no CPM has is an error. *)
Theorem C63_missing :
  forall l ns n, In n ns -> ~ (exists N, In N l /\ In n (names (c_vars N))) -> op_get_variables l ns = Err AssertionError.
Proof. intros l ns n H1 H2. apply get_variables_missing with (n := n); auto. apply first_var_none. auto. Qed.
Print Assumptions C63_missing.

(** Repeated names lose their positions. *)
Theorem C63_repeated_refuted :
  exists l ns vs, (forall n, In n ns -> exists v, first_var l n = Some v) /\
    op_get_variables l ns = Ok vs /\ map v_name vs <> ns.
Proof.
  exists [Px; Py], ["y"; "x"; "y"], [vy; vy; vx]. split; [|split; [vm_compute; reflexivity|discriminate]].
  intros n [<-|[<-|[<-|[]]]]; [exists vy|exists vx|exists vy]; vm_compute; reflexivity.
Qed.
Print Assumptions C63_repeated_refuted.

(** [condition] conditions each CPM. *)
Theorem C63_condition :
  forall l vs codes, Forall wf_cpm l -> (forall M, In M l -> ev_ok (c_vars M) vs codes) ->
    exists l', op_condition l (Vars vs) (map SI codes) = Ok l' /\
      Forall2 (fun M M' => wf_cpm M' /\ c_vars M' = c_vars M /\ c_nch M' = c_nch M /\
        forall a, mass M' a = if ev_match (c_vars M) vs codes a then mass M a else 0%Qc) l l'.
Proof.
  intros l vs codes W E. unfold op_condition. cbn [bind]. rewrite cond_states_SI. cbn [bind].
  induction l as [|M l IH]; [exists []; split; [reflexivity|constructor]|]. inversion W as [|? ? W1 W2]; subst.
  destruct (condition_ok M vs codes W1 (E M (or_introl eq_refl))) as (M' & X & A & B & C & D).
  destruct (IH W2 (fun N HN => E N (or_intror HN))) as (l' & Y & F). exists (M' :: l'). cbn [mapM]. rewrite X. cbn [bind]. rewrite Y.
  cbn [bind]. split; [reflexivity|]. constructor; auto.
Qed.
Print Assumptions C63_condition.

(** The variables may be given by names, the states by strings. *)
Theorem C63_condition_by_name :
  forall l ns vs sts, NoDup ns -> Forall2 (fun n v => first_var l n = Some v) ns vs ->
    op_condition l (Names ns) sts = op_condition l (Vars vs) sts.
Proof.
  intros l ns vs sts N F. unfold op_condition. destruct ns as [|n ns]; [inversion F; reflexivity|].
  rewrite (get_variables_main l (n :: ns) vs N F). reflexivity.
Qed.
Print Assumptions C63_condition_by_name.

Theorem C63_condition_by_value :
  forall l vs ss codes, List.length vs = List.length ss -> List.length codes = List.length vs ->
    (forall i v s, nth_error vs i = Some v -> nth_error ss i = Some s ->
       exists c, nth_error codes i = Some (Z.of_nat c) /\ nth_error (v_values v) c = Some (VStr s) /\
                 ~ In (VStr s) (firstn c (v_values v))) ->
    op_condition l (Vars vs) (map SS ss) = op_condition l (Vars vs) (map SI codes).
Proof.
  intros l vs ss codes L1 L2 H. unfold op_condition. cbn [bind]. rewrite cond_states_SI.
  enough (E : cond_states vs (map SS ss) = Ok (map SI codes)) by (rewrite E; reflexivity).
  exact (cond_states_SS vs ss codes L1 H L2).
Qed.
Print Assumptions C63_condition_by_value.

Example C63_ex :
  op_get_variables [Ms; Py] ["y"; "s"; "x"] = Ok [vy; vs; vx] /\ op_get_variables [Ms; Py] ["y"; "z"] = Err AssertionError /\
  Forall2 (fun n v => first_var [Px; Ms] n = Some v) ["s"; "x"] [vs; vx] /\
  (forall M, In M [Px; Ms] -> ev_ok (c_vars M) [vs; vx] [1; 1]) /\
  op_condition [Px; Ms] (Names ["s"; "x"]) [SI 1; SI 1] =
    Ok [mkCpm [vx] 1 [[1]] [q 9 10]; mkCpm [vs; vx; vy] 1 [[1; 1; 5]] [q 1 1]] /\
  op_condition [Px; Ms] (Names ["s"; "x"]) [SS "b"; SS "b"] = op_condition [Px; Ms] (Vars [vs; vx]) [SI 1; SI 1].
Proof.
  split; [vm_compute; reflexivity|]. split; [vm_compute; reflexivity|]. split; [repeat (constructor; [vm_compute; reflexivity|]); constructor|].
  split; [|split; vm_compute; reflexivity].
  intros M HM. split; [reflexivity|]. split; [apply nodup_names_ok; reflexivity|]. split.
  - destruct HM as [<-|[<-|[]]]; apply (agree_g ex_g); repeat (constructor; [reflexivity|]); constructor.
  - intros v c [[= <- <-]|[[= <- <-]|[]]] _; ex_code.
Qed.

(** * C64 *)

(** Elimination row by row of the conditioning CPMs returns the product of all CPMs, summed
    over the eliminated variables and those of the conditioning CPMs, if the CPMs have the same
    rows for each state of the conditioning variables and some variable is left. *)
Theorem C64_conditional_elim :
  forall l varis cond K, vec_ok l varis cond -> lists_scopes K cond -> vec_total l varis cond K ->
    (exists v, in_scopes l v /\ ~ In v varis /\ ~ In v K) ->
    exists M, variable_elim_cond l varis cond = Ok (Some M) /\
      wf_cpm M /\ (forall a, mass M a = marg (varis ++ K) (pmass (l ++ cond)) a) /\
      (forall v, In v (c_vars M) <-> in_scopes l v /\ ~ In v varis /\ ~ In v K) /\
      ((forall v, In v K -> in_children cond v) ->
         forall v, In v (children M) <-> in_children l v /\ ~ In v varis /\ ~ In v K).
Proof.
  intros l varis cond K V L T (v & H1 & H2 & H3). destruct (vec_succeeds l varis cond K V L T) as ([M|] & E & R).
  - exists M. split; auto. exact (vec_main l varis cond K (Some M) V L E).
  - destruct (proj1 R eq_refl v H1); contradiction.
Qed.
Print Assumptions C64_conditional_elim.

(** If no variable is left it returns None. *)
Theorem C64_nothing_left :
  forall l varis cond K, vec_ok l varis cond -> lists_scopes K cond -> vec_total l varis cond K ->
    (forall v, in_scopes l v -> In v varis \/ In v K) -> variable_elim_cond l varis cond = Ok None.
Proof. intros l varis cond K V L T H. destruct (vec_succeeds l varis cond K V L T) as (r & E & R). rewrite E. f_equal. apply R. auto. Qed.
Print Assumptions C64_nothing_left.

(** Whatever CPM is returned is the marginal, also for CPMs that have other rows for other
    states of the conditioning variables. *)
Theorem C64_result :
  forall l varis cond K M, vec_ok l varis cond -> lists_scopes K cond ->
    variable_elim_cond l varis cond = Ok (Some M) ->
    wf_cpm M /\ (forall a, mass M a = marg (varis ++ K) (pmass (l ++ cond)) a) /\
    (forall v, In v (c_vars M) <-> in_scopes l v /\ ~ In v varis /\ ~ In v K) /\
    ((forall v, In v K -> in_children cond v) ->
       forall v, In v (children M) <-> in_children l v /\ ~ In v varis /\ ~ In v K).
Proof. intros l varis cond K M V L H. exact (vec_main l varis cond K (Some M) V L H). Qed.
Print Assumptions C64_result.

(** It returns None only if the conditioning CPMs allow nothing or no variable is left. *)
Theorem C64_none :
  forall l varis cond K, vec_ok l varis cond -> lists_scopes K cond ->
    variable_elim_cond l varis cond = Ok None ->
    (exists P, product_list cond = Ok P /\ c_C P = []) \/ (forall v, in_scopes l v -> In v varis \/ In v K).
Proof. intros l varis cond K V L H. exact (vec_main l varis cond K None V L H). Qed.
Print Assumptions C64_none.

(** a hazard, two components that depend on it *)
Definition Ph := mkCpm [vh] 1 [[0]; [1]] [q 3 4; q 1 4].
Definition Fx := mkCpm [vx; vh] 1 [[0; 0]; [1; 0]; [0; 1]; [1; 1]] [q 1 10; q 9 10; q 1 2; q 1 2].
Definition Fy := mkCpm [vy; vh] 1 [[0; 0]; [1; 0]; [2; 0]; [0; 1]; [1; 1]; [2; 1]] [q 1 5; q 3 10; q 1 2; q 2 5; q 2 5; q 1 5].
(** with this component the state 1 is impossible without the hazard *)
Definition Gx := mkCpm [vx; vh] 1 [[0; 0]; [0; 1]; [1; 1]] [q 1 1; q 1 2; q 1 2].

Definition apart (vs : list variable) (r1 r2 : list Z) : bool :=
  existsb (fun vcc => negb (existsb (fun x => mem_Z x (states_of (fst vcc) (snd (snd vcc)))) (states_of (fst vcc) (fst (snd vcc)))))
          (combine vs (combine r1 r2)).
Fixpoint all_apart (vs : list variable) (l : list (list Z)) : bool :=
  match l with [] => true | r :: l' => forallb (apart vs r) l' && all_apart vs l' end.
Lemma apart_ok vs : forall r1 r2 a, apart vs r1 r2 = true -> row_match vs r1 a = true -> row_match vs r2 a = true -> False.
Proof.
  induction vs as [|v vs IH]; intros [|c1 r1] [|c2 r2] a H H1 H2; try discriminate H.
  unfold apart in H. cbn [combine existsb fst snd] in H. apply orb_true_iff in H.
  unfold row_match in H1, H2. cbn [combine forallb fst snd] in H1, H2. apply andb_true_iff in H1 as [A1 B1], H2 as [A2 B2].
  destruct H as [H|H]; [|exact (IH r1 r2 a H B1 B2)].
  apply negb_true_iff in H. rewrite <- not_true_iff_false in H. apply H. apply existsb_exists. exists (a (v_name v)).
  split; [apply mem_Z_In; auto|auto].
Qed.
Lemma all_apart_ok M : all_apart (c_vars M) (c_C M) = true -> one_row M.
Proof.
  unfold one_row. intros H a. induction (c_C M) as [|r l IH]; cbn [filter List.length]; [lia|]. cbn [all_apart] in H.
  apply andb_true_iff in H as [H1 H2]. destruct (row_match (c_vars M) r a) eqn:E; [|auto]. cbn [List.length].
  enough (F : filter (fun r => row_match (c_vars M) r a) l = []) by (rewrite F; cbn; lia).
  clear IH H2. induction l as [|r2 l IH]; [reflexivity|]. cbn [forallb] in H1. apply andb_true_iff in H1 as [H1 H3]. cbn [filter].
  destruct (row_match (c_vars M) r2 a) eqn:E2; [exfalso; exact (apart_ok _ _ _ _ H1 E E2)|auto].
Qed.

Definition vec_ok_b (l : list cpm) (varis : list variable) (cond : list cpm) : bool :=
  forallb wf_b (l ++ cond) && disj_all (l ++ cond) && forallb (fun M => all_apart (c_vars M) (c_C M)) cond &&
  nodup_names (names varis) &&
  forallb (fun v => existsb (fun M => mem_str (v_name v) (names (c_vars M)) && basic_b M v) l &&
                    existsb (fun M => mem_str (v_name v) (names (children M))) l &&
                    negb (existsb (fun M => mem_str (v_name v) (names (c_vars M))) cond)) varis &&
  forallb (fun N => forallb (fun v => existsb (fun M => mem_str (v_name v) (names (c_vars M)) && basic_b M v) cond) (c_vars N)) cond.
Lemma ex_In l M v : Forall (fun M => Forall (fun v => v = ex_g (v_name v)) (c_vars M)) l -> In M l -> v = ex_g (v_name v) ->
  In (v_name v) (names (c_vars M)) -> In v (c_vars M).
Proof.
  rewrite Forall_forall. intros G HM Hv Hn. specialize (G M HM). rewrite Forall_forall in G. unfold names in Hn. apply in_map_iff in Hn as (w & E & Hw).
  rewrite Hv, <- E, <- (G w Hw). auto.
Qed.
Lemma vec_ok_b_ok l varis cond :
  Forall (fun M => Forall (fun v => v = ex_g (v_name v)) (c_vars M)) (l ++ cond) -> Forall (fun v => v = ex_g (v_name v)) varis ->
  vec_ok_b l varis cond = true -> vec_ok l varis cond.
Proof.
  intros G Gv. unfold vec_ok_b. rewrite !andb_true_iff. intros [[[[[A1 A2] A3] A4] A5] A6].
  assert (O : Forall (fun M => Forall var_ok (c_vars M)) (l ++ cond)).
  { rewrite Forall_forall in *. intros M HM. specialize (G M HM). rewrite Forall_forall in *. intros v Hv. rewrite (G v Hv). apply ex_g_ok. }
  assert (F : fit_list (l ++ cond)).
  { apply (fit_list_g ex_g); auto. rewrite Forall_forall in *. intros M HM. split; auto. }
  assert (Hp : Forall has_p (l ++ cond)).
  { rewrite Forall_forall. rewrite forallb_forall in A1. intros M HM. apply has_p_b. auto. }
  assert (Gl : Forall (fun M => Forall (fun v => v = ex_g (v_name v)) (c_vars M)) l) by (apply Forall_app in G; tauto).
  assert (Gc : Forall (fun M => Forall (fun v => v = ex_g (v_name v)) (c_vars M)) cond) by (apply Forall_app in G; tauto).
  rewrite forallb_forall in A5. rewrite Forall_forall in Gv.
  split; [auto|]. split; [auto|]. split; [|split; [|split]].
  - split; [exact (proj1 (fit_app _ _ F))|]. split; [apply Forall_app in Hp; tauto|]. split; [|split].
    + intros v Hv. specialize (A5 v Hv). rewrite !andb_true_iff in A5. destruct A5 as [[A5 _] _]. apply existsb_exists in A5 as (M & HM & A5).
      apply andb_true_iff in A5 as [B1 B2]. exists M. split; auto. split; [apply (ex_In l); auto; apply mem_str_In; auto|apply basic_b_ok; auto].
    + intros v Hv. specialize (A5 v Hv). rewrite !andb_true_iff in A5. destruct A5 as [[_ A5] _]. apply existsb_exists in A5 as (M & HM & A5).
      exists M. split; auto. apply mem_str_In in A5. unfold names in A5. apply in_map_iff in A5 as (w & E & Hw).
      assert (Hw' := children_incl M w Hw). rewrite Forall_forall in Gl. specialize (Gl M HM). rewrite Forall_forall in Gl.
      rewrite (Gv v Hv), <- E, <- (Gl w Hw'). auto.
    + apply nodup_names_ok. auto.
  - rewrite forallb_forall in A3. rewrite Forall_forall. intros M HM. apply all_apart_ok. auto.
  - intros v Hv (N & HN & Hn). specialize (A5 v Hv). rewrite !andb_true_iff in A5. destruct A5 as [_ A5]. apply negb_true_iff in A5.
    rewrite <- not_true_iff_false in A5. apply A5. apply existsb_exists. exists N. split; auto. apply mem_str_In. auto.
  - intros v (N & HN & Hv). rewrite forallb_forall in A6. specialize (A6 N HN). rewrite forallb_forall in A6. specialize (A6 v Hv).
    apply existsb_exists in A6 as (M & HM & A6). apply andb_true_iff in A6 as [B1 B2]. exists M. split; auto.
    split; [|apply basic_b_ok; auto]. apply (ex_In cond); auto; [|apply mem_str_In; auto].
    rewrite Forall_forall in Gc. specialize (Gc N HN). rewrite Forall_forall in Gc. auto.
Qed.
Ltac ex_vec := apply vec_ok_b_ok; [repeat (constructor; [repeat (constructor; [reflexivity|]); constructor|]); constructor|
  repeat (constructor; [reflexivity|]); constructor|vm_compute; reflexivity].
Lemma lists_ex (M : cpm) : NoDup (names (c_vars M)) -> lists_scopes (c_vars M) [M].
Proof. intros N. split; auto. intros v. split; [intros H; exists M; cbn; auto|intros (M' & [<-|[]] & H); auto]. Qed.
Lemma lists_h C p : lists_scopes [vh] [mkCpm [vh] 1 C p].
Proof. apply (lists_ex (mkCpm [vh] 1 C p)). apply nodup_names_ok. reflexivity. Qed.
Definition oview (r : res (option cpm)) := match r with Ok (Some M) => Ok (Some (view (Ok M))) | Ok None => Ok None | Err e => Err e end.

Example C64_ex :
  vec_ok [Fx; Fy; Ms] [vx; vy] [Ph] /\ lists_scopes [vh] [Ph] /\ (forall v, In v [vh] -> in_children [Ph] v) /\
  oview (variable_elim_cond [Fx; Fy; Ms] [vx; vy] [Ph]) =
    oview (Ok (Some (mkCpm [vs] 1 [[0]; [1]] [q 77 200; q 123 200]))) /\
  (** nothing is eliminated beside the hazard *)
  vec_ok [Fx] [] [Ph] /\
  oview (variable_elim_cond [Fx] [] [Ph]) = oview (Ok (Some (mkCpm [vx] 1 [[0]; [1]] [q 1 5; q 4 5]))).
Proof.
  split; [ex_vec|]. split; [apply lists_h|]. split; [intros v [<-|[]]; exists Ph; cbn; auto|]. split; [vm_compute; reflexivity|].
  split; [ex_vec|vm_compute; reflexivity].
Qed.

Lemma allows_Ph b : allows [Ph] b -> b "h" = 0 \/ b "h" = 1.
Proof.
  intros H. destruct (H Ph (or_introl eq_refl)) as (row & Hr & Hm). unfold row_match in Hm. cbn [c_vars Ph] in Hm.
  destruct Hr as [<-|[<-|[]]]; cbn [combine forallb fst snd] in Hm; rewrite andb_true_r in Hm; apply mem_Z_In in Hm; vm_compute in Hm; intuition.
Qed.
Lemma Ph_allows b : b "h" = 0 \/ b "h" = 1 -> allows [Ph] b.
Proof.
  intros H N [<-|[]]. destruct H as [H|H]; [exists [0]|exists [1]]; (split; [cbn; auto|]); unfold row_match; cbn [c_vars Ph combine forallb fst snd v_name vh];
    rewrite andb_true_r; apply mem_Z_In; change (v_name vh) with "h"; rewrite H; vm_compute; auto.
Qed.
Example C64_total_ex :
  vec_total [Fx; Fy; Ms] [vx; vy] [Ph] [vh] /\ (exists v, in_scopes [Fx; Fy; Ms] v /\ ~ In v [vx; vy] /\ ~ In v [vh]) /\
  vec_total [Fx] [vx] [Ph] [vh].
Proof.
  assert (EF : forall N x m C, c_vars N = [x; vh] -> v_name x <> "h" -> incl (c_C N) C -> incl C (c_C N) ->
    C = flat_map (fun k => map (fun i => [i; k]) (zrange 0 m)) [0; 1] -> even_rows [vh] [Ph] N).
  { intros N x m C Ev Hn I1 I2 EC row a b Hr G Ha Hb. apply I1 in Hr. rewrite EC in Hr. apply in_flat_map in Hr as (k & _ & Hr). apply in_map_iff in Hr as (i & <- & Hi).
    exists [i; b "h"]. split; [|split].
    - apply I2. rewrite EC. apply in_flat_map. exists (b "h"). split; [destruct (allows_Ph b Hb) as [-> | ->]; cbn; auto|]. apply in_map_iff. eauto.
    - unfold goes_with. rewrite Ev. intros v c [E|[E|[]]] [<-|[]]; [injection E as E _; rewrite E in Hn; exfalso; apply Hn; reflexivity|].
      injection E as <-. change (v_name vh) with "h". destruct (allows_Ph b Hb) as [-> | ->]; vm_compute; auto.
    - rewrite Ev. intros v c [E|[E|[]]] Hk; [left; auto|]. injection E as <- <-. exfalso. apply Hk. left. auto. }
  assert (EX : even_rows [vh] [Ph] Fx) by (apply (EF Fx vx 2 (c_C Fx)); [reflexivity|discriminate|intros r Hr; exact Hr|intros r Hr; exact Hr|reflexivity]).
  assert (EY : even_rows [vh] [Ph] Fy) by (apply (EF Fy vy 3 (c_C Fy)); [reflexivity|discriminate|intros r Hr; exact Hr|intros r Hr; exact Hr|reflexivity]).
  assert (EM : even_rows [vh] [Ph] Ms).
  { intros row a b Hr _ _ _. exists row. split; auto. split; auto. intros v c Hc [<-|[]]. apply in_combine_l in Hc. cbn in Hc. intuition discriminate. }
  assert (Pos : forall l, (alive (l ++ [Ph]) (jt 1 1 1 0) /\ alive (l ++ [Ph]) (jt 1 1 1 1)) ->
    forall b, allows [Ph] b -> exists a, (forall v, In v [vh] -> a (v_name v) = b (v_name v)) /\ alive (l ++ [Ph]) a).
  { intros l [A0 A1] b Hb. destruct (allows_Ph b Hb) as [E|E]; [exists (jt 1 1 1 0)|exists (jt 1 1 1 1)]; (split; [|auto]); intros v [<-|[]]; change (v_name vh) with "h"; rewrite E; reflexivity. }
  assert (Any : exists b, allows [Ph] b) by (exists (fun _ => 0); apply Ph_allows; auto).
  split; [|split].
  - split; [discriminate|]. split; [discriminate|]. split; [auto|]. split; [apply Pos; split; apply alive_b; vm_compute; reflexivity|]. split.
    + intros v [<-|[<-|[]]]; exists "s"; (split; [apply (linked_step _ Ms _ "s"); cbn; auto; apply linked_refl|cbn; intuition discriminate]).
    + intros N [<-|[<-|[<-|[]]]]; auto.
  - exists vs. split; [exists Ms; cbn; auto|]. split; cbn; intuition discriminate.
  - split; [discriminate|]. split; [discriminate|]. split; [auto|]. split; [apply Pos; split; apply alive_b; vm_compute; reflexivity|]. split.
    + intros v [<-|[]]; exists "h"; (split; [apply (linked_step _ Fx _ "h"); cbn; auto; apply linked_refl|cbn; intuition discriminate]).
    + intros N [<-|[]]; auto.
Qed.

(** A state that the first row of the conditioning CPM excludes and a later one allows: the
    results of the two rows cannot be merged. *)
Theorem C64_new_rows_refuted :
  exists l varis cond K v, vec_ok l varis cond /\ lists_scopes K cond /\ in_scopes l v /\ ~ In v varis /\ ~ In v K /\
    variable_elim_cond l varis cond = Err ValueError.
Proof.
  exists [Gx], [], [Ph], [vh], vx. split; [ex_vec|]. split; [apply lists_h|]. split; [exists Gx; cbn; auto|]. split; [tauto|].
  split; [intros [E|[]]; discriminate E|vm_compute; reflexivity].
Qed.
Print Assumptions C64_new_rows_refuted.

(** When no variable is left the total probability is not returned. *)
Theorem C64_nothing_left_refuted :
  exists l varis cond K, vec_ok l varis cond /\ lists_scopes K cond /\
    (forall a, marg (varis ++ K) (pmass (l ++ cond)) a = 1%Qc) /\ variable_elim_cond l varis cond = Ok None.
Proof.
  exists [Fx], [vx], [Ph], [vh]. split; [ex_vec|]. split; [apply lists_h|]. split; [|vm_compute; reflexivity].
  intros a. apply Qc_is_canon. vm_compute. reflexivity.
Qed.
Print Assumptions C64_nothing_left_refuted.

(** Rows of the conditioning CPMs that do not exclude each other are counted more than once. *)
Theorem C64_repeated_rows_refuted :
  exists l varis cond K M a, fit_list (l ++ cond) /\ Forall has_p (l ++ cond) /\ ve_ok l varis /\ lists_scopes K cond /\
    (forall v, in_scopes cond v -> exists N, In N cond /\ In v (c_vars N) /\ basic_in N v) /\
    (forall v, In v varis -> ~ exists N, In N cond /\ In (v_name v) (names (c_vars N))) /\
    variable_elim_cond l varis cond = Ok (Some M) /\ mass M a <> marg (varis ++ K) (pmass (l ++ cond)) a.
Proof.
  destruct (variable_elim_cond [Fx] [] [mkCpm [vh] 1 [[0]; [0]; [1]] [q 1 4; q 1 2; q 1 4]]) as [[M|]|e] eqn:E; [|vm_compute in E; discriminate E|vm_compute in E; discriminate E].
  exists [Fx], [], [mkCpm [vh] 1 [[0]; [0]; [1]] [q 1 4; q 1 2; q 1 4]], [vh], M, (jt 0 0 0 0).
  split; [apply (fit_list_g ex_g); [ex_vars|reflexivity|reflexivity]|]. split; [repeat (constructor; [reflexivity|]); constructor|].
  split; [|split; [apply lists_h|split; [|split; [intros v []|split; [exact E|]]]]].
  - split; [apply (fit_list_g ex_g); [ex_vars|reflexivity|reflexivity]|]. split; [repeat (constructor; [reflexivity|]); constructor|].
    split; [intros v []|]. split; [intros v []|constructor].
  - intros v (N & [<-|[]] & [<-|[]]). eexists. split; [left; reflexivity|]. split; [left; reflexivity|]. apply basic_b_ok. vm_compute. reflexivity.
  - assert (V : view (Ok M) = Ok ([vx], 1%nat, [[0]; [0]; [1]; [1]], [9 # 40; 1 # 20; 41 # 40; 9 # 20]%Q)).
    { enough (X : oview (Ok (Some M)) = Ok (Some (Ok ([vx], 1%nat, [[0]; [0]; [1]; [1]], [9 # 40; 1 # 20; 41 # 40; 9 # 20]%Q)))) by (cbn [oview] in X; congruence).
      rewrite <- E. vm_compute. reflexivity. }
    intros X. apply (f_equal this) in X. revert X.
    assert (Y : this (mass M (jt 0 0 0 0)) = (11 # 40)%Q).
    { destruct M as [vars nch C p]. cbn [view c_vars c_nch c_C c_p] in V. injection V as V1 V2 V3 V4. subst.
      destruct p as [|p1 [|p2 [|p3 [|p4 [|]]]]]; try discriminate V4. cbn [map] in V4. injection V4 as P1 P2 P3 P4.
      unfold mass. cbn [c_vars c_C weights c_p combine filter fst].
      change (row_match [vx] [0] (jt 0 0 0 0)) with true. change (row_match [vx] [1] (jt 0 0 0 0)) with false. cbv iota. cbn [map snd qsum fold_right].
      unfold Qcplus. cbn [this Q2Qc]. rewrite P1, P2. vm_compute. reflexivity. }
    rewrite Y. vm_compute. discriminate.
Qed.
Print Assumptions C64_repeated_rows_refuted.

(** Without conditioning CPMs there is no product to go through. *)
Theorem C64_no_condition_refuted :
  forall l varis, exists e, variable_elim_cond l varis [] = Err e.
Proof. intros l varis. eexists. unfold variable_elim_cond. cbn. reflexivity. Qed.
Print Assumptions C64_no_condition_refuted.
