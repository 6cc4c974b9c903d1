(** Final theorems about CPMs with samples: conditioning (C67), products and elimination (C68),
    estimates (C69) and likelihood weighting (C70). *)
From Coq Require Import ZArith List String Bool Arith Lia QArith Qcanon Permutation.
From Verif Require Import Py PyFacts Num Vari VariFacts Cpm CpmFacts SpecCpm CpmCond CpmProd CpmSum CpmMarg CpmElim CpmProb VeCond SpecVe VeFacts Mcs SpecMcs Hybrid SpecHyb HybFacts HybEst PropCpm PropProd PropVe.
Import ListNotations.
Open Scope string_scope.
Open Scope Z_scope.
Open Scope list_scope.

(** * Example: hazard h, components x and y, system s of which only the failures by x are known.
    Three samples with the numbers 0, 1, 2. *)
Definition j (h x y s : Z) : joint := fun n => if String.eqb n "h" then h else if String.eqb n "x" then x else if String.eqb n "y" then y else s.
Definition G3 : list joint := [j 0 0 0 0; j 0 1 2 1; j 1 1 1 1].
Definition I3 : list Z := [0; 1; 2].
Definition Mt := mkCpm [vs; vx; vy] 1 [[0; 0; 6]] [q 1 1].
Definition sampled_at (G : list joint) (c : cpm) (qs : list Qc) : hcpm := mkH c (map (row_at (c_vars c)) G) qs [] (map Z.of_nat (seq 0 (List.length G))).
Definition S3 := sampled_at G3.
Definition HPh := S3 Ph [q 3 4; q 3 4; q 1 4].
Definition HFx := S3 Fx [q 1 10; q 9 10; q 1 2].
Definition HFy := S3 Fy [q 1 5; q 1 2; q 2 5].
Definition HMt := S3 Mt [q 1 1; q 1 1; q 1 1].
Definition net3 := [HPh; HFx; HFy; HMt].

Definition hview (r : res hcpm) : res (list variable * list (list Z) * list Q * (list (list Z) * list Q * list Q * list Z)) :=
  match r with
  | Ok M => Ok (c_vars (h_c M), c_C (h_c M), map this (c_p (h_c M)), (h_Cs M, map this (h_q M), map this (h_ps M), h_idx M))
  | Err e => Err e
  end.
Definition pview (r : res (Qc * Qc)) : res (Q * Q) := match r with Ok (x, y) => Ok (this x, this y) | Err e => Err e end.

Lemma pview_ok r p y : pview r = Ok (this p, y) -> exists c, r = Ok (p, c) /\ this c = y.
Proof.
  destruct r as [[x c]|]; [|discriminate]. cbn [pview]. intros H. assert (X : this x = this p) by congruence. exists c. split; [|congruence].
  do 2 f_equal. apply Qc_is_canon. rewrite X. reflexivity.
Qed.

Definition basic_b1 (v : variable) (x : Z) : bool :=
  (0 <=? x) && (x <? nvals v) && match states_of v x with [y] => y =? x | _ => false end.
Lemma basic_b1_ok v x : basic_b1 v x = true -> basic_state v x.
Proof.
  unfold basic_b1. rewrite !andb_true_iff. intros [[H1 H2] H3]. split; [lia|]. destruct (states_of v x) as [|y [|]]; try discriminate.
  apply Z.eqb_eq in H3. subst y. intros y. cbn. intuition.
Qed.
Lemma basic_samples_b G vars : forallb (fun a => forallb (fun v => basic_b1 v (a (v_name v))) vars) G = true -> basic_samples G vars.
Proof. intros H a v Ha Hv. rewrite forallb_forall in H. specialize (H a Ha). rewrite forallb_forall in H. apply basic_b1_ok. auto. Qed.
Lemma basic_ev_b g scope vs codes : Forall (fun v => v = g (v_name v)) scope -> Forall (fun v => v = g (v_name v)) vs ->
  (List.length vs =? List.length codes)%nat && nodup_names (names vs) && forallb (fun vc => basic_b1 (fst vc) (snd vc)) (combine vs codes) = true ->
  basic_ev scope vs codes.
Proof.
  intros A B. rewrite !andb_true_iff, Nat.eqb_eq. intros [[H1 H2] H3]. split; auto. split; [apply nodup_names_ok; auto|]. split; [eapply agree_g; eauto|].
  intros v c Hin _. rewrite forallb_forall in H3. apply basic_b1_ok. exact (H3 _ Hin).
Qed.
Lemma I3_nodup : NoDup I3.
Proof. repeat constructor; cbn; intuition discriminate. Qed.
Ltac ex_sampled := split; [reflexivity|]; split; [reflexivity|]; split; [reflexivity|]; left; reflexivity.

(** * C67: conditioning *)
(** The samples stay.  Their target weights become the probability of the sample with the evidence
    put in: times the sampling weight if a child is observed, alone if only parents are.  Without
    an observed variable in scope they become the sampling weights. *)
Theorem C67_condition :
  forall I G M vs codes, wf_cpm (h_c M) -> has_p (h_c M) -> basic_ev (c_vars (h_c M)) vs codes ->
    sampled I G M -> basic_samples G (c_vars (h_c M)) -> List.length I = List.length G -> G <> [] -> c_vars (h_c M) <> [] ->
    exists c' ps, condition (h_c M) (Vars vs) (map SI codes) = Ok c' /\
      h_condition M (Vars vs) (map SI codes) = Ok (mkH c' (h_Cs M) (h_q M) ps (h_idx M)) /\ List.length ps = List.length G /\
      forall i, (i < List.length G)%nat -> let b := evidence vs codes (nth i G (fun _ => 0)) in
        nth i ps 0%Qc = if touches vs (children (h_c M)) then (mass (h_c M) b * nth i (h_q M) 0)%Qc
                        else if touches vs (c_vars (h_c M)) then mass (h_c M) b else nth i (h_q M) 0%Qc.
Proof. exact h_condition_basic. Qed.
Print Assumptions C67_condition.

Example C67_condition_ex :
  wf_cpm (h_c HFx) /\ has_p (h_c HFx) /\ basic_ev (c_vars (h_c HFx)) [vh] [1] /\ sampled I3 G3 HFx /\ basic_samples G3 (c_vars (h_c HFx)) /\
  hview (h_condition HPh (Vars [vh]) [SI 1]) =
    Ok ([vh], [[1]], [1 # 4]%Q, ([[0]; [0]; [1]], [3 # 4; 3 # 4; 1 # 4]%Q, [3 # 16; 3 # 16; 1 # 16]%Q, I3)) /\
  hview (h_condition HFx (Vars [vh]) [SI 1]) =
    Ok ([vx; vh], [[0; 1]; [1; 1]], [1 # 2; 1 # 2]%Q, ([[0; 0]; [1; 0]; [1; 1]], [1 # 10; 9 # 10; 1 # 2]%Q, [1 # 2; 1 # 2; 1 # 2]%Q, I3)) /\
  hview (h_condition HMt (Vars [vh]) [SI 1]) =
    Ok ([vs; vx; vy], [[0; 0; 6]], [1 # 1]%Q, ([[0; 0; 0]; [1; 1; 2]; [1; 1; 1]], [1 # 1; 1 # 1; 1 # 1]%Q, [1 # 1; 1 # 1; 1 # 1]%Q, I3)).
Proof.
  split; [apply wf_b_ok; [ex_all|vm_compute; reflexivity]|]. split; [reflexivity|].
  split; [apply (basic_ev_b ex_g); [ex_all|ex_all|vm_compute; reflexivity]|]. split; [ex_sampled|]. split; [apply basic_samples_b; vm_compute; reflexivity|].
  split; [vm_compute; reflexivity|]. split; vm_compute; reflexivity.
Qed.

(** Conditioning does not compose: a second condition on a variable out of scope forgets the
    weights of the first. *)
Theorem C67_twice_refuted :
  exists M M1 M2 M12, wf_cpm (h_c M) /\ sampled I3 G3 M /\
    h_condition M (Vars [vh]) [SI 1] = Ok M1 /\ h_condition M1 (Vars [vy]) [SI 0] = Ok M2 /\
    h_condition M (Vars [vh; vy]) [SI 1; SI 0] = Ok M12 /\ h_c M2 = h_c M12 /\ h_ps M2 <> h_ps M12 /\ h_ps M2 = h_q M.
Proof.
  exists HFx. do 3 eexists. split; [apply wf_b_ok; [ex_all|vm_compute; reflexivity]|]. split; [ex_sampled|].
  split; [cbv; reflexivity|]. split; [cbv; reflexivity|]. split; [cbv; reflexivity|].
  split; [apply (f_equal (fun x => x)); reflexivity|]. split; [|reflexivity].
  intros H. apply (f_equal (map this)) in H. cbv in H. discriminate H.
Qed.
Print Assumptions C67_twice_refuted.

(** * C68: products and elimination *)
(** CPMs that hold the same samples multiply weight by weight, sample by sample. *)
Theorem C68_product :
  forall I G M1 M2 c, NoDup I -> List.length I = List.length G -> G <> [] ->
    wf_cpm (h_c M1) -> wf_cpm (h_c M2) -> agree (c_vars (h_c M1)) (c_vars (h_c M2)) -> disjoint_children (h_c M1) (h_c M2) ->
    sampled I G M1 -> sampled I G M2 -> basic_samples G (c_vars (h_c M1)) -> basic_samples G (c_vars (h_c M2)) ->
    c_vars (h_c M1) <> [] -> c_vars (h_c M2) <> [] -> product (h_c M1) (h_c M2) = Ok c ->
    exists M, h_product M1 M2 = Ok M /\ h_c M = c /\ sampled I G M /\
      forall i, (i < List.length G)%nat ->
        nth i (h_q M) 0%Qc = (nth i (h_q M1) 0 * nth i (h_q M2) 0)%Qc /\
        nth i (target_of M) 0%Qc = (nth i (target_of M1) 0 * nth i (target_of M2) 0)%Qc.
Proof.
  intros I G M1 M2 c NI LI NG W1 W2 A D S1 S2 B1 B2 V1 V2 P.
  destruct (h_product_ok I G NI LI NG M1 M2 c _ _ _ _ W1 W2 (conj A D) (holds_self I G M1 S1) (holds_self I G M2 S2) B1 B2 V1 V2 P) as (M & E & X & Y & Z).
  exists M. split; auto.
Qed.
Print Assumptions C68_product.

Example C68_product_ex :
  wf_cpm Ph /\ wf_cpm Fx /\ agree (c_vars Ph) (c_vars Fx) /\ disjoint_children Ph Fx /\ sampled I3 G3 HPh /\ basic_samples G3 (c_vars Ph) /\
  hview (h_product HPh (mkH Fx (h_Cs HFx) (h_q HFx) [q 1 2; q 1 2; q 1 2] I3)) =
    Ok ([vh; vx], [[0; 0]; [1; 0]; [0; 1]; [1; 1]], [3 # 40; 1 # 8; 27 # 40; 1 # 8]%Q,
        ([[0; 0]; [0; 1]; [1; 1]], [3 # 40; 27 # 40; 1 # 8]%Q, [3 # 8; 3 # 8; 1 # 8]%Q, I3)).
Proof.
  split; [apply wf_b_ok; [ex_all|vm_compute; reflexivity]|]. split; [apply wf_b_ok; [ex_all|vm_compute; reflexivity]|].
  split; [apply (agree_g ex_g); ex_all|]. split; [apply disj_b_ok; vm_compute; reflexivity|].
  split; [ex_sampled|]. split; [apply basic_samples_b; vm_compute; reflexivity|]. vm_compute. reflexivity.
Qed.

(** Elimination returns the CPM of the elimination without samples, and the product of the weights of
    all CPMs, whatever is eliminated. *)
Theorem C68_elim :
  forall I G l vars c, NoDup I -> List.length I = List.length G -> G <> [] -> ve_ok (map h_c l) vars ->
    (forall M, In M l -> sampled I G M /\ basic_samples G (c_vars (h_c M)) /\ c_vars (h_c M) <> []) ->
    variable_elim (map h_c l) vars = Ok c ->
    exists M, h_variable_elim l vars = Ok M /\ h_c M = c /\ sampled I G M /\
      forall i, (i < List.length G)%nat ->
        nth i (h_q M) 0%Qc = qprod (map (fun N => nth i (h_q N) 0%Qc) l) /\
        nth i (target_of M) 0%Qc = qprod (map (fun N => nth i (target_of N) 0%Qc) l).
Proof.
  intros I G l vars c NI LI NG V R E. destruct (h_variable_elim_ok I G NI LI NG l vars c V R E) as (M & EM & X & Y & Z).
  exists M. split; auto.
Qed.
Print Assumptions C68_elim.

Lemma net3_ready : forall M, In M net3 -> sampled I3 G3 M /\ basic_samples G3 (c_vars (h_c M)) /\ c_vars (h_c M) <> [].
Proof.
  intros M [<-|[<-|[<-|[<-|[]]]]]; (split; [ex_sampled|]; split; [apply basic_samples_b; vm_compute; reflexivity|discriminate]).
Qed.
Lemma net3_ve : ve_ok (map h_c net3) [vh; vx; vy].
Proof.
  split; [apply (fit_list_g ex_g); [ex_vars|reflexivity|reflexivity]|]. split; [repeat (constructor; [reflexivity|]); constructor|]. split; [|split].
  - intros v [<-|[<-|[<-|[]]]]; [exists Ph|exists Fx|exists Fy]; (split; [cbn; auto|]; split; [cbn; auto|]; apply basic_b_ok; vm_compute; reflexivity).
  - intros v [<-|[<-|[<-|[]]]]; [exists Ph|exists Fx|exists Fy]; cbn; auto.
  - apply nodup_names_ok. reflexivity.
Qed.
Example C68_elim_ex :
  ve_ok (map h_c net3) [vh; vx; vy] /\ (forall M, In M net3 -> sampled I3 G3 M /\ basic_samples G3 (c_vars (h_c M)) /\ c_vars (h_c M) <> []) /\
  view (variable_elim (map h_c net3) [vh; vx; vy]) = Ok ([vs], 1%nat, [[0]], [1 # 5]%Q) /\
  hview (h_variable_elim net3 [vh; vx; vy]) =
    Ok ([vs], [[0]], [1 # 5]%Q, ([[0]; [1]; [1]], [3 # 200; 27 # 80; 1 # 20]%Q, [3 # 200; 27 # 80; 1 # 20]%Q, I3)).
Proof. split; [exact net3_ve|]. split; [exact net3_ready|]. split; vm_compute; reflexivity. Qed.

(** A sample of the CPM with fewer variables that the other does not have is an error. *)
Theorem C68_missing :
  forall M1 M2 i k, (List.length (c_vars (h_c M1)) <= List.length (c_vars (h_c M2)))%nat ->
    nth_error (h_idx M1) i = Some k -> (i < List.length (h_Cs M1))%nat -> ~ In k (h_idx M2) ->
    c_vars (h_c M1) <> [] -> h_Cs M2 <> [] -> c_vars (h_c M2) <> [] -> forall M, h_product M1 M2 <> Ok M.
Proof.
  intros M1 M2 i k L K Hi N V1 C2 V2 M. unfold h_product, ncols. destruct (Nat.ltb_spec (List.length (c_vars (h_c M2))) (List.length (c_vars (h_c M1)))); [lia|].
  eapply h_product_ord_missing; eauto.
  - unfold no_samples. destruct (h_Cs M1); [cbn in Hi; lia|]. destruct (c_vars (h_c M1)); [congruence|auto].
  - unfold no_samples. destruct (h_Cs M2); [congruence|]. destruct (c_vars (h_c M2)); [congruence|auto].
Qed.
Print Assumptions C68_missing.
Example C68_missing_ex :
  h_product HPh (mkH Fx [[0; 0]; [1; 0]; [1; 1]] [q 1 10; q 9 10; q 1 2] [] [0; 1; 7]) = Err IndexError.
Proof. vm_compute. reflexivity. Qed.

(** Multiplying with a CPM without samples drops all samples. *)
Theorem C68_dropped :
  forall M1 M2 M, h_product M1 M2 = Ok M -> h_Cs M1 = [] \/ h_Cs M2 = [] ->
    h_Cs M = [] /\ h_q M = [] /\ h_ps M = [] /\ h_idx M = [].
Proof. intros M1 M2 M H D. apply (h_product_dropped M1 M2); auto. unfold no_samples. destruct D as [->| ->]; auto. Qed.
Print Assumptions C68_dropped.
Example C68_dropped_ex :
  hview (h_product HPh (mkH Fx [] [] [] [])) =
    Ok ([vh; vx], [[0; 0]; [1; 0]; [0; 1]; [1; 1]], [3 # 40; 1 # 8; 27 # 40; 1 # 8]%Q, ([], [], [], [])).
Proof. vm_compute. reflexivity. Qed.

Definition Fxh := mkCpm [vx; vh] 1 (c_C Fx) [q 1 20; q 9 20; q 1 4; q 1 4].
Definition HFxh := S3 Fxh [q 1 10; q 9 10; q 1 2].
Definition ok_h (r : res hcpm) : hcpm := match r with Ok M => M | Err _ => HPh end.
Definition ok_c (r : res cpm) : cpm := match r with Ok M => M | Err _ => Ph end.
(** Merged CPMs hold the samples of both, if both have target weights or neither has; *)
Theorem C68_merge :
  forall I1 G1 I2 G2 M1 M2, wf_cpm (h_c M1) -> c_p (h_c M1) <> [] -> has_p (h_c M2) -> c_vars (h_c M1) = c_vars (h_c M2) ->
    (forall r, In r (c_C (h_c M2)) -> In r (c_C (h_c M1))) ->
    sampled I1 G1 M1 -> sampled I2 G2 M2 -> basic_samples (G1 ++ G2) (c_vars (h_c M1)) -> G1 <> [] -> G2 <> [] ->
    List.length I1 = List.length G1 -> List.length I2 = List.length G2 -> (h_ps M1 = [] <-> h_ps M2 = []) ->
    exists M, h_merge M1 M2 = Ok M /\ sampled (I1 ++ I2) (G1 ++ G2) M /\ c_vars (h_c M) = c_vars (h_c M1) /\
      h_q M = h_q M1 ++ h_q M2 /\ target_of M = target_of M1 ++ target_of M2 /\
      forall a, mass (h_c M) a = (mass (h_c M1) a + mass (h_c M2) a)%Qc.
Proof.
  intros I1 G1 I2 G2 M1 M2 W Np Hp Ev R (A1 & A2 & A3 & A4) (B1 & B2 & B3 & B4) Bs N1 N2 L1 L2 Ps.
  destruct (C32_merge_partial _ _ W Np Hp Ev R) as (c & E & _ & Cv & _ & _ & Ms).
  assert (P : (h_ps M1 = [] /\ h_ps M2 = []) \/ (h_ps M1 <> [] /\ h_ps M2 <> [] /\ List.length (h_ps M1) = List.length G1 /\ List.length (h_ps M2) = List.length G2)).
  { destruct A4 as [A4|A4]; [left; split; auto; apply Ps; auto|]. right.
    assert (X1 : h_ps M1 <> []) by (intros X; rewrite X in A4; destruct G1; [contradiction|discriminate]).
    assert (X2 : h_ps M2 <> []) by tauto. destruct B4 as [B4|B4]; [contradiction|auto]. }
  exists (mkH c (h_Cs M1 ++ h_Cs M2) (h_q M1 ++ h_q M2) (h_ps M1 ++ h_ps M2) (h_idx M1 ++ h_idx M2)).
  assert (CS : h_Cs M1 ++ h_Cs M2 = map (row_at (c_vars c)) (G1 ++ G2)) by (rewrite A2, B2, Cv, <- Ev, map_app; auto).
  split; [|split; [|split; [|split; [|split]]]]; auto.
  - unfold h_merge. rewrite E. cbn [bind].
    assert (X : no_samples M1 = no_samples M2).
    { unfold no_samples. rewrite A2, B2, <- Ev. destruct G1; [contradiction|]. destruct G2; [contradiction|]. reflexivity. }
    rewrite X, Bool.eqb_reflx. cbn [negb]. unfold mk_h. rewrite CS, Cv, check_Cs_ok by auto. cbn [bind].
    assert (LP : h_ps M1 ++ h_ps M2 = [] \/ List.length (h_ps M1 ++ h_ps M2) = List.length (map (row_at (c_vars (h_c M1))) (G1 ++ G2))).
    { rewrite map_length, !app_length. destruct P as [(P1 & P2)|(_ & _ & P1 & P2)]; [left; rewrite P1, P2; auto|right; congruence]. }
    rewrite !check_len_ok; auto; right; rewrite map_length, !app_length; congruence.
  - unfold sampled. cbn [h_c h_Cs h_q h_ps h_idx]. rewrite A1, B1. split; auto. split; auto. rewrite !app_length. split; [congruence|].
    destruct P as [(P1 & P2)|(_ & _ & P1 & P2)]; [left; rewrite P1, P2; auto|right; congruence].
  - unfold target_of. cbn [h_q h_ps]. destruct P as [(-> & ->)|(P1 & P2 & _)]; auto. destruct (h_ps M1); [contradiction|]. destruct (h_ps M2); [contradiction|]. auto.
Qed.
Print Assumptions C68_merge.

(** one with samples and one without cannot be merged, although the CPMs without the samples can. *)
Theorem C68_merge_mixed_refuted :
  forall M1 M2 c v vs, merge (h_c M1) (h_c M2) = Ok c -> c_vars (h_c M1) = v :: vs -> c_vars (h_c M2) = v :: vs ->
    (h_Cs M1 = [] <-> h_Cs M2 <> []) -> h_merge M1 M2 = Err ValueError.
Proof.
  intros M1 M2 c v vs E V1 V2 H. unfold h_merge. rewrite E. cbn [bind]. unfold no_samples. rewrite V1, V2.
  destruct (h_Cs M1), (h_Cs M2); auto; exfalso.
  - apply (proj1 H); auto.
  - assert (X := proj2 H). discriminate X. discriminate.
Qed.
Print Assumptions C68_merge_mixed_refuted.

Example C68_merge_ex :
  wf_cpm (h_c HFxh) /\ c_p (h_c HFxh) <> [] /\ has_p (h_c HFxh) /\ sampled I3 G3 HFxh /\ basic_samples (G3 ++ G3) (c_vars (h_c HFxh)) /\
  hview (h_merge HFxh HFxh) = Ok ([vx; vh], [[0; 0]; [1; 0]; [0; 1]; [1; 1]], [1 # 10; 9 # 10; 1 # 2; 1 # 2]%Q,
     (h_Cs HFxh ++ h_Cs HFxh, map this (h_q HFxh ++ h_q HFxh), [], [0; 1; 2; 0; 1; 2])) /\
  h_merge HFxh (mkH Fxh [] [] [] []) = Err ValueError.
Proof.
  split; [apply wf_b_ok; [ex_all|vm_compute; reflexivity]|]. split; [discriminate|]. split; [vm_compute; auto|]. split; [ex_sampled|].
  split; [apply basic_samples_b; vm_compute; reflexivity|]. split; vm_compute; reflexivity.
Qed.

(** Merged CPMs hold samples of the same number twice.  As the operand with more variables they
    cannot be multiplied, although the CPMs without the samples can. *)
Theorem C68_merged_refuted :
  exists M1 M2 M N c, sampled I3 G3 M1 /\ sampled I3 G3 M2 /\ sampled I3 G3 N /\ h_merge M1 M2 = Ok M /\ wf_cpm (h_c M) /\ wf_cpm (h_c N) /\
    disjoint_children (h_c N) (h_c M) /\ agree (c_vars (h_c N)) (c_vars (h_c M)) /\ product (h_c N) (h_c M) = Ok c /\ h_product N M = Err AssertionError.
Proof.
  exists HFxh, HFxh,
    (ok_h (h_merge HFxh HFxh)), HPh, (ok_c (product Ph (h_c (ok_h (h_merge HFxh HFxh))))).
  split; [ex_sampled|]. split; [ex_sampled|]. split; [ex_sampled|].
  split; [vm_compute; reflexivity|]. split; [apply wf_b_ok; [ex_all|vm_compute; reflexivity]|].
  split; [apply wf_b_ok; [ex_all|vm_compute; reflexivity]|]. split; [|split; [|split; vm_compute; reflexivity]].
  - apply disj_b_ok. vm_compute. reflexivity.
  - apply (agree_g ex_g); ex_all.
Qed.
Print Assumptions C68_merged_refuted.

(** * C69: estimates from a CPM with samples *)
(** Method 'MLE': the probability of the event among the rows, plus the share of the weights of
    the samples in the event among [r] samples, times the probability of no row.  The samples are
    taken in [k] rounds of [r]; [repeat = 0] is one round. *)
Theorem C69_mle :
  forall I G M vs codes flag repeat k r, wf_cpm (h_c M) -> sampled I G M -> basic_samples G (c_vars (h_c M)) ->
    ev_ok (c_vars (h_c M)) vs codes -> vs <> [] -> codes_small vs codes -> (forall x, In x (h_q M) -> x <> 0%Qc) -> G <> [] ->
    (repeat = O /\ k = 1%nat /\ r = List.length G) \/ (repeat = r /\ r <> O /\ List.length G = (k * r)%nat) ->
    h_ps M <> [] \/ k = 1%nat ->
    exists cov2, get_prob_and_cov M vs (map SI codes) MLE flag repeat =
      Ok ((total (fun row => Bool.eqb (hits (c_vars (h_c M)) row vs codes) flag) (h_c M) +
           (1 - qsum (c_p (h_c M))) * (votes M G vs codes flag / qz (Z.of_nat r)))%Qc, cov2).
Proof. exact mle_ok. Qed.
Print Assumptions C69_mle.

(** Its variance in one round: that of a share of [n] trials, times the squared weight, if all
    samples have one weight; the squared distances from the mean over [n^2] if the weights differ. *)
Theorem C69_mle_variance :
  forall I G M vs codes flag prob cov2, wf_cpm (h_c M) -> sampled I G M -> basic_samples G (c_vars (h_c M)) ->
    ev_ok (c_vars (h_c M)) vs codes -> vs <> [] -> codes_small vs codes -> (forall x, In x (h_q M) -> x <> 0%Qc) -> G <> [] ->
    get_prob_and_cov M vs (map SI codes) MLE flag 0 = Ok (prob, cov2) ->
    let u := (1 - qsum (c_p (h_c M)))%Qc in
    let n := qz (Z.of_nat (List.length G)) in
    let m := (votes M G vs codes flag / n)%Qc in
    (forall w, (forall i, (i < List.length G)%nat -> wt M i = w) -> cov2 = (u * u * (w * w * (1 - m) * m / n) / (prob * prob))%Qc) /\
    ((exists i, (i < List.length G)%nat /\ far (wt M 0) (wt M i)) ->
     cov2 = (u * u * qsum (map (fun i => ((counted M G vs codes flag i - m) / n * ((counted M G vs codes flag i - m) / n))%Qc) (seq 0 (List.length G))) /
             (prob * prob))%Qc).
Proof.
  intros I G M vs codes flag prob cov2 W S B E NE CS NZ NG H. rewrite (mle_one_ok I G) in H by auto. injection H as <- <-. cbv zeta. split.
  - intros w Hw. unfold mle_var. replace (forallb _ _) with true.
    + rewrite (Hw 0%nat) by (destruct G; [congruence|cbn; lia]). reflexivity.
    + symmetry. apply forallb_forall. intros i Hi. apply in_seq in Hi. rewrite (Hw i), (Hw 0%nat) by lia. apply close_same.
  - intros (i & Hi & F). unfold mle_var. replace (forallb _ _) with false; [reflexivity|]. symmetry. apply not_true_is_false. intros X.
    rewrite forallb_forall in X. specialize (X i). rewrite (far_close _ _ F) in X. discriminate X. apply in_seq. lia.
Qed.
Print Assumptions C69_mle_variance.

(** Method 'Bayesian' without target weights and in one round: mean and squared coefficient of
    variation of the beta distribution for [k] events in [n] samples. *)
Theorem C69_bayes :
  forall I G M vs codes flag, wf_cpm (h_c M) -> sampled I G M -> basic_samples G (c_vars (h_c M)) -> ev_ok (c_vars (h_c M)) vs codes ->
    vs <> [] -> codes_small vs codes -> G <> [] -> h_ps M = [] -> (forall x, In x (h_q M) -> x <> 0%Qc) ->
    let low := total (fun row => Bool.eqb (hits (c_vars (h_c M)) row vs codes) flag) (h_c M) in
    let u := (1 - qsum (c_p (h_c M)))%Qc in
    let n := Z.of_nat (List.length G) in
    let k := Z.of_nat (List.length (filter (fun a => Bool.eqb flag (ev_match (c_vars (h_c M)) vs codes a)) G)) in
    get_prob_and_cov M vs (map SI codes) Bayesian flag 0 = Ok (post_mean low u n k, post_cov2 low u n k).
Proof. exact bayes_ok. Qed.
Print Assumptions C69_bayes.

(** the system after elimination: 1/5 known to fail, one of three samples fails *)
Definition Ms3 := mkCpm [vs] 1 [[0]] [q 1 5].
Definition Me3 := mkH Ms3 [[0]; [1]; [1]] [q 3 200; q 27 80; q 1 20] [] I3.
Definition Me3w := mkH Ms3 [[0]; [1]; [1]] [q 1 2; q 1 2; q 1 2] [q 1 2; q 1 4; q 1 1] I3.
Ltac all_nonzero := intros x Hx; cbn [h_q In] in Hx; repeat (destruct Hx as [<-|Hx]); [discriminate ..|destruct Hx].
Example C69_ex :
  wf_cpm (h_c Me3) /\ sampled I3 G3 Me3 /\ basic_samples G3 (c_vars (h_c Me3)) /\ ev_ok (c_vars (h_c Me3)) [vs] [0] /\ codes_small [vs] [0] /\
  (forall x, In x (h_q Me3) -> x <> 0%Qc) /\ (forall i, (i < 3)%nat -> wt Me3 i = 1%Qc) /\
  pview (get_prob_and_cov Me3 [vs] [SI 0] MLE true 0) = Ok (7 # 15, 32 # 147)%Q /\
  pview (get_prob_and_cov Me3 [vs] [SI 0] Bayesian true 0) = Ok (353 # 755, 20200 # 124609)%Q /\
  sampled I3 G3 Me3w /\ far (wt Me3w 0) (wt Me3w 1) /\
  pview (get_prob_and_cov Me3w [vs] [SI 1] MLE true 0) = Ok (2 # 3, 26 # 75)%Q /\
  pview (get_prob_and_cov Me3w [vs] [SI 1] MLE true 1) = Ok (2 # 1, -127 # 100)%Q.
Proof.
  split; [apply wf_b_ok; [ex_all|vm_compute; reflexivity]|]. split; [ex_sampled|].
  split; [apply basic_samples_b; vm_compute; reflexivity|].
  split; [apply basic_ev_ok, (basic_ev_b ex_g); [ex_all|ex_all|vm_compute; reflexivity]|].
  split; [intros v c [E|[]]; injection E as <- <-; reflexivity|]. split; [all_nonzero|].
  split; [intros [|[|[|i]]] Hi; [apply Qc_is_canon; vm_compute; reflexivity ..|lia]|]. split; [vm_compute; reflexivity|]. split; [vm_compute; reflexivity|].
  split; [split; [reflexivity|]; split; [reflexivity|]; split; [reflexivity|right; reflexivity]|].
  split; [split; [discriminate|right; reflexivity]|]. split; vm_compute; reflexivity.
Qed.

(** a CPM of the system with samples only *)
Definition only_samples (G : list joint) (w : list (Qc * Qc)) : hcpm :=
  mkH (mkCpm [vs] 1 [] []) (map (row_at [vs]) G) (map fst w) (map snd w) (map Z.of_nat (seq 0 (List.length G))).

(** The Bayesian method weighs each round by its number of effective samples, whatever its weights
    add up to.  Two rounds that stand for the shares 9/10 and 1/10 of the probability, and fail never
    and always: 'MLE' returns 1/10 and 'Bayesian' 1/2. *)
Definition G9 := [j 0 0 0 1; j 0 0 0 1; j 0 0 0 0; j 0 0 0 0].
Definition w9 := [(q 1 1, q 9 10); (q 1 1, q 9 10); (q 1 1, q 1 10); (q 1 1, q 1 10)].
Definition M9 := only_samples G9 w9.
Theorem C69_rounds_refuted :
  exists G w, let M := only_samples G w in wf_cpm (h_c M) /\ sampled (map Z.of_nat (seq 0 (List.length G))) G M /\ basic_samples G [vs] /\
    (forall i, (i < 2)%nat -> wt M i = q 9 10) /\ (forall i, (2 <= i < 4)%nat -> wt M i = q 1 10) /\
    map (ev_match [vs] [vs] [0]) G = [false; false; true; true] /\
    (exists c, get_prob_and_cov M [vs] [SI 0] MLE true 2 = Ok (q 1 10, c)) /\
    (exists c, get_prob_and_cov M [vs] [SI 0] Bayesian true 2 = Ok (q 1 2, c)).
Proof.
  exists G9, w9. cbv zeta. fold M9.
  split; [apply wf_b_ok; [ex_all|vm_compute; reflexivity]|]. split; [split; [reflexivity|]; split; [reflexivity|]; split; [reflexivity|right; reflexivity]|].
  split; [apply basic_samples_b; vm_compute; reflexivity|].
  split; [intros [|[|i]] Hi; [apply Qc_is_canon; vm_compute; reflexivity ..|lia]|].
  split; [intros [|[|[|[|i]]]] Hi; try lia; apply Qc_is_canon; vm_compute; reflexivity|]. split; [vm_compute; reflexivity|].
  split.
  - destruct (pview_ok (get_prob_and_cov M9 [vs] [SI 0] MLE true 2) (q 1 10) (9 # 200)) as (c & E & _); [vm_compute; reflexivity|]. exists c. exact E.
  - destruct (pview_ok (get_prob_and_cov M9 [vs] [SI 0] Bayesian true 2) (q 1 2) (50 # 251)) as (c & E & _); [vm_compute; reflexivity|]. exists c. exact E.
Qed.
Print Assumptions C69_rounds_refuted.

(** The variance of 'MLE' for samples of one weight is negative if the weights in the event have a
    mean above 1. *)
Definition G2 := [j 0 0 0 0; j 0 0 0 0].
Definition w2 := [(q 1 2, q 1 1); (q 1 2, q 1 1)].
Definition M2 := only_samples G2 w2.
Theorem C69_variance_refuted :
  exists G w p c, let M := only_samples G w in wf_cpm (h_c M) /\ sampled (map Z.of_nat (seq 0 (List.length G))) G M /\ basic_samples G [vs] /\
    get_prob_and_cov M [vs] [SI 0] MLE true 0 = Ok (p, c) /\ (c < 0)%Qc.
Proof.
  exists G2, w2.
  destruct (pview_ok (get_prob_and_cov M2 [vs] [SI 0] MLE true 0) (q 2 1) (-1 # 1)) as (c & E & L); [vm_compute; reflexivity|]. exists (q 2 1), c. cbv zeta. fold M2.
  split; [apply wf_b_ok; [ex_all|vm_compute; reflexivity]|]. split; [split; [reflexivity|]; split; [reflexivity|]; split; [reflexivity|right; reflexivity]|].
  split; [apply basic_samples_b; vm_compute; reflexivity|]. split; [exact E|].
  unfold Qclt. rewrite L. reflexivity.
Qed.
Print Assumptions C69_variance_refuted.

(** Without target weights several rounds cannot be evaluated. *)
Theorem C69_no_weights_refuted :
  exists G M, wf_cpm (h_c M) /\ sampled [0; 1; 2; 3] G M /\ h_ps M = [] /\ basic_samples G (c_vars (h_c M)) /\
    (exists r, get_prob_and_cov M [vs] [SI 0] MLE true 0 = Ok r) /\ get_prob_and_cov M [vs] [SI 0] MLE true 2 = Err IndexError /\
    get_prob_and_cov M [vs] [SI 0] Bayesian true 2 = Err IndexError.
Proof.
  exists G9, (sampled_at G9 Ms3 [q 1 2; q 1 2; q 1 2; q 1 2]).
  split; [apply wf_b_ok; [ex_all|vm_compute; reflexivity]|]. split; [ex_sampled|]. split; [reflexivity|].
  split; [apply basic_samples_b; vm_compute; reflexivity|]. split; [|split; vm_compute; reflexivity].
  destruct (pview_ok (get_prob_and_cov (sampled_at G9 Ms3 [q 1 2; q 1 2; q 1 2; q 1 2]) [vs] [SI 0] MLE true 0) (q 3 5) (1 # 9)) as (c & E & _); [vm_compute; reflexivity|].
  exists (q 3 5, c). exact E.
Qed.
Print Assumptions C69_no_weights_refuted.

(** * C70: likelihood weighting *)
(** Conditioning the CPMs of a network on evidence, eliminating variables and estimating with 'MLE':
    each sample counts with the product of the weights of all CPMs. *)
Theorem C70_estimate :
  forall I G l vs codes vars es cs l0 c, NoDup I -> List.length I = List.length G -> G <> [] ->
    ve_ok (map h_c l) vars ->
    (forall M, In M l -> sampled I G M /\ basic_samples G (c_vars (h_c M)) /\ c_vars (h_c M) <> []) ->
    (forall M, In M l -> basic_ev (c_vars (h_c M)) vs codes) ->
    (forall M i, In M l -> (i < List.length G)%nat -> nth i (h_q M) 0%Qc <> 0%Qc /\
       (touches vs (children (h_c M)) = false -> touches vs (c_vars (h_c M)) = true -> nth i (h_q M) 0%Qc = mass (h_c M) (nth i G (fun _ => 0)))) ->
    op_condition (map h_c l) (Vars vs) (map SI codes) = Ok l0 -> variable_elim l0 vars = Ok c ->
    ev_ok (c_vars c) es cs -> es <> [] -> codes_small es cs ->
    exists l' M cov2, h_op_condition l vs (map SI codes) = Ok l' /\ map h_c l' = l0 /\ h_variable_elim l' vars = Ok M /\ h_c M = c /\ sampled I G M /\
      get_prob_and_cov M es (map SI cs) MLE true 0 =
      Ok ((total (fun row => hits (c_vars c) row es cs) c + (1 - qsum (c_p c)) *
           (qsum (map (fun a => if ev_match (c_vars c) es cs a then lweights vs codes (map h_c l) a else 0%Qc) G) / qz (Z.of_nat (List.length G))))%Qc, cov2).
Proof. intros I G l vs codes vars es cs l0 c NI LI NG. exact (h_network_estimate I G NI LI NG l vs codes vars es cs l0 c). Qed.
Print Assumptions C70_estimate.

Example C70_estimate_ex :
  ve_ok (map h_c net3) [vh; vx; vy] /\ (forall M, In M net3 -> sampled I3 G3 M /\ basic_samples G3 (c_vars (h_c M)) /\ c_vars (h_c M) <> []) /\
  (forall M, In M net3 -> basic_ev (c_vars (h_c M)) [vh] [1]) /\
  (forall M i, In M net3 -> (i < 3)%nat -> nth i (h_q M) 0%Qc <> 0%Qc /\
     (touches [vh] (children (h_c M)) = false -> touches [vh] (c_vars (h_c M)) = true -> nth i (h_q M) 0%Qc = mass (h_c M) (nth i G3 (fun _ => 0)))) /\
  pview (l <- h_op_condition net3 [vh] [SI 1] ;; M <- h_variable_elim l [vh; vx; vy] ;; get_prob_and_cov M [vs] [SI 1] MLE true 0) = Ok (77 # 864, 134 # 363)%Q /\
  map (fun a => this (lweights [vh] [1%Z] (map h_c net3) a)) G3 = [5 # 2; 1 # 18; 1 # 4]%Q.
Proof.
  split; [exact net3_ve|]. split; [exact net3_ready|]. split; [|split; [|split; vm_compute; reflexivity]].
  - intros M HM. apply (basic_ev_b ex_g); [destruct HM as [<-|[<-|[<-|[<-|[]]]]]; ex_all|ex_all|vm_compute; reflexivity].
  - intros M i [<-|[<-|[<-|[<-|[]]]]] Hi; (destruct i as [|[|[|i]]]; [| | |lia]); (split; [discriminate|]); intros T1 T2; try discriminate T1; try discriminate T2;
      apply Qc_is_canon; vm_compute; reflexivity.
Qed.

(** On average over the joint states of the network these weights give the probability of the
    evidence and the event: each observed variable has its own normalised table ([es]), no other table
    ([rs]) has an observed child, and no state of the sample is impossible that the evidence makes
    possible.  The event [f] may not look at observed variables. *)
Theorem C70_unbiased :
  forall us vs codes es rs f a, observed vs es -> List.length vs = List.length codes ->
    (forall M, In M rs -> touches vs (children M) = false) ->
    (forall M b, In M rs -> (forall v, In v vs -> 0 <= b (v_name v) < nvals v) -> mass M b = 0%Qc -> mass M (evidence vs codes b) = 0%Qc) ->
    (forall b, f (evidence vs codes b) = f b) -> (forall b b', (forall n, b n = b' n) -> f b = f b') ->
    marg (us ++ vs) (fun b => pmass (es ++ rs) b * lweights vs codes (es ++ rs) b * f b)%Qc a =
    marg us (fun b => pmass (es ++ rs) (evidence vs codes b) * f b)%Qc a.
Proof. intros us vs codes es rs f a O L NC SU F FE. rewrite marg_app. apply marg_ext. intros b. apply lw_inner; auto. Qed.
Print Assumptions C70_unbiased.

Definition is0 (n : string) (b : joint) : Qc := if b n =? 0 then 1%Qc else 0%Qc.
Lemma mass_none M a : (forall row, In row (c_C M) -> row_match (c_vars M) row a = false) -> mass M a = 0%Qc.
Proof.
  intros H. unfold mass. replace (filter _ _) with (@nil (list Z * Qc)); auto. symmetry. generalize (weights M). revert H. generalize (c_C M).
  induction l as [|r l IH]; intros H [|w p]; auto. cbn [combine filter fst]. rewrite (H r (or_introl eq_refl)). apply IH. intros row Hr. apply H. right; auto.
Qed.
(** the tables of x and y are positive *)
Lemma positive_tables e M b : In M [Fx; Fy] -> (forall v, In v [vh] -> 0 <= b (v_name v) < nvals v) -> mass M b = 0%Qc -> mass M (evidence [vh] [e] b) = 0%Qc.
Proof.
  intros HM H Z. specialize (H vh (or_introl eq_refl)). change (nvals vh) with 2 in H. change (v_name vh) with "h" in H.
  assert (Hh : b "h" = 0 \/ b "h" = 1) by lia.
  destruct HM as [<-|[<-|[]]].
  - destruct (Z.eq_dec (b "x") 0) as [X|X]; [|destruct (Z.eq_dec (b "x") 1) as [X'|X']].
    + exfalso. rewrite (mass_ext Fx b (j (b "h") 0 0 0)) in Z by (intros v [<-|[<-|[]]]; auto). apply (f_equal this) in Z. destruct Hh as [-> | ->] in Z; vm_compute in Z; discriminate Z.
    + exfalso. rewrite (mass_ext Fx b (j (b "h") 1 0 0)) in Z by (intros v [<-|[<-|[]]]; auto). apply (f_equal this) in Z. destruct Hh as [-> | ->] in Z; vm_compute in Z; discriminate Z.
    + apply mass_none. intros row Hr. unfold row_match. cbn in Hr. assert (E : exists c d, row = [c; d] /\ (c = 0 \/ c = 1)) by (intuition (subst; eauto 6)).
      destruct E as (c & d & -> & Hc). cbn [c_vars Fx combine forallb fst snd]. apply andb_false_iff. left. change (evidence [vh] [e] b (v_name vx)) with (b "x").
      destruct Hc as [-> | ->]; [change (states_of vx 0) with [0]|change (states_of vx 1) with [1]]; apply not_true_is_false; intros Q; apply mem_Z_In in Q as [Q|[]]; congruence.
  - destruct (Z.eq_dec (b "y") 0) as [X|X]; [|destruct (Z.eq_dec (b "y") 1) as [X'|X']; [|destruct (Z.eq_dec (b "y") 2) as [X2|X2]]].
    + exfalso. rewrite (mass_ext Fy b (j (b "h") 0 0 0)) in Z by (intros v [<-|[<-|[]]]; auto). apply (f_equal this) in Z. destruct Hh as [-> | ->] in Z; vm_compute in Z; discriminate Z.
    + exfalso. rewrite (mass_ext Fy b (j (b "h") 0 1 0)) in Z by (intros v [<-|[<-|[]]]; auto). apply (f_equal this) in Z. destruct Hh as [-> | ->] in Z; vm_compute in Z; discriminate Z.
    + exfalso. rewrite (mass_ext Fy b (j (b "h") 0 2 0)) in Z by (intros v [<-|[<-|[]]]; auto). apply (f_equal this) in Z. destruct Hh as [-> | ->] in Z; vm_compute in Z; discriminate Z.
    + apply mass_none. intros row Hr. unfold row_match. cbn in Hr. assert (E : exists c d, row = [c; d] /\ (c = 0 \/ c = 1 \/ c = 2)) by (intuition (subst; eauto 6)).
      destruct E as (c & d & -> & Hc). cbn [c_vars Fy combine forallb fst snd]. apply andb_false_iff. left. change (evidence [vh] [e] b (v_name vy)) with (b "y").
      destruct Hc as [-> |[-> | ->]]; [change (states_of vy 0) with [0]|change (states_of vy 1) with [1]|change (states_of vy 2) with [2]]; apply not_true_is_false; intros Q; apply mem_Z_In in Q as [Q|[]]; congruence.
Qed.
Example C70_unbiased_ex :
  observed [vh] [Ph] /\ (forall M, In M [Fx; Fy] -> touches [vh] (children M) = false) /\
  (forall M b, In M [Fx; Fy] -> (forall v, In v [vh] -> 0 <= b (v_name v) < nvals v) -> mass M b = 0%Qc -> mass M (evidence [vh] [1%Z] b) = 0%Qc) /\
  this (marg ([vx; vy] ++ [vh]) (fun b => pmass [Ph; Fx; Fy] b * lweights [vh] [1%Z] [Ph; Fx; Fy] b * is0 "x" b)%Qc (fun _ => 0)) = (1 # 8)%Q.
Proof.
  split; [|split; [|split]].
  - constructor; [reflexivity|intros a; apply Qc_is_canon; vm_compute; reflexivity|intros w []|constructor].
  - intros M [<-|[<-|[]]]; reflexivity.
  - exact (positive_tables 1).
  - vm_compute. reflexivity.
Qed.

(** A state that is impossible without the evidence: x is observed, and z is x.  The weights give
    the square of the probability of the evidence. *)
Definition Px1 := mkCpm [vx] 1 [[0]; [1]] [q 1 4; q 3 4].
Definition Ms1 := mkCpm [vs; vx] 1 [[0; 0]; [1; 1]] [q 1 1; q 1 1].
Theorem C70_support_refuted :
  exists us vs codes es rs f a, observed vs es /\ List.length vs = List.length codes /\ (forall M, In M rs -> touches vs (children M) = false) /\
    (forall b, f (evidence vs codes b) = f b) /\
    this (marg (us ++ vs) (fun b => pmass (es ++ rs) b * lweights vs codes (es ++ rs) b * f b)%Qc a) = (1 # 16)%Q /\
    this (marg us (fun b => pmass (es ++ rs) (evidence vs codes b) * f b)%Qc a) = (1 # 4)%Q.
Proof.
  exists [vs], [vx], [0], [Px1], [Ms1], (is0 "s"), (fun _ => 0).
  split; [constructor; [reflexivity|intros a; apply Qc_is_canon; vm_compute; reflexivity|intros w []|constructor]|].
  split; [reflexivity|]. split; [intros M [<-|[]]; reflexivity|]. split; [intros b; reflexivity|]. split; vm_compute; reflexivity.
Qed.
Print Assumptions C70_support_refuted.

(** One child observed of a CPM with two. *)
Definition Pxy2 := mkCpm [vx; vs] 2 [[0; 0]; [0; 1]; [1; 0]; [1; 1]] [q 1 2; q 1 8; q 1 8; q 1 4].
Theorem C70_children_refuted :
  exists M us vs codes a, (forall b, marg (us ++ vs) (mass M) b = 1%Qc) /\ List.length vs = List.length codes /\
    this (marg (us ++ vs) (fun b => pmass [M] b * lweights vs codes [M] b)%Qc a) = (23 # 64)%Q /\
    this (marg us (fun b => pmass [M] (evidence vs codes b))%Qc a) = (5 # 8)%Q.
Proof.
  exists Pxy2, [vs], [vx], [0], (fun _ => 0). split; [intros b; apply Qc_is_canon; vm_compute; reflexivity|]. split; [reflexivity|].
  split; vm_compute; reflexivity.
Qed.
Print Assumptions C70_children_refuted.

(** An event on an observed variable is judged by the state before the evidence. *)
Theorem C70_event_refuted :
  exists us vs codes es rs f a, observed vs es /\ List.length vs = List.length codes /\ (forall M, In M rs -> touches vs (children M) = false) /\
    (forall M b, In M rs -> (forall v, In v vs -> 0 <= b (v_name v) < nvals v) -> mass M b = 0%Qc -> mass M (evidence vs codes b) = 0%Qc) /\
    this (marg (us ++ vs) (fun b => pmass (es ++ rs) b * lweights vs codes (es ++ rs) b * f b)%Qc a) = (9 # 16)%Q /\
    this (marg us (fun b => pmass (es ++ rs) (evidence vs codes b) * f (evidence vs codes b))%Qc a) = (3 # 4)%Q.
Proof.
  exists [vx; vy], [vh], [0], [Ph], [Fx; Fy], (is0 "h"), (fun _ => 0).
  split; [constructor; [reflexivity|intros a; apply Qc_is_canon; vm_compute; reflexivity|intros w []|constructor]|].
  split; [reflexivity|]. split; [intros M [<-|[<-|[]]]; reflexivity|]. split; [exact (positive_tables 0)|]. split; vm_compute; reflexivity.
Qed.
Print Assumptions C70_event_refuted.

(** Samples drawn outside the rows of the system, in exactly their proportion: 27 of 32 without and
    5 of 32 with the hazard.  The factor after conditioning is the probability of no row and the evidence,
    not that of no row, and the estimate exceeds the probability 1/8 of hazard and survival. *)
Definition G32 : list joint := List.repeat (j 0 1 0 1) 27 ++ List.repeat (j 1 1 0 1) 5.
Definition Msx := mkCpm [vs; vx] 1 [[0; 0]] [q 1 1].
Definition net32 := [sampled_at G32 Ph (map (mass Ph) G32); sampled_at G32 Fx (map (mass Fx) G32); sampled_at G32 Msx (map (fun _ => q 1 1) G32)].
Definition full32 := [Ph; Fx; Ms1].
Definition same3 (a b : joint) : bool := (a "h" =? b "h") && (a "x" =? b "x") && (a "s" =? b "s").
Definition count (G : list joint) (b : joint) : Qc := qz (Z.of_nat (List.length (filter (same3 b) G))).
Theorem C70_proportion_refuted :
  ve_ok (map h_c net32) [vh; vx] /\
  (forall M, In M net32 -> sampled (map Z.of_nat (seq 0 32)) G32 M /\ basic_samples G32 (c_vars (h_c M)) /\ c_vars (h_c M) <> [] /\ basic_ev (c_vars (h_c M)) [vh] [1]) /\
  (forall h x s, In h [0; 1] -> In x [0; 1] -> In s [0; 1] -> let b := j h x 0 s in
     (mass Msx b = mass Ms1 b /\ count G32 b = 0%Qc) \/ (mass Msx b = 0%Qc /\ pmass full32 b = (q 4 5 * (count G32 b / qz 32))%Qc)) /\
  this (marg [vx] (pmass full32) (j 1 0 0 1)) = (1 # 8)%Q /\
  pview (l <- h_op_condition net32 [vh] [SI 1] ;; M <- h_variable_elim l [vh; vx] ;; get_prob_and_cov M [vs] [SI 1] MLE true 0) = Ok (35 # 256, 1 # 480)%Q.
Proof.
  split; [|split; [|split; [|split; vm_compute; reflexivity]]].
  - split; [apply (fit_list_g ex_g); [ex_vars|reflexivity|reflexivity]|]. split; [repeat (constructor; [reflexivity|]); constructor|]. split; [|split].
    + intros v [<-|[<-|[]]]; [exists Ph|exists Fx]; (split; [cbn; auto|]; split; [cbn; auto|]; apply basic_b_ok; vm_compute; reflexivity).
    + intros v [<-|[<-|[]]]; [exists Ph|exists Fx]; cbn; auto.
    + apply nodup_names_ok. reflexivity.
  - intros M [<-|[<-|[<-|[]]]]; (split; [ex_sampled|]; split; [apply basic_samples_b; vm_compute; reflexivity|]; split; [discriminate|apply (basic_ev_b ex_g); [ex_all|ex_all|vm_compute; reflexivity]]).
  - intros h x s [<-|[<-|[]]] [<-|[<-|[]]] [<-|[<-|[]]]; cbv zeta; first [left; split; apply Qc_is_canon; vm_compute; reflexivity | right; split; apply Qc_is_canon; vm_compute; reflexivity].
Qed.
Print Assumptions C70_proportion_refuted.
