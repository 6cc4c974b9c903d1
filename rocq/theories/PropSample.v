(** Final theorems about sampling (C38). *)
From Coq Require Import ZArith List String Bool Arith Lia Permutation QArith Qcanon.
From Verif Require Import Py PyFacts Num Vari VariFacts Cpm CpmFacts SpecCpm CpmElim CpmProb Net SpecNet NetFacts Sample SampleFacts PropCpm PropCpm2.
Import ListNotations.
Open Scope string_scope.
Open Scope Z_scope.
Open Scope list_scope.

(** * C38 *)

(** The draw is a probability distribution over samples and exceptions. *)
Theorem C38_distribution :
  forall cpms order vars add, qsum (map fst (single_sample cpms order vars add)) = 1%Qc.
Proof. intros. apply sample_loop_total. Qed.
Print Assumptions C38_distribution.

(** When the CPMs are given parents first and no variable that has a child is
    sampled in state 0, the reported probability is the joint probability, it is
    positive, and (for CPMs with normalised rows) it is also the probability of
    drawing that sample.  What is missing: samples in which a parent is in state 0
    and CPMs given in another order, where the claim is false (see below). *)
Theorem C38_samples_partial :
  forall cpms vars add w sample fs, net_ok cpms ->
    get_sample_order cpms = (seq 0 (List.length cpms), vars, add) ->
    In (w, Ok (sample, fs)) (single_sample cpms (seq 0 (List.length cpms)) vars add) ->
    (forall M p, In M cpms -> In p (parents M) -> joint_of vars sample (v_name p) <> 0) ->
    qprod fs = pmass cpms (joint_of vars sample) /\ (0 < qprod fs)%Qc /\ (Forall normal cpms -> w = qprod fs).
Proof. exact sample_main. Qed.
Print Assumptions C38_samples_partial.

Lemma fill_mask_length mask : forall vals sample, List.length (fill_mask mask vals sample) = List.length sample.
Proof.
  induction mask as [|b mask IH]; intros vals sample; [destruct sample; reflexivity|].
  destruct b, sample as [|y sample]; cbn [fill_mask]; try reflexivity; [destruct vals; [reflexivity|]|]; cbn [List.length]; rewrite IH; reflexivity.
Qed.
Lemma put_mask_length mask vals sample s' : put_mask mask vals sample = Ok s' -> List.length s' = List.length sample.
Proof.
  unfold put_mask. destruct (negb _); [discriminate|]. cbv zeta. destruct (_ =? _)%nat.
  - intros H. injection H as <-. apply fill_mask_length.
  - destruct vals as [|x [|]]; try discriminate. intros H. injection H as <-. apply fill_mask_length.
Qed.
Lemma sample_loop_length vars add Ms : forall i sample fs w s f,
  In (w, Ok (s, f)) (sample_loop vars add i Ms sample fs) -> List.length s = List.length sample.
Proof.
  induction Ms as [|M Ms IH]; intros i sample fs w s f H; cbn [sample_loop] in H.
  - destruct H as [H|[]]. injection H as <- <- <-. reflexivity.
  - destruct (bind (cond_sampled M vars sample) draw) as [rows|e]; [|destruct H as [H|[]]; discriminate].
    apply in_flat_map in H as ([wr r] & _ & H). cbn [fst snd] in H.
    destruct (put_mask _ _ sample) as [s'|e'] eqn:E; [|destruct H as [H|[]]; discriminate].
    apply in_map_iff in H as ([w' o] & Ho & H). cbn [fst snd] in Ho. injection Ho as <- ->.
    apply IH in H. rewrite H. eapply put_mask_length; eauto.
Qed.

(** What is stored of such a sample with is_scalar=True: under every variable its sampled
    state, and as probability the joint probability of the sample.  What is missing: as above. *)
Theorem C38_stored_partial :
  forall cpms vars add w sample fs, net_ok cpms ->
    get_sample_order cpms = (seq 0 (List.length cpms), vars, add) ->
    In (w, Ok (sample, fs)) (single_sample cpms (seq 0 (List.length cpms)) vars add) ->
    (forall M p, In M cpms -> In p (parents M) -> joint_of vars sample (v_name p) <> 0) ->
    List.length (fst (mcs_row true (sample, fs))) = List.length (mcs_vars vars) /\
    (forall v s, In (v, s) (combine (mcs_vars vars) (fst (mcs_row true (sample, fs)))) <-> In (v, s) (combine vars sample)) /\
    snd (mcs_row true (sample, fs)) = [pmass cpms (joint_of vars sample)].
Proof.
  intros cpms vars add w sample fs N O H P.
  assert (L : List.length sample = List.length vars).
  { unfold single_sample in H. apply sample_loop_length in H. rewrite map_length in H. exact H. }
  unfold mcs_row, mcs_vars. cbn [fst snd rev app]. split; [rewrite !rev_length; exact L|]. split.
  - intros v s. assert (E : combine (rev vars) (rev sample) = rev (combine vars sample)); [|rewrite E, <- in_rev; reflexivity].
    clear -L. revert sample L. induction vars as [|x vars IH]; intros [|y sample] L; cbn in L; try discriminate; [reflexivity|].
    cbn [rev combine]. rewrite SampleFacts.combine_app_eq by (rewrite !rev_length; lia). rewrite IH by lia. reflexivity.
  - destruct (C38_samples_partial cpms vars add w sample fs N O H P) as [E _]. rewrite E. reflexivity.
Qed.
Print Assumptions C38_stored_partial.

(** ** witnesses: x in three states, y given x *)
Definition sv (n : string) : variable := mk_variable n [VNum 0%Qc; VNum 1%Qc; VNum (Q2Qc 2)] None.
Definition sX : cpm := mkCpm [sv "x"] 1 [[0]; [1]; [2]] [Q2Qc (1 # 4); Q2Qc (1 # 4); Q2Qc (1 # 2)].
Definition sY : cpm := mkCpm [sv "y"; sv "x"] 1 [[0; 0]; [1; 1]; [2; 1]; [0; 2]; [2; 2]]
  [1%Qc; Q2Qc (1 # 3); Q2Qc (2 # 3); Q2Qc (1 # 2); Q2Qc (1 # 2)].
Definition snet : list cpm := [sX; sY].
Definition runs (cpms : list cpm) : list (Q * option (list Z * list Q)) :=
  let '(o, vs, ad) := get_sample_order cpms in
  map (fun wo => (this (fst wo), match snd wo with Ok (s, fs) => Some (s, map this fs) | Err _ => None end)) (single_sample cpms o vs ad).

Lemma sv_ok n : var_ok (sv n).
Proof. eapply mk_variable_ok. reflexivity. Qed.
Lemma net_ok_b cpms : (forall M, In M cpms -> Forall (fun v => v = sv (v_name v)) (c_vars M)) ->
  forallb wf_b cpms = true ->
  (forall M, In M cpms -> lists_states M /\ NoDup (c_C M) /\ forallb (fun x => qc_leb 0%Qc x) (c_p M) = true) ->
  one_definition cpms -> net_ok cpms.
Proof.
  intros HV HW H H1. split; [|split; [|auto]].
  - intros M HM. specialize (HV M HM). destruct (H M HM) as (A & B & D). rewrite forallb_forall in HW. specialize (HW M HM).
    split; [apply wf_b_ok; [|auto]|split; [apply has_p_b; auto|]].
    + eapply Forall_impl; [|exact HV]. intros v ->. apply sv_ok.
    + split; [auto|]. split; [auto|]. rewrite forallb_forall in D. apply Forall_forall. intros x Hx. apply qc_leb_le. auto.
  - intros M M' HM HM' v v' Hv Hv' E. pose proof (HV M HM) as F. pose proof (HV M' HM') as F'. rewrite Forall_forall in F, F'.
    rewrite (F v Hv), (F' v' Hv'). congruence.
Qed.

Lemma runs_in cpms o vs ad k q s qs : get_sample_order cpms = (o, vs, ad) -> nth_error (runs cpms) k = Some (q, Some (s, qs)) ->
  exists w fs, In (w, Ok (s, fs)) (single_sample cpms o vs ad) /\ this w = q /\ map this fs = qs.
Proof.
  unfold runs. intros -> H. rewrite nth_error_map in H. destruct (nth_error _ k) as [[w [[s' fs]|e]]|] eqn:E; try discriminate.
  cbn in H. injection H as <- <- <-. exists w, fs. split; auto. eapply nth_error_In, E.
Qed.
Lemma one_def_2 M M' : (forall n, In n (names (children M)) -> In n (names (children M')) -> False) -> one_definition [M; M'].
Proof.
  intros H [|[|i]] [|[|j]] n (A & HA & IA) (B & HB & IB); auto; cbn in HA, HB;
    repeat match goal with X : nth_error [] ?k = Some _ |- _ => destruct k; discriminate X end; exfalso;
    injection HA as <-; injection HB as <-; eauto.
Qed.
Lemma snet_ok : net_ok snet.
Proof.
  apply net_ok_b.
  - intros M [<- |[<- |[]]]; repeat constructor.
  - reflexivity.
  - intros M [<- |[<- |[]]]; (split; [apply lists_states_b; reflexivity|split; [|reflexivity]]);
      repeat (constructor; [cbn; intuition discriminate|]); constructor.
  - apply one_def_2. cbn. intros n [<- |[]] [X|[]]. discriminate.
Qed.
(** [normal] checked state by state, for one child and at most one parent *)
Lemma normal_1 M y x : c_vars M = [y; x] -> c_nch M = 1%nat -> v_name y <> v_name x ->
  (forall s, 0 <= s < nvals x -> marg [y] (mass M) (fun _ => s) = 1%Qc) -> normal M.
Proof.
  intros HV Hn Hne H a Ha. unfold children, parents in *. rewrite HV, Hn in *. cbn [firstn skipn] in *.
  rewrite <- (H (a (v_name x))); [|apply Ha; left; auto]. cbn [marg]. f_equal. apply map_ext. intros z.
  apply mass_ext. rewrite HV. unfold set_joint. intros v [<- |[<- |[]]].
  - rewrite String.eqb_refl. auto.
  - destruct (String.eqb_spec (v_name x) (v_name y)); congruence.
Qed.
Lemma normal_0 M y : c_vars M = [y] -> c_nch M = 1%nat -> marg [y] (mass M) (fun _ => 0) = 1%Qc -> normal M.
Proof.
  intros HV Hn H a Ha. unfold children in *. rewrite HV, Hn. cbn [firstn]. rewrite <- H. cbn [marg]. f_equal.
  apply map_ext. intros z. apply mass_ext. rewrite HV. unfold set_joint. intros v [<- |[]]. rewrite String.eqb_refl. auto.
Qed.
Lemma snet_normal : Forall normal snet.
Proof.
  constructor; [|constructor; [|constructor]].
  - eapply normal_0; [reflexivity|reflexivity|]. apply Qc_is_canon. vm_compute. reflexivity.
  - eapply normal_1; [reflexivity|reflexivity|discriminate|]. intros s H. change (0 <= s < 3) in H.
    assert (E : s = 0 \/ s = 1 \/ s = 2) by lia. destruct E as [->|[->| ->]]; apply Qc_is_canon; vm_compute; reflexivity.
Qed.

(** x = 1 and y = 2, reported with probability 1/4 * 2/3 *)
Example C38_samples_partial_ex :
  net_ok snet /\ Forall normal snet /\
  exists add w fs, get_sample_order snet = (seq 0 (List.length snet), [sv "x"; sv "y"], add) /\
    In (w, Ok ([1; 2], fs)) (single_sample snet (seq 0 (List.length snet)) [sv "x"; sv "y"] add) /\
    (forall M p, In M snet -> In p (parents M) -> joint_of [sv "x"; sv "y"] [1; 2] (v_name p) <> 0) /\
    map this fs = [1 # 4; 2 # 3]%Q.
Proof.
  split; [apply snet_ok|]. split; [apply snet_normal|].
  destruct (runs_in snet [0; 1]%nat [sv "x"; sv "y"] [0; 1]%nat 6 (1 # 6)%Q [1; 2] [1 # 4; 2 # 3]%Q) as (w & fs & H & Hw & Hf); [vm_compute; reflexivity|vm_compute; reflexivity|].
  exists [0; 1]%nat, w, fs. split; [vm_compute; reflexivity|]. split; [exact H|]. split; [|exact Hf].
  intros M p [<- |[<- |[]]].
  - intros [].
  - intros [<- |[]]. discriminate.
Qed.

(** x = 1 and y = 2 are stored as y = 2, x = 1 with probability 1/6 *)
Example C38_stored_partial_ex :
  exists vars add w sample fs, net_ok snet /\
    get_sample_order snet = (seq 0 (List.length snet), vars, add) /\
    In (w, Ok (sample, fs)) (single_sample snet (seq 0 (List.length snet)) vars add) /\
    (forall M p, In M snet -> In p (parents M) -> joint_of vars sample (v_name p) <> 0) /\
    fst (mcs_row true (sample, fs)) = [2; 1] /\ map v_name (mcs_vars vars) = ["y"; "x"] /\
    map this (snd (mcs_row true (sample, fs))) = [1 # 6]%Q.
Proof.
  destruct C38_samples_partial_ex as (A & _ & ad & w & fs & H1 & H2 & H3 & H4).
  exists [sv "x"; sv "y"], ad, w, [1; 2], fs. repeat (split; [assumption || reflexivity|]).
  destruct (C38_stored_partial snet _ ad w [1; 2] fs A H1 H2 H3) as (_ & _ & E). rewrite E. vm_compute. reflexivity.
Qed.

(** a parent in state 0 does not count as sampled: x = 0 with y = 1, which has
    probability 0, is drawn and reported with probability 1/12 *)
Theorem C38_state0_refuted :
  exists cpms vars add w sample fs, net_ok cpms /\ Forall normal cpms /\
    get_sample_order cpms = (seq 0 (List.length cpms), vars, add) /\
    In (w, Ok (sample, fs)) (single_sample cpms (seq 0 (List.length cpms)) vars add) /\
    (0 < w)%Qc /\ (0 < qprod fs)%Qc /\ pmass cpms (joint_of vars sample) = 0%Qc.
Proof.
  destruct (runs_in snet [0; 1]%nat [sv "x"; sv "y"] [0; 1]%nat 1 (1 # 36)%Q [0; 1] [1 # 4; 1 # 3]%Q) as (w & fs & H & Hw & Hf); [vm_compute; reflexivity|vm_compute; reflexivity|].
  exists snet, [sv "x"; sv "y"], [0; 1]%nat, w, [0; 1], fs. split; [apply snet_ok|]. split; [apply snet_normal|].
  split; [vm_compute; reflexivity|]. split; [exact H|]. split; [|split].
  - unfold Qclt. rewrite Hw. reflexivity.
  - destruct fs as [|f1 [|f2 [|]]]; try discriminate. injection Hf as E1 E2. 
    rewrite <- (Qcmult_0_l 0). cbn [qprod]. rewrite Qcmult_1_r. 
    assert (0 < f1)%Qc by (unfold Qclt; rewrite E1; reflexivity). assert (0 < f2)%Qc by (unfold Qclt; rewrite E2; reflexivity).
    rewrite Qcmult_0_l. rewrite <- (Qcmult_0_l f2). apply Qcmult_lt_compat_r; auto.
  - apply Qc_is_canon. vm_compute. reflexivity.
Qed.
Print Assumptions C38_state0_refuted.

(** the sampling order is computed but not followed: with y = 3 - x given before x,
    no variable is ever in state 0, and x = y = 2 is drawn, which has probability 0 *)
Definition oX : cpm := mkCpm [sv "x"] 1 [[1]; [2]] [Q2Qc (1 # 4); Q2Qc (3 # 4)].
Definition oY : cpm := mkCpm [sv "y"; sv "x"] 1 [[0; 0]; [2; 1]; [1; 2]] [1%Qc; 1%Qc; 1%Qc].
Lemma onet_ok : net_ok [oY; oX].
Proof.
  apply net_ok_b.
  - intros M [<- |[<- |[]]]; repeat constructor.
  - reflexivity.
  - intros M [<- |[<- |[]]]; (split; [apply lists_states_b; reflexivity|split; [|reflexivity]]);
      repeat (constructor; [cbn; intuition discriminate|]); constructor.
  - apply one_def_2. cbn. intros n [<- |[]] [X|[]]. discriminate.
Qed.
Lemma onet_normal : Forall normal [oY; oX].
Proof.
  constructor; [|constructor; [|constructor]].
  - eapply normal_1; [reflexivity|reflexivity|discriminate|]. intros s H. change (0 <= s < 3) in H.
    assert (E : s = 0 \/ s = 1 \/ s = 2) by lia. destruct E as [->|[->| ->]]; apply Qc_is_canon; vm_compute; reflexivity.
  - eapply normal_0; [reflexivity|reflexivity|]. apply Qc_is_canon. vm_compute. reflexivity.
Qed.
Theorem C38_order_refuted :
  exists cpms order vars add w sample fs, net_ok cpms /\ Forall normal cpms /\
    get_sample_order cpms = (order, vars, add) /\ topological cpms order /\
    In (w, Ok (sample, fs)) (single_sample cpms order vars add) /\ (0 < w)%Qc /\
    (forall s, In s sample -> s <> 0) /\ pmass cpms (joint_of vars sample) = 0%Qc.
Proof.
  destruct (runs_in [oY; oX] [1; 0]%nat [sv "x"; sv "y"] [0; 1]%nat 2 (1 # 3)%Q [2; 2] [1; 3 # 4]%Q) as (w & fs & H & Hw & Hf); [vm_compute; reflexivity|vm_compute; reflexivity|].
  exists [oY; oX], [1; 0]%nat, [sv "x"; sv "y"], [0; 1]%nat, w, [2; 2], fs. split; [apply onet_ok|]. split; [apply onet_normal|].
  split; [vm_compute; reflexivity|]. split; [|split; [exact H|split; [|split]]].
  - eapply (sample_order_main [oY; oX]). vm_compute. reflexivity.
  - unfold Qclt. rewrite Hw. reflexivity.
  - intros s [<- |[<- |[]]]; discriminate.
  - apply Qc_is_canon. vm_compute. reflexivity.
Qed.
Print Assumptions C38_order_refuted.

(** with is_scalar=False the columns of [q] are not those of [Cs]: the first entry of
    [q] belongs to the last variable *)
Theorem C38_columns_refuted :
  exists cpms vars add w sample fs, net_ok cpms /\ Forall normal cpms /\
    get_sample_order cpms = (seq 0 (List.length cpms), vars, add) /\
    In (w, Ok (sample, fs)) (single_sample cpms (seq 0 (List.length cpms)) vars add) /\
    let r := mcs_row false (sample, fs) in
    nth_error (mcs_vars vars) 0 = Some (sv "y") /\ fst r = [2; 1] /\
    nth_error (snd r) 0 <> Some (mass sY (joint_of vars sample)) /\
    nth_error (snd r) 0 = Some (mass sX (joint_of vars sample)).
Proof.
  destruct C38_samples_partial_ex as (A & B & ad & w & fs & H1 & H2 & _ & H3).
  exists snet, [sv "x"; sv "y"], ad, w, [1; 2], fs. split; [exact A|]. split; [exact B|]. split; [exact H1|]. split; [exact H2|].
  destruct fs as [|f1 [|f2 [|]]]; try discriminate. injection H3 as E1 E2.
  assert (X : mass sX (joint_of [sv "x"; sv "y"] [1; 2]) = Q2Qc (1 # 4)) by (apply Qc_is_canon; vm_compute; reflexivity).
  assert (Y : mass sY (joint_of [sv "x"; sv "y"] [1; 2]) = Q2Qc (2 # 3)) by (apply Qc_is_canon; vm_compute; reflexivity).
  split; [reflexivity|]. split; [reflexivity|]. rewrite X, Y. cbn [mcs_row snd fst nth_error]. split.
  - intros E. injection E as E. apply (f_equal this) in E. rewrite E1 in E. discriminate.
  - f_equal. apply Qc_is_canon. rewrite E1. reflexivity.
Qed.
Print Assumptions C38_columns_refuted.
