(** Final theorems C98: the interval of [Cpm.get_prob_bnd] (cpm.py 795-811) is the
    exact range of the probability over all completions, with a condition its
    lower end is exact and its upper end too large. *)
From Coq Require Import ZArith List String Bool Arith Lia QArith Qcanon.
From Verif Require Import Py Num Vari Cpm SpecCpm PyFacts VariFacts CpmFacts CpmCond CpmProd CpmList CpmSum CpmMarg CpmElim CpmProb BndFacts PropCpm.
Import ListNotations.
Open Scope string_scope.
Open Scope Z_scope.
Open Scope list_scope.

(** a row that a completion may add *)
Definition row_ok (M : cpm) (r : list Z) : Prop := Forall2 code_ok (c_vars M) r.
(** an incomplete distribution *)
Definition incomplete (M : cpm) : Prop :=
  wf_cpm M /\ has_p M /\ (forall x, In x (c_p M) -> 0 <= x)%Qc /\ (qsum (c_p M) <= 1)%Qc.
Definition event_ok (M : cpm) (vs : list variable) (codes : list Z) : Prop :=
  ev_ok (c_vars M) vs codes /\ vs <> [] /\ codes_small vs codes.

(** Rows [r1] in the event and [r0] outside exist, so neither the event nor its
    opposite is impossible. *)
Theorem C98_range :
  forall M vs codes flag lo hi r1 r0, incomplete M -> event_ok M vs codes -> row_ok M r1 -> row_ok M r0 ->
    hits (c_vars M) r1 vs codes = flag -> hits (c_vars M) r0 vs codes = negb flag ->
    get_prob_bnd M (Vars vs) (map SI codes) flag (Vars []) [] true = Ok (lo, hi) ->
    exists l, lo = Some l /\ forall x,
      (exists M', wf_cpm M' /\ completes M M' /\ get_prob M' (Vars vs) (map SI codes) flag = Ok x) <-> (l <= x /\ x <= hi)%Qc.
Proof.
  intros M vs codes flag lo hi r1 r0 (W & P & Np & S) (E & N & Sm) K1 K0 H1 H0 H.
  assert (H' := H). unfold get_prob_bnd in H. rewrite get_prob_spec in H by auto. cbn [bind] in H. injection H as <- <-.
  eexists. split; [reflexivity|]. set (f := fun row => Bool.eqb (hits (c_vars M) row vs codes) flag) in *.
  destruct (total_le_sum f M P Np) as [T0 T1].
  assert (Hm : qmin 1 (total f M + (1 - qsum (c_p M)))%Qc = (total f M + (1 - qsum (c_p M)))%Qc).
  { unfold qmin. destruct (qc_leb 1 _) eqn:L; auto. apply qc_leb_le in L. apply Qcle_antisym; [auto|qc_lra]. }
  intros x. split.
  - intros (M' & W' & Hc & G).
    destruct (C31_bounds M M' vs codes flag _ _ x W P W' Hc E N Sm Np H' G) as (l & El & B1 & B2 & B3). injection El as <-. auto.
  - intros [X1 X2]. rewrite Hm in X2. set (a := (x - total f M)%Qc). set (b := (1 - qsum (c_p M) - a)%Qc).
    assert (A0 : (0 <= a)%Qc) by (unfold a; qc_lra). assert (B0 : (0 <= b)%Qc) by (unfold b, a; qc_lra).
    exists (extend M [r1; r0] [a; b]).
    assert (W' : wf_cpm (extend M [r1; r0] [a; b])).
    { apply extend_wf; auto. intros r [<-|[<-|[]]]; auto. }
    split; auto. split.
    + apply extend_completes; auto; [intros y [<-|[<-|[]]]; auto|]. cbn [qsum]. unfold b. ring.
    + rewrite get_prob_spec by auto. f_equal. change (c_vars (extend M [r1; r0] [a; b])) with (c_vars M). fold f. rewrite two_rows; auto.
      * unfold a. ring.
      * unfold f. rewrite H1. apply eqb_reflx.
      * unfold f. rewrite H0. destruct flag; auto.
Qed.
Print Assumptions C98_range.

(** what a completion adds to an event [f] and an event [g] around it *)
Lemma added f g M M' : has_p M -> completes M M' -> (forall r, f r = true -> g r = true) ->
  exists a b, (total f M' = total f M + a /\ total g M' = total g M + b /\ 0 <= a /\ a <= b /\ b <= 1 - qsum (c_p M))%Qc.
Proof.
  intros P (C & p & L & Np & -> & S) I. exists (qsum (map snd (filter (fun rp => f (fst rp)) (combine C p)))), (qsum (map snd (filter (fun rp => g (fst rp)) (combine C p)))).
  split; [apply (total_extend f M C p P)|]. split; [apply (total_extend g M C p P)|].
  assert (Hs : qsum p = (1 - qsum (c_p M))%Qc) by (rewrite <- S, qsum_app; ring). rewrite <- Hs. clear - L Np I.
  revert p L Np. induction C as [|r C IH]; intros [|q p] L Np; cbn in L; try discriminate.
  - cbn. split; [apply Qcle_refl|]. split; apply Qcle_refl.
  - assert (0 <= q)%Qc by (apply Np; left; auto). destruct (IH p ltac:(lia) (fun x Hx => Np x (or_intror Hx))) as (A & B & D).
    cbn [combine filter fst]. assert (Ir := I r). destruct (f r), (g r); try (specialize (Ir eq_refl); discriminate); cbn [map snd qsum]; repeat split; qc_lra.
Qed.

(** with a condition that the event contains: [p1], [p2] known probabilities of
    the event and of the condition.  A completion can give every value from the
    lower bound of the code up to (p1 + u) / (p2 + u), u the missing probability *)
Theorem C98_conditional_range :
  forall M vs codes cvs ccodes lo hi p1 p2 r1 r0, incomplete M -> event_ok M vs codes -> event_ok M cvs ccodes ->
    incl (combine cvs ccodes) (combine vs codes) -> row_ok M r1 -> row_ok M r0 ->
    hits (c_vars M) r1 vs codes = true -> hits (c_vars M) r0 cvs ccodes = true -> hits (c_vars M) r0 vs codes = false ->
    get_prob M (Vars vs) (map SI codes) true = Ok p1 -> get_prob M (Vars cvs) (map SI ccodes) true = Ok p2 ->
    (0 < p2 + (1 - qsum (c_p M)))%Qc ->
    get_prob_bnd M (Vars vs) (map SI codes) true (Vars cvs) (map SI ccodes) true = Ok (lo, hi) ->
    let best := ((p1 + (1 - qsum (c_p M))) / (p2 + (1 - qsum (c_p M))))%Qc in
    exists l, lo = Some l /\
      (forall x, (exists M' p pc, wf_cpm M' /\ completes M M' /\ get_prob M' (Vars vs) (map SI codes) true = Ok p /\
                   get_prob M' (Vars cvs) (map SI ccodes) true = Ok pc /\ (0 < pc)%Qc /\ x = (p / pc)%Qc) <->
                 (l <= x /\ x <= best)%Qc) /\
      (best <= hi)%Qc /\ (best = hi <-> qsum (c_p M) = 1%Qc \/ p1 = p2).
Proof.
  intros M vs codes cvs ccodes lo hi p1 p2 r1 r0 (W & P & Np & S) (E & N & Sm) (Ec & Nc & Sc) I K1 K0 H1 H0 H0' G1 G2 Hpos H best.
  assert (Hits := fun r => hits_incl (c_vars M) r vs codes cvs ccodes I).
  unfold get_prob_bnd in H. rewrite G1 in H. cbn [bind] in H.
  assert (Em : forall T (a b : T), match cvs with [] => a | _ :: _ => b end = b) by (intros; destruct cvs; congruence). rewrite Em in H. clear Em.
  rewrite G2 in H. cbn [bind] in H. injection H as <- <-. rewrite get_prob_spec in G1 by auto. rewrite get_prob_spec in G2 by auto.
  set (f := fun row => Bool.eqb (hits (c_vars M) row vs codes) true) in *. set (g := fun row => Bool.eqb (hits (c_vars M) row cvs ccodes) true) in *.
  injection G1 as <-. injection G2 as <-. set (u := (1 - qsum (c_p M))%Qc) in *.
  assert (FG : forall r, f r = true -> g r = true).
  { intros r Hr. apply eqb_prop in Hr. apply eqb_true_iff. apply Hits. auto. }
  assert (U0 : (0 <= u)%Qc) by (unfold u; qc_lra). destruct (total_le_sum f M P Np) as [F0 _]. destruct (total_le_sum g M P Np) as [G0 _].
  assert (LE : (total f M <= total g M)%Qc).
  { clear - P Np FG. unfold has_p, total in *. revert P Np. generalize (c_C M) as C, (c_p M) as p. induction C as [|r C IH]; intros [|q p] L H; cbn in L; try discriminate L.
    - apply Qcle_refl.
    - assert (0 <= q)%Qc by (apply H; left; auto). specialize (IH p ltac:(lia) (fun x Hx => H x (or_intror Hx))).
      cbn [combine filter fst]. assert (Ir := FG r). destruct (f r), (g r); try (specialize (Ir eq_refl); discriminate); cbn [map snd qsum]; qc_lra. }
  assert (Q1 : qdiv (total f M) (total g M + u)%Qc = Some (total f M / (total g M + u))%Qc).
  { unfold qdiv. destruct (qc_eqb _ _) eqn:X; auto. exfalso. apply qc_eqb_eq in X. apply (pos_nz _ Hpos). auto. }
  rewrite Q1. eexists. split; [reflexivity|]. split; [|].
  - intros x. split.
    + intros (M' & p & pc & W' & Hc & X1 & X2 & Xp & ->). assert (V := completes_vars M M' Hc).
      rewrite get_prob_spec in X1 by (rewrite ?V; auto). rewrite get_prob_spec in X2 by (rewrite ?V; auto). rewrite V in *. fold f in X1. fold g in X2.
      injection X1 as <-. injection X2 as <-. destruct (added f g M M' P Hc FG) as (a & b & A1 & A2 & A3 & A4 & A5). fold u in A5. rewrite A1, A2 in *.
      split; [apply ratio_low; auto|apply ratio_up; auto].
    + intros [X1 X2]. assert (Nz := pos_nz _ Hpos). set (T := (total g M + u)%Qc) in *. set (a := (x * T - total f M)%Qc).
      assert (Tp : (0 <= T)%Qc) by (apply Qclt_le_weak; auto).
      assert (A0 : (0 <= a)%Qc).
      { assert (X := Qcmult_le_compat_r _ _ _ X1 Tp). replace (total f M / T * T)%Qc with (total f M) in X by (field; auto).
        unfold a. revert X. generalize (x * T)%Qc. intros; qc_lra. }
      assert (A1 : (a <= u)%Qc).
      { assert (X := Qcmult_le_compat_r _ _ _ X2 Tp). unfold best in X. replace ((total f M + u) / T * T)%Qc with (total f M + u)%Qc in X by (field; auto).
        unfold a. revert X. generalize (x * T)%Qc. intros; qc_lra. }
      set (M' := extend M [r1; r0] [a; (u - a)%Qc]).
      assert (W' : wf_cpm M') by (apply extend_wf; auto; intros r [<-|[<-|[]]]; auto).
      exists M', (total f M + a)%Qc, T. split; auto. split.
      { apply extend_completes; auto; [intros y [<-|[<-|[]]]; [auto|qc_lra]|]. cbn [qsum]. unfold u. ring. }
      split; [|split; [|split; auto]].
      * rewrite get_prob_spec by auto. f_equal. change (c_vars M') with (c_vars M). fold f. unfold M'. rewrite two_rows; auto; unfold f; [rewrite H1|rewrite H0']; auto.
      * rewrite get_prob_spec by auto. f_equal. change (c_vars M') with (c_vars M). fold g. unfold M'. rewrite total_extend by auto. cbn [combine filter fst].
        unfold g. rewrite H0, (Hits r1 H1). cbn [Bool.eqb map snd qsum]. unfold T. fold g. ring.
      * unfold a. field. auto.
  - assert (Up : (best <= match qdiv (total f M + u) (total g M) with Some x => qmin 1 x | None => 1 end)%Qc).
    { assert (O : (best <= 1)%Qc). { replace 1%Qc with (1 / 1)%Qc by (apply Qc_is_canon; reflexivity). unfold best. apply div_le; auto; [reflexivity|]. rewrite Qcmult_1_l, Qcmult_1_r. qc_lra. }
      unfold qdiv. destruct (qc_eqb (total g M) 0) eqn:X; auto. apply qmin_le; auto.
      assert (Gp : (0 < total g M)%Qc). { apply Qcle_lt_or_eq in G0 as [G0|G0]; auto. symmetry in G0. apply qc_eqb_eq in G0. congruence. }
      unfold best. apply div_le; auto. rewrite !(Qcmult_comm (total f M + u)). apply Qcmult_le_compat_r; qc_lra. }
    split; auto. split.
    + intros Eb. destruct (Qclt_le_dec 0 u) as [U1|U1]; [|left; unfold u in *; apply Qcle_antisym; qc_lra].
      destruct (Qclt_le_dec (total f M) (total g M)) as [L|L]; [|right; apply Qcle_antisym; auto]. exfalso.
      assert (O : (best < 1)%Qc). { replace 1%Qc with (1 / 1)%Qc by (apply Qc_is_canon; reflexivity). unfold best. apply div_lt; auto; [reflexivity|]. rewrite Qcmult_1_l, Qcmult_1_r. qc_lra. }
      assert (Gp : (0 < total g M)%Qc) by qc_lra.
      assert (B2 : (best < (total f M + u) / total g M)%Qc).
      { unfold best. apply div_lt; auto. rewrite !(Qcmult_comm (total f M + u)). apply Qcmult_lt_compat_r; qc_lra. }
      revert Eb. unfold qdiv. destruct (qc_eqb (total g M) 0) eqn:X; [intros Eb; rewrite Eb in O; revert O; apply Qcle_not_lt, Qcle_refl|].
      unfold qmin. destruct (qc_leb 1 _); [intros Eb; rewrite Eb in O; revert O|intros Eb; rewrite Eb in B2; revert B2]; apply Qcle_not_lt, Qcle_refl.
    + intros D. apply Qcle_antisym; auto. unfold qdiv. destruct (qc_eqb (total g M) 0) eqn:X.
      * apply qc_eqb_eq in X. assert (Z : total f M = 0%Qc) by (apply Qcle_antisym; auto; rewrite <- X; auto). unfold best. rewrite X, Z.
        rewrite X in Hpos. assert (Nz := pos_nz _ Hpos). replace ((0 + u) / (0 + u))%Qc with 1%Qc by (unfold Qcdiv; rewrite Qcmult_inv_r; auto). apply Qcle_refl.
      * assert (Gn : total g M <> 0%Qc) by (intros Z; apply qc_eqb_eq in Z; congruence). destruct D as [D|D].
        -- assert (Z : u = 0%Qc) by (unfold u; rewrite D; ring). unfold best. rewrite Z. rewrite !Qcplus_0_r. unfold qmin. destruct (qc_leb 1 _) eqn:L; [apply qc_leb_le in L; auto|apply Qcle_refl].
        -- unfold best. rewrite D. assert (Nz := pos_nz _ Hpos). replace ((total g M + u) / (total g M + u))%Qc with 1%Qc by (field; auto).
           unfold qmin. destruct (qc_leb 1 _) eqn:L; [apply Qcle_refl|]. apply Qclt_le_weak, Qcnot_le_lt. intros Y. apply qc_leb_le in Y. congruence.
Qed.
Print Assumptions C98_conditional_range.

(** the CPM of the example of C31: 1/5 is missing; the event y=1, and x=0 given y=1 *)
Lemma Pinc_ok : incomplete Pinc.
Proof.
  split; [exact (proj1 C31_bounds_ex)|]. split; [reflexivity|]. split.
  - intros x Hx. cbn in Hx. repeat destruct Hx as [<-|Hx]; try destruct Hx; vm_compute; discriminate.
  - vm_compute. discriminate.
Qed.
Lemma ev_y : event_ok Pinc [vy] [1].
Proof.
  split; [|split; [discriminate|intros v c [H|[]]; injection H as <- <-; reflexivity]]. split; [reflexivity|]. split; [apply nodup_names_ok; reflexivity|]. split.
  - apply (agree_g ex_g); repeat (constructor; [reflexivity|]); constructor.
  - intros v c [H|[]] _; injection H as <- <-; ex_code.
Qed.
Lemma ev_xy : event_ok Pinc [vx; vy] [0; 1].
Proof.
  split; [|split; [discriminate|intros v c [H|[H|[]]]; injection H as <- <-; reflexivity]]. split; [reflexivity|]. split; [apply nodup_names_ok; reflexivity|]. split.
  - apply (agree_g ex_g); repeat (constructor; [reflexivity|]); constructor.
  - intros v c [H|[H|[]]] _; injection H as <- <-; ex_code.
Qed.
Example C98_range_ex :
  incomplete Pinc /\ event_ok Pinc [vy] [1] /\ row_ok Pinc [0; 1] /\ row_ok Pinc [0; 0] /\
  hits (c_vars Pinc) [0; 1] [vy] [1] = true /\ hits (c_vars Pinc) [0; 0] [vy] [1] = false /\
  vals (get_prob_bnd Pinc (Vars [vy]) [SI 1] true (Vars []) [] true) = vals (Ok (Some (q 1 2), q 7 10)).
Proof.
  split; [exact Pinc_ok|]. split; [exact ev_y|]. split; [repeat constructor; ex_code|]. split; [repeat constructor; ex_code|].
  do 2 (split; [vm_compute; reflexivity|]). vm_compute. reflexivity.
Qed.
Example C98_conditional_ex :
  incomplete Pinc /\ event_ok Pinc [vx; vy] [0; 1] /\ event_ok Pinc [vy] [1] /\ incl (combine [vy] [1]) (combine [vx; vy] [0; 1]) /\
  row_ok Pinc [0; 1] /\ row_ok Pinc [1; 1] /\
  hits (c_vars Pinc) [0; 1] [vx; vy] [0; 1] = true /\ hits (c_vars Pinc) [1; 1] [vy] [1] = true /\ hits (c_vars Pinc) [1; 1] [vx; vy] [0; 1] = false /\
  val (get_prob Pinc (Vars [vx; vy]) [SI 0; SI 1] true) = val (Ok (q 2 5)) /\ val (get_prob Pinc (Vars [vy]) [SI 1] true) = val (Ok (q 1 2)) /\
  vals (get_prob_bnd Pinc (Vars [vx; vy]) [SI 0; SI 1] true (Vars [vy]) [SI 1] true) = vals (Ok (Some (q 4 7), q 1 1)) /\
  this ((q 2 5 + (1 - qsum (c_p Pinc))) / (q 1 2 + (1 - qsum (c_p Pinc))))%Qc = (6 # 7)%Q.
Proof.
  split; [exact Pinc_ok|]. split; [exact ev_xy|]. split; [exact ev_y|]. split; [intros x [<-|[]]; right; left; reflexivity|].
  split; [repeat constructor; ex_code|]. split; [repeat constructor; ex_code|]. do 6 (split; [vm_compute; reflexivity|]). vm_compute. reflexivity.
Qed.
