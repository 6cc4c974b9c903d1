(** Further theorems on C23, C28 and C32: the exact conditions under which the
    product of a list (cpm.py 1085-1102) and [Cpm.merge] (cpm.py 415-436)
    succeed, and the error otherwise; how far the value of a failure rule
    (brc.py [eval_rules_prob]) is below its probability. *)
From Coq Require Import ZArith List String Bool Arith Lia QArith Qcanon Permutation.
From Verif Require Import Py Num Vari Brc SpecBrc Cpm SpecCpm PyFacts VariFacts CpmFacts CpmCond CpmProd CpmList CpmSum CpmMarg CpmElim CpmProb VeFacts CalFacts VeTotal CalTotal BrcFacts BrcProb BrcMain PropCpm PropBrc.
Import ListNotations.
Open Scope string_scope.
Open Scope Z_scope.
Open Scope list_scope.

(** * C28 *)
(** some row of every CPM of [l] allows the same joint state *)
Definition row_for (M : cpm) (a : joint) : Prop := exists row, In row (c_C M) /\ row_match (c_vars M) row a = true.
Definition possible (l : list cpm) : Prop := exists a, forall M, In M l -> row_for M a.
(** number of variables of the CPMs [l] *)
Definition width (l : list cpm) : nat := List.length (nodup string_dec (flat_map (fun M => names (c_vars M)) l)).
(** every code of a variable stands for some basic state *)
Definition no_empty_state (v : variable) : Prop := forall c, code_ok v c -> states_of v c <> [].
(** what is required to multiply the product of [pre] by [N]: of the two the one
    with fewer columns must have a row *)
Definition step_ok (pre : list cpm) (N : cpm) : Prop :=
  if (width pre <=? List.length (c_vars N))%nat then possible pre else c_C N <> [].

Lemma match_ext vars row a b : (forall v, In v vars -> a (v_name v) = b (v_name v)) -> row_match vars row a = row_match vars row b.
Proof.
  intros H. unfold row_match. apply forallb_ext_in. intros [v c] Hv. cbn [fst snd]. rewrite H; auto. apply in_combine_l in Hv. auto.
Qed.
Lemma row_possible vars : forall row, NoDup (names vars) -> Forall2 code_ok vars row -> Forall no_empty_state vars ->
  exists a, row_match vars row a = true.
Proof.
  induction vars as [|v vars IH]; intros row N F E; inversion F as [|? c ? row' Hc Fr]; subst.
  - exists (fun _ => 0). reflexivity.
  - inversion N as [|? ? Nv N']; inversion E as [|? ? Ev E']; subst. destruct (IH row' N' Fr E') as [a Ha].
    destruct (states_of v c) as [|x l] eqn:S; [exfalso; apply (Ev c Hc S)|].
    exists (set_joint a v x). unfold row_match. cbn [combine forallb fst snd]. apply andb_true_iff. split.
    + unfold set_joint. rewrite String.eqb_refl, S. cbn. rewrite Z.eqb_refl. reflexivity.
    + fold (row_match vars row' (set_joint a v x)). rewrite <- Ha. apply match_ext. intros w Hw. unfold set_joint.
      destruct (String.eqb (v_name w) (v_name v)) eqn:Q; auto. apply String.eqb_eq in Q. exfalso. apply Nv. rewrite <- Q. apply in_map. auto.
Qed.
Lemma rows_possible M : wf_cpm M -> Forall no_empty_state (c_vars M) -> c_C M <> [] <-> exists a, row_for M a.
Proof.
  intros (N & _ & _ & R & _) E. split.
  - destruct (c_C M) as [|row C] eqn:EC; [congruence|]. intros _. destruct (row_possible (c_vars M) row N) as [a Ha]; auto.
    + apply R. left; auto.
    + exists a, row. split; auto. rewrite EC. left; auto.
  - intros (a & row & H & _) Z. rewrite Z in H. destruct H.
Qed.

(** two operands: the one with fewer columns must have a row *)
Lemma product_cases M1 M2 : wf_cpm M1 -> wf_cpm M2 -> fit M1 M2 -> has_p M1 -> has_p M2 -> c_vars M1 <> [] -> c_vars M2 <> [] ->
  ((if (ncols M1 <=? ncols M2)%nat then c_C M1 else c_C M2) <> [] /\ exists M, product M1 M2 = Ok M) \/
  ((if (ncols M1 <=? ncols M2)%nat then c_C M1 else c_C M2) = [] /\ product M1 M2 = Err UnboundLocalError).
Proof.
  intros W1 W2 [Ha Hd] P1 P2 V1 V2. unfold product.
  assert (B : (ncols M2 <? ncols M1)%nat = negb (ncols M1 <=? ncols M2)%nat).
  { destruct (ncols M1 <=? ncols M2)%nat eqn:E; [apply Nat.ltb_ge; apply Nat.leb_le in E; auto|apply Nat.ltb_lt; apply Nat.leb_gt in E; auto]. }
  rewrite B. destruct (ncols M1 <=? ncols M2)%nat; cbn [negb].
  - assert (Hcc : common_child M1 M2 = false) by (apply common_child_spec; auto). destruct (c_C M1) as [|r C] eqn:EC.
    + right. split; auto. unfold product_ord. rewrite Hcc, EC. reflexivity.
    + left. split; [discriminate|]. eexists. apply product_ord_spec; auto; [congruence|]. left. apply has_p_ne; auto; congruence.
  - assert (Hcc : common_child M2 M1 = false) by (apply common_child_spec, disj_sym; auto). destruct (c_C M2) as [|r C] eqn:EC.
    + right. split; auto. unfold product_ord. rewrite Hcc, EC. reflexivity.
    + left. split; [discriminate|]. eexists. apply product_ord_spec; auto using agree_sym; [congruence|]. left. apply has_p_ne; auto; congruence.
Qed.

(** [M] stands for the product of [pre] *)
Definition stands (pre : list cpm) (M : cpm) : Prop :=
  wf_cpm M /\ has_p M /\ c_vars M <> [] /\ Forall no_empty_state (c_vars M) /\
  (forall v, In v (c_vars M) <-> exists N, In N pre /\ In v (c_vars N)) /\
  (forall a, row_for M a <-> forall N, In N pre -> row_for N a).

Lemma stands_width pre M : stands pre M -> width pre = List.length (c_vars M).
Proof.
  intros ((N & _) & _ & _ & _ & V & _). unfold width. rewrite <- (map_length v_name (c_vars M)). apply Permutation_length.
  apply NoDup_Permutation; [apply NoDup_nodup|exact N|]. intros x. rewrite nodup_In, in_flat_map. split.
  - intros (K & HK & Hx). unfold names in Hx. apply in_map_iff in Hx as (v & <- & Hv). apply in_map. apply V. eauto.
  - intros Hx. apply in_map_iff in Hx as (v & <- & Hv). apply V in Hv as (K & HK & Hv). exists K. split; auto. apply in_map. auto.
Qed.
Lemma stands_possible pre M : stands pre M -> (c_C M <> [] <-> possible pre).
Proof.
  intros S. assert (S' := S). destruct S' as (W & _ & _ & E & _ & R). rewrite (rows_possible M W E). unfold possible. split.
  - intros (a & H). exists a. apply R. auto.
  - intros (a & H). exists a. apply R. auto.
Qed.

Definition factor (M : cpm) : Prop := has_p M /\ c_vars M <> [] /\ Forall no_empty_state (c_vars M).

Lemma fold_cases l : forall pre M0, stands pre M0 -> (forall M', In M' l -> fit M0 M') -> fit_list l -> Forall factor l ->
  ((exists M, foldM product l M0 = Ok M) /\ forall mid N post, l = mid ++ N :: post -> step_ok (pre ++ mid) N) \/
  (foldM product l M0 = Err UnboundLocalError /\ exists mid N post, l = mid ++ N :: post /\ ~ step_ok (pre ++ mid) N).
Proof.
  induction l as [|M1 l IH]; intros pre M0 S HF [HW HP] HL; cbn [foldM].
  - left. split; [eauto|]. intros [|? ?] N post E; discriminate E.
  - assert (S' := S). destruct S' as (W0 & P0 & V0 & E0 & Sv & Sr). inversion HW as [|? ? W1 HW']; subst. destruct HP as [HP1 HP2].
    inversion HL as [|? ? (P1 & V1 & E1) HL']; subst. assert (F := HF M1 (or_introl eq_refl)).
    assert (OK : step_ok pre M1 <-> (if (ncols M0 <=? ncols M1)%nat then c_C M0 else c_C M1) <> []).
    { unfold step_ok. rewrite (stands_width pre M0 S). unfold ncols. destruct (_ <=? _)%nat; [|tauto]. rewrite (stands_possible pre M0 S). tauto. }
    destruct (product_cases M0 M1 W0 W1 F P0 P1 V0 V1) as [[H (M01 & E)]|[H E]]; rewrite E; cbn [bind].
    + assert (D := F). destruct D as [Ha Hd]. assert (P := product_ok M0 M1 M01 W0 W1 Ha Hd E). assert (P' := P). destruct P' as (Wm & Pm & Pv & Pc & _).
      assert (S1 : stands (pre ++ [M1]) M01).
      { split; [auto|]. split; [exact (product_has_p M0 M1 M01 W0 W1 Ha Hd E)|]. split; [|split; [|split]].
        - destruct (c_vars M0) as [|v ?] eqn:Ev; [congruence|]. intros Z. assert (X : In v (c_vars M01)) by (apply Pv; left; left; auto).
          rewrite Z in X. destruct X.
        - apply Forall_forall. intros v Hv. rewrite Forall_forall in E0, E1. apply Pv in Hv as [Hv|Hv]; auto.
        - intros v. rewrite Pv, Sv. split.
          + intros [(K & HK & Hv)|Hv]; [exists K|exists M1]; rewrite in_app_iff; cbn; auto.
          + intros (K & HK & Hv). apply in_app_or in HK as [HK|[<-|[]]]; eauto.
        - intros a. unfold row_for at 1. rewrite <- cnt_row, (product_cnt M0 M1 M01 a W0 W1 Ha Hd E), Nat.mul_comm.
          assert (X : (0 < cnt M1 a * cnt M0 a)%nat <-> (0 < cnt M0 a)%nat /\ (0 < cnt M1 a)%nat).
          { destruct (cnt M0 a), (cnt M1 a); cbn; lia. }
          rewrite X, !cnt_row. fold (row_for M0 a) (row_for M1 a). rewrite Sr. split.
          + intros [A B] K HK. apply in_app_or in HK as [HK|[<-|[]]]; auto.
          + intros A. split; [intros K HK|]; apply A; rewrite in_app_iff; cbn; auto. }
      destruct (IH (pre ++ [M1]) M01 S1) as [[I1 I2]|[I1 (mid & N & post & I2 & I3)]].
      * intros M' HM. eapply fit_product; [| |exact P]; [apply HF; right; auto|apply HP1; auto].
      * split; auto.
      * auto.
      * left. split; auto. intros [|K mid] N post X; cbn [app] in X; injection X as <- X.
        -- rewrite app_nil_r. apply OK. auto.
        -- specialize (I2 mid N post X). rewrite <- app_assoc in I2. exact I2.
      * right. split; auto. exists (M1 :: mid), N, post. split; [rewrite I2; reflexivity|]. rewrite <- app_assoc in I3. exact I3.
    + right. split; auto. exists [], M1, l. split; [reflexivity|]. rewrite app_nil_r, OK. intros X. auto.
Qed.

(** The product of a list succeeds exactly when each step has a row in the
    operand with fewer columns; the only other outcome is UnboundLocalError. *)
Theorem C28_succeeds_iff :
  forall l, l <> [] -> fit_list l -> Forall factor l ->
    ((exists M, product_list l = Ok M) <-> forall pre N post, l = pre ++ N :: post -> pre <> [] -> step_ok pre N) /\
    ((forall M, product_list l <> Ok M) -> product_list l = Err UnboundLocalError).
Proof.
  intros [|M0 l] Hn [HW HP] HL; [congruence|]. destruct HP as [HP1 HP2]. clear Hn. cbn [product_list]. inversion HW as [|? ? W0 HW']; subst.
  inversion HL as [|? ? (P0 & V0 & E0) HL']; subst.
  assert (S : stands [M0] M0).
  { split; [auto|]. split; [auto|]. split; [auto|]. split; [auto|]. split.
    - intros v. split; [intros; exists M0; split; auto; left; auto|intros (M' & [<-|[]] & ?); auto].
    - intros a. split; [intros H N [<-|[]]; auto|intros H; apply H; left; auto]. }
  destruct (fold_cases l [M0] M0 S HP1 (conj HW' HP2) HL') as [[(M & I1) I2]|[I1 (mid & N & post & I2 & I3)]].
  - split; [|intros X; exfalso; apply (X M); auto]. split; [|eauto]. intros _ pre N post X Hp. destruct pre as [|K pre]; [congruence|].
    cbn [app] in X. injection X as <- X. apply (I2 pre N post X).
  - split; [|auto]. split; [intros (M & X); congruence|]. intros H. exfalso. apply I3. apply (H ([M0] ++ mid) N post); [rewrite I2; reflexivity|discriminate].
Qed.
Print Assumptions C28_succeeds_iff.

(** The lists of [C28_order_refuted]: in the order Z1, Z2, Z3 the product of the
    first two is impossible and as narrow as needed to come first. *)
Lemma cv_full n : no_empty_state (ex_g n).
Proof.
  unfold ex_g. intros c (B & HB & Hc). unfold states_of. rewrite HB. destruct (String.eqb n "y"); vm_compute in HB; injection HB as <-; cbn in Hc.
  - assert (c = 0 \/ c = 1 \/ c = 2 \/ c = 3 \/ c = 4 \/ c = 5 \/ c = 6) as X by lia. intuition (subst; cbn; discriminate).
  - assert (c = 0 \/ c = 1 \/ c = 2) as X by lia. intuition (subst; cbn; discriminate).
Qed.
Example C28_succeeds_iff_ex :
  fit_list [Z1; Z2; Z3] /\ Forall factor [Z1; Z2; Z3] /\ step_ok [Z1] Z2 /\ ~ step_ok [Z1; Z2] Z3 /\
  product_list [Z1; Z2; Z3] = Err UnboundLocalError /\ step_ok [Z1] Z3 /\ step_ok [Z1; Z3] Z2.
Proof.
  split; [apply (fit_list_g ex_g); [ex_vars|reflexivity|reflexivity]|]. split.
  { repeat constructor; try discriminate; apply cv_full. }
  split.
  { change (possible [Z1]). exists (fun _ => 0). intros M [<-|[]]. exists [0]. split; [left; auto|reflexivity]. }
  split.
  { change (~ possible [Z1; Z2]). intros (a & H). destruct (H Z1 (or_introl eq_refl)) as (r & [<-|[]] & H1).
    destruct (H Z2 (or_intror (or_introl eq_refl))) as (r & [<-|[]] & H2). unfold row_match in *. cbn [combine forallb fst snd Z1 Z2 c_vars] in *.
    rewrite !andb_true_iff in *. destruct H1 as [H1 _], H2 as (_ & H2 & _).
    apply mem_Z_In in H1. apply mem_Z_In in H2. vm_compute in H1, H2. destruct H1 as [H1|[]], H2 as [H2|[]]. rewrite <- H1 in H2. discriminate. }
  split; [vm_compute; reflexivity|]. split.
  - change (possible [Z1]). exists (fun _ => 0). intros M [<-|[]]. exists [0]. split; [left; auto|reflexivity].
  - change (c_C Z2 <> []). discriminate.
Qed.

(** * C32 *)
(** all outcomes of [merge]: the names differ, a row is missing, the sum *)
Theorem C32_merge_outcomes :
  forall M1 M2, wf_cpm M1 -> has_p M1 -> has_p M2 -> agree (c_vars M1) (c_vars M2) ->
    (names (c_vars M1) <> names (c_vars M2) -> merge M1 M2 = Err AssertionError) /\
    (names (c_vars M1) = names (c_vars M2) ->
       ((exists r, In r (c_C M2) /\ ~ In r (c_C M1)) -> merge M1 M2 = Err ValueError) /\
       ((forall r, In r (c_C M2) -> In r (c_C M1)) ->
          exists M, merge M1 M2 = Ok M /\ wf_cpm M /\ c_vars M = c_vars M1 /\ c_nch M = c_nch M1 /\ c_C M = c_C M1 /\
            forall a, mass M a = (mass M1 a + mass M2 a)%Qc)).
Proof.
  intros M1 M2 W P1 P2 A. assert (V := merge_same_vars M1 M2 A). split.
  - intros N. unfold merge. destruct (_ && _) eqn:E; [|reflexivity]. exfalso. apply N. f_equal. apply V. reflexivity.
  - intros N. assert (EV : c_vars M1 = c_vars M2).
    { clear V. revert A N. generalize (c_vars M1) (c_vars M2). induction l as [|v l IH]; intros [|w l'] A N; try discriminate N; auto.
      injection N as N1 N2. f_equal; [apply A; auto; left; auto|]. apply IH; auto. intros x y Hx Hy. apply A; right; auto. }
    destruct (c_p M1) as [|q0 p0] eqn:EP.
    + assert (EC : c_C M1 = []) by (unfold has_p in P1; rewrite EP in P1; destruct (c_C M1); [auto|discriminate]). split.
      * intros (r & Hr & _). unfold merge. rewrite (proj2 V EV), EC. unfold has_p in P2. destruct (c_C M2) as [|r2 C2]; [destruct Hr|].
        destruct (c_p M2); [discriminate|]. reflexivity.
      * intros H. assert (EC2 : c_C M2 = []) by (destruct (c_C M2) as [|r ?]; auto; exfalso; rewrite EC in H; apply (H r); left; auto).
        exists M1. unfold merge. rewrite (proj2 V EV), EC, EC2. cbn [combine foldM bind].
        split; [destruct M1; cbn in *; subst; reflexivity|]. split; [auto|]. do 3 (split; [auto|]). intros a. unfold mass. rewrite EC, EC2. cbn. ring.
    + assert (Hp : c_p M1 <> []) by congruence. split.
      * intros (r & Hr & Hn). apply (merge_missing M1 M2 r); auto.
      * intros H. apply merge_ok; auto.
Qed.
Print Assumptions C32_merge_outcomes.

Example C32_merge_outcomes_ex :
  names (c_vars Px) <> names (c_vars Py) /\ merge Px Py = Err AssertionError /\
  merge Pinc Pxy = Err ValueError /\ merge (mkCpm [vx] 1 [] []) Px = Err ValueError /\
  view (merge Px (mkCpm [vx] 1 [[1]] [q 1 20])) = view (Ok (mkCpm [vx] 1 [[0]; [1]] [q 1 10; q 19 20])).
Proof. split; [vm_compute; discriminate|]. do 3 (split; [vm_compute; reflexivity|]). vm_compute. reflexivity. Qed.

(** * C23 *)
(** The value of a failure rule lacks the vectors that are equal to the rule in
    some component; these count whenever all states are possible. *)
Lemma qsum_ge_in l x : (forall y, In y l -> 0 <= y)%Qc -> In x l -> (x <= qsum l)%Qc.
Proof.
  induction l as [|y l IH]; intros H Hx; [destruct Hx|]. cbn [qsum]. assert (H0 := H y (or_introl eq_refl)).
  destruct Hx as [->|Hx].
  - assert (0 <= qsum l)%Qc by (apply qsum_nonneg; intros z Hz; apply H; right; auto). qc_lra.
  - assert (x <= qsum l)%Qc by (apply IH; auto; intros z Hz; apply H; right; auto). qc_lra.
Qed.
Definition touches (r x : dict Z) : bool := existsb (fun kv => coord x (fst kv) =? snd kv) r.
Theorem C23_failure_rules_gap :
  forall varis probs rules,
    wf_varis varis -> wf_probs varis probs ->
    (forall r, In r rules -> wf_rule varis r /\ forall k s v, In (k, s) r -> In (k, v) varis -> 0 <= s < nvals v) ->
    exists vals, eval_rules_prob rules F_ probs = Ok vals /\
      Forall2 (fun r val =>
        (val + prob_event varis probs (fun x => sat_f r x && touches r x) =
         prob_event varis probs (sat_f r))%Qc /\
        (val <= prob_event varis probs (sat_f r))%Qc /\
        (r = [] -> val = prob_event varis probs (sat_f r)) /\
        (r <> [] -> (forall k v x, In (k, v) varis -> 0 <= x < nvals v -> 0 < pr probs k x)%Qc -> (val < prob_event varis probs (sat_f r))%Qc))
        rules vals.
Proof.
  intros varis probs rules Hw Hp H. eexists. split; [apply C23_failure_rules_strict; eauto|].
  induction rules as [|r rules IH]; cbn [map]; constructor; [|apply IH; intros r' Hr; apply H; right; auto].
  destruct (H r (or_introl eq_refl)) as [[N I] R]. clear IH H.
  set (st := fun x => forallb (fun kv => coord x (fst kv) <? snd kv) r).
  set (eqv := fun x => sat_f r x && touches r x).
  assert (S : (prob_event varis probs st + prob_event varis probs eqv = prob_event varis probs (sat_f r))%Qc).
  { apply prob_event_split.
    - intros x _ E. split; [|unfold eqv; rewrite E; reflexivity]. apply not_true_iff_false. intros X. apply not_true_iff_false in E. apply E.
      unfold st, sat_f in *. rewrite forallb_forall in *. intros kv Hkv. specialize (X kv Hkv). apply Z.ltb_lt in X. apply Z.leb_le. lia.
    - intros x _ E. unfold eqv. rewrite E. cbn [andb]. unfold touches, st, sat_f in *. clear -E. induction r as [|kv r IH]; auto.
      cbn [forallb existsb] in *. apply andb_true_iff in E as [E1 E2]. specialize (IH E2). rewrite IH. apply Z.leb_le in E1.
      destruct (Z.ltb_spec (coord x (fst kv)) (snd kv)), (Z.eqb_spec (coord x (fst kv)) (snd kv)); try lia; cbn; auto. }
  split; [exact S|]. assert (G := prob_event_nonneg varis probs Hw Hp eqv). split; [|split].
  - rewrite <- S. qc_lra.
  - intros ->. apply prob_event_ext. intros x _. reflexivity.
  - intros Hr Pos. rewrite <- S.
    enough (0 < prob_event varis probs eqv)%Qc by qc_lra.
    set (x := map (fun kv => (fst kv, coord r (fst kv))) varis).
    assert (Kx : keys x = keys varis) by (unfold x, keys; rewrite map_map; reflexivity).
    assert (Nx : NoDup (keys x)) by (rewrite Kx; apply Hw).
    assert (Cx : forall k, In k (keys varis) -> coord x k = coord r k).
    { intros k Hk. apply in_map_iff in Hk as ([k' v] & <- & Hv). unfold coord at 1. cbn [fst].
      rewrite (In_dfind x k' (coord r k')); auto. unfold x. apply in_map_iff. exists (k', v). auto. }
    assert (Br : forall k v, In (k, v) varis -> 0 <= coord r k < nvals v).
    { intros k v Hv. unfold coord. destruct (dfind r k) as [s|] eqn:E; [apply dfind_In in E; apply (R k s v); auto|]. assert (X := proj2 Hw k v Hv). lia. }
    assert (Sx : In x (space (comps_of varis))).
    { assert (Kc : keys (comps_of varis) = keys varis) by (unfold keys, comps_of; rewrite map_map; reflexivity). apply space_intro.
      - rewrite Kc. apply Hw.
      - rewrite Kc. exact Kx.
      - intros k n Hk. unfold comps_of in Hk. apply in_map_iff in Hk as ([k' v] & E & Hv). injection E as <- <-. cbn [fst snd] in *.
        rewrite Cx by (apply (in_map fst _ _ Hv)). auto. }
    assert (Ex : eqv x = true).
    { assert (Q : forall k s, In (k, s) r -> coord x k = s).
      { intros k s Hk. rewrite Cx by (apply I, (in_map fst _ _ Hk)). unfold coord. rewrite (In_dfind r k s N Hk). reflexivity. }
      unfold eqv. apply andb_true_iff. split.
      - unfold sat_f. apply forallb_forall. intros [k s] Hk. cbn [fst snd]. rewrite (Q k s Hk). apply Z.leb_refl.
      - destruct r as [|[k s] r']; [congruence|]. unfold touches. cbn [existsb fst snd]. rewrite (Q k s) by (left; auto). rewrite Z.eqb_refl. reflexivity. }
    apply (Qclt_le_trans _ (prob_of probs x)).
    + unfold prob_of, x. rewrite map_map. cbn [fst snd]. assert (Y : forall k v, In (k, v) varis -> (0 < pr probs k (coord r k))%Qc) by (intros; eauto).
      apply qprod_pos.
      intros z Hz. apply in_map_iff in Hz as ([k v] & <- & Hv). cbn [fst]. eauto.
    + unfold prob_event. apply qsum_ge_in.
      * intros z Hz. apply in_map_iff in Hz as (y & <- & Hy). apply filter_In in Hy as [Hy _]. apply (prob_of_nonneg varis probs Hw Hp); auto.
      * apply in_map. apply filter_In. auto.
Qed.
Print Assumptions C23_failure_rules_gap.

Example C23_failure_rules_gap_ex :
  (forall r, In r (r_f ex_rules) -> wf_rule ex_varis r /\ forall k s v, In (k, s) r -> In (k, v) ex_varis -> 0 <= s < nvals v) /\
  (forall k v x, In (k, v) ex_varis -> 0 <= x < nvals v -> 0 < pr ex_probs k x)%Qc /\
  match eval_rules_prob (r_f ex_rules) F_ ex_probs with Ok l => map this l | Err _ => [] end = [0%Q] /\
  map (fun r => this (prob_event ex_varis ex_probs (sat_f r))) (r_f ex_rules) = [(2 # 25)%Q].
Proof.
  split; [|split; [|split; vm_compute; reflexivity]].
  - intros r Hr. split; [apply (proj2 ex_wf_rules); auto|]. cbn in Hr. destruct Hr as [<-|[]].
    intros k s v [Hk|[Hk|[]]] [Hv|[Hv|[Hv|[]]]]; injection Hk as <- <-; try discriminate Hv; injection Hv as <-;
      change (nvals _) with 3 || change (nvals _) with 2; lia.
  - intros k v x [H|[H|[H|[]]]] Hx; injection H as <- <-; change (nvals _) with 3 in Hx || change (nvals _) with 2 in Hx;
      [assert (x = 0 \/ x = 1 \/ x = 2) as [->|[->| ->]] by lia|assert (x = 0 \/ x = 1) as [->| ->] by lia|assert (x = 0 \/ x = 1) as [->| ->] by lia]; reflexivity.
Qed.
