(** Proofs about sampling. *)
From Coq Require Import ZArith List String Bool Arith Lia Permutation QArith Qcanon.
From Verif Require Import Py PyFacts Num Vari VariFacts Cpm SpecCpm CpmFacts CpmCond CpmProd CpmList CpmSum CpmMarg CpmElim CpmProb
  Net SpecNet NetFacts Sample.
Import ListNotations.
Open Scope string_scope.
Open Scope Z_scope.
Open Scope list_scope.

(** ** the outcomes have total probability one *)

Lemma draw_total M rows : draw M = Ok rows -> qsum (map fst rows) = 1%Qc.
Proof.
  unfold draw. destruct (List.length (c_p M) =? List.length (c_C M))%nat eqn:L; cbn [negb]; [|discriminate].
  apply Nat.eqb_eq in L. destruct (c_p M) as [|q p] eqn:Ep; [discriminate|]. rewrite <- Ep in *.
  destruct (qc_eqb (qsum (c_p M)) 0%Qc) eqn:Hz0; [discriminate|]. destruct (forallb _ (c_p M)); [|discriminate].
  intros [= <-]. rewrite map_map. cbn [fst].
  assert (T : qsum (c_p M) <> 0%Qc) by (intros X; apply qc_eqb_eq in X; congruence).
  set (t := qsum (c_p M)) in *.
  assert (E : qsum (map (fun rp : list Z * Qc => (snd rp / t)%Qc) (filter (fun rp => negb (qc_eqb (snd rp) 0%Qc)) (combine (c_C M) (c_p M)))) = (t / t)%Qc).
  { rewrite qsum_filter. rewrite (qsum_map_ext _ (fun rp => (snd rp * (/ t))%Qc)).
    - rewrite qsum_map_scale_r. unfold Qcdiv. f_equal. unfold t.
      clear -L. f_equal. revert L. generalize (c_p M). induction (c_C M) as [|r C IH]; intros [|q p] L; cbn in *; try discriminate; auto.
      f_equal. apply IH. congruence.
    - intros rp _. destruct (qc_eqb (snd rp) 0%Qc) eqn:X; cbn [negb]; [|reflexivity]. apply qc_eqb_eq in X. rewrite X. ring. }
  rewrite E. unfold Qcdiv. apply Qcmult_inv_r. auto.
Qed.

Lemma sample_loop_total vars add Ms : forall i sample fs, qsum (map fst (sample_loop vars add i Ms sample fs)) = 1%Qc.
Proof.
  induction Ms as [|M Ms IH]; intros i sample fs; cbn [sample_loop].
  - cbn. ring.
  - destruct (bind (cond_sampled M vars sample) draw) as [rows|e] eqn:E.
    + assert (D : qsum (map fst rows) = 1%Qc).
      { destruct (cond_sampled M vars sample) as [M'|]; [|discriminate]. eapply draw_total; eauto. }
      rewrite qsum_flat_map, <- D. apply qsum_map_ext. intros wr _.
      destruct (put_mask _ _ sample) as [s'|e'].
      * rewrite map_map. cbn [fst]. rewrite qsum_map_scale, IH. ring.
      * cbn. ring.
    + cbn. ring.
Qed.

(** ** one draw *)

Lemma nth_error_firstn_lt {A} (l : list A) : forall n i, (i < n)%nat -> nth_error (firstn n l) i = nth_error l i.
Proof.
  induction l as [|a l IH]; intros [|n] i H; cbn; auto; try lia. destruct i as [|i]; cbn; auto. apply IH. lia.
Qed.
Lemma nth_firstn_lt {A} (l : list A) d : forall n i, (i < n)%nat -> nth i (firstn n l) d = nth i l d.
Proof.
  induction l as [|a l IH]; intros [|n] i H; cbn; auto; try lia. destruct i as [|i]; cbn; auto. apply IH. lia.
Qed.

Lemma sampled_codes vars sample : List.length vars = List.length sample ->
  map snd (sampled vars sample) = filter (fun s => 0 <? s) sample.
Proof.
  unfold sampled. revert sample. induction vars as [|v vars IH]; intros [|s sample] L; cbn in L; try discriminate; auto.
  cbn [combine filter snd]. destruct (0 <? s); cbn [map snd]; rewrite IH by congruence; auto.
Qed.

Lemma combine_fst_snd {A B} (l : list (A * B)) : combine (map fst l) (map snd l) = l.
Proof. induction l as [|[a b] l IH]; cbn; congruence. Qed.

Lemma sampled_In vars sample v s : In (v, s) (sampled vars sample) <-> In (v, s) (combine vars sample) /\ 0 < s.
Proof. unfold sampled. rewrite filter_In. cbn [snd]. rewrite Z.ltb_lt. tauto. Qed.

Lemma NoDup_filter_map {A B} (f : A -> B) (g : A -> bool) l : NoDup (map f l) -> NoDup (map f (filter g l)).
Proof.
  induction l as [|a l IH]; cbn; intros H; [constructor|]. inversion H; subst. destruct (g a); auto. cbn. constructor; auto.
  intros X. apply H2. apply in_map_iff in X as (b & E & Hb). apply filter_In in Hb as [Hb _]. apply in_map_iff. eauto.
Qed.

Lemma map_fst_combine {A B} (l : list A) (l' : list B) : List.length l = List.length l' -> map fst (combine l l') = l.
Proof. revert l'. induction l as [|a l IH]; intros [|b l'] H; cbn in *; try discriminate; auto. f_equal. apply IH. congruence. Qed.

Section Step.
Variables (M : cpm) (vars : list variable) (sample : list Z).
Hypothesis WM : wf_cpm M.
Hypothesis HpM : has_p M.
Hypothesis HsM : lists_states M.
Hypothesis Nv : NoDup (names vars).
Hypothesis Lv : List.length vars = List.length sample.
Hypothesis Av : agree vars (c_vars M).
(** sampled states are basic states under their own number *)
Definition own (v : variable) (s : Z) : Prop := code_ok v s /\ 0 <= s < nvals v /\ forall x, In x (states_of v s) <-> x = s.
Hypothesis Hown : forall v s, In (v, s) (combine vars sample) -> 0 < s -> own v s.

Let vs := map fst (sampled vars sample).
Let codes := map snd (sampled vars sample).

Lemma vs_In v : In v vs <-> exists s, In (v, s) (combine vars sample) /\ 0 < s.
Proof.
  unfold vs. rewrite in_map_iff. split.
  - intros ([w s] & <- & H). apply sampled_In in H. eauto.
  - intros (s & H). exists (v, s). split; auto. apply sampled_In. auto.
Qed.

Lemma step_ev : ev_ok (c_vars M) vs codes.
Proof.
  split; [|split; [|split]].
  - unfold vs, codes. rewrite !map_length. auto.
  - unfold vs, names. rewrite map_map. unfold sampled. apply NoDup_filter_map.
    rewrite <- map_map, map_fst_combine by auto. exact Nv.
  - intros v1 v2 H1 H2. apply Av; auto. apply vs_In in H1 as (s & H1 & _). eapply in_combine_l; eauto.
  - intros v c H _. unfold vs, codes in H. rewrite combine_fst_snd in H. apply sampled_In in H as [H1 H2]. apply (Hown v c); auto.
Qed.

Lemma step_cond : cond_sampled M vars sample =
  Ok (mkCpm (c_vars M) (c_nch M) (map (cond_row (c_vars M) vs codes) (filter (cmp vs codes (c_vars M)) (c_C M)))
            (match c_p M with [] => [] | _ => select (c_p M) (map (cmp vs codes (c_vars M)) (c_C M)) end)).
Proof.
  unfold cond_sampled. rewrite <- (sampled_codes vars sample Lv). apply condition_spec; [exact WM|exact step_ev].
Qed.

Lemma draw_rows (f : list Z -> list Z) (h : list Z -> bool) C p w r' q rows V n :
  List.length p = List.length C ->
  draw (mkCpm V n (map f (filter h C)) (match p with [] => [] | _ => select p (map h C) end)) = Ok rows ->
  In (w, (r', q)) rows ->
  exists r, In (r, q) (combine C p) /\ h r = true /\ r' = f r /\ q <> 0%Qc /\ weighted h C p <> 0%Qc /\
    w = (q / weighted h C p)%Qc /\ (0 <= w)%Qc.
Proof.
  intros L H Hin.
  assert (E : (match p with [] => [] | _ => select p (map h C) end) = select p (map h C)).
  { destruct p; [rewrite select_nil|]; auto. }
  rewrite E in H. unfold draw in H. cbn [c_p c_C] in H. rewrite map_length in H.
  destruct (List.length (select p (map h C)) =? _)%nat; cbn [negb] in H; [|discriminate].
  destruct (select p (map h C)) as [|q0 p0] eqn:Es; [discriminate|]. rewrite <- Es in *.
  rewrite select_weighted in H by auto. destruct (qc_eqb (weighted h C p) 0%Qc) eqn:Hz0; [discriminate|].
  destruct (forallb _ (select p (map h C))) eqn:F; [|discriminate]. injection H as <-.
  apply in_map_iff in Hin as ([r1 q1] & Eq & Hin). cbn [snd] in Eq. injection Eq as <- -> ->.
  apply filter_In in Hin as [Hin Hq]. cbn [snd] in Hq. apply negb_true_iff in Hq.
  assert (X : exists r, In (r, q) (combine C p) /\ h r = true /\ r' = f r).
  { clear -Hin L. revert p L Hin. induction C as [|c C IH]; intros [|x p] L Hin; cbn in L; try discriminate.
    - destruct Hin.
    - cbn [map filter] in Hin. rewrite select_cons in Hin. destruct (h c) eqn:Hc; cbn [map combine] in Hin.
      + destruct Hin as [Eq|Hin]; [injection Eq as <- ->; exists c; cbn; auto|].
        destruct (IH p) as (r & R1 & R2); auto. exists r. cbn; auto.
      + destruct (IH p) as (r & R1 & R2); auto. exists r. cbn; auto. }
  destruct X as (r & R1 & R2 & R3). exists r. split; [auto|]. split; [auto|]. split; [auto|].
  split; [intros X; apply qc_eqb_eq in X; congruence|]. split; [intros X; apply qc_eqb_eq in X; congruence|]. split; auto.
  rewrite forallb_forall in F. apply qc_leb_le, F. eapply in_combine_r; eauto.
Qed.

(** the chosen row agrees with the sampled states, and its child cells are kept *)
Lemma step_row w r' q rows :
  (M' <- cond_sampled M vars sample ;; draw M') = Ok rows -> In (w, (r', q)) rows ->
  exists r, In (r, q) (combine (c_C M) (c_p M)) /\ q <> 0%Qc /\ (0 <= w)%Qc /\
    weighted (fun r => hits (c_vars M) r vs codes) (c_C M) (c_p M) <> 0%Qc /\
    w = (q / weighted (fun r => hits (c_vars M) r vs codes) (c_C M) (c_p M))%Qc /\
    (forall v c s, In (v, c) (combine (c_vars M) r) -> In (v, s) (combine vars sample) -> 0 < s -> c = s) /\
    ((forall v s, In v (children M) -> In (v, s) (combine vars sample) -> s = 0) -> firstn (c_nch M) r' = firstn (c_nch M) r) /\
    List.length r = List.length (c_vars M).
Proof.
  rewrite step_cond. cbn [bind]. intros H Hin.
  destruct (draw_rows _ _ _ _ _ _ _ _ _ _ HpM H Hin) as (r & R1 & R2 & -> & R4 & R5 & R6 & R7).
  assert (Hr : In r (c_C M)) by (eapply in_combine_l; eauto).
  destruct (wf_rows M r WM Hr) as [Lr _]. pose proof step_ev as EV. pose proof WM as (N & _).
  assert (WE : weighted (cmp vs codes (c_vars M)) (c_C M) (c_p M) = weighted (fun r => hits (c_vars M) r vs codes) (c_C M) (c_p M)).
  { apply weighted_ext. intros r0 Hr0. apply cmp_hits; auto; [apply EV|apply (wf_rows M r0 WM Hr0)]. }
  rewrite WE in *. exists r. split; [auto|]. split; [auto|]. split; [auto|]. split; [auto|]. split; [auto|]. split; [|split].
  - intros v c s Hc Hs Hpos. unfold cmp, cmp_td in R2. rewrite forallb_forall in R2.
    pose proof Hc as Hc'. apply In_combine_at in Hc' as [Hv ->]; auto.
    assert (T : In (v, s, pos (c_vars M) v) (todo_of vs codes (c_vars M))).
    { apply todo_In. unfold vs, codes. rewrite combine_fst_snd. split; [apply sampled_In; auto|].
      apply find_idx_pos; auto. apply pos_In; auto. }
    specialize (R2 _ T). cbn [fst snd] in R2. apply meets_spec in R2 as (x & X1 & X2).
    apply (Hown v s) in X1; auto. destruct (HsM r v _ Hr Hc) as [_ X]. apply X in X2. congruence.
  - intros Hz. apply nth_ext with (d := 0) (d' := 0).
    + rewrite !firstn_length, cond_row_length by (auto; apply EV). rewrite Lr. auto.
    + intros i Hi. rewrite firstn_length, cond_row_length in Hi by (auto; apply EV).
      rewrite !nth_firstn_lt by lia. change (at_ (cond_row (c_vars M) vs codes r) i = at_ r i).
      destruct (nth_error (c_vars M) i) as [v|] eqn:Ev; [|apply nth_error_None in Ev; lia].
      destruct (cond_row_at (c_vars M) vs codes N EV r i v Lr Ev) as [(s & Hs & _)|[_ E]]; auto. exfalso.
      apply todo_In in Hs as [Hs _]. unfold vs, codes in Hs. rewrite combine_fst_snd in Hs. apply sampled_In in Hs as [Hs Hp].
      assert (s = 0); [|lia]. apply (Hz v); auto. unfold children. apply nth_error_In with i. rewrite nth_error_firstn_lt by lia. auto.
  - auto.
Qed.
End Step.

(** ** the loop *)

Lemma combine_app_eq {A B} (l1 l2 : list A) (m1 m2 : list B) : List.length l1 = List.length m1 ->
  combine (l1 ++ l2) (m1 ++ m2) = combine l1 m1 ++ combine l2 m2.
Proof. revert m1. induction l1 as [|a l1 IH]; intros [|b m1] H; cbn in *; try discriminate; auto. rewrite IH by congruence. auto. Qed.

Lemma NoDup_app_remove_r {A} (l l' : list A) : NoDup (l ++ l') -> NoDup l.
Proof. induction l' as [|x l' IH]; [rewrite app_nil_r; auto|]. intros H. apply IH. eapply NoDup_remove_1; eauto. Qed.
Lemma NoDup_app_remove_l {A} (l l' : list A) : NoDup (l ++ l') -> NoDup l'.
Proof. induction l as [|x l IH]; cbn; auto. intros H. inversion H; auto. Qed.

Lemma fill_mid idx : forall m1 s1 s0 m3 s3, (forall b, In b m1 -> b = false) -> (forall b, In b m3 -> b = false) ->
  List.length m1 = List.length s1 -> List.length s0 = List.length idx ->
  fill_mask (m1 ++ map (fun _ => true) idx ++ m3) idx (s1 ++ s0 ++ s3) = s1 ++ idx ++ s3.
Proof.
  induction m1 as [|b m1 IH]; intros [|x s1] s0 m3 s3 H1 H3 L1 L0; cbn in L1; try discriminate.
  - cbn [app]. revert idx L0. induction s0 as [|y s0 IH0]; intros [|z idx] L0; cbn in L0; try discriminate.
    + cbn [map app]. revert s3 H3. clear. induction m3 as [|b m3 IH]; intros [|y s3] H; cbn; auto.
      * rewrite (H b) by (left; auto). reflexivity.
      * rewrite (H b) by (left; auto). f_equal. apply IH. intros; apply H; right; auto.
    + cbn. f_equal. apply IH0. congruence.
  - rewrite (H1 b) by (left; auto). cbn [app fill_mask]. f_equal. apply IH; auto. intros; apply H1; right; auto.
Qed.
Lemma put_mid idx m1 s1 s0 m3 s3 : (forall b, In b m1 -> b = false) -> (forall b, In b m3 -> b = false) ->
  List.length m1 = List.length s1 -> List.length s0 = List.length idx -> List.length m3 = List.length s3 ->
  put_mask (m1 ++ map (fun _ => true) idx ++ m3) idx (s1 ++ s0 ++ s3) = Ok (s1 ++ idx ++ s3).
Proof.
  intros H1 H3 L1 L0 L3. unfold put_mask. rewrite !app_length, map_length, L1, L0, L3, Nat.eqb_refl. cbn [negb].
  assert (F : forall l, (forall b, In b l -> b = false) -> filter (fun b : bool => b) l = []).
  { clear. induction l as [|b l IH]; cbn; intros H; auto. rewrite (H b) by auto. apply IH. auto. }
  rewrite !filter_app, (F m1), (F m3) by auto. cbn [app]. rewrite app_nil_r.
  assert (G : filter (fun b : bool => b) (map (fun _ : Z => true) idx) = map (fun _ => true) idx) by (clear; induction idx; cbn; congruence).
  rewrite G, map_length, Nat.eqb_refl. rewrite fill_mid; auto.
Qed.

Definition kids (Ms : list cpm) : list variable := flat_map children Ms.
Fixpoint adds (k : nat) (Ms : list cpm) : list nat :=
  match Ms with [] => [] | M :: Ms' => map (fun _ => k) (children M) ++ adds (S k) Ms' end.
Lemma adds_app k l1 l2 : adds k (l1 ++ l2) = adds k l1 ++ adds (k + List.length l1) l2.
Proof. revert k. induction l1 as [|M l1 IH]; intros k; cbn; [rewrite Nat.add_0_r; auto|]. rewrite IH, app_assoc. do 2 f_equal. lia. Qed.
Lemma adds_In k l x : In x (adds k l) -> (k <= x < k + List.length l)%nat.
Proof.
  revert k. induction l as [|M l IH]; intros k; cbn; [tauto|]. intros H. apply in_app_iff in H as [H|H].
  - apply in_map_iff in H as (? & <- & _). lia.
  - apply IH in H. lia.
Qed.
Lemma adds_length k l : List.length (adds k l) = List.length (kids l).
Proof. revert k. induction l as [|M l IH]; intros k; cbn; auto. unfold kids in *. cbn. rewrite !app_length, map_length, IH. auto. Qed.
Lemma kids_app l1 l2 : kids (l1 ++ l2) = kids l1 ++ kids l2.
Proof. apply flat_map_app. Qed.

Lemma kids_names cpms : (forall M, In M cpms -> NoDup (names (c_vars M))) -> one_definition cpms -> NoDup (names (kids cpms)).
Proof.
  induction cpms as [|M cpms IH]; intros HN H1; cbn; [constructor|]. unfold names. rewrite map_app. apply NoDup_app_intro.
  - specialize (HN M (or_introl eq_refl)). unfold names, children in *. rewrite <- (firstn_skipn (c_nch M) (c_vars M)) in HN. rewrite map_app in HN.
    apply NoDup_app_remove_r in HN. auto.
  - apply IH; [intros; apply HN; right; auto|]. intros i j n (Mi & Ei & Hi) (Mj & Ej & Hj).
    assert (S i = S j); [|congruence]. apply (H1 (S i) (S j) n); [exists Mi|exists Mj]; auto.
  - intros n X Y. change (In n (names (kids cpms))) in Y. apply in_map_iff in Y as (v & <- & Hv). apply in_flat_map in Hv as (M' & HM & Hv).
    apply In_nth_error in HM as [j Hj]. assert (O = S j); [|discriminate]. apply (H1 O (S j) (v_name v)).
    + exists M. auto.
    + exists M'. split; auto. apply in_map. auto.
Qed.

Lemma joint_of_In vars sample v s : NoDup (names vars) -> In (v, s) (combine vars sample) -> joint_of vars sample (v_name v) = s.
Proof.
  intros N H. unfold joint_of. revert sample H. induction vars as [|w vars IH]; intros [|x sample] H; cbn in H; try tauto.
  cbn [combine find fst]. cbn in N. inversion N as [|? ? N1 N2]; subst. destruct H as [E|H].
  - injection E as -> ->. rewrite String.eqb_refl. auto.
  - destruct (String.eqb_spec (v_name w) (v_name v)) as [E|E]; [|apply IH; auto].
    exfalso. apply N1. rewrite E. apply in_map. eapply in_combine_l; eauto.
Qed.

Lemma In_combine_ex {A B} (l : list A) (l' : list B) a : List.length l = List.length l' -> In a l -> exists b, In (a, b) (combine l l').
Proof.
  revert l'. induction l as [|x l IH]; intros [|y l'] L H; cbn in *; try discriminate; [tauto|].
  destruct H as [-> |H]; [eauto|]. destruct (IH l') as [b Hb]; auto; eauto.
Qed.

Lemma In_combine_firstn {A B} (l : list A) (l' : list B) n x : In x (combine (firstn n l) (firstn n l')) -> In x (combine l l').
Proof.
  revert l l'. induction n as [|n IH]; intros [|a l] [|b l']; cbn; try tauto. intros [H|H]; auto.
Qed.

(** the sum of the weights when all parents are fixed *)
Lemma fixed_parents M vs codes a : wf_cpm M -> has_p M -> lists_states M -> normal M -> ev_ok (c_vars M) vs codes ->
  (forall v, In v vs -> ~ In (v_name v) (names (children M))) ->
  (forall p, In p (parents M) -> exists s, In (p, s) (combine vs codes) /\ own p s /\ a (v_name p) = s) ->
  weighted (fun r => hits (c_vars M) r vs codes) (c_C M) (c_p M) = 1%Qc.
Proof.
  intros W Hp Hs HN EV Hc Hpar. pose proof W as (N & _). pose proof EV as (E1 & E2 & E3 & E4).
  assert (Hb : forall v, In v (c_vars M) -> basic_in M v).
  { intros v Hv row c Hr Hin. exists c. apply (Hs row v c); auto. }
  change (total (fun r => hits (c_vars M) r vs codes) M = 1%Qc).
  set (f := fun b => if ev_match (c_vars M) vs codes b then mass M b else 0%Qc).
  assert (Hf : ext f).
  { intros b b' Hbb. unfold f. rewrite (mass_ext M b b') by (intros; apply Hbb). unfold ev_match.
    rewrite (forallb_ext_in _ (fun vc => negb (mem_str (v_name (fst vc)) (names (c_vars M))) || mem_Z (b' (v_name (fst vc))) (states_of (fst vc) (snd vc)))); auto.
    intros vc _. rewrite Hbb. auto. }
  rewrite <- (event_sum M vs codes W Hp EV Hb a). fold f.
  assert (EQ : c_vars M = children M ++ parents M) by (symmetry; apply firstn_skipn).
  rewrite (marg_perm (c_vars M) (parents M ++ children M)); auto.
  2:{ rewrite EQ at 1. apply Permutation_app_comm. }
  rewrite marg_app.
  assert (NP : NoDup (names (parents M))).
  { rewrite EQ in N. unfold names in *. rewrite map_app in N. apply NoDup_app_remove_l in N. auto. }
  rewrite (marg_point (parents M) (marg (children M) f) a).
  - set (a' := fun n => if mem_str n (names (parents M)) then a n else a n).
    transitivity (marg (children M) (mass M) a'); [|apply (HN a')].
    + assert (G : forall l b, incl l (children M) -> (forall p, In p (parents M) -> b (v_name p) = a (v_name p)) -> marg l f b = marg l (mass M) b).
      { induction l as [|v l IH]; intros b Hl Hab; cbn [marg].
        - unfold f. replace (ev_match (c_vars M) vs codes b) with true; auto. symmetry. unfold ev_match. apply forallb_forall.
          intros [v c] Hin. cbn [fst snd]. destruct (mem_str (v_name v) (names (c_vars M))) eqn:X; auto. cbn [negb orb].
          apply mem_str_In in X. assert (Hv : In v vs) by (eapply in_combine_l; eauto).
          rewrite EQ in X. unfold names in X. rewrite map_app in X. apply in_app_iff in X as [X|X]; [exfalso; apply (Hc v Hv); auto|].
          apply in_map_iff in X as (p & Ep & Hpp). destruct (Hpar p Hpp) as (s & Hs1 & Hs2 & Hs3).
          assert (p = v).
          { apply (NoDup_names_inj vs); auto. eapply in_combine_l; eauto. }
          subst p. assert (s = c).
          { rewrite <- (joint_of_In vs codes v s E2 Hs1). apply joint_of_In; auto. }
          apply mem_Z_In. destruct Hs2 as (_ & _ & Hs2). rewrite <- H. apply Hs2. rewrite Hab; auto.
        - apply qsum_map_ext. intros x _. apply IH; [intros y Hy; apply Hl; right; auto|].
          intros p Hpp. unfold set_joint. destruct (String.eqb_spec (v_name p) (v_name v)) as [E|E]; auto. exfalso.
          rewrite EQ in N. unfold names in N. rewrite map_app in N.
          assert (Hv : In (v_name v) (map v_name (children M))) by (apply in_map, Hl; left; auto).
          apply in_split in Hv as (u1 & u2 & Eu). rewrite Eu in N. rewrite <- app_assoc in N. cbn in N. apply NoDup_remove_2 in N.
          apply N. rewrite in_app_iff. right. apply in_app_iff. right. rewrite <- E. apply in_map. auto. }
      apply G; [apply incl_refl|]. intros p Hpp. unfold a'. destruct (mem_str _ _); auto.
    + intros p Hpp. destruct (Hpar p Hpp) as (s & _ & (_ & Hr & _) & Ea). unfold a'. destruct (mem_str _ _); rewrite Ea; auto.
  - apply marg_ext_a. auto.
  - auto.
  - intros p Hpp. destruct (Hpar p Hpp) as (s & _ & (_ & Hr & _) & Ea). rewrite Ea. auto.
  - intros b p Hpp Hne. destruct (Hpar p Hpp) as (s & Hs1 & Hs2 & Hs3).
    apply marg_zero. intros b' Hb'. unfold f. destruct (ev_match (c_vars M) vs codes b') eqn:X; auto. exfalso. apply Hne.
    unfold ev_match in X. rewrite forallb_forall in X. specialize (X _ Hs1). cbn [fst snd] in X.
    rewrite (proj2 (mem_str_In _ _)) in X.
    2:{ rewrite EQ. unfold names. rewrite map_app. apply in_app_iff. right. apply in_map. auto. }
    cbn [negb orb] in X. apply mem_Z_In in X. apply Hs2 in X. rewrite Hb' in X; [congruence|].
    intros Y. apply in_map_iff in Y as (v & Ev & Hv). rewrite EQ in N. unfold names in N. rewrite map_app in N.
    apply in_split in Hv as (u1 & u2 & Eu). rewrite Eu, map_app, <- app_assoc in N. cbn in N. apply NoDup_remove_2 in N.
    apply N. rewrite in_app_iff. right. apply in_app_iff. right. rewrite Ev. apply in_map. auto.
Qed.

Lemma unique_row M r q a : wf_cpm M -> has_p M -> lists_states M -> NoDup (c_C M) -> In (r, q) (combine (c_C M) (c_p M)) ->
  (forall v c, In (v, c) (combine (c_vars M) r) -> a (v_name v) = c) -> mass M a = q.
Proof.
  intros W Hp Hs Nd Hin Ha. pose proof W as (N & _). rewrite mass_if.
  assert (Wt : weights M = c_p M).
  { unfold weights. unfold has_p in Hp. destruct (c_p M) eqn:Ep; auto. destruct (c_C M); [auto|discriminate]. }
  rewrite Wt.
  assert (RM : forall r0 q0, In (r0, q0) (combine (c_C M) (c_p M)) -> row_match (c_vars M) r0 a = true <-> r0 = r).
  { intros r0 q0 H0. assert (I0 := in_combine_l _ _ _ _ H0). assert (I := in_combine_l _ _ _ _ Hin).
    destruct (wf_rows M r0 W I0) as [L0 _]. destruct (wf_rows M r W I) as [L _].
    rewrite row_match_cells by auto. rewrite forallb_forall. unfold cell. split.
    - intros H. apply at_ext; [congruence|]. intros i Hi. destruct (nth_error (c_vars M) i) as [v|] eqn:Ev; [|apply nth_error_None in Ev; lia].
      assert (Hv : In v (c_vars M)) by (eapply nth_error_In; eauto). specialize (H v Hv). rewrite (pos_nth _ _ _ N Ev) in H.
      apply mem_Z_In in H.
      assert (C0 : In (v, at_ r0 i) (combine (c_vars M) r0)) by (apply In_combine_at; auto; split; auto; rewrite (pos_nth _ _ _ N Ev); auto).
      assert (C1 : In (v, at_ r i) (combine (c_vars M) r)) by (apply In_combine_at; auto; split; auto; rewrite (pos_nth _ _ _ N Ev); auto).
      apply (Hs r0 v _ I0 C0) in H. rewrite <- H. apply Ha. auto.
    - intros -> v Hv. apply mem_Z_In.
      assert (C1 : In (v, at_ r (pos (c_vars M) v)) (combine (c_vars M) r)) by (apply In_combine_at; auto).
      apply (Hs r v _ I C1). apply Ha. auto. }
  rewrite (qsum_map_ext _ (fun rp => if row_eqb (fst rp) r then snd rp else 0%Qc)).
  2:{ intros [r0 q0] H0. cbn [fst snd]. specialize (RM r0 q0 H0). assert (T := tuple_eqb_spec r0 r). unfold row_eqb.
      destruct (row_match (c_vars M) r0 a), (tuple_eqb r0 r); auto; exfalso; intuition congruence. }
  clear RM Wt Ha Hs. unfold has_p in Hp. revert Hp Hin. generalize (c_p M). induction (c_C M) as [|c C IH]; intros [|x p] Hp Hin; cbn in Hp; try discriminate; cbn in Hin; [tauto|].
  inversion Nd; subst. cbn [combine map qsum fst snd]. destruct Hin as [E|Hin].
  - injection E as -> ->. unfold row_eqb at 1. rewrite (proj2 (tuple_eqb_spec r r)) by auto.
    rewrite qsum_map_zero; [ring|]. intros [r0 q0] H0. cbn [fst snd]. unfold row_eqb. destruct (tuple_eqb r0 r) eqn:T; auto.
    apply tuple_eqb_spec in T. subst r0. exfalso. apply H1. eapply in_combine_l; eauto.
  - unfold row_eqb at 1. destruct (tuple_eqb c r) eqn:T.
    + apply tuple_eqb_spec in T. subst c. exfalso. apply H1. eapply in_combine_l; eauto.
    + rewrite (IH H2 p) by (auto; congruence). ring.
Qed.

Definition parents_first (cpms : list cpm) : Prop :=
  forall l1 M l2 p, cpms = l1 ++ M :: l2 -> In p (parents M) -> In (v_name p) (names (kids l1)).

Lemma qprod_pos_mult x y : (0 < x -> 0 < y -> 0 < x * y)%Qc.
Proof.
  unfold Qclt. intros H1 H2. rewrite qc_this_mult. change (this 0%Qc) with 0%Q in *.
  setoid_replace 0%Q with (0 * this y)%Q by ring. apply Qmult_lt_compat_r; auto.
Qed.

Lemma loop_ok cpms : net_ok cpms -> parents_first cpms -> forall Ms2 Ms1 s1 fs w s' fs',
  cpms = Ms1 ++ Ms2 -> List.length s1 = List.length (kids Ms1) ->
  (forall v s, In (v, s) (combine (kids Ms1) s1) -> own v s) ->
  In (w, Ok (s', fs')) (sample_loop (kids cpms) (adds 0 cpms) (List.length Ms1) Ms2 (s1 ++ map (fun _ => 0) (kids Ms2)) fs) ->
  exists s2 fs2, s' = s1 ++ s2 /\ fs' = fs ++ fs2 /\ List.length s2 = List.length (kids Ms2) /\
    (forall v s, In (v, s) (combine (kids Ms2) s2) -> own v s) /\ (0 <= w)%Qc /\
    ((forall M p, In M Ms2 -> In p (parents M) -> joint_of (kids cpms) s' (v_name p) <> 0) ->
       qprod fs2 = pmass Ms2 (joint_of (kids cpms) s') /\ (0 < qprod fs2)%Qc /\ (Forall normal Ms2 -> w = qprod fs2)).
Proof.
  intros (NM & NA & N1) PF. 
  assert (NK : NoDup (names (kids cpms))) by (apply kids_names; auto; intros M HM; apply (NM M HM)).
  induction Ms2 as [|M Ms2 IH]; intros Ms1 s1 fs w s' fs' E L1 H1 Hin; cbn [sample_loop] in Hin.
  - destruct Hin as [X|[]]. injection X as <- <- <-. exists [], []. cbn. rewrite !app_nil_r.
    split; [auto|]. split; [auto|]. split; [auto|]. split; [tauto|]. split; [qc_lra|]. intros _. unfold pmass. cbn.
    split; [auto|]. split; [reflexivity|auto].
  - set (vars := kids cpms) in *. set (sample := s1 ++ map (fun _ => 0) (kids (M :: Ms2))) in *.
    assert (HM : In M cpms) by (rewrite E; apply in_app_iff; right; left; auto).
    destruct (NM M HM) as (W & Hp & Hs & Nd & Hpos).
    assert (Ev : vars = kids Ms1 ++ kids (M :: Ms2)) by (unfold vars; rewrite E; apply kids_app).
    assert (Lv : List.length vars = List.length sample).
    { rewrite Ev. unfold sample. rewrite !app_length, map_length. lia. }
    assert (Av : agree vars (c_vars M)).
    { intros v1 v2 X1 X2. apply in_flat_map in X1 as (M1 & Y1 & Y2). apply (NA M1 M Y1 HM); auto.
      unfold children in Y2. rewrite <- (firstn_skipn (c_nch M1) (c_vars M1)). apply in_app_iff. auto. }
    assert (Cb : combine vars sample = combine (kids Ms1) s1 ++ combine (kids (M :: Ms2)) (map (fun _ => 0) (kids (M :: Ms2)))).
    { rewrite Ev. unfold sample. apply combine_app_eq. auto. }
    assert (Hz : forall v s, In (v, s) (combine (kids (M :: Ms2)) (map (fun _ => 0) (kids (M :: Ms2)))) -> s = 0).
    { intros v s X. apply in_combine_r in X. apply in_map_iff in X as (? & <- & _). auto. }
    assert (Ho : forall v s, In (v, s) (combine vars sample) -> 0 < s -> own v s).
    { intros v s X Y. rewrite Cb in X. apply in_app_iff in X as [X|X]; auto. apply Hz in X. lia. }
    destruct (bind (cond_sampled M vars sample) draw) as [rows|e] eqn:Er.
    2:{ destruct Hin as [X|[]]. discriminate. }
    apply in_flat_map in Hin as ([w1 [r' q]] & Hrow & Hin). cbn [fst snd] in Hin.
    destruct (step_row M vars sample W Hp Hs NK Lv Av Ho w1 r' q rows Er Hrow) as (r & R1 & R2 & R2' & R3 & R4 & R5 & R6 & R7).
    assert (Hr : In r (c_C M)) by (eapply in_combine_l; eauto).
    assert (Nch : (c_nch M <= List.length (c_vars M))%nat) by apply W.
    assert (Kid0 : forall v s, In v (children M) -> In (v, s) (combine vars sample) -> s = 0).
    { intros v s Hv X. rewrite Cb in X. apply in_app_iff in X as [X|X]; [|eapply Hz; eauto]. exfalso.
      apply in_combine_l in X. unfold vars in NK. rewrite E, kids_app in NK. unfold names in NK. rewrite map_app in NK.
      apply (in_map v_name) in X. apply in_split in X as (u1 & u2 & Eu). rewrite Eu, <- app_assoc in NK. cbn in NK. apply NoDup_remove_2 in NK.
      apply NK. rewrite in_app_iff. right. apply in_app_iff. right. rewrite map_app. apply in_app_iff. left. apply in_map. auto. }
    rewrite (R6 Kid0) in Hin.
    set (idx := firstn (c_nch M) r) in *.
    assert (Li : List.length idx = List.length (children M)).
    { unfold idx, children. rewrite !firstn_length, R7. auto. }
    assert (Em : map (Nat.eqb (List.length Ms1)) (adds 0 cpms) =
      map (Nat.eqb (List.length Ms1)) (adds 0 Ms1) ++ map (fun _ => true) idx ++ map (Nat.eqb (List.length Ms1)) (adds (S (List.length Ms1)) Ms2)).
    { rewrite E, adds_app. cbn [adds]. rewrite !map_app, !map_map. cbn [Nat.add]. do 2 f_equal.
      rewrite Nat.eqb_refl. clear -Li. revert Li. generalize idx. induction (children M) as [|c l IH]; intros [|x i] L; cbn in *; try discriminate; auto.
      f_equal. apply IH. congruence. }
    assert (Es : sample = s1 ++ map (fun _ => 0) (children M) ++ map (fun _ => 0) (kids Ms2)).
    { unfold sample. cbn [kids flat_map]. rewrite map_app. reflexivity. }
    rewrite Em, Es, put_mid in Hin.
    2:{ intros b Hb. apply in_map_iff in Hb as (x & <- & Hx). apply adds_In in Hx. apply Nat.eqb_neq. lia. }
    2:{ intros b Hb. apply in_map_iff in Hb as (x & <- & Hx). apply adds_In in Hx. apply Nat.eqb_neq. lia. }
    2:{ rewrite map_length, adds_length. auto. }
    2:{ rewrite map_length. auto. }
    2:{ rewrite !map_length, adds_length. auto. }
    apply in_map_iff in Hin as ([w2 o] & Eo & Hin). cbn [fst snd] in Eo. injection Eo as <- ->.
    assert (Ok1 : forall v s, In (v, s) (combine (children M) idx) -> own v s /\ In (v, s) (combine (c_vars M) r)).
    { intros v s X. unfold children, idx in X. apply In_combine_firstn in X. split; auto. split; [|apply (Hs r v s); auto].
      apply In_combine_at in X as [X ->]; auto; [|apply W]. destruct W as (W1 & W2 & W3 & W4 & W5).
      apply (Forall2_at (c_vars M)); auto. apply pos_In; auto. }
    destruct (IH (Ms1 ++ [M]) (s1 ++ idx) (fs ++ [q]) w2 s' fs') as (s2 & fs2 & F1 & F2 & F3 & F4 & F5 & F6).
    { rewrite <- app_assoc. exact E. }
    { rewrite kids_app, !app_length. cbn [kids flat_map]. rewrite app_nil_r. lia. }
    { intros v s. rewrite kids_app. cbn [kids flat_map]. rewrite app_nil_r, combine_app_eq by auto.
      intros X. apply in_app_iff in X as [X|X]; [auto|apply Ok1; auto]. }
    { rewrite app_length. cbn [List.length]. rewrite Nat.add_1_r, <- app_assoc. exact Hin. }
    exists (idx ++ s2), (q :: fs2). rewrite F1, F2, <- !app_assoc. split; [auto|]. split; [auto|].
    cbn [kids flat_map]. fold (kids Ms2). rewrite !app_length, F3, Li. split; [auto|]. split.
    { intros v s. rewrite combine_app_eq by auto. intros X. apply in_app_iff in X as [X|X]; [apply Ok1; auto|auto]. }
    split; [apply qcmult_nonneg; auto|].
    intros HP. rewrite F1, <- app_assoc in F6. destruct F6 as (G1 & G2 & G3). { intros M' p HM'. apply HP. right. auto. }
    set (final := s1 ++ idx ++ s2) in *. set (a := joint_of vars final) in *.
    assert (Cf : combine vars final = combine (kids Ms1) s1 ++ combine (children M) idx ++ combine (kids Ms2) s2).
    { rewrite Ev. unfold final. rewrite combine_app_eq by auto. cbn [kids flat_map]. fold (kids Ms2). rewrite combine_app_eq by auto. auto. }
    assert (Hq0 : (0 < q)%Qc).
    { rewrite Forall_forall in Hpos. specialize (Hpos q (in_combine_r _ _ _ _ R1)).
      apply Qcle_lt_or_eq in Hpos as [X|X]; [auto|congruence]. }
    (* the parents were sampled, with positive states *)
    assert (Par : forall p, In p (parents M) -> exists s, In (p, s) (combine (kids Ms1) s1) /\ 0 < s /\ a (v_name p) = s).
    { intros p Hpp. assert (X := PF Ms1 M Ms2 p E Hpp). apply in_map_iff in X as (v & Ev' & Hv).
      assert (v = p).
      { apply Av; [rewrite Ev; apply in_app_iff; auto| |auto]. unfold parents in Hpp. rewrite <- (firstn_skipn (c_nch M) (c_vars M)). apply in_app_iff. auto. }
      subst v. destruct (In_combine_ex (kids Ms1) s1 p (eq_sym L1) Hv) as [s Hsv].
      assert (Ea : a (v_name p) = s) by (apply joint_of_In; auto; rewrite Cf; apply in_app_iff; auto).
      exists s. split; auto. split; auto. specialize (HP M p (or_introl eq_refl) Hpp). fold a in HP.
      destruct (H1 p s Hsv) as (_ & X & _). lia. }
    assert (Row : forall v c, In (v, c) (combine (c_vars M) r) -> a (v_name v) = c).
    { intros v c X. assert (Y := X). apply In_combine_at in Y as [Hv Ec]; auto; [|apply W].
      rewrite <- (firstn_skipn (c_nch M) (c_vars M)) in Hv. apply in_app_iff in Hv as [Hv|Hv].
      - fold (children M) in Hv. destruct (In_combine_ex (children M) idx v (eq_sym Li) Hv) as [s Hsv].
        destruct (Ok1 v s Hsv) as [_ Z]. apply In_combine_at in Z as [_ Es']; auto; [|apply W].
        rewrite Ec, <- Es'. apply joint_of_In; auto. rewrite Cf. apply in_app_iff. right. apply in_app_iff. auto.
      - fold (parents M) in Hv. destruct (Par v Hv) as (s & S1 & S2 & S3). rewrite S3. symmetry. apply (R5 v c s); auto.
        rewrite Cb. apply in_app_iff. auto. }
    assert (Mq : mass M a = q) by (apply unique_row with r; auto).
    split; [|split].
    + cbn [qprod]. unfold pmass in *. cbn [map qprod]. rewrite G1, Mq. auto.
    + cbn [qprod]. apply qprod_pos_mult; auto.
    + intros HN. pose proof (Forall_inv HN) as HN1. pose proof (Forall_inv_tail HN) as HN2. rewrite (G3 HN2). cbn [qprod]. f_equal.
      rewrite R4, (fixed_parents M _ _ a W Hp Hs HN1).
      * unfold Qcdiv. replace (/ 1)%Qc with 1%Qc by (apply Qc_is_canon; reflexivity). ring.
      * apply (step_ev M vars sample); auto.
      * intros v Hv X. apply (vs_In vars sample) in Hv as (s & Hv & Hv').
        apply in_map_iff in X as (k & Ek & Hk). assert (k = v).
        { symmetry. apply Av; auto; [eapply in_combine_l; eauto|]. unfold children in Hk. rewrite <- (firstn_skipn (c_nch M) (c_vars M)). apply in_app_iff. auto. }
        subst k. specialize (Kid0 v s Hk Hv). lia.
      * intros p Hpp. destruct (Par p Hpp) as (s & S1 & S2 & S3). exists s. rewrite combine_fst_snd. split; [|split; auto].
        apply sampled_In. split; auto. rewrite Cb. apply in_app_iff. auto.
Qed.

(** ** networks listed parents first *)
Lemma child_vars_seq cpms : child_vars cpms (seq 0 (List.length cpms)) = kids cpms.
Proof.
  assert (G : forall l pre, child_vars (pre ++ l) (seq (List.length pre) (List.length l)) = kids l).
  { induction l as [|M l IH]; intros pre; cbn [List.length seq]; [reflexivity|].
    unfold child_vars in *. cbn [flat_map]. rewrite nth_error_app2, Nat.sub_diag by lia. cbn [nth_error kids flat_map]. f_equal.
    specialize (IH (pre ++ [M])). rewrite <- app_assoc, app_length, Nat.add_1_r in IH. exact IH. }
  apply (G cpms []).
Qed.
Lemma add_of_seq cpms : add_of cpms 0 (seq 0 (List.length cpms)) = adds 0 cpms.
Proof.
  assert (G : forall l pre k, add_of (pre ++ l) k (seq (List.length pre) (List.length l)) = adds k l).
  { induction l as [|M l IH]; intros pre k; cbn [List.length seq add_of adds]; [reflexivity|].
    rewrite nth_error_app2, Nat.sub_diag by lia. cbn [nth_error]. f_equal.
    specialize (IH (pre ++ [M]) (S k)). rewrite <- app_assoc, app_length, Nat.add_1_r in IH. exact IH. }
  apply (G cpms []).
Qed.
Lemma snd_combine_seq {A} (l : list A) a : map snd (combine (seq a (List.length l)) l) = l.
Proof. revert a. induction l as [|x l IH]; intros a; cbn; auto. f_equal. auto. Qed.

Lemma topological_first cpms : topological cpms (seq 0 (List.length cpms)) -> parents_first cpms.
Proof.
  intros (_ & _ & H) l1 M l2 p E Hp.
  assert (Es : seq 0 (List.length cpms) = seq 0 (List.length l1) ++ List.length l1 :: seq (S (List.length l1)) (List.length l2)).
  { rewrite E, app_length. cbn [List.length]. rewrite seq_app. reflexivity. }
  destruct (H _ _ _ (v_name p) Es) as (i & Hi & M' & Ei & Hn).
  { exists M. split; [rewrite E, nth_error_app2, Nat.sub_diag by lia; reflexivity|]. apply in_map. auto. }
  apply in_seq in Hi. rewrite E, nth_error_app1 in Ei by lia. apply nth_error_In in Ei.
  apply in_map_iff in Hn as (v & <- & Hv). apply in_map. apply in_flat_map. eauto.
Qed.

Lemma sample_main cpms vars add w sample fs : net_ok cpms ->
  get_sample_order cpms = (seq 0 (List.length cpms), vars, add) ->
  In (w, Ok (sample, fs)) (single_sample cpms (seq 0 (List.length cpms)) vars add) ->
  (forall M p, In M cpms -> In p (parents M) -> joint_of vars sample (v_name p) <> 0) ->
  qprod fs = pmass cpms (joint_of vars sample) /\ (0 < qprod fs)%Qc /\ (Forall normal cpms -> w = qprod fs).
Proof.
  intros NO HO Hin HP. pose proof (sample_order_main _ _ _ _ HO) as [T _].
  pose proof NO as (_ & _ & N1). assert (HA : acyclic cpms) by (apply topological_acyclic with (seq 0 (List.length cpms)); auto).
  destruct (sample_order_exact _ _ _ _ HO N1 HA) as [-> ->]. rewrite child_vars_seq, add_of_seq in *.
  unfold single_sample in Hin. rewrite snd_combine_seq in Hin.
  destruct (loop_ok cpms NO (topological_first _ T) cpms [] [] [] w sample fs) as (s2 & fs2 & F1 & F2 & F3 & F4 & F5 & F6); auto.
  { intros v s []. }
  cbn [app] in F1, F2. subst s2 fs2. auto.
Qed.
