(** Final theorems C124: which component splits a branch ([Branch.get_decomp_comp_using_probs],
    branch.py 164-196).  C11 says that the split is possible; here it is shown to be the one that the
    comments of the code announce: a component of the likeliest rule, and among the components of
    that rule one that occurs in most rules. *)
From Coq Require Import ZArith List String Bool Lia QArith Qcanon Permutation Sorting.Sorted.
From Verif Require Import Py Num Vari Brc SpecBrc VariFacts PyFacts BrcFacts BrcProb BrcDecomp CpmMarg PropBrc.
Import ListNotations.
Open Scope string_scope.
Open Scope Z_scope.
Open Scope list_scope.

(** [r] is a survival or a failure rule of [c] *)
Definition rule_in (c : ruleset) (t : st) (r : dict Z) : Prop :=
  t = S_ /\ In r (r_s c) \/ t = F_ /\ In r (r_f c).
(** number of rules with component [k] *)
Definition occurs (c : ruleset) (k : string) : nat :=
  count_occ string_dec (flat_map (map fst) (r_s c ++ r_f c)) k.
(** probability that the components of the rule are within the branch and the rule holds: states from
    the rule's up to the upper end for survival, from the lower end up to the rule's for failure *)
Definition rule_prob (probs : prob_dict) (b : branch) (t : st) (r : dict Z) : Qc :=
  qprod (map (fun kv => qsum (map (pr probs (fst kv))
    (match t with
     | S_ => zrange (snd kv) (coord (b_up b) (fst kv) + 1)
     | _ => zrange (coord (b_down b) (fst kv)) (snd kv + 1)
     end))) r).
(** the state that splits: that of a survival rule, one more than that of a failure rule *)
Definition split_state (t : st) (r : dict Z) (xd : string) (s : Z) : Prop :=
  match t with S_ => In (xd, s) r | F_ => In (xd, s - 1) r | U_ => False end.

Definition cn (c : list (string * nat)) (k : string) : nat :=
  match find (fun p => String.eqb k (fst p)) c with Some p => snd p | None => O end.
Lemma cn_add c x k : cn (counter_add c x) k = (cn c k + (if string_dec x k then 1 else 0))%nat.
Proof.
  unfold cn. induction c as [|[y n] c IH]; cbn.
  - destruct (String.eqb_spec k x), (string_dec x k); cbn; congruence.
  - destruct (String.eqb_spec x y) as [->|N]; cbn; destruct (String.eqb_spec k y) as [->|M]; cbn; auto.
    + destruct (string_dec y y); [lia|congruence].
    + destruct (string_dec y k); [congruence|lia].
    + destruct (string_dec x y); [congruence|lia].
Qed.
Lemma cn_counter l k : cn (counter l) k = count_occ string_dec l k.
Proof.
  unfold counter. assert (G : forall c, cn (fold_left counter_add l c) k = (cn c k + count_occ string_dec l k)%nat).
  { induction l as [|x l IH]; intros c; cbn; [lia|]. rewrite IH, cn_add. destruct (string_dec x k); lia. }
  rewrite G. reflexivity.
Qed.
Lemma counter_nodup l : NoDup (map fst (counter l)).
Proof.
  unfold counter. assert (G : forall c, NoDup (map fst c) -> NoDup (map fst (fold_left counter_add l c))).
  { induction l as [|x l IH]; intros c Hc; cbn; auto. apply IH. clear IH. induction c as [|[y n] c IH]; cbn in *.
    - constructor; [intros []|constructor].
    - inversion_clear Hc as [|? ? H1 H2]. destruct (String.eqb_spec x y); cbn; constructor; auto.
      rewrite counter_add_keys. intros [H|H]; congruence. }
  apply G. constructor.
Qed.
Lemma counter_count l k n : In (k, n) (counter l) -> n = count_occ string_dec l k.
Proof.
  intros H. rewrite <- cn_counter. assert (N := counter_nodup l). unfold cn. induction (counter l) as [|[y m] c IH]; [destruct H|].
  cbn in *. inversion_clear N as [|? ? H1 H2]. destruct H as [[= -> ->]|H].
  - rewrite String.eqb_refl. reflexivity.
  - destruct (String.eqb_spec k y) as [->|]; [|auto]. exfalso. apply H1. change y with (fst (y, n)). apply in_map. auto.
Qed.
Lemma most_common_sorted l : StronglySorted (fun a b => count_occ string_dec l b <= count_occ string_dec l a)%nat (most_common l).
Proof.
  unfold most_common. set (g := fun y x : string * nat => (snd x <? snd y)%nat).
  assert (H : StronglySorted (fun x y => g y x = false) (sort_desc g (counter l))).
  { apply sort_desc_sorted; unfold g; intros.
    - apply Nat.ltb_lt in H. apply Nat.ltb_ge. lia.
    - apply Nat.ltb_ge in H, H0. apply Nat.ltb_ge. lia. }
  assert (C : forall p, In p (sort_desc g (counter l)) -> snd p = count_occ string_dec l (fst p)).
  { intros [k n] Hp. apply counter_count. eapply Permutation_in; [apply sort_desc_perm|exact Hp]. }
  induction H as [|p ps Hs IH Hf]; cbn; constructor; [apply IH; intros; apply C; right; auto|].
  rewrite Forall_map, Forall_forall in *. intros q Hq. specialize (Hf q Hq). unfold g in Hf. apply Nat.ltb_ge in Hf.
  rewrite <- (C p), <- (C q); auto; [right|left]; auto.
Qed.

Section Choice.
Context (varis : dict variable) (probs : prob_dict) (rs : ruleset).
Context (Hw : wf_varis varis) (Hp : wf_probs varis probs) (Hr : wf_rules varis rs).

Lemma joint_value b sr : wf_br varis b -> good varis b sr ->
  approx_joint_prob b (snd sr) (fst sr) probs = Ok (rule_prob probs b (fst sr) (snd sr)).
Proof.
  intros (H1 & H2 & H3) G. unfold rule_prob. destruct sr as [[| |] r]; cbn in *; try tauto; destruct G as (_ & _ & G).
  - rewrite (foldM_ok _ (fun p kv => (p * qsum (map (pr probs (fst kv)) (zrange (snd kv) (coord (b_up b) (fst kv) + 1))))%Qc)).
    + rewrite fold_left_qprod. f_equal. ring.
    + intros p [k v] Hin. cbn. destruct (G k v Hin) as [Hk Hv].
      rewrite dget_coord by (rewrite (sp_keys varis _ H2); auto). cbn.
      destruct (varis_find varis k Hk) as (vv & Hvv & _).
      assert (B1 := sp_coord varis Hw _ k vv H1 Hvv). assert (B2 := sp_coord varis Hw _ k vv H2 Hvv).
      rewrite (sum_range_ok varis probs Hp k vv) by (auto; lia). auto.
  - rewrite (foldM_ok _ (fun p kv => (p * qsum (map (pr probs (fst kv)) (zrange (coord (b_down b) (fst kv)) (snd kv + 1))))%Qc)).
    + rewrite fold_left_qprod. f_equal. ring.
    + intros p [k v] Hin. cbn. destruct (G k v Hin) as [Hk Hv].
      rewrite dget_coord by (rewrite (sp_keys varis _ H1); auto). cbn.
      destruct (varis_find varis k Hk) as (vv & Hvv & _).
      assert (B1 := sp_coord varis Hw _ k vv H1 Hvv). assert (B2 := sp_coord varis Hw _ k vv H2 Hvv).
      rewrite (sum_range_ok varis probs Hp k vv) by (auto; lia). auto.
Qed.

Lemma first_comp b s r comps (R : string -> string -> Prop) :
  wf_br varis b -> good varis b (s, r) -> incl comps (keys varis) -> (forall k, R k k) ->
  StronglySorted R comps -> (forall k, In k (keys r) -> In k comps) ->
  exists xd x, decomp_in_rule b s r comps = Ok (Some (xd, x)) /\ split_state s r xd x /\ forall k, In k (keys r) -> R xd k.
Proof.
  intros Hb G. intros Hi Rf Hs Hk.
  assert (Hne : exists k, In k (keys r)).
  { unfold good in G; cbn in G. destruct s; try tauto; destruct G as (N & _); destruct r as [|[k v] r]; try congruence; exists k; left; auto. }
  destruct Hb as (H1 & H2 & H3).
  induction Hs as [|c cs Hcs IH Hf]; [destruct Hne as [k Hn]; destruct (Hk k Hn)|]. cbn.
  assert (Hc : In c (keys varis)) by (apply Hi; left; auto).
  rewrite dget_coord by (rewrite (sp_keys varis _ H1); auto). cbn [bind].
  destruct (dfind r c) as [v|] eqn:E.
  - set (state := match s with S_ => v | _ => v + 1 end). apply dfind_In in E.
    assert (B : coord (b_down b) c < state <= coord (b_up b) c).
    { unfold good in G. cbn in G. unfold state. destruct s; try tauto; destruct G as (_ & _ & G); destruct (G c v E); lia. }
    rewrite (proj2 (Z.ltb_lt _ _)) by lia. rewrite dget_coord by (rewrite (sp_keys varis _ H2); auto). cbn [bind].
    rewrite (proj2 (Z.leb_le _ _)) by lia. exists c, state. split; [auto|]. split.
    + unfold state, split_state. destruct s; try (exfalso; exact G); auto. replace (v + 1 - 1) with v by lia. auto.
    + intros k Hin. destruct (Hk k Hin) as [<-|Hin']; auto. rewrite Forall_forall in Hf. auto.
  - apply IH.
    + intros k Hin. apply Hi. right; auto.
    + intros k Hin. destruct (Hk k Hin) as [<-|Hin']; auto. apply dfind_none in E. tauto.
Qed.
End Choice.

Theorem C124_choice :
  forall varis probs rs b c,
    wf_varis varis -> wf_probs varis probs -> wf_rules varis rs -> boxes varis [b] ->
    get_compat_rules b rs = Ok c -> r_s c <> [] \/ r_f c <> [] ->
    exists xd s t r, get_decomp_comp b c probs = Ok (Some (xd, s)) /\
      rule_in c t r /\ split_state t r xd s /\
      (forall t' r', rule_in c t' r' -> (rule_prob probs b t' r' <= rule_prob probs b t r)%Qc) /\
      (forall k, In k (map fst r) -> (occurs c k <= occurs c xd)%nat).
Proof.
  intros varis probs rs b c Hw Hp Hr Hb Hc Hn. assert (Hb' : wf_br varis b) by (apply Hb; left; auto).
  rewrite (get_compat_rules_ok varis) in Hc; [|apply (sp_keys varis); apply Hb'|apply (sp_keys varis); apply Hb'|auto].
  injection Hc as <-. unfold get_decomp_comp. set (c := compat b rs) in *.
  set (srs := map (fun r => (S_, r)) (r_s c) ++ map (fun r => (F_, r)) (r_f c)).
  assert (Hin : forall t r, rule_in c t r <-> In (t, r) srs).
  { intros t r. unfold srs, rule_in. rewrite in_app_iff, !in_map_iff. split.
    - intros [[-> H]|[-> H]]; [left|right]; eauto.
    - intros [(x & [= <- <-] & H)|(x & [= <- <-] & H)]; auto. }
  assert (Hg : Forall (good varis b) srs).
  { apply Forall_forall. intros [t r] H. apply Hin in H as [[-> H]|[-> H]]; unfold good; cbn.
    - apply (compat_s_good varis rs Hr). auto.
    - apply (compat_f_good varis rs Hr). auto. }
  assert (Hne : srs <> []).
  { unfold srs. intros E. apply app_eq_nil in E as [E1 E2]. apply map_eq_nil in E1, E2. tauto. }
  set (all := flat_map (fun sr => keys (snd sr)) srs).
  assert (Ho : forall k, occurs c k = count_occ string_dec all k).
  { intros k. unfold occurs, all, srs. f_equal. rewrite !flat_map_app. f_equal; rewrite !flat_map_concat_map, map_map; reflexivity. }
  assert (Hcov : forall sr k, In sr srs -> In k (keys (snd sr)) -> In k (most_common all)).
  { intros sr k H1 H2. apply most_common_In. apply in_flat_map. eauto. }
  assert (Hi : incl (most_common all) (keys varis)).
  { intros k Hk. apply (proj1 (most_common_In _ _)) in Hk. apply in_flat_map in Hk as (sr & H1 & H2).
    rewrite Forall_forall in Hg. specialize (Hg sr H1). unfold good in Hg.
    apply in_map_iff in H2 as ([k' v] & E & H2). cbn in E. subst k'.
    destruct sr as [[| |] r]; cbn in *; try tauto; destruct Hg as (_ & _ & Hg); apply (Hg k v H2). }
  assert (Fin : forall sorted, (exists t r l, sorted = (t, r) :: l /\ In (t, r) srs /\
      forall t' r', In (t', r') srs -> (rule_prob probs b t' r' <= rule_prob probs b t r)%Qc) ->
    exists xd s t r, decomp_in_rules b sorted (most_common all) = Ok (Some (xd, s)) /\ rule_in c t r /\ split_state t r xd s /\
      (forall t' r', rule_in c t' r' -> (rule_prob probs b t' r' <= rule_prob probs b t r)%Qc) /\
      (forall k, In k (map fst r) -> (occurs c k <= occurs c xd)%nat)).
  { intros sorted (t & r & l & -> & H1 & H2). assert (G := proj1 (Forall_forall _ _) Hg _ H1).
    destruct (first_comp varis b t r (most_common all) _ Hb' G Hi (fun k => le_n _) (most_common_sorted all) (fun k => Hcov _ k H1)) as (xd & s & E & Sp & M).
    exists xd, s, t, r. cbn [decomp_in_rules]. rewrite E. cbn [bind]. split; [auto|]. split; [apply Hin; auto|]. split; [auto|]. split.
    - intros t' r' H. apply H2, Hin, H.
    - intros k Hk. rewrite !Ho. apply M, Hk. }
  destruct (Nat.ltb_spec 1 (List.length srs)) as [L|L].
  - set (w := fun sr : st * dict Z => rule_prob probs b (fst sr) (snd sr)).
    rewrite (mapM_ok _ (fun sr => (w sr, sr))).
    2:{ intros sr H. rewrite (joint_value varis probs Hw Hp) by (auto; rewrite Forall_forall in Hg; auto). reflexivity. }
    cbn [bind]. apply Fin. set (g := fun y x : Qc * (st * dict Z) => qc_ltb (fst x) (fst y)).
    set (ks := map _ srs). assert (P := sort_desc_perm g ks).
    assert (Sd : StronglySorted (fun x y => g y x = false) (sort_desc g ks)).
    { apply sort_desc_sorted; unfold g; intros.
      - apply qc_ltb_lt in H. apply qc_ltb_ge. apply Qclt_le_weak. auto.
      - apply qc_ltb_ge in H, H0. apply qc_ltb_ge. eapply Qcle_trans; eauto. }
    destruct (sort_desc g ks) as [|[q [t r]] l] eqn:E.
    { apply Permutation_nil in P. unfold ks in P. apply map_eq_nil in P. congruence. }
    assert (K : forall q sr, In (q, sr) ks -> q = w sr /\ In sr srs).
    { intros q0 sr H. apply in_map_iff in H as (x & [= <- <-] & H). auto. }
    destruct (K q (t, r)) as [Eq I]; [eapply Permutation_in; [exact P|left; auto]|].
    exists t, r, (map snd l). split; [reflexivity|]. split; [auto|]. intros t' r' H.
    assert (H' : In (w (t', r'), (t', r')) ks) by (unfold ks; apply in_map_iff; exists (t', r'); auto).
    apply (Permutation_in _ (Permutation_sym P)) in H' as [H'|H'].
    + injection H' as _ -> ->. apply Qcle_refl.
    + inversion_clear Sd as [|? ? _ F]. rewrite Forall_forall in F. specialize (F _ H'). unfold g in F. cbn in F. apply qc_ltb_ge in F.
      subst q. exact F.
  - cbn [bind]. apply Fin. destruct srs as [|[t r] [|x l]]; [congruence| |cbn in L; lia].
    exists t, r, []. split; [auto|]. split; [left; auto|]. intros t' r' [[= <- <-]|[]]. apply Qcle_refl.
Qed.
Print Assumptions C124_choice.

(** The second survival rule is likelier than the first and than the failure rule.  Of its components x3
    and x2 the latter is in more rules, so the split is at x2 = 1. *)
Definition ex_rules2 : ruleset := mkRules [[("x1", 2); ("x2", 1)]; [("x3", 1); ("x2", 1)]] [[("x1", 1); ("x2", 0)]].
Example C124_choice_ex :
  wf_varis ex_varis /\ wf_probs ex_varis ex_probs /\ wf_rules ex_varis ex_rules2 /\
  get_compat_rules ex_box ex_rules2 = Ok ex_rules2 /\
  get_decomp_comp ex_box ex_rules2 ex_probs = Ok (Some ("x2", 1)) /\
  occurs ex_rules2 "x1" = 2%nat /\ occurs ex_rules2 "x2" = 3%nat /\ occurs ex_rules2 "x3" = 1%nat /\
  qc_ltb (rule_prob ex_probs ex_box S_ [("x1", 2); ("x2", 1)]) (rule_prob ex_probs ex_box S_ [("x3", 1); ("x2", 1)]) = true /\
  qc_ltb (rule_prob ex_probs ex_box F_ [("x1", 1); ("x2", 0)]) (rule_prob ex_probs ex_box S_ [("x1", 2); ("x2", 1)]) = true.
Proof.
  split; [exact ex_wf_varis|]. split; [exact ex_wf_probs|]. split; [|vm_compute; auto 10].
  split; intros r Hr; cbn in Hr; repeat (destruct Hr as [<-|Hr]; [split; [repeat constructor; cbn; intuition discriminate|intros k Hk; cbn in Hk |- *; intuition]|]); destruct Hr.
Qed.
