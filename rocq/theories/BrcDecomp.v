(** Facts about [decomp_depth_first]: choice of the split, one pass, the loop. *)
From Coq Require Import ZArith List String Bool Arith Lia Permutation QArith Qcanon.
From Verif Require Import Py Num Vari VariFacts PyFacts Brc SpecBrc BrcFacts BrcProb.
Import ListNotations.
Open Scope Z_scope.
Open Scope list_scope.

(** * most_common contains every counted name *)
Lemma counter_add_keys c x k : In k (map fst (counter_add c x)) <-> In k (map fst c) \/ k = x.
Proof.
  induction c as [|[y n] c IH]; cbn; [intuition|].
  destruct (String.eqb_spec x y); cbn; [subst; intuition|]. rewrite IH. intuition.
Qed.

Lemma counter_keys l k : In k (map fst (counter l)) <-> In k l.
Proof.
  unfold counter. assert (G : forall c, In k (map fst (fold_left counter_add l c)) <-> In k (map fst c) \/ In k l).
  { induction l as [|x l IH]; intros c; cbn; [tauto|]. rewrite IH, counter_add_keys. intuition. }
  rewrite G. cbn. tauto.
Qed.

Lemma most_common_In l k : In k (most_common l) <-> In k l.
Proof.
  rewrite <- (counter_keys l). unfold most_common. rewrite !in_map_iff.
  assert (P := sort_desc_perm (fun y x : string * nat => (snd x <? snd y)%nat) (counter l)).
  split; intros (x & E & H); exists x; split; auto.
  - eapply Permutation_in; eauto.
  - eapply Permutation_in; [symmetry|]; eauto.
Qed.

Section Decomp.
Context (varis : dict variable) (probs : prob_dict) (rs : ruleset).
Context (Hw : wf_varis varis) (Hp : wf_probs varis probs) (Hr : wf_rules varis rs).
Context (Hc : consistent varis rs).

(** rules that [get_compat_rules] can return for [b]: keys and ranges *)
Definition good_s (b : branch) (r : dict Z) : Prop :=
  r <> [] /\ NoDup (keys r) /\ forall k v, In (k, v) r -> In k (keys varis) /\ coord (b_down b) k < v <= coord (b_up b) k.
Definition good_f (b : branch) (r : dict Z) : Prop :=
  r <> [] /\ NoDup (keys r) /\ forall k v, In (k, v) r -> In k (keys varis) /\ coord (b_down b) k <= v < coord (b_up b) k.

Lemma NoDup_keys_filter (g : string * Z -> bool) (r : dict Z) : NoDup (keys r) -> NoDup (keys (filter g r)).
Proof.
  induction r as [|[k v] r IH]; cbn; intros H; auto. inversion_clear H as [|? ? Hn Hd].
  destruct (g (k, v)); cbn; auto. constructor; auto. intros Hin. apply Hn.
  unfold keys in *. apply in_map_iff in Hin as (p & E & Hin). apply filter_In in Hin as [Hin _].
  apply in_map_iff. eauto.
Qed.

Lemma compat_s_good b r : In r (compat_s b (r_s rs)) -> good_s b r.
Proof.
  unfold compat_s. intros H. apply filter_In in H as [H Hne]. apply in_map_iff in H as (r0 & <- & H).
  apply filter_In in H as [H Hsat]. destruct (proj1 Hr r0 H) as [Hnd Hi].
  split; [|split].
  - intros E. rewrite E in Hne. cbn in Hne. congruence.
  - apply NoDup_keys_filter; auto.
  - intros k v Hin. apply filter_In in Hin as [Hin Hlt]. cbn in Hlt. split.
    + apply Hi. eapply In_keys; eauto.
    + rewrite sat_s_spec in Hsat. specialize (Hsat k v Hin). lia.
Qed.
Lemma compat_f_good b r : In r (compat_f b (r_f rs)) -> good_f b r.
Proof.
  unfold compat_f. intros H. apply filter_In in H as [H Hne]. apply in_map_iff in H as (r0 & <- & H).
  apply filter_In in H as [H Hsat]. destruct (proj2 Hr r0 H) as [Hnd Hi].
  split; [|split].
  - intros E. rewrite E in Hne. cbn in Hne. congruence.
  - apply NoDup_keys_filter; auto.
  - intros k v Hin. apply filter_In in Hin as [Hin Hlt]. cbn in Hlt. split.
    + apply Hi. eapply In_keys; eauto.
    + rewrite sat_f_spec in Hsat. specialize (Hsat k v Hin). lia.
Qed.

Definition good (b : branch) (sr : st * dict Z) : Prop :=
  match fst sr with S_ => good_s b (snd sr) | F_ => good_f b (snd sr) | U_ => False end.

Lemma approx_joint_ok b sr : wf_br varis b -> good b sr ->
  exists q, approx_joint_prob b (snd sr) (fst sr) probs = Ok q.
Proof.
  intros (H1 & H2 & H3) G. destruct sr as [[| |] r]; cbn in *; try tauto.
  - destruct G as (_ & _ & G).
    eexists. apply (foldM_ok _ (fun p kv => (p * qsum (map (pr probs (fst kv)) (zrange (snd kv) (coord (b_up b) (fst kv) + 1))))%Qc)).
    intros p [k v] Hin. cbn. destruct (G k v Hin) as [Hk Hv].
    rewrite dget_coord by (rewrite (sp_keys varis _ H2); auto). cbn.
    destruct (varis_find varis k Hk) as (vv & Hvv & _).
    assert (B1 := sp_coord varis Hw _ k vv H1 Hvv). assert (B2 := sp_coord varis Hw _ k vv H2 Hvv).
    rewrite (sum_range_ok varis probs Hp k vv) by (auto; lia). auto.
  - destruct G as (_ & _ & G).
    eexists. apply (foldM_ok _ (fun p kv => (p * qsum (map (pr probs (fst kv)) (zrange (coord (b_down b) (fst kv)) (snd kv + 1))))%Qc)).
    intros p [k v] Hin. cbn. destruct (G k v Hin) as [Hk Hv].
    rewrite dget_coord by (rewrite (sp_keys varis _ H1); auto). cbn.
    destruct (varis_find varis k Hk) as (vv & Hvv & _).
    assert (B1 := sp_coord varis Hw _ k vv H1 Hvv). assert (B2 := sp_coord varis Hw _ k vv H2 Hvv).
    rewrite (sum_range_ok varis probs Hp k vv) by (auto; lia). auto.
Qed.

Definition proper_split (b : branch) (xd : string) (s : Z) : Prop :=
  In xd (keys varis) /\ coord (b_down b) xd < s <= coord (b_up b) xd.

Lemma decomp_in_rule_ok b s r comps :
  wf_br varis b -> good b (s, r) -> incl comps (keys varis) ->
  exists o, decomp_in_rule b s r comps = Ok o /\
    (forall xd x, o = Some (xd, x) -> proper_split b xd x) /\
    (o = None -> forall k, In k comps -> dfind r k = None).
Proof.
  intros Hb G. induction comps as [|c cs IH]; intros Hi; cbn.
  - exists None. repeat split; try congruence. intros _ k [].
  - destruct Hb as (H1 & H2 & H3). assert (Hk : In c (keys varis)) by (apply Hi; left; auto).
    rewrite dget_coord by (rewrite (sp_keys varis _ H1); auto). cbn [bind].
    destruct (dfind r c) as [v|] eqn:E.
    + set (state := match s with S_ => v | _ => v + 1 end).
      assert (B : coord (b_down b) c < state <= coord (b_up b) c).
      { apply dfind_In in E. unfold good in G. cbn in G. unfold state. destruct s; try tauto.
        - destruct G as (_ & _ & G). apply G; auto.
        - destruct G as (_ & _ & G). destruct (G c v E). lia. }
      rewrite (proj2 (Z.ltb_lt _ _)) by lia.
      rewrite dget_coord by (rewrite (sp_keys varis _ H2); auto). cbn [bind].
      rewrite (proj2 (Z.leb_le _ _)) by lia.
      exists (Some (c, state)). split; [auto|]. split; [|congruence].
      intros xd x [= <- <-]. split; auto.
    + destruct IH as (o & Ho & Hs & Hn); [intros k Hk'; apply Hi; right; auto|].
      exists o. split; auto. split; auto. intros -> k [<-|Hin]; auto.
Qed.

Lemma decomp_in_rules_ok b srs comps :
  wf_br varis b -> Forall (good b) srs -> incl comps (keys varis) ->
  srs <> [] -> (forall sr k, In sr srs -> In k (keys (snd sr)) -> In k comps) ->
  exists xd x, decomp_in_rules b srs comps = Ok (Some (xd, x)) /\ proper_split b xd x.
Proof.
  intros Hb Hg Hi Hne Hcov. destruct srs as [|[s r] srs]; [congruence|]. inversion_clear Hg as [|? ? G _].
  cbn. destruct (decomp_in_rule_ok b s r comps Hb G Hi) as (o & -> & Hs & Hn). cbn.
  destruct o as [[xd x]|]; [exists xd, x; auto|]. exfalso.
  assert (exists k v, In (k, v) r) as (k & v & Hin).
  { unfold good in G; cbn in G. destruct s; try tauto; destruct G as (N & _); destruct r as [|[k v] r]; try congruence;
      exists k, v; left; auto. }
  specialize (Hn eq_refl k (Hcov (s, r) k (or_introl eq_refl) (In_keys _ _ _ Hin))).
  apply dfind_none in Hn. apply Hn. eapply In_keys; eauto.
Qed.

Lemma no_rules_false c : no_rules c = false <-> r_s c <> [] \/ r_f c <> [].
Proof.
  unfold no_rules. destruct (r_s c), (r_f c); cbn; split; try congruence; try tauto;
    try (intros _; left; congruence); try (intros _; right; congruence); auto.
Qed.
Lemma no_rules_true c : no_rules c = true <-> r_s c = [] /\ r_f c = [].
Proof.
  unfold no_rules. destruct (r_s c), (r_f c); cbn; split; try congruence; try tauto;
   try (intros [? ?]; congruence).
Qed.

Lemma get_decomp_ok b :
  wf_br varis b -> no_rules (compat b rs) = false ->
  exists xd x, get_decomp_comp b (compat b rs) probs = Ok (Some (xd, x)) /\ proper_split b xd x.
Proof.
  intros Hb Hn. unfold get_decomp_comp.
  set (srs := map (fun r => (S_, r)) (r_s (compat b rs)) ++ map (fun r => (F_, r)) (r_f (compat b rs))).
  assert (Hg : Forall (good b) srs).
  { apply Forall_forall. intros sr Hin. unfold srs in Hin. apply in_app_or in Hin as [Hin|Hin];
      apply in_map_iff in Hin as (r & <- & Hin); unfold good; cbn.
    - apply compat_s_good. auto.
    - apply compat_f_good. auto. }
  assert (Hne : srs <> []).
  { unfold srs. apply no_rules_false in Hn. intros E. apply app_eq_nil in E as [E1 E2].
    apply map_eq_nil in E1, E2. tauto. }
  set (comps := most_common (flat_map (fun sr => keys (snd sr)) srs)).
  assert (Hcov : forall sr k, In sr srs -> In k (keys (snd sr)) -> In k comps).
  { intros sr k H1 H2. apply most_common_In. apply in_flat_map. eauto. }
  assert (Hi : incl comps (keys varis)).
  { intros k Hk. apply (proj1 (most_common_In _ _)) in Hk. apply in_flat_map in Hk as (sr & H1 & H2).
    rewrite Forall_forall in Hg. specialize (Hg sr H1). unfold good in Hg.
    apply in_map_iff in H2 as ([k' v] & E & H2). cbn in E. subst k'.
    destruct sr as [[| |] r]; cbn in *; try tauto; destruct Hg as (_ & _ & Hg); apply (Hg k v H2). }
  destruct (1 <? List.length srs)%nat.
  - assert (exists ks, mapM (fun sr => q <- approx_joint_prob b (snd sr) (fst sr) probs ;; Ok (q, sr)) srs = Ok ks /\ map snd ks = srs) as (ks & -> & Eks).
    { clear Hne Hcov. clearbody srs comps. induction srs as [|sr l IH]; cbn.
      - exists []. auto.
      - inversion_clear Hg as [|? ? G Hg']. destruct (approx_joint_ok b sr Hb G) as [q ->]. cbn.
        destruct (IH Hg') as (ks & -> & E). cbn. exists ((q, sr) :: ks). cbn. rewrite E. auto. }
    cbn [bind]. set (sorted := sort_desc _ ks).
    assert (P : Permutation (map snd sorted) srs).
    { rewrite <- Eks. apply Permutation_map, sort_desc_perm. }
    apply decomp_in_rules_ok; auto.
    + rewrite Forall_forall in *. intros sr Hin. apply Hg. eapply Permutation_in; eauto.
    + intros E. rewrite E in P. apply Permutation_nil in P. auto.
    + intros sr k H1 H2. apply (Hcov sr k); auto. eapply Permutation_in; eauto.
  - cbn [bind]. apply decomp_in_rules_ok; auto.
Qed.

(** * Labels and homogeneity *)
Definition lab_end (x : dict Z) (s : st) : Prop :=
  (s = S_ -> match_s rs x = true) /\ (s = F_ -> match_f rs x = true).
Definition full_end (x : dict Z) (s : st) : Prop :=
  lab_end x s /\ (s = U_ -> match_s rs x = false /\ match_f rs x = false).
Definition lab_ok (b : branch) : Prop := lab_end (b_down b) (b_down_state b) /\ lab_end (b_up b) (b_up_state b).
Definition lab_full (b : branch) : Prop := full_end (b_down b) (b_down_state b) /\ full_end (b_up b) (b_up_state b).
Definition homog (b : branch) : Prop :=
  (match_s rs (b_up b) = true -> match_s rs (b_down b) = true) /\
  (match_f rs (b_down b) = true -> match_f rs (b_up b) = true).

Lemma gstate_full x : full_end x (gstate x rs).
Proof.
  split; [split|].
  - apply gstate_S.
  - apply gstate_F.
  - intros H. apply gstate_U. auto.
Qed.
Lemma eval_end_full x s : lab_end x s -> full_end x (eval_end x rs s).
Proof.
  intros [H1 H2]. unfold eval_end. destruct s.
  - split; [split; auto|congruence].
  - split; [split; auto|congruence].
  - destruct (match_s rs x) eqn:E; [split; [split; auto|]; congruence|].
    destruct (match_f rs x) eqn:E'; [split; [split; auto|]; congruence|].
    split; [split|]; try congruence. auto.
Qed.

Lemma compat_nil_homog b : no_rules (compat b rs) = true -> homog b.
Proof.
  intros H. apply no_rules_true in H as [Es Ef]. cbn in Es, Ef. split; intros H.
  - apply match_s_spec in H as (r & Hin & H). apply match_s_spec. exists r. split; auto.
    assert (N : filter (fun kv => coord (b_down b) (fst kv) <? snd kv) r = []).
    { destruct (filter (fun kv => coord (b_down b) (fst kv) <? snd kv) r) as [|p l] eqn:E; auto. exfalso.
      assert (X : In (p :: l) (compat_s b (r_s rs))).
      { unfold compat_s. apply filter_In. split; [|auto]. apply in_map_iff. exists r. split; auto.
        apply filter_In. auto. }
      rewrite Es in X. destruct X. }
    apply sat_s_spec. intros k v Hkv. destruct (Z.ltb_spec (coord (b_down b) k) v); [|lia].
    exfalso. assert (X : In (k, v) (filter (fun kv => coord (b_down b) (fst kv) <? snd kv) r)).
    { apply filter_In. split; auto. cbn. lia. }
    rewrite N in X. destruct X.
  - apply match_f_spec in H as (r & Hin & H). apply match_f_spec. exists r. split; auto.
    assert (N : filter (fun kv => snd kv <? coord (b_up b) (fst kv)) r = []).
    { destruct (filter (fun kv => snd kv <? coord (b_up b) (fst kv)) r) as [|p l] eqn:E; auto. exfalso.
      assert (X : In (p :: l) (compat_f b (r_f rs))).
      { unfold compat_f. apply filter_In. split; [|auto]. apply in_map_iff. exists r. split; auto.
        apply filter_In. auto. }
      rewrite Ef in X. destruct X. }
    apply sat_f_spec. intros k v Hkv. destruct (Z.ltb_spec v (coord (b_up b) k)); [|lia].
    exfalso. assert (X : In (k, v) (filter (fun kv => snd kv <? coord (b_up b) (fst kv)) r)).
    { apply filter_In. split; auto. cbn. lia. }
    rewrite N in X. destruct X.
Qed.

(** * Children of a split *)
Definition child_up (b : branch) (xd : string) (s : Z) : branch :=
  let up := dset (b_up b) xd (s - 1) in
  let b' := mkBr (b_down b) up (b_down_state b) (gstate up rs) 0%Qc in
  mkBr (b_down b) up (b_down_state b) (gstate up rs) (prob_event varis probs (in_branch b')).
Definition child_down (b : branch) (xd : string) (s : Z) : branch :=
  let down := dset (b_down b) xd s in
  let b' := mkBr down (b_up b) (gstate down rs) (b_up_state b) 0%Qc in
  mkBr down (b_up b) (gstate down rs) (b_up_state b) (prob_event varis probs (in_branch b')).

Lemma dset_sp x k s v :
  In x (sp varis) -> In (k, v) varis -> 0 <= s < nvals v -> In (dset x k s) (sp varis).
Proof.
  intros Hx Hk Hs. assert (Ek := sp_keys varis x Hx).
  assert (Hin : In k (keys x)) by (rewrite Ek; eapply In_keys; eauto).
  apply (sp_intro varis Hw).
  - rewrite keys_dset; auto.
  - intros k' v' Hk'. rewrite coord_dset. destruct (String.eqb_spec k' k) as [->|].
    + assert (v' = v); [|subst; auto].
      apply (In_dfind varis k v (wfv_nodup varis Hw)) in Hk. apply (In_dfind varis k v' (wfv_nodup varis Hw)) in Hk'. congruence.
    + apply (sp_coord varis Hw); auto.
Qed.

Lemma child_up_wf b xd s : wf_br varis b -> proper_split b xd s -> wf_br varis (child_up b xd s).
Proof.
  intros (H1 & H2 & H3) [Hk Hs]. destruct (varis_find varis xd Hk) as (v & Hv & _).
  assert (B1 := sp_coord varis Hw _ xd v H1 Hv). assert (B2 := sp_coord varis Hw _ xd v H2 Hv).
  split; [auto|]. split.
  - cbn. apply dset_sp with v; auto. lia.
  - cbn. intros k Hk'. rewrite coord_dset. destruct (String.eqb_spec k xd) as [E0|]; [subst k|]; [lia|]. apply H3; auto.
Qed.
Lemma child_down_wf b xd s : wf_br varis b -> proper_split b xd s -> wf_br varis (child_down b xd s).
Proof.
  intros (H1 & H2 & H3) [Hk Hs]. destruct (varis_find varis xd Hk) as (v & Hv & _).
  assert (B1 := sp_coord varis Hw _ xd v H1 Hv). assert (B2 := sp_coord varis Hw _ xd v H2 Hv).
  split; [|split; [auto|]].
  - cbn. apply dset_sp with v; auto. lia.
  - cbn. intros k Hk'. rewrite coord_dset. destruct (String.eqb_spec k xd) as [E0|]; [subst k|]; [lia|]. apply H3; auto.
Qed.

Lemma get_new_branch_up b xd s : wf_br varis b -> proper_split b xd s ->
  get_new_branch b rs probs xd s true = Ok (child_up b xd s).
Proof.
  intros Hb Hs. assert (W := child_up_wf b xd s Hb Hs). destruct Hb as (H1 & H2 & H3). destruct W as (_ & W2 & W3).
  unfold get_new_branch. cbn [b_up child_up] in W2, W3.
  rewrite (get_state_ok varis) by (auto; apply (sp_keys varis); auto). cbn [bind].
  unfold mk_branch. rewrite dset_length by (rewrite (sp_keys varis _ H2); apply Hs).
  assert (EL : List.length (b_down b) = List.length (b_up b)).
  { pose proof (f_equal (@List.length _) (eq_trans (sp_keys varis _ H1) (eq_sym (sp_keys varis _ H2)))) as E.
    unfold keys in E. rewrite !map_length in E. auto. }
  rewrite EL, Nat.eqb_refl. cbn [bind b_down b_up b_down_state b_up_state].
  set (b' := mkBr (b_down b) (dset (b_up b) xd (s - 1)) (b_down_state b) (gstate (dset (b_up b) xd (s - 1)) rs) 0%Qc).
  assert (A : approx_prob_by_comps (b_down b) (dset (b_up b) xd (s - 1)) probs = Ok (prob_event varis probs (in_branch b'))).
  { apply (approx_prob_ok varis probs Hw Hp b'). split; auto. }
  rewrite A. auto.
Qed.
Lemma get_new_branch_down b xd s : wf_br varis b -> proper_split b xd s ->
  get_new_branch b rs probs xd s false = Ok (child_down b xd s).
Proof.
  intros Hb Hs. assert (W := child_down_wf b xd s Hb Hs). destruct Hb as (H1 & H2 & H3). destruct W as (W1 & _ & W3).
  unfold get_new_branch. cbn [b_down child_down] in W1, W3.
  rewrite (get_state_ok varis) by (auto; apply (sp_keys varis); auto). cbn [bind].
  unfold mk_branch. rewrite dset_length by (rewrite (sp_keys varis _ H1); apply Hs).
  assert (EL : List.length (b_down b) = List.length (b_up b)).
  { pose proof (f_equal (@List.length _) (eq_trans (sp_keys varis _ H1) (eq_sym (sp_keys varis _ H2)))) as E.
    unfold keys in E. rewrite !map_length in E. auto. }
  rewrite EL, Nat.eqb_refl. cbn [bind b_down b_up b_down_state b_up_state].
  set (b' := mkBr (dset (b_down b) xd s) (b_up b) (gstate (dset (b_down b) xd s) rs) (b_up_state b) 0%Qc).
  assert (A : approx_prob_by_comps (dset (b_down b) xd s) (b_up b) probs = Ok (prob_event varis probs (in_branch b'))).
  { apply (approx_prob_ok varis probs Hw Hp b'). split; auto. }
  rewrite A. auto.
Qed.

Lemma child_cover b xd s x : wf_br varis b -> proper_split b xd s -> In x (sp varis) ->
  (in_branch b x = false -> in_branch (child_up b xd s) x = false /\ in_branch (child_down b xd s) x = false) /\
  (in_branch b x = true -> in_branch (child_up b xd s) x = negb (in_branch (child_down b xd s) x)).
Proof.
  intros Hb Hs Hx. assert (Wu := child_up_wf b xd s Hb Hs). assert (Wd := child_down_wf b xd s Hb Hs).
  assert (Eb := in_branch_spec varis Hw b x Hx).
  assert (Eu := in_branch_spec varis Hw (child_up b xd s) x Hx).
  assert (Ed := in_branch_spec varis Hw (child_down b xd s) x Hx).
  destruct Hs as [Hk Hs].
  assert (Cu : in_branch (child_up b xd s) x = true <-> in_branch b x = true /\ coord x xd < s).
  { rewrite Eu, Eb. cbn. split.
    - intros [L1 L2]. split; [split; auto|].
      + intros k Hk'. specialize (L2 k Hk'). rewrite coord_dset in L2. destruct (String.eqb_spec k xd) as [E0|]; [subst k|]; lia.
      + specialize (L2 xd Hk). rewrite coord_dset, String.eqb_refl in L2. lia.
    - intros [[L1 L2] L3]. split; auto. intros k Hk'. rewrite coord_dset.
      destruct (String.eqb_spec k xd) as [E0|]; [subst k|]; [lia|auto]. }
  assert (Cd : in_branch (child_down b xd s) x = true <-> in_branch b x = true /\ s <= coord x xd).
  { rewrite Ed, Eb. cbn. split.
    - intros [L1 L2]. split; [split; auto|].
      + intros k Hk'. specialize (L1 k Hk'). rewrite coord_dset in L1. destruct (String.eqb_spec k xd) as [E0|]; [subst k|]; lia.
      + specialize (L1 xd Hk). rewrite coord_dset, String.eqb_refl in L1. lia.
    - intros [[L1 L2] L3]. split; auto. intros k Hk'. rewrite coord_dset.
      destruct (String.eqb_spec k xd) as [E0|]; [subst k|]; [lia|auto]. }
  split.
  - intros F. split.
    + destruct (in_branch (child_up b xd s) x); auto. destruct (proj1 Cu eq_refl). congruence.
    + destruct (in_branch (child_down b xd s) x); auto. destruct (proj1 Cd eq_refl). congruence.
  - intros T. destruct (Z.lt_ge_cases (coord x xd) s).
    + rewrite (proj2 Cu) by auto. destruct (in_branch (child_down b xd s) x); auto.
      destruct (proj1 Cd eq_refl). lia.
    + rewrite (proj2 Cd) by auto. destruct (in_branch (child_up b xd s) x); auto.
      destruct (proj1 Cu eq_refl). lia.
Qed.

(** * Widths *)
Lemma width_spec b : wf_br varis b ->
  width b = list_sum (map (fun k => Z.to_nat (coord (b_up b) k - coord (b_down b) k)) (keys varis)).
Proof.
  intros (H1 & H2 & H3). unfold width. rewrite <- (sp_keys varis _ H1). unfold keys, list_sum.
  rewrite map_map. f_equal. apply map_ext_in. intros [k v] Hin. cbn.
  rewrite (coord_In (b_down b) k v); auto; [|apply (sp_nodup varis Hw); auto].
  assert (Hk : In k (keys (b_up b))).
  { rewrite (sp_keys varis _ H2), <- (sp_keys varis _ H1). eapply In_keys; eauto. }
  unfold coord. apply dfind_keys in Hk as [a ->]. auto.
Qed.

Lemma list_sum_lt (f g : string -> nat) l k :
  (forall k, In k l -> f k <= g k)%nat -> In k l -> (f k < g k)%nat ->
  (list_sum (map f l) < list_sum (map g l))%nat.
Proof.
  induction l as [|a l IH]; intros H Hin Hlt; [destruct Hin|]. cbn [map].
  assert (LS : forall n l, list_sum (n :: l) = (n + list_sum l)%nat) by reflexivity. rewrite !LS.
  assert (H0 : (f a <= g a)%nat) by (apply H; left; auto).
  assert (G : (list_sum (map f l) <= list_sum (map g l))%nat).
  { clear - H LS. induction l as [|c l IHl]; cbn [map]; rewrite ?LS; [lia|].
    assert (f c <= g c)%nat by (apply H; right; left; auto).
    assert (list_sum (map f l) <= list_sum (map g l))%nat; [|lia].
    apply IHl. intros k [->|Hk]; apply H; [left; auto|right; right; auto]. }
  destruct Hin as [->|Hin].
  - lia.
  - assert (list_sum (map f l) < list_sum (map g l))%nat; [|lia].
    apply IH; auto. intros; apply H; right; auto.
Qed.

Lemma child_up_width b xd s : wf_br varis b -> proper_split b xd s -> (width (child_up b xd s) < width b)%nat.
Proof.
  intros Hb Hs. rewrite (width_spec _ (child_up_wf b xd s Hb Hs)), (width_spec _ Hb).
  destruct Hs as [Hk Hs]. apply list_sum_lt with xd; auto.
  - intros k Hk'. cbn. rewrite coord_dset. destruct (String.eqb_spec k xd) as [E0|]; [subst k|]; lia.
  - cbn. rewrite coord_dset, String.eqb_refl. lia.
Qed.
Lemma child_down_width b xd s : wf_br varis b -> proper_split b xd s -> (width (child_down b xd s) < width b)%nat.
Proof.
  intros Hb Hs. rewrite (width_spec _ (child_down_wf b xd s Hb Hs)), (width_spec _ Hb).
  destruct Hs as [Hk Hs]. apply list_sum_lt with xd; auto.
  - intros k Hk'. cbn. rewrite coord_dset. destruct (String.eqb_spec k xd) as [E0|]; [subst k|]; lia.
  - cbn. rewrite coord_dset, String.eqb_refl. lia.
Qed.

(** * Invariant of the list of branches *)
Definition bc_ok (bc : branch * ruleset) : Prop :=
  let (b, c) := bc in
  wf_br varis b /\ b_p b = prob_event varis probs (in_branch b) /\ lab_ok b /\
  (c = compat b rs \/ (no_rules c = true /\ homog b)).

(** what happens to one branch in a pass *)
Inductive split_of : branch * ruleset -> list (branch * ruleset) -> Prop :=
| so_keep b c : keep_branch (eval_br b rs) c = true ->
    split_of (b, c) [(eval_br b rs, mkRules [] [])]
| so_split b c xd s :
    keep_branch (eval_br b rs) c = false -> proper_split b xd s ->
    let b1 := child_up (eval_br b rs) xd s in
    let b2 := child_down (eval_br b rs) xd s in
    split_of (b, c) [(b1, compat b1 rs); (b2, compat b2 rs)].

Lemma eval_br_wf b : wf_br varis b -> wf_br varis (eval_br b rs).
Proof. auto. Qed.
Lemma eval_br_full b : lab_ok b -> lab_full (eval_br b rs).
Proof. intros [H1 H2]. split; apply eval_end_full; auto. Qed.
Lemma lab_full_ok b : lab_full b -> lab_ok b.
Proof. intros [[H1 _] [H2 _]]. split; auto. Qed.
Lemma in_branch_eval b x : in_branch (eval_br b rs) x = in_branch b x.
Proof. auto. Qed.

Lemma eval_keep_homog b c : bc_ok (b, c) -> keep_branch (eval_br b rs) c = true -> homog b.
Proof.
  intros (Hb & _ & Hl & Hcc) Hk. unfold keep_branch in Hk. apply orb_true_iff in Hk as [Hk|Hk].
  - apply andb_true_iff in Hk as [E1 E2].
    destruct (eval_br_full b Hl) as [[[D1 D2] _] [[U1 U2] _]]. destruct Hb as (H1 & H2 & H3).
    destruct (b_down_state (eval_br b rs)) eqn:Ed, (b_up_state (eval_br b rs)) eqn:Eu; cbn in E1, E2; try congruence;
      cbn [b_down b_up eval_br] in *.
    + split; intros; auto. exfalso. apply (Hc (b_down b)); auto.
    + split; intros; auto. exfalso. apply (Hc (b_up b)); auto.
  - destruct Hcc as [->|[_ H]]; auto. apply compat_nil_homog; auto.
Qed.

Lemma split_of_ok bc l : bc_ok bc -> split_of bc l ->
  Forall bc_ok l /\ Forall (fun bc => lab_full (fst bc)) l /\
  (forall x, In x (sp varis) ->
     List.length (filter (fun bc => in_branch (fst bc) x) l) = (if in_branch (fst bc) x then 1 else 0)%nat) /\
  (forall bc', In bc' l -> no_rules (snd bc') = false -> (width (fst bc') < width (fst bc))%nat) /\
  (1 <= List.length l <= 2)%nat.
Proof.
  intros H S. destruct S as [b c Hk|b c xd s Hk Hs b1 b2].
  - assert (Hh := eval_keep_homog b c H Hk). destruct H as (Hb & Hpb & Hl & Hcc).
    assert (Hf := eval_br_full b Hl).
    split; [|split; [|split; [|split]]].
    + constructor; [|constructor]. split; [auto|]. split; [auto|]. split; [apply lab_full_ok; auto|].
      right. split; auto.
    + constructor; auto.
    + intros x Hx. cbn [filter fst]. rewrite in_branch_eval. destruct (in_branch b x); auto.
    + intros bc' [<-|[]]. cbn. congruence.
    + cbn. lia.
  - destruct H as (Hb & Hpb & Hl & Hcc). assert (Hf := eval_br_full b Hl).
    assert (Hb' := eval_br_wf b Hb). assert (Hs' : proper_split (eval_br b rs) xd s) by auto.
    assert (W1 := child_up_wf _ _ _ Hb' Hs'). assert (W2 := child_down_wf _ _ _ Hb' Hs').
    assert (F1 : lab_full b1). { split; [apply Hf|apply gstate_full]. }
    assert (F2 : lab_full b2). { split; [apply gstate_full|apply Hf]. }
    split; [|split; [|split; [|split]]].
    + constructor; [|constructor; [|constructor]].
      * split; [auto|]. split; [auto|]. split; [apply lab_full_ok; auto|auto].
      * split; [auto|]. split; [auto|]. split; [apply lab_full_ok; auto|auto].
    + auto.
    + intros x Hx. cbn [filter fst]. destruct (child_cover _ _ _ x Hb' Hs' Hx) as [C1 C2].
      rewrite in_branch_eval in C1, C2. fold b1 b2 in C1, C2.
      destruct (in_branch b x).
      * rewrite (C2 eq_refl). destruct (in_branch b2 x); auto.
      * destruct (C1 eq_refl) as [-> ->]. auto.
    + intros bc' [<-|[<-|[]]] _; cbn [fst].
      * apply (child_up_width _ _ _ Hb' Hs').
      * apply (child_down_width _ _ _ Hb' Hs').
    + cbn. lia.
Qed.

(** * One pass *)
Lemma decomp_pass_spec max_nb nb todo : forall acc,
  Forall bc_ok todo ->
  exists don rest ls go,
    decomp_pass rs probs max_nb nb todo acc = Ok (acc ++ List.concat ls ++ rest, go) /\
    todo = don ++ rest /\ Forall2 split_of don ls /\ (go = true -> rest = []) /\
    (go = false -> exists m, max_nb = Some m /\ m < Z.of_nat (List.length (acc ++ List.concat ls) + nb)).
Proof.
  induction todo as [|[b c] todo IH]; intros acc Hok.
  - exists [], [], [], true. cbn. rewrite app_nil_r. repeat split; auto. congruence.
  - inversion_clear Hok as [|? ? Hbc Hok']. assert (Hbc' := Hbc). destruct Hbc as (Hb & Hpb & Hl & Hcc).
    cbn [decomp_pass]. rewrite (eval_state_ok varis) by (auto; apply (sp_keys varis); apply Hb). cbn [bind].
    destruct (keep_branch (eval_br b rs) c) eqn:Hk.
    + destruct (IH (acc ++ [(eval_br b rs, mkRules [] [])]) Hok') as (don & rest & ls & go & E & Et & F & G1 & G2).
      exists ((b, c) :: don), rest, ([(eval_br b rs, mkRules [] [])] :: ls), go. rewrite E.
      cbn [List.concat app]. rewrite <- !app_assoc. cbn [app]. rewrite Et.
      split; [auto|]. split; [auto|]. split; [constructor; auto; constructor; auto|]. split; [auto|].
      intros Hg. destruct (G2 Hg) as (m & Em & Hm). exists m. split; auto.
      rewrite !app_length in *. cbn [List.length] in *. lia.
    + assert (Hcomp : c = compat b rs).
      { destruct Hcc as [|[N _]]; auto. unfold keep_branch in Hk. rewrite N, orb_true_r in Hk. congruence. }
      assert (Hn : no_rules (compat (eval_br b rs) rs) = false).
      { change (compat (eval_br b rs) rs) with (compat b rs). rewrite <- Hcomp.
        unfold keep_branch in Hk. apply orb_false_iff in Hk. tauto. }
      destruct (get_decomp_ok (eval_br b rs) (eval_br_wf b Hb) Hn) as (xd & s & E & Hs).
      change (compat (eval_br b rs) rs) with (compat b rs) in E. rewrite <- Hcomp in E. rewrite E. cbn [bind].
      assert (Hb' := eval_br_wf b Hb).
      assert (W1 := child_up_wf _ _ _ Hb' Hs). assert (W2 := child_down_wf _ _ _ Hb' Hs).
      rewrite get_new_branch_up by auto. cbn [bind].
      rewrite (get_compat_rules_ok varis) by (auto; apply (sp_keys varis); apply W1). cbn [bind].
      rewrite get_new_branch_down by auto. cbn [bind].
      rewrite (get_compat_rules_ok varis) by (auto; apply (sp_keys varis); apply W2). cbn [bind].
      set (b1 := child_up (eval_br b rs) xd s). set (b2 := child_down (eval_br b rs) xd s).
      set (l2 := [(b1, compat b1 rs); (b2, compat b2 rs)]).
      assert (Hso : split_of (b, c) l2) by (apply so_split; auto).
      destruct (gt_bound (Z.of_nat (List.length (acc ++ l2) + nb)) max_nb) eqn:Hg.
      * exists [(b, c)], todo, [l2], false. cbn [List.concat]. rewrite app_nil_r, <- app_assoc.
        split; [auto|]. split; [auto|]. split; [constructor; auto|]. split; [congruence|].
        intros _. unfold gt_bound in Hg. destruct max_nb as [m|]; [|congruence]. exists m. split; auto. apply Z.ltb_lt; auto.
      * destruct (IH (acc ++ l2) Hok') as (don & rest & ls & go & E' & Et & F & G1 & G2).
        exists ((b, c) :: don), rest, (l2 :: ls), go. rewrite E'.
        cbn [List.concat]. rewrite <- !app_assoc. rewrite Et.
        split; [auto|]. split; [auto|]. split; [constructor; auto|]. split; [auto|].
        intros Hgo. destruct (G2 Hgo) as (m & Em & Hm). exists m. split; auto.
        rewrite !app_length in *. lia.
Qed.

Lemma decomp_pass_len m nb todo : forall acc out go,
  decomp_pass rs probs (Some m) nb todo acc = Ok (out, go) ->
  (List.length todo <= nb)%nat ->
  Z.of_nat (List.length acc + List.length todo) <= m - 1 ->
  Z.of_nat (List.length out) <= m /\ (go = true -> Z.of_nat (List.length out) <= m - 1).
Proof.
  induction todo as [|[b c] todo IH]; intros acc out go H Hn Hb.
  - cbn in H. injection H as <- <-. cbn in Hb. split; intros; lia.
  - cbn [decomp_pass] in H. destruct (eval_state b rs) as [b'|] eqn:E; cbn [bind] in H; [|congruence].
    cbn [List.length] in *. destruct (keep_branch b' c).
    + apply IH in H; auto; try lia. rewrite app_length. cbn. lia.
    + destruct (get_decomp_comp b' c probs) as [[[xd s]|]|]; cbn [bind] in H; try congruence.
      destruct (get_new_branch b' rs probs xd s true) as [b1|]; cbn [bind] in H; [|congruence].
      destruct (get_compat_rules b1 rs) as [c1|]; cbn [bind] in H; [|congruence].
      destruct (get_new_branch b' rs probs xd s false) as [b2|]; cbn [bind] in H; [|congruence].
      destruct (get_compat_rules b2 rs) as [c2|]; cbn [bind] in H; [|congruence].
      cbn [gt_bound] in H.
      destruct (m <? Z.of_nat (List.length (acc ++ [(b1, c1); (b2, c2)]) + nb)) eqn:Hg.
      * injection H as <- <-. rewrite !app_length in *. cbn [List.length] in *. split; [lia|congruence].
      * apply Z.ltb_ge in Hg. apply IH in H; auto; rewrite ?app_length in *; cbn [List.length] in *; try lia.
Qed.

(** * The loop *)
Definition cover (x : dict Z) (l : list (branch * ruleset)) : nat :=
  List.length (filter (fun bc => in_branch (fst bc) x) l).

Lemma cover_app x l1 l2 : cover x (l1 ++ l2) = (cover x l1 + cover x l2)%nat.
Proof. unfold cover. rewrite filter_app, app_length. auto. Qed.

Lemma cover_perm x l1 l2 : Permutation l1 l2 -> cover x l1 = cover x l2.
Proof. intros H. unfold cover. apply Permutation_length, filter_perm; auto. Qed.

Lemma cover_split x don ls : In x (sp varis) -> Forall bc_ok don -> Forall2 split_of don ls ->
  cover x (List.concat ls) = cover x don.
Proof.
  intros Hx Hok F. induction F as [|bc l don ls S F IH]; auto. inversion_clear Hok as [|? ? H1 H2].
  cbn [List.concat]. rewrite cover_app, IH by auto.
  change (cover x (bc :: don)) with (cover x ([bc] ++ don)). rewrite cover_app. f_equal.
  destruct (split_of_ok bc l H1 S) as (_ & _ & C & _). unfold cover. rewrite C by auto.
  cbn. destruct (in_branch (fst bc) x); auto.
Qed.

Definition done_ok (bc : branch * ruleset) : Prop := lab_full (fst bc) /\ homog (fst bc).

Lemma no_rules_homog bc : bc_ok bc -> no_rules (snd bc) = true -> homog (fst bc).
Proof.
  destruct bc as [b c]. intros (_ & _ & _ & [->|[_ H]]) N; auto. apply compat_nil_homog. auto.
Qed.

Definition has_rules (l : list (branch * ruleset)) : bool := negb (forallb (fun bc => no_rules (snd bc)) l).

Lemma compat_rules_width b : wf_br varis b -> no_rules (compat b rs) = false -> (1 <= width b)%nat.
Proof.
  intros Hb Hn. destruct (get_decomp_ok b Hb Hn) as (xd & s & _ & Hs).
  pose proof (child_up_width b xd s Hb Hs). lia.
Qed.

(** [max_nb] is too large to cut off the decomposition *)
Definition no_cut (max_nb : option Z) : Prop :=
  match max_nb with None => True | Some m => 2 * Z.of_nat (List.length (sp varis)) <= m end.

(** [max_nb] leaves room for twice the branches that were made *)
Definition roomy (max_nb : option Z) (n : nat) : Prop :=
  match max_nb with None => True | Some m => 2 * Z.of_nat n <= m end.

(** disjoint non-empty boxes are at most as many as there are vectors *)
Lemma branches_le_space (l : list (branch * ruleset)) :
  Forall bc_ok l -> (forall x, In x (sp varis) -> (cover x l <= 1)%nat) ->
  (List.length l <= List.length (sp varis))%nat.
Proof.
  intros Hok Hcv.
  assert (Hd : NoDup (map (fun bc : branch * ruleset => b_down (fst bc)) l)).
  { induction l as [|bc l IH]; cbn; constructor.
    - intros Hin. apply in_map_iff in Hin as (bc' & E & Hin).
      inversion_clear Hok as [|? ? H1 H2]. rewrite Forall_forall in H2. specialize (H2 bc' Hin).
      destruct bc as [b c], bc' as [b' c']. cbn in E. destruct H1 as ((A1 & A2 & A3) & _), H2 as ((B1 & B2 & B3) & _).
      specialize (Hcv (b_down b) A1). unfold cover in Hcv. cbn [filter fst] in Hcv.
      rewrite (proj2 (in_branch_spec varis Hw b (b_down b) A1)) in Hcv by (split; auto; apply le_vec_refl).
      assert (In (b', c') (filter (fun bc => in_branch (fst bc) (b_down b)) l)).
      { apply filter_In. split; auto. cbn. rewrite <- E.
        apply (in_branch_spec varis Hw b' (b_down b') B1). split; auto. apply le_vec_refl. }
      destruct (filter _ l); [destruct H|]. cbn in Hcv. lia.
    - inversion_clear Hok. apply IH; auto. intros x Hx. specialize (Hcv x Hx). unfold cover in *.
      cbn [filter] in Hcv. destruct (in_branch (fst bc) x); cbn in Hcv; lia. }
  rewrite <- (map_length (fun bc : branch * ruleset => b_down (fst bc))).
  apply NoDup_incl_length; auto. intros x Hin. apply in_map_iff in Hin as ([b c] & <- & Hin).
  rewrite Forall_forall in Hok. apply (Hok _ Hin).
Qed.

Lemma decomp_loop_spec max_nb : forall m fuel bcs,
  (m < fuel)%nat -> Forall bc_ok bcs ->
  (forall x, In x (sp varis) -> cover x bcs = 1%nat) ->
  (forall bc, In bc bcs -> no_rules (snd bc) = false -> (width (fst bc) <= m)%nat) ->
  exists out,
    decomp_loop fuel rs probs max_nb bcs = Ok out /\ Forall bc_ok out /\
    (forall x, In x (sp varis) -> cover x out = cover x bcs) /\
    (no_cut max_nb \/ roomy max_nb (List.length out) -> Forall done_ok out) /\
    (forall Q : branch -> Prop, (forall b, wf_br varis b -> lab_full b -> Q b) ->
       Forall (fun bc => Q (fst bc)) bcs -> Forall (fun bc => Q (fst bc)) out).
Proof.
  induction m as [m IHm] using lt_wf_ind. intros fuel bcs Hf Hok Hone Hwid.
  destruct fuel as [|fuel]; [lia|]. cbn [decomp_loop].
  set (sorted := sort_desc _ bcs).
  assert (P : Permutation sorted bcs) by apply sort_desc_perm.
  assert (Hok' : Forall bc_ok sorted).
  { rewrite Forall_forall in *. intros bc Hin. apply Hok. eapply Permutation_in; eauto. }
  destruct (decomp_pass_spec max_nb (List.length sorted) sorted [] Hok') as (don & rest & ls & go & E & Et & F & G1 & G2).
  rewrite E. cbn [bind app].
  assert (Hd : Forall bc_ok don /\ Forall bc_ok rest).
  { rewrite Et in Hok'. apply Forall_app in Hok'. auto. }
  destruct Hd as [Hd Hrest].
  assert (Hls : Forall bc_ok (List.concat ls) /\ Forall (fun bc => lab_full (fst bc)) (List.concat ls) /\
    forall bc', In bc' (List.concat ls) -> no_rules (snd bc') = false ->
      exists bc, In bc don /\ no_rules (snd bc) = false /\ (width (fst bc') < width (fst bc))%nat).
  { clear - F Hd Hc Hw Hp Hr. induction F as [|bc l don ls S F IH]; [cbn; repeat split; auto; intros ? []|].
    inversion_clear Hd as [|? ? H1 H2]. destruct (IH H2) as (I1 & I2 & I3).
    destruct (split_of_ok bc l H1 S) as (A1 & A2 & _ & A4 & _). cbn [List.concat].
    split; [apply Forall_app; auto|]. split; [apply Forall_app; auto|].
    intros bc' Hin Hn. apply in_app_or in Hin as [Hin|Hin].
    - exists bc. split; [left; auto|]. split; [|auto].
      destruct S as [b c Hk|b c xd s Hk Hs b1 b2].
      + destruct Hin as [<-|[]]. cbn in Hn. congruence.
      + cbn. unfold keep_branch in Hk. apply orb_false_iff in Hk. tauto.
    - destruct (I3 bc' Hin Hn) as (bc0 & ? & ? & ?). exists bc0. split; [right; auto|auto]. }
  destruct Hls as (L1 & L2 & L3).
  assert (Hout : Forall bc_ok (List.concat ls ++ rest)) by (apply Forall_app; auto).
  assert (Hcov : forall x, In x (sp varis) -> cover x (List.concat ls ++ rest) = cover x bcs).
  { intros x Hx. rewrite cover_app, (cover_split x don) by auto.
    rewrite <- cover_app, <- Et. apply cover_perm. auto. }
  destruct (go && negb (forallb (fun bc => no_rules (snd bc)) (List.concat ls ++ rest))) eqn:Hgo.
  - apply andb_true_iff in Hgo as [Hg Hn]. rewrite (G1 Hg) in *. rewrite app_nil_r in *.
    assert (Hex : exists bc', In bc' (List.concat ls) /\ no_rules (snd bc') = false).
    { clear - Hn. induction (List.concat ls) as [|bc l IH]; cbn in Hn; [congruence|].
      destruct (no_rules (snd bc)) eqn:E; cbn in Hn.
      - destruct (IH Hn) as (bc' & ? & ?). exists bc'. split; [right; auto|auto].
      - exists bc. split; [left; auto|auto]. }
    destruct Hex as (bc' & Hin & Hnr). destruct (L3 bc' Hin Hnr) as (bc0 & Hin0 & Hnr0 & Hlt).
    assert (Hw0 : (width (fst bc0) <= m)%nat).
    { apply Hwid; auto. eapply Permutation_in; [apply P|]. rewrite Et. auto. }
    destruct (IHm (m - 1)%nat ltac:(lia) fuel (List.concat ls)) as (out & E' & O1 & O2 & O3 & O4); auto; try lia.
    { intros x Hx. rewrite Hcov by auto. auto. }
    { intros bc1 Hin1 Hnr1. destruct (L3 bc1 Hin1 Hnr1) as (bc2 & Hin2 & Hnr2 & Hlt2).
      assert (width (fst bc2) <= m)%nat; [|lia].
      apply Hwid; auto. eapply Permutation_in; [apply P|]. rewrite Et. auto. }
    exists out. split; auto. split; auto. split; [|split; auto].
    { intros x Hx. rewrite O2 by auto. apply Hcov; auto. }
    intros Q HQ HF. apply O4; auto. rewrite Forall_forall in *. intros bc Hin2. destruct bc as [b2 c2]. apply HQ; [apply (L1 _ Hin2)|apply (L2 _ Hin2)].
  - exists (List.concat ls ++ rest). split; [auto|]. split; [auto|]. split; [auto|].
    split.
    2:{ intros Q HQ HF. apply Forall_app. split.
        { rewrite Forall_forall in *. intros bc Hin. destruct bc as [b2 c2]. apply HQ; [apply (L1 _ Hin)|apply (L2 _ Hin)]. }
        rewrite Forall_forall in *. intros bc Hin. apply HF.
        eapply Permutation_in; [apply P|]. rewrite Et. apply in_or_app. auto. }
    intros EN. destruct go.
    + rewrite (G1 eq_refl) in *. rewrite app_nil_r in *. cbn [andb] in Hgo. apply negb_false_iff in Hgo.
      rewrite forallb_forall in Hgo. rewrite Forall_forall in *. intros bc Hin. split; [auto|].
      apply no_rules_homog; auto.
    + exfalso. destruct (G2 eq_refl) as (m0 & Em & Hm). cbn [app] in Hm.
      assert (N3 : (List.length don <= List.length (List.concat ls))%nat).
      { clear - F. induction F as [|bc l don ls S F IH]; cbn [List.concat List.length]; [lia|].
        rewrite app_length. destruct S; cbn [List.length]; lia. }
      assert (N4 : List.length sorted = (List.length don + List.length rest)%nat) by (rewrite Et; apply app_length).
      assert (N0 : 2 * Z.of_nat (List.length (List.concat ls ++ rest)) <= m0).
      { destruct EN as [EN|EN]; [|unfold roomy in EN; rewrite Em in EN; exact EN].
        unfold no_cut in EN. rewrite Em in EN.
        assert (N1 : (List.length (List.concat ls ++ rest) <= List.length (sp varis))%nat).
        { apply branches_le_space; auto. intros x Hx. rewrite Hcov, Hone by auto. lia. }
        lia. }
      rewrite app_length in N0. lia.
Qed.

Lemma decomp_loop_len m : forall fuel bcs out,
  decomp_loop fuel rs probs (Some m) bcs = Ok out ->
  Z.of_nat (List.length bcs) <= m - 1 -> Z.of_nat (List.length out) <= m.
Proof.
  induction fuel as [|fuel IH]; intros bcs out H Hl; cbn [decomp_loop] in H; [congruence|].
  set (sorted := sort_desc _ bcs) in *.
  assert (El : List.length sorted = List.length bcs) by (apply Permutation_length, sort_desc_perm).
  destruct (decomp_pass rs probs (Some m) (List.length sorted) sorted []) as [[bcs' go]|] eqn:E; cbn [bind] in H; [|congruence].
  destruct (decomp_pass_len m _ _ _ _ _ E) as [L1 L2]; auto; [cbn; lia|].
  destruct (go && _) eqn:Hg.
  - apply IH in H; auto. apply L2. destruct go; auto.
  - injection H as <-. auto.
Qed.

(** * The whole decomposition *)
Definition br_ok (b : branch) : Prop :=
  wf_br varis b /\ b_p b = prob_event varis probs (in_branch b) /\ lab_ok b.

Lemma worst_sp : In (worst_of varis) (sp varis).
Proof.
  apply (sp_intro varis Hw); [unfold keys, worst_of; rewrite map_map; auto|].
  intros k v Hin. destruct Hw as [Hd Hv]. specialize (Hv k v Hin).
  assert (coord (worst_of varis) k = 0); [|lia].
  apply coord_In; [unfold keys, worst_of; rewrite map_map; auto|].
  apply in_map_iff. exists (k, v). auto.
Qed.
Lemma best_coord k v : In (k, v) varis -> coord (best_of varis) k = nvals v - 1.
Proof.
  intros Hin. apply coord_In; [unfold keys, best_of; rewrite map_map; apply Hw|].
  apply in_map_iff. exists (k, v). auto.
Qed.
Lemma worst_coord k v : In (k, v) varis -> coord (worst_of varis) k = 0.
Proof.
  intros Hin. apply coord_In; [unfold keys, worst_of; rewrite map_map; apply Hw|].
  apply in_map_iff. exists (k, v). auto.
Qed.
Lemma best_sp : In (best_of varis) (sp varis).
Proof.
  apply (sp_intro varis Hw); [unfold keys, best_of; rewrite map_map; auto|].
  intros k v Hin. rewrite (best_coord k v Hin). destruct Hw as [Hd Hv]. specialize (Hv k v Hin). lia.
Qed.

Lemma init_branch_ok : exists b, init_branch varis rs = Ok [b] /\ br_ok b /\ lab_full b /\
  (forall x, In x (sp varis) -> in_branch b x = true).
Proof.
  unfold init_branch.
  assert (Hd := worst_sp). assert (Hu := best_sp).
  rewrite !(get_state_ok varis) by (auto; apply (sp_keys varis); auto). cbn [bind].
  unfold mk_branch, worst_of, best_of. rewrite !map_length, Nat.eqb_refl. cbn [bind].
  fold (worst_of varis) (best_of varis). eexists. split; [reflexivity|].
  set (b := mkBr _ _ _ _ _).
  assert (Hin : forall x, In x (sp varis) -> in_branch b x = true).
  { intros x Hx. apply (in_branch_spec varis Hw b x Hx). cbn. split; intros k Hk;
      destruct (varis_find varis k Hk) as (v & Hv & _); pose proof (sp_coord varis Hw x k v Hx Hv).
    - rewrite (worst_coord k v Hv). lia.
    - rewrite (best_coord k v Hv). lia. }
  assert (LF : lab_full b) by (split; cbn; apply gstate_full).
  split; [|split; auto]. split; [|split].
  - split; [auto|]. split; [auto|]. cbn. apply (in_branch_spec varis Hw b (best_of varis) Hu). auto.
  - cbn. rewrite <- (prob_total varis probs Hp). symmetry.
    apply prob_event_ext. auto.
  - apply lab_full_ok; auto.
Qed.

Definition bcover (x : dict Z) (bs : list branch) : nat := List.length (filter (fun b => in_branch b x) bs).

Lemma bcover_map x l : bcover x (map fst l) = cover x l.
Proof. unfold bcover, cover. rewrite filter_map, map_length. auto. Qed.

Lemma combine_fst {A B} (l1 : list A) (l2 : list B) : List.length l1 = List.length l2 -> map fst (combine l1 l2) = l1.
Proof. revert l2; induction l1; destruct l2; cbn; intros; try congruence. f_equal. apply IHl1. congruence. Qed.

Lemma decomp_spec max_nb brs :
  Forall br_ok brs ->
  (forall x, In x (sp varis) -> brs <> [] -> bcover x brs = 1%nat) ->
  exists out, decomp_depth_first varis rs probs max_nb brs = Ok out /\ Forall br_ok out /\
    (forall x, In x (sp varis) -> bcover x out = 1%nat) /\
    (no_cut max_nb \/ roomy max_nb (List.length out) -> Forall (fun b => lab_full b /\ homog b) out) /\
    (forall Q : branch -> Prop, (forall b, wf_br varis b -> lab_full b -> Q b) -> Forall Q brs -> Forall Q out) /\
    (forall m, max_nb = Some m -> 2 <= m -> Z.of_nat (List.length brs) <= m - 1 -> Z.of_nat (List.length out) <= m).
Proof.
  intros Hok Hcov. unfold decomp_depth_first.
  assert (exists brs0, (match brs with [] => init_branch varis rs | _ => Ok brs end) = Ok brs0 /\
     Forall br_ok brs0 /\ (forall x, In x (sp varis) -> bcover x brs0 = 1%nat) /\
     (forall Q : branch -> Prop, (forall b, wf_br varis b -> lab_full b -> Q b) -> Forall Q brs -> Forall Q brs0) /\
     (forall m, 2 <= m -> Z.of_nat (List.length brs) <= m - 1 -> Z.of_nat (List.length brs0) <= m - 1)) as (brs0 & -> & H1 & H2 & H4 & H3).
  { destruct brs as [|b0 bs].
    - destruct init_branch_ok as (b & E & Hb & Hf & Hin). exists [b]. split; auto. split; [constructor; auto|].
      split; [|split; [intros Q HQ _; constructor; [apply HQ; auto; apply Hb|constructor]|cbn; lia]]. intros x Hx. unfold bcover. cbn. rewrite Hin by auto. auto.
    - exists (b0 :: bs). split; auto. split; auto. split; [|auto]. intros; apply Hcov; auto; congruence. }
  cbn [bind].
  rewrite (mapM_ok _ (fun b => compat b rs)).
  2:{ intros b Hb. rewrite Forall_forall in H1. destruct (H1 b Hb) as ((W1 & W2 & _) & _).
      apply (get_compat_rules_ok varis); auto; apply (sp_keys varis); auto. }
  cbn [bind].
  set (bcs := combine brs0 (map (fun b => compat b rs) brs0)).
  assert (Ebcs : bcs = map (fun b => (b, compat b rs)) brs0).
  { unfold bcs. clear. induction brs0; cbn; congruence. }
  assert (Hbc : Forall bc_ok bcs).
  { rewrite Ebcs. apply Forall_forall. intros bc Hin. apply in_map_iff in Hin as (b & <- & Hin).
    rewrite Forall_forall in H1. destruct (H1 b Hin) as (A & B & C). repeat (split; auto). }
  destruct (decomp_loop_spec max_nb (fold_right Nat.max O (map width brs0)) (decomp_fuel brs0) bcs) as (out & E & O1 & O2 & O3 & O4); auto.
  { unfold decomp_fuel. lia. }
  { intros x Hx. rewrite <- bcover_map. unfold bcs. rewrite combine_fst by (rewrite map_length; auto). auto. }
  { intros bc Hin _. rewrite Ebcs in Hin. apply in_map_iff in Hin as (b & <- & Hin). cbn.
    clear - Hin. induction brs0 as [|b0 l IH]; [destruct Hin|]. cbn. destruct Hin as [->|Hin]; [lia|]. specialize (IH Hin). lia. }
  rewrite E. cbn [bind]. exists (map fst out). split; auto.
  assert (E0 : map fst bcs = brs0). { unfold bcs. apply combine_fst. rewrite map_length; auto. }
  split; [|split; [|split; [|split]]].
  - rewrite Forall_forall in *. intros b Hin. apply in_map_iff in Hin as ([b' c] & <- & Hin).
    destruct (O1 _ Hin) as (A & B & C & _). repeat (split; auto).
  - intros x Hx. rewrite bcover_map, O2, <- bcover_map, E0 by auto. auto.
  - intros EN. rewrite map_length in EN. specialize (O3 EN). rewrite Forall_forall in *. intros b Hin.
    apply in_map_iff in Hin as (bc & <- & Hin). apply (O3 bc Hin).
  - intros Q HQ HF. specialize (H4 Q HQ HF). assert (O4' := O4 Q HQ). rewrite Ebcs in O4'.
    assert (HX : Forall (fun bc : branch * ruleset => Q (fst bc)) (map (fun b => (b, compat b rs)) brs0)).
    { apply Forall_forall. intros bc Hin. apply in_map_iff in Hin as (b & <- & Hin). rewrite Forall_forall in H4. apply (H4 b Hin). }
    specialize (O4' HX). rewrite Forall_forall in *. intros b Hin.
    apply in_map_iff in Hin as (bc & <- & Hin). apply (O4' bc Hin).
  - intros m -> Hm Hl. rewrite map_length. apply (decomp_loop_len m _ _ _ E).
    rewrite <- (map_length fst bcs), E0. apply H3; auto.
Qed.

End Decomp.
