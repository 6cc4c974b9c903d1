(** The main loop of brc.py: choice of the next vector, bounds, invariants. *)
From Coq Require Import ZArith List String Bool Lia Arith QArith Qcanon Permutation.
From Verif Require Import Py Num Vari Brc PyFacts SpecBrc VariFacts BrcFacts BrcProb BrcDecomp BrcRules.
Import ListNotations.
Open Scope string_scope.
Open Scope Z_scope.
Open Scope list_scope.

(** [rs'] matches at least what [rs] matches *)
Definition grows (rs rs' : ruleset) : Prop :=
  forall x, (match_s rs x = true -> match_s rs' x = true) /\ (match_f rs x = true -> match_f rs' x = true).
Lemma grows_refl rs : grows rs rs.
Proof. split; auto. Qed.
Lemma grows_trans a b c : grows a b -> grows b c -> grows a c.
Proof. intros H1 H2 x. destruct (H1 x), (H2 x). split; auto. Qed.

Lemma st_eqb_eq a b : st_eqb a b = true <-> a = b.
Proof. destruct a, b; cbn; split; congruence. Qed.

Lemma bcover_filter (g : branch -> bool) x brs : (bcover x (filter g brs) <= bcover x brs)%nat.
Proof.
  unfold bcover. induction brs as [|b brs IH]; cbn; auto. destruct (g b), (in_branch b x) eqn:E; cbn; rewrite ?E; cbn; lia.
Qed.

Section Run.
Context (varis : dict variable) (probs : prob_dict).
Context (Hw : wf_varis varis) (Hp : wf_probs varis probs).

Notation brok := (br_ok varis probs).

Lemma br_ok_grows rs rs' b : grows rs rs' -> brok rs b -> brok rs' b.
Proof.
  intros G (H1 & H2 & [L1 L2]). split; auto. split; auto. split.
  - destruct L1 as [A B]. split; intros E; apply G; auto.
  - destruct L2 as [A B]. split; intros E; apply G; auto.
Qed.

(** * Probability of the branches with a given label *)
Definition sel (g : branch -> bool) (brs : list branch) (x : dict Z) : bool :=
  existsb (fun b => g b && in_branch b x) brs.

Lemma sel_prob (g : branch -> bool) brs :
  exact_probs varis probs brs -> partition varis brs ->
  qsum (map b_p (filter g brs)) = prob_event varis probs (sel g brs).
Proof.
  intros He Hpt. apply (qsum_disjoint_event varis probs).
  - intros b Hb. apply filter_In in Hb as [Hb _]. auto.
  - intros x Hx Hs. apply existsb_exists in Hs as (b & Hb & Hs). apply andb_true_iff in Hs as [Hg Hin].
    pose proof (bcover_filter g x brs) as L. unfold bcover in L. rewrite (Hpt x Hx) in L.
    assert (X : In b (filter (fun b => in_branch b x) (filter g brs))) by (apply filter_In; split; auto; apply filter_In; auto).
    destruct (filter (fun b => in_branch b x) (filter g brs)) as [|b1 l]; [destruct X|]. cbn in *. lia.
  - intros x Hx Hs. destruct (filter (fun b => in_branch b x) (filter g brs)) as [|b l] eqn:E; auto. exfalso.
    assert (X : In b (filter (fun b => in_branch b x) (filter g brs))) by (rewrite E; left; auto).
    apply filter_In in X as [X1 X2]. apply filter_In in X1 as [X1 X3].
    assert (Y : sel g brs x = true); [|congruence]. apply existsb_exists. exists b. rewrite X2, X3. auto.
Qed.

Lemma bounds_valid phi brs :
  exact_probs varis probs brs -> partition varis brs -> sound_labels varis phi brs ->
  (0 <= pr_bf brs)%Qc /\ (pr_bf brs <= p_fail varis probs phi)%Qc /\
  (p_fail varis probs phi <= 1 - pr_bs brs)%Qc /\ (1 - pr_bs brs <= 1)%Qc.
Proof.
  intros He Hpt Hl. unfold pr_bf, pr_bs, p_fail.
  rewrite !sel_prob by auto.
  assert (A := prob_event_nonneg varis probs Hw Hp (sel (fun b => st_eqb (b_up_state b) F_) brs)).
  assert (A' := prob_event_nonneg varis probs Hw Hp (sel (fun b => st_eqb (b_down_state b) S_) brs)).
  split; auto. split; [|split].
  - apply prob_event_mono; auto. intros x Hx Hs. apply existsb_exists in Hs as (b & Hb & Hs).
    apply andb_true_iff in Hs as [Hg Hin]. apply st_eqb_eq in Hg.
    rewrite (proj1 (Hl b x Hb Hx Hin) Hg). auto.
  - assert (C := prob_event_compl varis probs Hp phi).
    assert (M : (prob_event varis probs (sel (fun b => st_eqb (b_down_state b) S_) brs) <= prob_event varis probs phi)%Qc).
    { apply prob_event_mono; auto. intros x Hx Hs. apply existsb_exists in Hs as (b & Hb & Hs).
      apply andb_true_iff in Hs as [Hg Hin]. apply st_eqb_eq in Hg.
      apply (proj2 (Hl b x Hb Hx Hin) Hg). }
    qc_lra.
  - qc_lra.
Qed.

(** * What the branch lists of the loop satisfy *)
Definition vbrs (rs : ruleset) (brs : list branch) : Prop :=
  Forall (brok rs) brs /\ (forall x, In x (sp varis) -> bcover x brs = 1%nat).

Lemma vbrs_exact rs brs : vbrs rs brs -> exact_probs varis probs brs.
Proof. intros [H _] b Hb. rewrite Forall_forall in H. apply (H b Hb). Qed.
Lemma vbrs_partition rs brs : vbrs rs brs -> partition varis brs.
Proof. intros [_ H]. exact H. Qed.
Lemma vbrs_grows rs rs' brs : grows rs rs' -> vbrs rs brs -> vbrs rs' brs.
Proof.
  intros G [H1 H2]. split; auto. rewrite Forall_forall in *. intros b Hb. eapply br_ok_grows; eauto.
Qed.
Lemma vbrs_labels phi rs brs :
  wf_rules varis rs -> sound_rules varis phi rs -> vbrs rs brs -> sound_labels varis phi brs.
Proof.
  intros Hr [Hs1 Hs2] [H _] b x Hb Hx Hin. rewrite Forall_forall in H.
  destruct (H b Hb) as ((D & U & L) & _ & [LD LU]).
  apply (in_branch_spec varis Hw b x Hx) in Hin as [I1 I2]. split; intros E.
  - assert (M := proj2 LU E). apply (match_f_anti varis rs x (b_up b)) in M; auto.
    apply match_f_spec in M as (r & Hr' & M). eapply Hs2; eauto.
  - assert (M := proj1 LD E). apply (match_s_mono varis rs (b_down b) x) in M; auto.
    apply match_s_spec in M as (r & Hr' & M). eapply Hs1; eauto.
Qed.
Lemma vbrs_nonempty rs brs : vbrs rs brs -> brs <> [].
Proof.
  intros [_ H] E. subst. specialize (H (worst_of varis) (worst_sp varis Hw)). cbn in H. congruence.
Qed.

(** exact bounds of an untruncated decomposition *)
Definition fullhom (rs : ruleset) (brs : list branch) : Prop :=
  Forall (fun b => lab_full rs b /\ homog rs b) brs.

Lemma cover_one rs brs x : vbrs rs brs -> In x (sp varis) -> exists b, In b brs /\ in_branch b x = true.
Proof.
  intros [_ H] Hx. specialize (H x Hx). unfold bcover in H.
  destruct (filter (fun b => in_branch b x) brs) as [|b l] eqn:E; [cbn in H; lia|].
  exists b. apply (proj1 (filter_In (fun b => in_branch b x) b brs)). rewrite E. left; auto.
Qed.

Lemma full_bounds rs brs :
  wf_rules varis rs -> consistent varis rs -> vbrs rs brs -> fullhom rs brs ->
  pr_bf brs = prob_event varis probs (match_f rs) /\ pr_bs brs = prob_event varis probs (match_s rs).
Proof.
  intros Hr Hc V F. unfold pr_bf, pr_bs.
  rewrite !sel_prob by (eapply vbrs_exact || eapply vbrs_partition; eauto).
  assert (V0 := V). destruct V0 as [V1 _]. unfold fullhom in F. rewrite Forall_forall in V1, F.
  split; apply prob_event_ext; auto; intros x Hx; apply eq_true_iff_eq; split.
  - intros Hs. apply existsb_exists in Hs as (b & Hb & Hs). apply andb_true_iff in Hs as [Hg Hin].
    apply st_eqb_eq in Hg. destruct (V1 b Hb) as (_ & _ & [_ LU]).
    apply (in_branch_spec varis Hw b x Hx) in Hin as [I1 I2].
    apply (match_f_anti varis rs x (b_up b)); auto. apply LU; auto.
  - intros Hm. destruct (cover_one rs brs x V Hx) as (b & Hb & Hin).
    apply existsb_exists. exists b. split; auto. rewrite Hin, andb_true_r.
    destruct (V1 b Hb) as ((D & U & L) & _ & [LD LU]). destruct (F b Hb) as [[FD FU] [Hh1 Hh2]].
    apply (in_branch_spec varis Hw b x Hx) in Hin as [I1 I2].
    assert (MD : match_f rs (b_down b) = true) by (apply (match_f_anti varis rs _ x); auto).
    assert (MU := Hh2 MD). destruct (b_up_state b) eqn:E; auto; exfalso.
    + apply (Hc (b_up b)); auto. apply LU; auto.
    + destruct FU as [_ FU]. destruct (FU eq_refl). congruence.
  - intros Hs. apply existsb_exists in Hs as (b & Hb & Hs). apply andb_true_iff in Hs as [Hg Hin].
    apply st_eqb_eq in Hg. destruct (V1 b Hb) as (_ & _ & [LD _]).
    apply (in_branch_spec varis Hw b x Hx) in Hin as [I1 I2].
    apply (match_s_mono varis rs (b_down b) x); auto. apply LD; auto.
  - intros Hm. destruct (cover_one rs brs x V Hx) as (b & Hb & Hin).
    apply existsb_exists. exists b. split; auto. rewrite Hin, andb_true_r.
    destruct (V1 b Hb) as ((D & U & L) & _ & [LD LU]). destruct (F b Hb) as [[FD FU] [Hh1 Hh2]].
    apply (in_branch_spec varis Hw b x Hx) in Hin as [I1 I2].
    assert (MU : match_s rs (b_up b) = true) by (apply (match_s_mono varis rs x _); auto).
    assert (MD := Hh1 MU). destruct (b_down_state b) eqn:E; auto; exfalso.
    + apply (Hc (b_down b)); auto. apply LD; auto.
    + destruct FD as [_ FD]. destruct (FD eq_refl). congruence.
Qed.

Definition all_known (brs : list branch) : Prop :=
  forall b, In b brs -> b_up_state b <> U_ /\ b_down_state b <> U_.

Lemma known_exact phi rs brs :
  wf_rules varis rs -> sound_rules varis phi rs -> vbrs rs brs -> fullhom rs brs -> all_known brs ->
  (forall x, In x (sp varis) -> match_f rs x = negb (phi x) /\ match_s rs x = phi x).
Proof.
  intros Hr Hs V F K x Hx. destruct (cover_one rs brs x V Hx) as (b & Hb & Hin).
  assert (Hc := sound_consistent varis phi rs Hs).
  destruct V as [V1 _]. unfold fullhom in F. rewrite Forall_forall in V1, F. destruct (V1 b Hb) as ((D & U & L) & _ & [LD LU]).
  destruct (F b Hb) as [_ [Hh1 Hh2]]. destruct (K b Hb) as [K1 K2].
  apply (in_branch_spec varis Hw b x Hx) in Hin as [I1 I2].
  assert (M : match_s rs x = true \/ match_f rs x = true).
  { destruct (b_up_state b) eqn:E; [| |congruence].
    - left. apply (match_s_mono varis rs (b_down b) x); auto. apply Hh1. apply LU; auto.
    - right. apply (match_f_anti varis rs x (b_up b)); auto. apply LU; auto. }
  destruct Hs as [Hs1 Hs2]. destruct M as [M|M]; rewrite M.
  - assert (E : phi x = true) by (apply match_s_spec in M as (r & Hr' & M); eapply Hs1; eauto).
    rewrite E. split; auto. destruct (match_f rs x) eqn:Ef; auto. exfalso. eapply Hc; eauto.
  - assert (E : phi x = false) by (apply match_f_spec in M as (r & Hr' & M); eapply Hs2; eauto).
    rewrite E. split; auto. destruct (match_s rs x) eqn:Ef; auto. exfalso. eapply Hc; eauto.
Qed.

Lemma known_bounds phi rs brs :
  wf_rules varis rs -> sound_rules varis phi rs -> vbrs rs brs -> fullhom rs brs -> all_known brs ->
  pr_bf brs = p_fail varis probs phi /\ (1 - pr_bs brs = p_fail varis probs phi)%Qc.
Proof.
  intros Hr Hs V F K. assert (Hc := sound_consistent varis phi rs Hs).
  destruct (full_bounds rs brs Hr Hc V F) as [E1 E2]. assert (X := known_exact phi rs brs Hr Hs V F K).
  rewrite E1, E2. unfold p_fail. split.
  - apply prob_event_ext; auto. intros x Hx. apply X; auto.
  - rewrite (prob_event_ext varis probs (match_s rs) phi) by (intros x Hx; apply X; auto).
    assert (C := prob_event_compl varis probs Hp phi). qc_lra.
Qed.

(** * [get_comp_st] *)
Lemma approx_ok d u : In d (sp varis) -> In u (sp varis) -> le_vec varis d u ->
  exists q, approx_prob_by_comps d u probs = Ok q.
Proof.
  intros. eexists. apply (approx_prob_ok varis probs Hw Hp (mkBr d u U_ U_ 0%Qc)). repeat split; auto.
Qed.

Lemma get_comp_st_surv brs :
  exists o, get_comp_st brs true varis probs = Ok o /\
    (o = None -> all_known brs) /\
    (forall x, o = Some x -> exists b, In b brs /\
       ((b_up_state b = U_ /\ x = b_up b) \/ (b_down_state b = U_ /\ x = b_down b))).
Proof.
  unfold get_comp_st. set (sorted := sort_desc br_gtb brs).
  assert (P : Permutation sorted brs) by apply sort_desc_perm.
  assert (I : forall b, In b sorted -> In b brs) by (intros b; apply Permutation_in; auto).
  assert (I' : forall b, In b brs -> In b sorted) by (intros b; apply Permutation_in; symmetry; auto).
  destruct (find (fun br => st_eqb (b_up_state br) U_) sorted) as [b|] eqn:E1.
  - apply find_some in E1 as [E1 E2]. apply st_eqb_eq in E2. eexists. split; [reflexivity|]. split; [congruence|].
    intros x Ex. injection Ex as <-. exists b. auto.
  - destruct (find (fun br => st_eqb (b_down_state br) U_) sorted) as [b|] eqn:E2.
    + apply find_some in E2 as [E2 E3]. apply st_eqb_eq in E3. eexists. split; [reflexivity|]. split; [congruence|].
      intros x Ex. injection Ex as <-. exists b. auto.
    + eexists. split; [reflexivity|]. split; [|congruence]. intros _ b Hb. split; intros E.
      * apply find_none with (x := b) in E1; auto. rewrite E in E1. cbn in E1. congruence.
      * apply find_none with (x := b) in E2; auto. rewrite E in E2. cbn in E2. congruence.
Qed.

Definition upper_of (brs : list branch) (b : branch) : Prop :=
  b_down_state b = U_ /\ b_up_state b = S_ /\ exists b0, In b0 brs /\ b_up_state b0 = U_ /\ b_down b = b_up b0.

Lemma unknown_ends_spec all : Forall (fun b => wf_br varis b) all -> forall brs last acc,
  incl brs all -> Forall (upper_of all) acc -> (forall b, last = Some b -> upper_of all b) ->
  match unknown_ends (worst_of varis) (best_of varis) probs brs last acc with
  | Ok l => Forall (upper_of all) l /\ (forall b, In b acc -> In b l) /\
      (l = [] -> all_known brs)
  | Err e => e = UnboundLocalError /\ exists b, In b brs /\ b_down_state b = U_ /\ b_up_state b <> U_
  end.
Proof.
  intros Hall. induction brs as [|b brs IH]; intros last acc Hi Ha Hl; cbn [unknown_ends].
  - split; auto. split; auto. intros _ b [].
  - assert (Hb : wf_br varis b) by (rewrite Forall_forall in Hall; apply Hall, Hi; left; auto).
    destruct Hb as (D & U & L).
    assert (Hd := worst_sp varis Hw). assert (Hu := best_sp varis Hw).
    assert (Hle : forall x, In x (sp varis) -> le_vec varis (worst_of varis) x /\ le_vec varis x (best_of varis)).
    { intros x Hx. split; intros k Hk; destruct (varis_find varis k Hk) as (v & Hv & _);
        pose proof (sp_coord varis Hw x k v Hx Hv).
      - rewrite (worst_coord varis Hw k v Hv). lia.
      - rewrite (best_coord varis Hw k v Hv). lia. }
    assert (Hlen : forall x y, In x (sp varis) -> In y (sp varis) -> (List.length x =? List.length y)%nat = true).
    { intros x y Hx Hy. apply Nat.eqb_eq. rewrite <- !(map_length fst).
      change (List.length (keys x) = List.length (keys y)). rewrite !(sp_keys varis) by auto. auto. }
    destruct (st_eqb (b_up_state b) U_) eqn:E1.
    + apply st_eqb_eq in E1.
      destruct (approx_ok (b_up b) (best_of varis)) as (q1 & ->); auto; [apply Hle; auto|].
      cbn [bind]. unfold mk_branch. rewrite Hlen by auto. cbn [bind].
      set (bn := mkBr (b_up b) (best_of varis) U_ S_ _).
      assert (Hbn : upper_of all bn).
      { split; auto. split; auto. exists b. split; [apply Hi; left; auto|]. auto. }
      assert (Ha' : Forall (upper_of all) (acc ++ [bn])) by (apply Forall_app; auto).
      assert (Hi' : incl brs all) by (intros q Hq; apply Hi; right; auto).
      destruct (st_eqb (b_down_state b) U_) eqn:E2.
      * destruct (approx_ok (worst_of varis) (b_down b)) as (q2 & ->); auto; [apply Hle; auto|].
        cbn [bind]. rewrite Hlen by auto. cbn [bind].
        specialize (IH (Some bn) ((acc ++ [bn]) ++ [bn]) Hi').
        destruct (unknown_ends _ _ _ brs (Some bn) _) as [l|e].
        -- destruct IH as (A & B & C); [apply Forall_app; auto|congruence|].
           split; auto. split; [intros q Hq; apply B; apply in_or_app; left; apply in_or_app; auto|].
           intros ->. exfalso. apply (B bn). apply in_or_app; right; left; auto.
        -- destruct IH as (A & q & Q1 & Q2 & Q3); [apply Forall_app; auto|congruence|].
           split; auto. exists q. split; [right; auto|auto].
      * cbn [bind]. specialize (IH (Some bn) (acc ++ [bn]) Hi' Ha').
        destruct (unknown_ends _ _ _ brs (Some bn) _) as [l|e].
        -- destruct IH as (A & B & C); [congruence|].
           split; auto. split; [intros q Hq; apply B; apply in_or_app; auto|].
           intros ->. exfalso. apply (B bn). apply in_or_app; right; left; auto.
        -- destruct IH as (A & q & Q1 & Q2 & Q3); [congruence|].
           split; auto. exists q. split; [right; auto|auto].
    + cbn [bind]. assert (Hi' : incl brs all) by (intros q Hq; apply Hi; right; auto).
      assert (Hn : b_up_state b <> U_) by (intros X; rewrite X in E1; cbn in E1; congruence).
      destruct (st_eqb (b_down_state b) U_) eqn:E2.
      * apply st_eqb_eq in E2.
        destruct (approx_ok (worst_of varis) (b_down b)) as (q2 & ->); auto; [apply Hle; auto|].
        cbn [bind]. unfold mk_branch. rewrite Hlen by auto. cbn [bind].
        destruct last as [b1|]; cbn [bind].
        -- assert (Hb1 : upper_of all b1) by auto.
           specialize (IH (Some b1) (acc ++ [b1]) Hi' ltac:(apply Forall_app; auto) Hl).
           destruct (unknown_ends _ _ _ brs (Some b1) _) as [l|e].
           ++ destruct IH as (A & B & C). split; auto.
              split; [intros q Hq; apply B; apply in_or_app; auto|].
              intros ->. exfalso. apply (B b1). apply in_or_app; right; left; auto.
           ++ destruct IH as (A & q & Q1 & Q2 & Q3). split; auto. exists q. split; [right; auto|auto].
        -- split; auto. exists b. split; [left; auto|auto].
      * cbn [bind]. specialize (IH last acc Hi' Ha Hl).
        destruct (unknown_ends _ _ _ brs last acc) as [l|e].
        -- destruct IH as (A & B & C). split; auto. split; auto. intros El q [<-|Hq].
           ++ split; auto. intros X. rewrite X in E2. cbn in E2. congruence.
           ++ apply C; auto.
        -- destruct IH as (A & q & Q1 & Q2 & Q3). split; auto. exists q. split; [right; auto|auto].
Qed.

Lemma get_comp_st_fail_first brs : Forall (fun b => wf_br varis b) brs ->
  match get_comp_st brs false varis probs with
  | Ok None => all_known brs
  | Ok (Some x) => exists b, In b brs /\ b_up_state b = U_ /\ x = b_up b
  | Err e => e = UnboundLocalError /\ exists b, In b brs /\ b_down_state b = U_ /\ b_up_state b <> U_
  end.
Proof.
  intros Hall. unfold get_comp_st.
  pose proof (unknown_ends_spec brs Hall brs None [] (incl_refl _) (Forall_nil _) ltac:(congruence)) as H.
  destruct (unknown_ends _ _ _ brs None []) as [l|e]; cbn [bind]; auto. destruct H as (A & _ & C).
  assert (P : Permutation (sort_desc br_gtb l) l) by apply sort_desc_perm.
  destruct (sort_desc br_gtb l) as [|b l'] eqn:E.
  - apply Permutation_nil in P. auto.
  - assert (Hb : In b l) by (eapply Permutation_in; [apply P|left; auto]).
    rewrite Forall_forall in A. destruct (A b Hb) as (B1 & B2 & b0 & B3 & B4 & B5).
    rewrite B2, B1. cbn. eauto.
Qed.

Lemma get_comp_st_any brs sf : Forall (fun b => wf_br varis b) brs ->
  match get_comp_st brs sf varis probs with
  | Ok None => all_known brs
  | Ok (Some x) => exists b, In b brs /\
       ((b_up_state b = U_ /\ x = b_up b) \/ (b_down_state b = U_ /\ x = b_down b))
  | Err e => sf = false /\ e = UnboundLocalError /\ exists b, In b brs /\ b_down_state b = U_ /\ b_up_state b <> U_
  end.
Proof.
  intros Hb. destruct sf.
  - destruct (get_comp_st_surv brs) as (o & -> & H1 & H2). destruct o; auto.
  - pose proof (get_comp_st_fail_first brs Hb) as H. destruct (get_comp_st brs false varis probs) as [[x|]|e]; auto.
    destruct H as (b & A & B & C). exists b. auto.
Qed.

(** * Invariant of the loop *)
Context (phi : dict Z -> bool) (sys_fun : sysfun) (Hsys : sys_ok varis phi sys_fun).
Context (g : config).

(** ghost history: branches, rules they were made with, rules recorded with them *)
Definition entry := (list branch * ruleset * ruleset)%type.
Definition e_brs (e : entry) := fst (fst e).
Definition e_used (e : entry) := snd (fst e).
Definition e_rec (e : entry) := snd e.

Definition entry_ok (e : entry) : Prop :=
  wf_rules varis (e_used e) /\ sound_rules varis phi (e_used e) /\ vbrs (e_used e) (e_brs e) /\
  (no_cut varis (g_max_nb g) \/ roomy (g_max_nb g) (List.length (e_brs e)) -> fullhom (e_used e) (e_brs e)) /\
  (g_active g = true -> Forall (lab_full (e_used e)) (e_brs e)) /\
  (forall m, g_max_nb g = Some m -> 2 <= m -> g_active g = true -> len (e_brs e) <= m) /\
  grows (e_used e) (e_rec e).

Definition mon_hist (m : monitor) (h : list entry) : Prop :=
  m_pf_low m = map (fun e => pr_bf (e_brs e)) h /\
  m_pf_up m = map (fun e => (1 - pr_bs (e_brs e))%Qc) h /\
  m_pr_bu m = map (fun e => (1 - pr_bf (e_brs e) - pr_bs (e_brs e))%Qc) h /\
  m_no_br m = map (fun e => len (e_brs e)) h /\
  m_no_bf m = map (fun e => len (filter (fun b => st_eqb (b_up_state b) F_) (e_brs e))) h /\
  m_no_bs m = map (fun e => len (filter (fun b => st_eqb (b_down_state b) S_) (e_brs e))) h /\
  m_no_bu m = map (fun e => len (e_brs e) - len (filter (fun b => st_eqb (b_up_state b) F_) (e_brs e))
                            - len (filter (fun b => st_eqb (b_down_state b) S_) (e_brs e))) h /\
  m_no_rs m = map (fun e => len (r_s (e_rec e))) h /\
  m_no_rf m = map (fun e => len (r_f (e_rec e))) h /\
  m_no_ra m = map (fun e => len (r_s (e_rec e)) + len (r_f (e_rec e))) h /\
  List.length (m_min_len_rf m) = List.length h /\ List.length (m_avg_len_rf m) = List.length h.

Definition chain (h : list entry) : Prop :=
  forall i j a b, (i <= j)%nat -> nth_error h i = Some a -> nth_error h j = Some b -> grows (e_used a) (e_used b).

Definition res_vec (r : sysres) : dict Z := snd (fst r).

Definition sys_part (s : rstate) : Prop :=
  (forall r, In r (s_sys s) -> In (res_vec r) (sp varis) /\
      (exists sst, sys_fun (res_vec r) = (fst (fst r), sst, snd r)) /\
      (match_s (s_rules s) (res_vec r) = true \/ match_f (s_rules s) (res_vec r) = true)) /\
  (g_active g = true \/ no_cut varis (g_max_nb g) -> NoDup (map res_vec (s_sys s))).

Definition inv (rs0 : ruleset) (s : rstate) (h : list entry) : Prop :=
  wf_rules varis (s_rules s) /\ sound_rules varis phi (s_rules s) /\
  (forall b, s_brs s = Some b -> Forall (brok (s_rules s)) b /\ (forall x, In x (sp varis) -> b <> [] -> bcover x b = 1%nat)) /\
  (h = [] \/ exists h0 b u, h = h0 ++ [(b, u, s_rules s)] /\ s_brs s = Some b) /\
  Forall entry_ok h /\ chain h /\ (forall e, In e h -> grows (e_used e) (s_rules s)) /\
  mon_hist (s_mon s) h /\ m_no_sf (s_mon s) = zrange 0 (len h + 1) /\
  c_no_sf (s_ctrl s) = len h /\ len (s_sys s) = len h /\ sys_part s /\
  grows rs0 (s_rules s) /\
  (match m_out_flag (s_mon s) with None => len h < g_max_sf g | Some f => f = O_max_sf /\ len h = g_max_sf g end).

Lemma chain_snoc h e : chain h -> (forall e', In e' h -> grows (e_used e') (e_used e)) -> chain (h ++ [e]).
Proof.
  intros Hc He i j a b Hij Ha Hb.
  assert (Hj : (j < List.length (h ++ [e]))%nat) by (apply nth_error_Some; congruence).
  rewrite app_length in Hj. cbn in Hj. destruct (Nat.eq_dec j (List.length h)) as [->|Hn].
  - rewrite nth_error_app2, Nat.sub_diag in Hb by lia. injection Hb as <-.
    destruct (Nat.eq_dec i (List.length h)) as [->|Hi].
    + rewrite nth_error_app2, Nat.sub_diag in Ha by lia. injection Ha as <-. apply grows_refl.
    + rewrite nth_error_app1 in Ha by lia. apply He. eapply nth_error_In; eauto.
  - rewrite nth_error_app1 in Ha, Hb by lia. apply (Hc i j a b); auto.
Qed.

Lemma mon_hist_snoc m h b u rs :
  mon_hist m h -> mon_hist (fst (update_monitor m b rs)) (h ++ [(b, u, rs)]).
Proof.
  intros (H1 & H2 & H3 & H4 & H5 & H6 & H7 & H8 & H9 & H10 & H11 & H12).
  unfold mon_hist, update_monitor. cbn. rewrite !map_app, !app_length. cbn.
  rewrite H1, H2, H3, H4, H5, H6, H7, H8, H9, H10, H11, H12.
  repeat split; auto.
Qed.

Lemma decomp_step rs0 s h : inv rs0 s h ->
  exists brs, (if g_active g then decomp_depth_first varis (s_rules s) probs (g_max_nb g) []
          else decomp_depth_first varis (s_rules s) probs (g_max_nb g)
                 (match s_brs s with None => [] | Some b => b end)) = Ok brs /\
    entry_ok (brs, s_rules s, s_rules s).
Proof.
  intros (Iw & Is & Ib & _). assert (Hc := sound_consistent varis phi _ Is).
  destruct (g_active g) eqn:Ea.
  - destruct (decomp_spec varis probs (s_rules s) Hw Hp Iw Hc (g_max_nb g) []) as (out & E & O1 & O2 & O3 & O4 & O5);
      [constructor|intros; congruence|].
    exists out. split; [exact E|]. unfold entry_ok, e_used, e_brs, e_rec. cbn [fst snd].
    split; [exact Iw|]. split; [exact Is|]. split; [split; auto|]. split; [exact O3|]. split; [intros _; apply (O4 _ (fun b _ H => H)); constructor|].
    split; [|apply grows_refl].
    intros m Em Hm _. apply (O5 m); auto. cbn. lia.
  - destruct (decomp_spec varis probs (s_rules s) Hw Hp Iw Hc (g_max_nb g) (match s_brs s with None => [] | Some b => b end)) as (out & E & O1 & O2 & O3 & O4 & O5).
    + destruct (s_brs s) as [b|]; [apply (Ib b); auto|constructor].
    + intros x Hx. destruct (s_brs s) as [b|]; [apply (Ib b); auto|congruence].
    + exists out. split; [exact E|]. unfold entry_ok, e_used, e_brs, e_rec. cbn [fst snd].
      split; [exact Iw|]. split; [exact Is|]. split; [split; auto|]. split; [exact O3|]. split; [congruence|].
      split; [congruence|apply grows_refl].
Qed.

Lemma wf_br_of rs brs : vbrs rs brs -> Forall (fun b => wf_br varis b) brs.
Proof. intros [H _]. rewrite Forall_forall in *. intros b Hb. apply (H b Hb). Qed.

Lemma zrange_snoc n : 0 <= n -> zrange 0 n ++ [n] = zrange 0 (n + 1).
Proof.
  intros Hn. rewrite (zrange_app 0 n (n + 1)) by lia. f_equal. unfold zrange.
  replace (Z.to_nat (n + 1 - n)) with 1%nat by lia. cbn. f_equal. lia.
Qed.

Definition stop_ok (s s' : rstate) (rs0 : ruleset) (h : list entry) : Prop :=
  exists brs f, s' = mkSt (Some brs) (s_rules s) (s_sys s) (set_flag (s_mon s) f) (s_ctrl s) /\
    entry_ok (brs, s_rules s, s_rules s) /\ f <> O_max_sf /\ (f = O_complete <-> all_known brs) /\
    (f = O_max_nb -> exists m, g_max_nb g = Some m /\ m <= len brs).

Lemma run_body_spec rs0 s h : inv rs0 s h -> len h < g_max_sf g ->
  match run_body varis probs sys_fun g s with
  | Err e => g_surv_first g = false /\ e = UnboundLocalError /\
      exists brs b, entry_ok (brs, s_rules s, s_rules s) /\ In b brs /\ b_down_state b = U_ /\ b_up_state b <> U_
  | Ok (inl s') => stop_ok s s' rs0 h
  | Ok (inr s') => exists e, inv rs0 s' (h ++ [e])
  end.
Proof.
  intros I Hn. destruct (decomp_step rs0 s h I) as (brs & E & Eok).
  destruct I as (Iw & Is & Ib & Il & Ih & Ich & Igr & Im & Isf & In' & Isys & Isp & Ig0 & Ifl).
  unfold run_body. rewrite E. cbn [bind].
  assert (V : vbrs (s_rules s) brs) by apply Eok.
  pose proof (get_comp_st_any brs (g_surv_first g) (wf_br_of _ _ V)) as G.
  destruct (get_comp_st brs (g_surv_first g) varis probs) as [[x|]|e]; cbn [bind].
  2:{ exists brs, O_complete. split; auto. split; auto. split; [congruence|]. split; [tauto|congruence]. }
  2:{ destruct G as (G1 & G2 & b & G3). split; auto. split; auto. exists brs, b. auto. }
  assert (Hnk : ~ all_known brs).
  { intros K. destruct G as (b & Hb & [[A _]|[A _]]); destruct (K b Hb); congruence. }
  destruct (ge_bound (len brs) (g_max_nb g)) eqn:B1.
  { exists brs, O_max_nb. split; auto. split; auto. split; [congruence|]. split; [split; [congruence|tauto]|].
    intros _. unfold ge_bound in B1. destruct (g_max_nb g) as [m|]; [|congruence]. exists m. split; auto. lia. }
  destruct (qc_ltb _ _).
  { exists brs, O_pf_bnd. split; auto. split; auto. split; [congruence|]. split; [split; [congruence|tauto]|]. congruence. }
  destruct (ge_bound _ (g_max_rules g)).
  { exists brs, O_max_rules. split; auto. split; auto. split; [congruence|]. split; [split; [congruence|tauto]|]. congruence. }
  assert (Hx : In x (sp varis)).
  { destruct G as (b & Hb & Hg). assert (W := wf_br_of _ _ V). rewrite Forall_forall in W. destruct (W b Hb) as (D & U & _).
    destruct Hg as [[_ ->]|[_ ->]]; auto. }
  destruct (run_sys_fn_ok varis phi sys_fun x Hw Hsys Hx) as (val & mn & rule & sst & Ef & Er & Hst & Hwr & Hts & Htf).
  rewrite Er. cbn [bind].
  assert (Hsu : sst <> U_) by (rewrite Hst; destruct (phi x); congruence).
  destruct (update_spec (s_rules s) rule sst Hsu) as (rs' & Eu & U1 & U2 & U3 & U4).
  rewrite Eu. cbn [bind].
  assert (Gr : grows (s_rules s) rs').
  { intros y. rewrite U1, U2. split; intros ->; auto. }
  assert (Iw' : wf_rules varis rs').
  { destruct Iw as [W1 W2]. split; intros r Hr'.
    - destruct (U3 r Hr') as [|[_ ->]]; auto.
    - destruct (U4 r Hr') as [|[_ ->]]; auto. }
  assert (Is' : sound_rules varis phi rs').
  { destruct Is as [W1 W2]. split; intros r y Hr' Hy Hsat.
    - destruct (U3 r Hr') as [|[Es ->]]; [eapply W1; eauto|]. rewrite Es in Hst. destruct (phi x) eqn:Ep; [|congruence].
      apply Hts; auto.
    - destruct (U4 r Hr') as [|[Es ->]]; [eapply W2; eauto|]. rewrite Es in Hst. destruct (phi x) eqn:Ep; [congruence|].
      apply Htf; auto. }
  set (e := (brs, s_rules s, rs') : entry).
  remember (update_monitor (push_no_sf (s_mon s) (c_no_sf (s_ctrl s) + 1)) brs rs') as um eqn:Eum0.
  assert (Emon : mon_hist (fst um) (h ++ [e])) by (rewrite Eum0; apply mon_hist_snoc; apply Im).
  assert (Esf : m_no_sf (fst um) = zrange 0 (len h + 1) ++ [len h + 1]).
  { rewrite Eum0. cbn. rewrite Isf, In'. auto. }
  assert (Ectl : c_no_sf (snd um) = len h + 1).
  { rewrite Eum0. cbn. rewrite last_last. rewrite In'. auto. }
  assert (Eof : m_out_flag (fst um) = m_out_flag (s_mon s)) by (rewrite Eum0; reflexivity).
  clear Eum0.
  assert (Elen : len (h ++ [e]) = len h + 1) by (unfold len; rewrite app_length; cbn; lia).
  assert (Hlen : 0 <= len h) by (unfold len; lia).
  destruct um as [mon ctl] eqn:Eum. cbn [fst snd] in *.
  exists e. unfold inv. cbn [s_rules s_brs s_sys s_mon s_ctrl].
  assert (Hsp : match_s rs' x = true \/ match_f rs' x = true).
  { rewrite U1, U2, Hst. destruct (phi x) eqn:Ep; cbn [st_eqb andb].
    - left. rewrite (proj1 (Hts eq_refl)). apply orb_true_r.
    - right. rewrite (proj1 (Htf eq_refl)). apply orb_true_r. }
  split; [auto|]. split; [auto|]. split.
  { intros b Eb. injection Eb as <-. destruct (vbrs_grows _ _ _ Gr V) as [V1 V2]. split; auto. }
  split; [right; exists h, brs, (s_rules s); auto|].
  split; [apply Forall_app; split; auto; constructor; auto|].
  { destruct Eok as (A1 & A2 & A3 & A4 & A5 & A6 & A7). unfold entry_ok, e, e_used, e_brs, e_rec in *. cbn [fst snd] in *. tauto. }
  split; [apply chain_snoc; auto|].
  split.
  { intros e' He'. apply in_app_or in He' as [He'|[<-|[]]]; [|auto]. eapply grows_trans; eauto. }
  split; [destruct (c_no_sf ctl =? g_max_sf g); auto|].
  split.
  { rewrite Elen, <- zrange_snoc by lia. rewrite <- Esf. destruct (c_no_sf ctl =? g_max_sf g); auto. }
  split; [rewrite Elen; auto|].
  split; [rewrite Elen; unfold len in *; rewrite app_length; cbn; lia|].
  split.
  { destruct Isp as [P1 P2]. split; cbn [s_sys s_rules].
    - intros r Hr'. apply in_app_or in Hr' as [Hr'|[<-|[]]].
      + destruct (P1 r Hr') as (Q1 & Q2 & Q3). split; auto. split; auto. destruct Q3 as [Q|Q]; [left|right]; apply Gr; auto.
      + unfold res_vec. cbn. split; auto. split; eauto.
    - intros Hm. rewrite map_app. cbn. apply NoDup_app_intro; [auto|constructor; [tauto|constructor]|].
      intros y Hy [Ey|[]]. change (res_vec (val, x, mn)) with x in Ey. subst y.
      apply in_map_iff in Hy as (r & Er' & Hr'). destruct (P1 r Hr') as (_ & _ & Q).
      rewrite Er' in Q.
      assert (LF : Forall (lab_full (s_rules s)) brs).
      { destruct Eok as (_ & _ & _ & A4 & A5 & _). destruct Hm as [Hm|Hm]; [apply A5; auto|].
        specialize (A4 (or_introl Hm)). unfold fullhom in A4. rewrite Forall_forall in *. intros b Hb. apply (A4 b Hb). }
      rewrite Forall_forall in LF. destruct G as (b & Hb & Hg). destruct (LF b Hb) as [[_ LD] [_ LU]].
      destruct Hg as [[Hu ->]|[Hu ->]].
      + destruct (LU Hu). destruct Q; congruence.
      + destruct (LD Hu). destruct Q; congruence. }
  split; [eapply grows_trans; eauto|].
  destruct (c_no_sf ctl =? g_max_sf g) eqn:Eq.
  - cbn. split; auto. apply Z.eqb_eq in Eq. lia.
  - rewrite Eof. apply Z.eqb_neq in Eq. destruct (m_out_flag (s_mon s)); [|lia]. lia.
Qed.

(** result of [run] *)
Definition final_ok (rs0 : ruleset) (s : rstate) : Prop :=
  exists h0 b u, let h := h0 ++ [(b, u, s_rules s)] in
    s_brs s = Some b /\ wf_rules varis (s_rules s) /\ sound_rules varis phi (s_rules s) /\
    Forall entry_ok h /\ chain h /\ grows rs0 (s_rules s) /\
    mon_hist (s_mon s) h /\
    m_no_sf (s_mon s) = zrange 0 (len h) /\ len h = len (s_sys s) + 1 /\ len (s_sys s) <= g_max_sf g /\
    sys_part s /\
    (exists f, m_out_flag (s_mon s) = Some f /\
      (f = O_complete -> u = s_rules s /\ all_known b) /\
      (f = O_max_sf -> len (s_sys s) = g_max_sf g) /\
      (f = O_max_nb -> exists m, g_max_nb g = Some m /\ m <= len b) /\
      (f <> O_max_sf -> u = s_rules s)).

Definition finish (s : rstate) : res rstate :=
    match s_brs s with
    | None => Err TypeError
    | Some b => let '(m, c) := update_monitor (s_mon s) b (s_rules s) in
                Ok (mkSt (Some b) (s_rules s) (s_sys s) m c)
    end.

Lemma run_loop_spec rs0 : forall fuel s h,
  inv rs0 s h -> 0 < g_max_sf g -> g_max_sf g - len h < Z.of_nat fuel ->
  match (s' <- run_loop fuel varis probs sys_fun g s ;; finish s') with
  | Ok s' => final_ok rs0 s'
  | Err e => g_surv_first g = false /\ e = UnboundLocalError /\
      exists brs b rs, entry_ok (brs, rs, rs) /\ In b brs /\ b_down_state b = U_ /\ b_up_state b <> U_
  end.
Proof.
  induction fuel as [|fuel IH]; intros s h I Hn Hf; [|cbn [run_loop]].
  { destruct I as (_ & _ & _ & _ & _ & _ & _ & _ & _ & _ & _ & _ & _ & Ifl). destruct (m_out_flag (s_mon s)); lia. }
  assert (Ic : c_no_sf (s_ctrl s) = len h) by apply I. rewrite Ic.
  destruct (len h <? g_max_sf g) eqn:El.
  - apply Z.ltb_lt in El. pose proof (run_body_spec rs0 s h I El) as B.
    destruct (run_body varis probs sys_fun g s) as [[s'|s']|e]; cbn [bind].
    + destruct B as (brs & f & -> & Eok & Hf1 & Hf2 & Hf3).
      destruct I as (Iw & Is & Ib & Il & Ih & Ich & Igr & Im & Isf & In' & Isys & Isp & Ig0 & Ifl).
      unfold finish. cbn [s_brs s_mon s_rules s_sys].
      destruct (update_monitor (set_flag (s_mon s) f) brs (s_rules s)) as [m c] eqn:Eu.
      assert (Em : m = fst (update_monitor (set_flag (s_mon s) f) brs (s_rules s))) by (rewrite Eu; auto).
      assert (Lh : len (h ++ [(brs, s_rules s, s_rules s) : entry]) = len h + 1) by (unfold len; rewrite app_length; cbn; lia).
      exists h, brs, (s_rules s). cbv zeta. cbn [s_brs s_mon s_rules s_sys].
      split; auto. split; auto. split; auto. split; [apply Forall_app; auto|].
      split; [apply chain_snoc; auto|]. split; auto. split; [rewrite Em; apply mon_hist_snoc; apply Im|].
      split; [rewrite Em; cbn [update_monitor fst m_no_sf set_flag]; rewrite Isf; f_equal; symmetry; exact Lh|]. split; [transitivity (len h + 1); [exact Lh|lia]|]. split; [lia|]. split; [exact Isp|].
      exists f. rewrite Em. cbn. split; auto. split; [intros X; split; auto; apply Hf2; auto|]. split; [congruence|]. split; auto.
    + destruct B as (e & I'). apply (IH s' (h ++ [e])); auto.
      assert (len (h ++ [e]) = len h + 1) by (unfold len; rewrite app_length; cbn; lia). lia.
    + destruct B as (B1 & B2 & brs & b & B3 & B4). split; auto. split; auto. exists brs, b, (s_rules s). auto.
  - apply Z.ltb_ge in El. cbn [bind].
    destruct I as (Iw & Is & Ib & Il & Ih & Ich & Igr & Im & Isf & In' & Isys & Isp & Ig0 & Ifl).
    destruct (m_out_flag (s_mon s)) as [f|] eqn:Hfl; [|lia]. destruct Ifl as [-> Ifl].
    destruct Il as [->|(h0 & b & u & Eh & Eb)]; [cbn in Ifl; lia|].
    unfold finish. rewrite Eb.
    destruct (update_monitor (s_mon s) b (s_rules s)) as [m c] eqn:Eu.
    assert (Em : m = fst (update_monitor (s_mon s) b (s_rules s))) by (rewrite Eu; auto).
    assert (Lh : len (h ++ [(b, u, s_rules s) : entry]) = len h + 1) by (unfold len; rewrite app_length; cbn; lia).
    exists h, b, u. cbv zeta. cbn [s_brs s_mon s_rules s_sys].
    assert (Hin : In (b, u, s_rules s) h) by (rewrite Eh; apply in_or_app; right; left; auto).
    split; auto. split; auto. split; auto.
    split; [apply Forall_app; split; auto; constructor; auto; rewrite Forall_forall in Ih; apply Ih; auto|].
    split.
    { apply chain_snoc; auto. intros e' He'.
      apply In_nth_error in He' as [i Hi]. 
      apply (Ich i (List.length h0) e' (b, u, s_rules s)); auto.
      - assert (i < List.length h)%nat by (apply nth_error_Some; congruence). rewrite Eh, app_length in H. cbn in H. lia.
      - rewrite Eh, nth_error_app2, Nat.sub_diag by lia. auto. }
    split; auto. split; [rewrite Em; apply mon_hist_snoc; apply Im|].
    split; [rewrite Em; cbn [update_monitor fst m_no_sf set_flag]; rewrite Isf; f_equal; symmetry; exact Lh|]. split; [transitivity (len h + 1); [exact Lh|lia]|]. split; [lia|]. split; [exact Isp|].
    exists O_max_sf. rewrite Em. cbn. split; auto. split; [congruence|]. split; [lia|]. split; congruence.
Qed.

(** [run] *)
Definition rules_arg (o : option ruleset) : ruleset := match o with Some r => r | None => mkRules [] [] end.

Lemma run_spec rules brs :
  wf_rules varis (rules_arg rules) -> sound_rules varis phi (rules_arg rules) ->
  (forall b, brs = Some b -> Forall (brok (rules_arg rules)) b /\ (forall x, In x (sp varis) -> b <> [] -> bcover x b = 1%nat)) ->
  0 < g_max_sf g ->
  match run varis probs sys_fun g rules brs with
  | Ok s' => final_ok (rules_arg rules) s'
  | Err e => g_surv_first g = false /\ e = UnboundLocalError /\
      exists brs b rs, entry_ok (brs, rs, rs) /\ In b brs /\ b_down_state b = U_ /\ b_up_state b <> U_
  end.
Proof.
  intros Hr Hs Hb Hm. unfold run. cbn [init_monitor]. fold (rules_arg rules).
  assert (E : (0 <? g_max_sf g) = true) by (apply Z.ltb_lt; auto). rewrite E. clear E.
  set (s0 := mkSt brs (rules_arg rules) [] _ _).
  assert (I : inv (rules_arg rules) s0 []).
  { unfold inv. cbn [s0 s_rules s_brs s_mon s_sys s_ctrl m_out_flag m_no_sf c_no_sf].
    split; auto. split; auto. split; auto. split; auto. split; [constructor|].
    split; [intros i j a b _ Ha; destruct i; cbn in Ha; congruence|]. split; [intros e []|].
    split; [repeat split|]. split; [reflexivity|]. split; auto. split; auto.
    split; [split; [intros r []|intros; constructor]|]. split; [apply grows_refl|]. exact Hm. }
  pose proof (run_loop_spec (rules_arg rules) (S (Z.to_nat (g_max_sf g))) s0 [] I Hm) as R.
  apply R. change (len (@nil entry)) with 0. lia.
Qed.
End Run.
