(** Lemmas for the branch and bound that returns its branches. *)
From Coq Require Import ZArith List String Bool Arith Lia Permutation.
From Verif Require Import Py PyFacts Num Vari VariFacts Brc SpecBrc BrcFacts Bnb SpecBnb BnbFacts BnbOrg.
Import ListNotations.
Open Scope string_scope.
Open Scope Z_scope.
Open Scope list_scope.

Section Arcs.
Context (names : list string) (Nn : NoDup names) (pti : list path_entry) (PO : paths_ok names pti).
Notation AS := (arc_states names).

Lemma Hp : pti <> [].
Proof. destruct PO as (? & ? & -> & _). discriminate. Qed.
Lemma Hin : forall e, In e pti -> incl (pe_path e) names.
Proof. destruct PO as (e0 & l & -> & E0 & P & _). intros e [<-|He]; [rewrite E0; intros k []|]. apply P; auto. Qed.

Lemma matched_surv u p : In u AS -> p <> [] ->
  forallb (fun x => mem_str x (map fst (filter (fun kv => snd kv =? 1) u))) p = survb 1 u p.
Proof.
  intros Hu Np. apply eq_true_iff_eq. rewrite survb_spec, forallb_forall. unfold survives. split.
  - intros F. split; auto. intros k Hk. specialize (F k Hk). apply mem_str_In, in_map_iff in F as ((k' & v) & E1 & F). cbn in E1. subst k'.
    apply filter_In in F as [F1 F2]. cbn in F2. assert (v = 1) by lia. subst v. apply In_dfind; auto. rewrite (as_keys names _ Hu); auto.
  - intros [_ F] k Hk. apply mem_str_In, in_map_iff. exists (k, 1). split; auto. apply filter_In. split; [apply dfind_In; auto|auto].
Qed.

Lemma nobreak_ok b : In (lower b) AS -> In (upper b) AS ->
  get_arcs_given_bstar_nobreak b pti 1 =
    match find (fun e => survb 1 (upper b) (pe_path e)) (tl pti) with None => Err TypeError | Some _ => Ok (arcs_of pti b) end.
Proof.
  intros Hl Hu. pose proof (arcs_ok names Nn pti PO b Hl Hu) as A. unfold get_arcs_given_bstar_nobreak. unfold get_arcs_given_bstar in A.
  destruct PO as (e0 & l & E & E0 & P & _). unfold arcs_of in *. rewrite E in A |- *. cbn [skipn tl] in *. clear E.
  induction l as [|e l IH]; auto. cbn [find arcs_loop] in *. assert (Pe : pe_path e <> []) by (apply P; left; auto).
  rewrite matched_surv in * by auto. destruct (survb 1 (upper b) (pe_path e)).
  - exact A.
  - apply IH; [exact A|intros e' He'; apply P; right; auto].
Qed.

Lemma org_find_ok b bstars st : In (upper b) AS ->
  forall e, find (fun e => survb 1 (upper b) (pe_path e)) (tl pti) = Some e ->
  org_find b (map fst (filter (fun kv => snd kv =? 1) (upper b))) bstars (tl pti) st =
    mk_locals (Some (pe_path e)) (Some (upper b, lower b, fl b, filter (fun x => negb (bb_eqb x b)) bstars)).
Proof.
  intros Hu. destruct PO as (e0 & l & E & E0 & P & _). rewrite E. cbn [tl]. clear E. revert st.
  induction l as [|a l IH]; intros st e; [discriminate|]. cbn [find org_find].
  rewrite matched_surv; [|auto|apply P; left; auto]. destruct (survb 1 (upper b) (pe_path a)).
  - intros [= <-]. auto.
  - intros F. apply IH; auto. intros e' He'. apply P. right; auto.
Qed.

Lemma set_back a u : In u AS -> In a names -> coord u a = 1 -> set_arc a 1 (set_arc a 0 u) = u.
Proof.
  intros Hu Ha E. assert (K : keys (set_arc a 1 (set_arc a 0 u)) = keys u) by (rewrite !set_arc_keys; auto).
  apply vec_ext; [rewrite K, (as_keys names u Hu); auto|auto|]. intros k Hk. rewrite K in Hk.
  rewrite set_arc_coord by (rewrite set_arc_keys; auto). destruct (String.eqb_spec k a) as [->|D]; auto.
  rewrite set_arc_coord by auto. destruct (String.eqb_spec k a); auto. contradiction.
Qed.

Lemma org_arcs_ok b f : In (lower b) AS -> In (upper b) AS -> forall path, incl path names -> forall low sb l low',
  split_loop (upper b) f pti 1 (filter (fun k => coord (lower b) k <? coord (upper b) k) path) low = Ok (l, low') ->
  org_arcs b pti 1 path (Some (upper b, low, f, sb)) = Ok (Some (upper b, low', f, sb ++ l)).
Proof.
  intros Hl Hu. induction path as [|a path IH]; intros I low sb l low'; cbn [filter org_arcs split_loop].
  - intros [= <- <-]. rewrite app_nil_r. auto.
  - assert (Ha : In a names) by (apply I; left; auto). unfold dget. rewrite !(as_find names) by auto. cbn [bind].
    assert (I' : incl path names) by (intros k Hk; apply I; right; auto).
    destruct (coord (lower b) a <? coord (upper b) a) eqn:L; [|apply IH; auto]. cbn [split_loop].
    destruct (eval_sys_state pti (set_arc a 0 (upper b)) 1) as [s|]; cbn [bind]; [|discriminate].
    destruct (split_loop _ _ _ _ _ (set_arc a 1 low)) as [[l1 low1]|] eqn:S; cbn [bind fst snd]; [|discriminate].
    intros [= <- <-]. rewrite set_back; auto.
    + rewrite (IH I' _ (sb ++ [(low, set_arc a 0 (upper b), f, s)]) _ _ S). rewrite <- app_assoc. auto.
    + destruct (as_coord names Nn _ a Hl Ha), (as_coord names Nn _ a Hu Ha); lia.
Qed.

(** the branches made from [b] *)
Definition pieces (b : bb) : list bb := match get_set_of_branches b (arcs_of pti b) pti 1 with Ok l => l | Err _ => [] end.

Definition above (b : bb) : Prop := forall e, hd_error pti = Some e -> pe_state e <= fl b.

Lemma pieces_ok b : bbok names pti b -> get_set_of_branches b (arcs_of pti b) pti 1 = Ok (pieces b) /\
  (forall x, In x AS -> covered (pieces b) x = covb (in_bb b x)) /\
  (forall b', In b' (pieces b) -> bbok names pti b' /\ (complete b' = true \/ (List.length (undec names b') < List.length (undec names b))%nat)) /\
  (forall b', In b' (pieces b) -> fl b' = fl b \/ fl b' = fu b) /\
  (exists b', In b' (pieces b) /\ complete b' = true).
Proof.
  intros B. destruct (step_ok names Nn pti Hp Hin PO b B) as (l & E & C & H). unfold pieces. rewrite E. split; auto. split; auto. split; auto.
  unfold get_set_of_branches in E. pose proof B as (Hl & Hu & _). destruct (arcs_of_facts names Nn pti PO b Hl Hu) as (N & I & V).
  destruct (split_ok names Nn pti Hp Hin (upper b) (fl b) Hu (arcs_of pti b) (lower b)) as (l' & low' & E' & _ & _ & _ & HB); auto.
  rewrite E' in E. cbn [bind fst snd] in E. injection E as <-. split.
  - intros b' Hb'. apply in_app_or in Hb' as [Hb'|[<-|[]]]; [|right; auto]. destruct (HB b' Hb') as (a & _ & _ & _ & F & _). auto.
  - eexists. split; [apply in_or_app; right; left; reflexivity|]. apply Z.eqb_refl.
Qed.

Lemma some_path b : bbok names pti b -> above b -> complete b = false -> exists e, find (fun e => survb 1 (upper b) (pe_path e)) (tl pti) = Some e.
Proof.
  intros (Hl & Hu & Hle & Hf & Hfu) A C. unfold above in A. destruct (find _ (tl pti)) as [e|] eqn:F; [eauto|]. exfalso.
  assert (M : ev 1 pti (lower b) <= ev 1 pti (upper b)) by (apply (ev_mono names); auto).
  pose proof PO as (e0 & l & E & E0 & P & _). rewrite E in F, A. cbn [tl hd_error] in F, A.
  assert (V : ev 1 pti (upper b) = pe_state e0) by (rewrite E, ev_cons, F; auto).
  apply Z.eqb_neq in C. specialize (A e0 eq_refl). lia.
Qed.

Lemma org_star_ok bstars st b : bbok names pti b -> above b -> complete b = false ->
  exists p up low f, org_star pti 1 bstars st b = Ok (mk_locals p (Some (up, low, f, filter (fun x => negb (bb_eqb x b)) bstars ++ pieces b))).
Proof.
  intros B A C. destruct (some_path b B A C) as [e F]. pose proof B as (Hl & Hu & _). unfold org_star. change (skipn 1 pti) with (tl pti).
  rewrite (org_find_ok b bstars st Hu e F). cbn [l_path l_cur].
  destruct (pieces_ok b B) as (E & _). unfold get_set_of_branches in E.
  destruct (arcs_of_facts names Nn pti PO b Hl Hu) as (N & I & V).
  destruct (split_loop (upper b) (fl b) pti 1 (arcs_of pti b) (lower b)) as [[l low']|] eqn:S; cbn [bind fst snd] in E; [|discriminate].
  injection E as E. rewrite (upper_same names Nn) in E; [|auto|intros a Ha; apply V; auto].
  unfold arcs_of in S. rewrite F in S.
  assert (Ie : incl (pe_path e) names).
  { apply Hin. pose proof (find_some _ _ F) as [X _]. destruct PO as (e0 & lp & -> & _). right. exact X. }
  rewrite (org_arcs_ok b (fl b) Hl Hu (pe_path e) Ie (lower b) _ _ _ S). cbn [bind].
  eexists _, _, _, _. rewrite <- E, app_assoc. reflexivity.
Qed.

Lemma org_round bstars : bstars <> [] -> (forall b, In b bstars -> bbok names pti b /\ above b /\ complete b = false) -> forall st,
  exists pre b p up low f, bstars = pre ++ [b] /\
    foldM (org_star pti 1 bstars) bstars st = Ok (mk_locals p (Some (up, low, f, filter (fun x => negb (bb_eqb x b)) bstars ++ pieces b))).
Proof.
  intros Ne H st.
  assert (G : forall all l, l <> [] -> (forall b, In b l -> bbok names pti b /\ above b /\ complete b = false) -> forall st,
    exists pre b p up low f, l = pre ++ [b] /\
      foldM (org_star pti 1 all) l st = Ok (mk_locals p (Some (up, low, f, filter (fun x => negb (bb_eqb x b)) all ++ pieces b)))).
  { clear bstars Ne H st. intros all. induction l as [|b l IH]; intros Ne H st; [congruence|]. cbn [foldM].
    destruct (H b (or_introl eq_refl)) as (B & A & C). destruct (org_star_ok all st b B A C) as (p & up & low & f & E). rewrite E. cbn [bind].
    destruct l as [|b' l].
    - exists [], b, p, up, low, f. split; auto.
    - destruct (IH ltac:(discriminate) (fun b0 Hb0 => H b0 (or_intror Hb0)) (mk_locals p (Some (up, low, f, filter (fun x => negb (bb_eqb x b)) all ++ pieces b))))
        as (pre & b1 & p1 & u1 & l1 & f1 & E1 & E2).
      exists (b :: pre), b1, p1, u1, l1, f1. split; [rewrite E1; auto|exact E2]. }
  destruct (G bstars bstars Ne H st) as (pre & b & p & up & low & f & E1 & E2). exists pre, b, p, up, low, f. auto.
Qed.

(** ** the branches that both loops end with *)
Fixpoint leaves (n : nat) (b : bb) : list bb :=
  if complete b then [b] else match n with O => [] | S n' => flat_map (leaves n') (pieces b) end.

Lemma leaves_more n : forall m b, bbok names pti b -> (List.length (undec names b) < n)%nat -> (n <= m)%nat -> leaves m b = leaves n b.
Proof.
  induction n as [|n IH]; intros m b B L M; [lia|]. destruct m as [|m]; [lia|]. cbn [leaves]. destruct (complete b); auto.
  destruct (pieces_ok b B) as (_ & _ & P & _). induction (pieces b) as [|b' l IHl]; auto. cbn [flat_map]. f_equal.
  - destruct (P b' (or_introl eq_refl)) as [B' [C|U]].
    + destruct m, n; cbn [leaves]; rewrite C; auto.
    + apply IH; auto; lia.
  - apply IHl. intros x Hx. apply P. right; auto.
Qed.
Definition lv (b : bb) : list bb := leaves (S (S (List.length names))) b.
Lemma undec_le b : (List.length (undec names b) <= List.length names)%nat.
Proof. unfold undec. clear. induction names as [|k l IH]; cbn; auto. destruct (_ <? _); cbn; lia. Qed.
Lemma lv_complete b : complete b = true -> lv b = [b].
Proof. intros C. unfold lv. cbn [leaves]. rewrite C. auto. Qed.
Lemma lv_step b : bbok names pti b -> complete b = false -> lv b = flat_map lv (pieces b).
Proof.
  intros B C. unfold lv at 1. cbn [leaves]. rewrite C. destruct (pieces_ok b B) as (_ & _ & P & _).
  induction (pieces b) as [|b' l IH]; auto. cbn [flat_map]. f_equal; [|apply IH; intros x Hx; apply P; right; auto].
  destruct (P b' (or_introl eq_refl)) as [B' _]. pose proof (undec_le b'). symmetry. apply (leaves_more (S (List.length names))); auto; lia.
Qed.
Lemma flat_split f l : (forall b, In b l -> f b = true -> lv b = [b]) ->
  Permutation (flat_map lv l) (filter f l ++ flat_map lv (filter (fun b => negb (f b)) l)).
Proof.
  induction l as [|b l IH]; intros H; [constructor|]. cbn [filter flat_map]. specialize (IH (fun x Hx => H x (or_intror Hx))).
  destruct (f b) eqn:E; cbn [negb app flat_map].
  - rewrite (H b (or_introl eq_refl) E). cbn [app]. constructor. auto.
  - rewrite IH. rewrite !app_assoc. apply Permutation_app_tail, Permutation_app_comm.
Qed.

Lemma core_perm bstars rs : (forall b, In b bstars -> bbok names pti b /\ complete b = false) -> bnb_core bstars pti 1 = Ok rs ->
  flat_map lv bstars = flat_map lv (List.concat rs).
Proof.
  unfold bnb_core. revert rs. induction bstars as [|b l IH]; intros rs H E; [injection E as <-; auto|].
  cbn [mapM] in E. destruct (H b (or_introl eq_refl)) as [B C]. rewrite (arcs_ok names Nn pti PO b (proj1 B) (proj1 (proj2 B))) in E.
  cbn [bind] in E. rewrite (proj1 (pieces_ok b B)) in E. cbn [bind] in E.
  destruct (mapM _ l) as [rs'|] eqn:E'; cbn [bind] in E; [|discriminate]. injection E as <-.
  cbn [flat_map List.concat]. rewrite flat_map_app, (lv_step b B C). f_equal. apply IH; auto. intros x Hx. apply H. right; auto.
Qed.

Lemma run_perm fuel : forall bstars cs,
  (forall b, In b bstars -> bbok names pti b /\ complete b = false) ->
  (forall x, In x AS -> (covered bstars x <= 1)%nat) ->
  bnb_run fuel bstars pti 1 = Ok cs -> Permutation (flat_map (filter complete) cs) (flat_map lv bstars).
Proof.
  induction fuel as [|fuel IH]; intros [|b0 bs] cs HB H1 E; cbn [bnb_run] in E; try discriminate; try (injection E as <-; constructor).
  destruct (core_ok names Nn pti Hp Hin PO (b0 :: bs)) as (rs & Er & Cov & F); [intros; apply HB; auto|].
  rewrite Er in E. cbn [bind] in E.
  rewrite (not_old names Nn pti Hp Hin PO (b0 :: bs) rs) in E; [|intros; apply HB; auto|intros; apply HB; auto|auto|auto].
  destruct (bnb_run fuel _ pti 1) as [cs'|] eqn:E'; cbn [bind] in E; [|discriminate]. injection E as <-. cbn [flat_map].
  change (lv b0 ++ flat_map lv bs) with (flat_map lv (b0 :: bs)). rewrite (core_perm (b0 :: bs) rs HB Er). rewrite (flat_split complete) by (intros; apply lv_complete; auto).
  apply Permutation_app_head. apply IH; auto.
  - intros b Hb. apply filter_In in Hb as [Hb C]. split; [apply F; auto|apply negb_true_iff; auto].
  - intros x Hx. specialize (Cov x Hx). specialize (H1 x Hx). pose proof (covered_split complete (List.concat rs) x). lia.
Qed.

(** ** all rounds *)
Definition total (l : list bb) : nat := list_sum (map (covered l) AS).

Lemma list_sum_le {A} (f g : A -> nat) l : (forall x, In x l -> (f x <= g x)%nat) -> (list_sum (map f l) <= list_sum (map g l))%nat.
Proof.
  unfold list_sum. induction l as [|a l IH]; intros H; cbn; auto. specialize (IH (fun x Hx => H x (or_intror Hx))).
  specialize (H a (or_introl eq_refl)). lia.
Qed.
Lemma list_sum_lt {A} (f g : A -> nat) l y : (forall x, In x l -> (f x <= g x)%nat) -> In y l -> (f y < g y)%nat ->
  (list_sum (map f l) < list_sum (map g l))%nat.
Proof.
  induction l as [|a l IH]; intros H Hy L; [destruct Hy|]. cbn. destruct Hy as [->|Hy].
  - pose proof (list_sum_le f g l (fun x Hx => H x (or_intror Hx))). unfold list_sum in *. lia.
  - specialize (IH (fun x Hx => H x (or_intror Hx)) Hy L). specialize (H a (or_introl eq_refl)). unfold list_sum in *. lia.
Qed.

Lemma bb_eqb_refl b : bbok names pti b -> bb_eqb b b = true.
Proof.
  intros (Hl & Hu & _). assert (R : forall x, In x AS -> dict_eqb x x = true).
  { intros x Hx. unfold dict_eqb. rewrite Nat.eqb_refl. cbn. apply forallb_forall. intros [k v] Hk. cbn.
    rewrite (In_dfind x k v); [apply Z.eqb_refl|rewrite (as_keys names x Hx); auto|auto]. }
  unfold bb_eqb. rewrite !R by auto. rewrite !Z.eqb_refl. auto.
Qed.

Lemma remove_last pre b : (forall c, In c (pre ++ [b]) -> bbok names pti c) -> (forall x, In x AS -> (covered (pre ++ [b]) x <= 1)%nat) ->
  filter (fun x => negb (bb_eqb x b)) (pre ++ [b]) = pre.
Proof.
  intros HB H1. assert (Bb : bbok names pti b) by (apply HB, in_or_app; right; left; auto).
  rewrite filter_app. cbn [filter]. rewrite bb_eqb_refl by auto. cbn [negb]. rewrite app_nil_r.
  assert (N : forall c, In c pre -> c <> b).
  { intros c Hc ->. assert (Lb : In (lower b) AS) by apply Bb. specialize (H1 _ Lb). rewrite covered_app, covered_cons in H1.
    rewrite (in_bb_lower names Nn pti b Bb) in H1. pose proof (covered_in pre b (lower b) Hc (in_bb_lower names Nn pti b Bb)). cbn in H1. lia. }
  assert (HB' : forall c, In c pre -> bbok names pti c) by (intros c Hc; apply HB, in_or_app; auto).
  clear HB H1. induction pre as [|c l IH]; auto. cbn [filter].
  assert (E : bb_eqb c b = false).
  { apply Bool.not_true_iff_false. intros E. apply (bb_eqb_ok names Nn pti) in E; auto; [|apply HB'; left; auto]. apply (N c (or_introl eq_refl) E). }
  rewrite E. cbn [negb]. f_equal. apply IH; intros; [apply N|apply HB']; right; auto.
Qed.

Lemma org_ok fuel : forall bstars st saved,
  (forall b, In b bstars -> bbok names pti b /\ above b /\ complete b = false) ->
  (forall x, In x AS -> (covered bstars x <= 1)%nat) -> (total bstars < fuel)%nat ->
  exists r, org_loop fuel pti 1 bstars st saved = Ok (saved ++ r) /\ Permutation r (flat_map lv bstars).
Proof.
  induction fuel as [|fuel IH]; intros [|b0 bs] st saved HB H1 HF; cbn [org_loop].
  - exists []. rewrite app_nil_r. auto.
  - lia.
  - exists []. rewrite app_nil_r. auto.
  - destruct (org_round (b0 :: bs) ltac:(discriminate) HB st) as (pre & b & p & up & low & f & E & R). rewrite R. cbn [bind l_cur].
    clear R. rewrite E in *. clear b0 bs E.
    rewrite remove_last by (auto; intros; apply HB; auto).
    destruct (HB b) as (B & A & C); [apply in_or_app; right; left; auto|].
    destruct (pieces_ok b B) as (_ & Cov & P & Q & (bc & Hbc & Cbc)).
    assert (Fp : filter complete pre = [] /\ filter (fun x => negb (complete x)) pre = pre).
    { assert (Z : forall c, In c pre -> complete c = false) by (intros c Hc; apply HB, in_or_app; auto). clear - Z.
      induction pre as [|c l IHl]; auto. cbn [filter]. rewrite (Z c (or_introl eq_refl)). cbn [negb].
      destruct IHl as [I1 I2]; [intros; apply Z; right; auto|]. rewrite I1, I2. auto. }
    destruct Fp as [F1 F2]. rewrite !filter_app, F1, F2. cbn [app].
    assert (Cv : forall x, In x AS -> (covered (pre ++ filter (fun x => negb (complete x)) (pieces b)) x + covered (filter complete (pieces b)) x = covered (pre ++ [b]) x)%nat).
    { intros x Hx. rewrite !covered_app, covered_cons. pose proof (covered_split complete (pieces b) x) as S. rewrite (Cov x Hx) in S.
      unfold covered at 5. cbn [filter List.length]. lia. }
    destruct (IH (pre ++ filter (fun x => negb (complete x)) (pieces b)) (mk_locals p (Some (up, low, f, pre ++ pieces b))) (saved ++ filter complete (pieces b)))
      as (r & Er & Pr).
    + intros c Hc. apply in_app_or in Hc as [Hc|Hc]; [apply HB, in_or_app; auto|]. apply filter_In in Hc as [Hc Nc].
      split; [apply P; auto|]. split; [|apply negb_true_iff; auto].
      intros e He. specialize (A e He). destruct (Q c Hc) as [-> | ->]; auto.
      destruct B as (Bl & Bu & Ble & Bf & Bfu). pose proof (ev_mono names Nn pti PO _ _ Bl Bu Ble). lia.
    + intros x Hx. specialize (Cv x Hx). specialize (H1 x Hx). lia.
    + enough (total (pre ++ filter (fun x => negb (complete x)) (pieces b)) < total (pre ++ [b]))%nat by lia.
      destruct (P bc Hbc) as [Bbc _]. unfold total. apply (list_sum_lt _ _ _ (lower bc)).
      * intros x Hx. specialize (Cv x Hx). lia.
      * apply Bbc.
      * specialize (Cv (lower bc) (proj1 Bbc)).
        assert (X : (1 <= covered (filter complete (pieces b)) (lower bc))%nat).
        { apply (covered_in _ bc); [apply filter_In; auto|]. apply (in_bb_lower names Nn pti); auto. }
        lia.
    + exists (filter complete (pieces b) ++ r). split; [rewrite Er, app_assoc; auto|].
      rewrite Pr, !flat_map_app. cbn [flat_map]. rewrite app_nil_r, (lv_step b B C).
      rewrite (flat_split complete (pieces b)) by (intros; apply lv_complete; auto).
      rewrite !app_assoc. apply Permutation_app_tail, Permutation_app_comm.
Qed.

Lemma total_le bstars : (forall x, In x AS -> (covered bstars x <= 1)%nat) -> (total bstars <= List.length AS)%nat.
Proof.
  intros H. unfold total. induction AS as [|x l IH]; cbn; auto. specialize (IH (fun y Hy => H y (or_intror Hy))). specialize (H x (or_introl eq_refl)).
  unfold list_sum in IH. lia.
Qed.
End Arcs.
