(** Facts about [update_rule_set] and [run_sys_fn]. *)
From Coq Require Import ZArith List String Bool Lia Arith QArith Qcanon Permutation.
From Verif Require Import Py Num Vari Brc PyFacts SpecBrc VariFacts BrcFacts.
Import ListNotations.
Open Scope string_scope.
Open Scope Z_scope.
Open Scope list_scope.

Lemma remove_first_incl {A} (f : A -> bool) l a : In a (remove_first f l) -> In a l.
Proof.
  induction l as [|b l IH]; cbn; auto. destruct (f b); cbn; [tauto|]. intros [->|H]; auto.
Qed.
Lemma remove_first_keep {A} (f : A -> bool) l a : In a l -> f a = false -> In a (remove_first f l).
Proof.
  induction l as [|b l IH]; cbn; auto. intros [->|H] E.
  - rewrite E. left; auto.
  - destruct (f b); cbn; auto.
Qed.

(** sublists keep [antichain] *)
Lemma antichain_cons {A} (R : A -> A -> Prop) a l :
  antichain R (a :: l) <-> (forall b, In b l -> ~ R a b /\ ~ R b a) /\ antichain R l.
Proof.
  unfold antichain. split.
  - intros H. split.
    + intros b Hb. apply In_nth_error in Hb as [j Hj]. split.
      * apply (H O (S j)); auto.
      * apply (H (S j) O); auto.
    + intros i j x y Hi Hj Hn. apply (H (S i) (S j)); auto.
  - intros [H1 H2] [|i] [|j] x y Hi Hj Hn; cbn in Hi, Hj; try congruence.
    + injection Hi as <-. apply H1. eapply nth_error_In; eauto.
    + injection Hj as <-. apply H1. eapply nth_error_In; eauto.
    + apply (H2 i j); auto.
Qed.
Lemma antichain_remove {A} (R : A -> A -> Prop) f l : antichain R l -> antichain R (remove_first f l).
Proof.
  induction l as [|b l IH]; cbn; auto. rewrite antichain_cons. intros [H1 H2].
  destruct (f b); auto. apply antichain_cons. split; auto.
  intros c Hc. apply H1. eapply remove_first_incl; eauto.
Qed.
Lemma antichain_snoc {A} (R : A -> A -> Prop) l a :
  antichain R l -> (forall b, In b l -> ~ R a b /\ ~ R b a) -> antichain R (l ++ [a]).
Proof.
  induction l as [|b l IH]; cbn [app]; intros H1 H2.
  - apply antichain_cons. split; [intros ? []|auto].
  - apply antichain_cons in H1 as [H3 H4]. apply antichain_cons. split.
    + intros c Hc. apply in_app_or in Hc as [Hc|[Hc|[]]]; [auto|]. subst c.
      destruct (H2 b (or_introl eq_refl)). split; auto.
    + apply IH; auto. intros c Hc. apply H2. right; auto.
Qed.
Lemma antichain_remove_none {A} (R : A -> A -> Prop) f l :
  antichain R l -> (forall a b, In a l -> In b l -> f a = true -> f b = true -> R a b) ->
  forall a, In a (remove_first f l) -> f a = false.
Proof.
  induction l as [|b l IH]; cbn; intros H1 H2 a Ha; [tauto|].
  apply antichain_cons in H1 as [H3 H4]. destruct (f b) eqn:E.
  - destruct (f a) eqn:Ea; auto. exfalso. destruct (H3 a Ha) as [N _]. apply N. apply H2; auto.
  - destruct Ha as [<-|Ha]; [auto|]. apply (IH H4); auto.
Qed.

(** [dict_eqb] *)
Lemma dict_eqb_find d1 d2 k v : dict_eqb d1 d2 = true -> dfind d1 k = Some v -> dfind d2 k = Some v.
Proof.
  unfold dict_eqb. intros H E. apply andb_true_iff in H as [_ H]. rewrite forallb_forall in H.
  specialize (H _ (dfind_In _ _ _ E)). cbn in H. destruct (dfind d2 k); [|congruence].
  apply Z.eqb_eq in H. congruence.
Qed.
Lemma dict_eqb_keys d1 d2 : NoDup (keys d1) -> dict_eqb d1 d2 = true -> incl (keys d2) (keys d1).
Proof.
  intros Hd H. apply NoDup_length_incl; auto.
  - unfold dict_eqb in H. apply andb_true_iff in H as [H _]. apply Nat.eqb_eq in H.
    unfold keys. rewrite !map_length. lia.
  - intros k Hk. apply dfind_keys in Hk as [v Hv]. apply dfind_keys. exists v. eapply dict_eqb_find; eauto.
Qed.
Lemma dict_eqb_find_rev d1 d2 k v : NoDup (keys d1) -> dict_eqb d1 d2 = true ->
  dfind d2 k = Some v -> dfind d1 k = Some v.
Proof.
  intros Hd H E. assert (Hk : In k (keys d1)) by (apply (dict_eqb_keys d1 d2); auto; apply dfind_keys; eauto).
  apply dfind_keys in Hk as [w Hk]. rewrite (dict_eqb_find _ _ _ _ H Hk) in E. congruence.
Qed.

(** * The two loops of [update_rule_set], for either direction *)
Section Loop.
Context (cmp : dict Z -> dict Z -> res bool) (le : Z -> Z -> Prop) (n : dict Z).
(* [cv n r] is [covers_s] or [covers_f] *)
Definition cv (n r : dict Z) : Prop := forall k v, In (k, v) n -> exists w, dfind r k = Some w /\ le v w.
Context (Hdom : forall a b, exists t, dominated cmp a b = Ok t /\ (t = true <-> cv a b)).

Lemma cv_eqb a r r' : cv a r -> dict_eqb r r' = true -> cv a r'.
Proof.
  intros H E k v Hin. destruct (H k v Hin) as (w & Hw & L). exists w. split; auto. eapply dict_eqb_find; eauto.
Qed.
Lemma eqb_cv (le_refl : forall v, le v v) r a b :
  NoDup (keys r) -> NoDup (keys a) -> dict_eqb r a = true -> dict_eqb r b = true -> cv a b.
Proof.
  intros Hd Ha E1 E2 k v Hin. exists v. split; auto. apply (dict_eqb_find r b); auto.
  apply (dict_eqb_find_rev r a); auto. apply In_dfind; auto.
Qed.

(** coverage *)
Lemma update_loop_cov (sat : dict Z -> dict Z -> bool) :
  (forall a b x, cv a b -> sat b x = true -> sat a x = true) ->
  forall copy cur,
  (forall q, In q copy -> ~ cv n q -> In q cur) ->
  exists l add, update_loop cmp n copy cur = Ok (l, add) /\
    (forall q, In q l -> In q cur) /\
    (forall q, In q cur -> In q l \/ cv n q) /\
    (add = false -> exists r, In r l /\ cv r n).
Proof.
  intros Hsat. induction copy as [|r copy IH]; intros cur Hcur; cbn [update_loop].
  - exists cur, true. repeat split; auto. congruence.
  - destruct (Hdom n r) as (t & -> & Ht). cbn [bind]. destruct t.
    + assert (Hc : cv n r) by (apply Ht; auto).
      destruct (IH (remove_first (dict_eqb r) cur)) as (l & add & E & H1 & H2 & H3).
      { intros q Hq Hn. apply remove_first_keep; [apply Hcur; auto; right; auto|].
        destruct (dict_eqb r q) eqn:Eq; auto. exfalso. apply Hn. eapply cv_eqb; eauto. }
      exists l, add. split; auto. split; [|split; auto].
      * intros q Hq. eapply remove_first_incl; eauto.
      * intros q Hq. destruct (dict_eqb r q) eqn:Eq.
        -- right. eapply cv_eqb; eauto.
        -- apply H2. apply remove_first_keep; auto.
    + destruct (Hdom r n) as (t2 & -> & Ht2). cbn [bind]. destruct t2.
      * exists cur, false. split; auto. split; auto. split; auto. intros _. exists r. split.
        -- apply Hcur; [left; auto|]. intros Hc. apply Ht in Hc. congruence.
        -- apply Ht2. auto.
      * apply IH. intros q Hq Hn. apply Hcur; auto. right; auto.
Qed.

(** minimality *)
Lemma update_loop_min (le_refl : forall v, le v v) :
  forall copy cur l add,
  update_loop cmp n copy cur = Ok (l, add) ->
  antichain cv cur -> (forall q, In q cur -> NoDup (keys q)) ->
  (forall q, In q copy -> NoDup (keys q)) ->
  (forall q, In q cur -> In q copy \/ (~ cv n q /\ ~ cv q n)) ->
  antichain cv l /\ (add = true -> forall q, In q l -> ~ cv n q /\ ~ cv q n).
Proof.
  induction copy as [|r copy IH]; intros cur l add H Ha Hd Hd' Hq; cbn [update_loop] in H.
  - injection H as <- <-. split; auto. intros _ q Hin. destruct (Hq q Hin) as [[]|]; auto.
  - destruct (Hdom n r) as (t & E & Ht). rewrite E in H. cbn [bind] in H. destruct t.
    + apply IH in H; auto.
      * apply antichain_remove; auto.
      * intros q Hin. apply Hd. eapply remove_first_incl; eauto.
      * intros q Hin. apply Hd'. right; auto.
      * intros q Hin.
        assert (Ef : dict_eqb r q = false).
        { eapply (antichain_remove_none cv (dict_eqb r) cur); eauto.
          intros a b Hia Hib E1 E2. apply (eqb_cv le_refl r a b); auto. apply Hd'. left; auto. }
        destruct (Hq q (remove_first_incl _ _ _ Hin)) as [[->|]|]; auto.
        exfalso.
        assert (X : dict_eqb q q = true).
        { unfold dict_eqb. rewrite Nat.eqb_refl. cbn [andb]. apply forallb_forall. intros [k v] Hk. cbn.
          rewrite (In_dfind q k v); [apply Z.eqb_refl| |auto]. apply Hd'. left; auto. }
        congruence.
    + destruct (Hdom r n) as (t2 & E2 & Ht2). rewrite E2 in H. cbn [bind] in H. destruct t2.
      * injection H as <- <-. split; auto. congruence.
      * apply IH in H; auto.
        -- intros q Hin. apply Hd'. right; auto.
        -- intros q Hin. destruct (Hq q Hin) as [[->|]|]; auto. right. split.
           ++ intros Hc. apply Ht in Hc. congruence.
           ++ intros Hc. apply Ht2 in Hc. congruence.
Qed.
End Loop.

(** pure forms of the two comparisons *)
Lemma keys_subset_spec a b : keys_subset a b = true <-> incl (keys a) (keys b).
Proof.
  unfold keys_subset, incl. rewrite forallb_forall. split; intros H k Hk; specialize (H k Hk).
  - unfold dmem in H. destruct (dfind b k) eqn:E; [|congruence]. apply dfind_keys. eauto.
  - apply dfind_keys in H as [v H]. unfold dmem. rewrite H. auto.
Qed.

Lemma dominated_s a b : exists t, dominated all_ge a b = Ok t /\ (t = true <-> cv Z.le a b).
Proof.
  unfold dominated. destruct (keys_subset a b) eqn:E.
  - apply keys_subset_spec in E. rewrite (all_ge_ok b a E). exists (sat_s a b). split; auto.
    rewrite sat_s_spec. unfold cv. split.
    + intros H k v Hin. assert (Hk := E k (In_keys _ _ _ Hin)). apply dfind_keys in Hk as [w Hk].
      exists w. split; auto. specialize (H k v Hin). unfold coord in H. rewrite Hk in H. auto.
    + intros H k v Hin. destruct (H k v Hin) as (w & Hk & L). unfold coord. rewrite Hk. auto.
  - exists false. split; auto. split; [congruence|]. intros H. exfalso.
    assert (X : keys_subset a b = true); [|congruence]. apply keys_subset_spec. intros k Hk.
    apply in_map_iff in Hk as ([k' v] & <- & Hin). destruct (H _ _ Hin) as (w & Hw & _). apply dfind_keys. eauto.
Qed.
Lemma dominated_f a b : exists t, dominated all_le a b = Ok t /\ (t = true <-> cv Z.ge a b).
Proof.
  unfold dominated. destruct (keys_subset a b) eqn:E.
  - apply keys_subset_spec in E. rewrite (all_le_ok b a E). exists (sat_f a b). split; auto.
    rewrite sat_f_spec. unfold cv. split.
    + intros H k v Hin. assert (Hk := E k (In_keys _ _ _ Hin)). apply dfind_keys in Hk as [w Hk].
      exists w. split; auto. specialize (H k v Hin). unfold coord in H. rewrite Hk in H. lia.
    + intros H k v Hin. destruct (H k v Hin) as (w & Hk & L). unfold coord. rewrite Hk. lia.
  - exists false. split; auto. split; [congruence|]. intros H. exfalso.
    assert (X : keys_subset a b = true); [|congruence]. apply keys_subset_spec. intros k Hk.
    apply in_map_iff in Hk as ([k' v] & <- & Hin). destruct (H _ _ Hin) as (w & Hw & _). apply dfind_keys. eauto.
Qed.

Lemma cv_sat_s a b x : cv Z.le a b -> sat_s b x = true -> sat_s a x = true.
Proof.
  rewrite !sat_s_spec. intros H Hb k v Hin. destruct (H k v Hin) as (w & Hw & L).
  specialize (Hb k w (dfind_In _ _ _ Hw)). lia.
Qed.
Lemma cv_sat_f a b x : cv Z.ge a b -> sat_f b x = true -> sat_f a x = true.
Proof.
  rewrite !sat_f_spec. intros H Hb k v Hin. destruct (H k v Hin) as (w & Hw & L).
  specialize (Hb k w (dfind_In _ _ _ Hw)). lia.
Qed.

(** * [update_rule_set] *)
Lemma update_spec rs n s : s <> U_ ->
  exists rs', update_rule_set rs n s = Ok rs' /\
    (forall x, match_s rs' x = match_s rs x || (st_eqb s S_ && sat_s n x)) /\
    (forall x, match_f rs' x = match_f rs x || (st_eqb s F_ && sat_f n x)) /\
    (forall r, In r (r_s rs') -> In r (r_s rs) \/ (s = S_ /\ r = n)) /\
    (forall r, In r (r_f rs') -> In r (r_f rs) \/ (s = F_ /\ r = n)).
Proof.
  intros Hs. destruct s; [| |congruence]; unfold update_rule_set.
  - destruct (update_loop_cov all_ge Z.le n dominated_s sat_s cv_sat_s (r_s rs) (r_s rs)) as (l & add & -> & H1 & H2 & H3); auto.
    cbn [bind]. eexists. split; [reflexivity|]. cbn [r_s r_f st_eqb andb].
    split; [|split; [|split]].
    + intros x. apply eq_true_iff_eq. unfold match_s. cbn [r_s]. rewrite orb_true_iff, !existsb_exists. split.
      * intros (r & Hin & Hr). destruct add.
        -- apply in_app_or in Hin as [Hin|[<-|[]]]; eauto.
        -- eauto.
      * intros [(r & Hin & Hr)|Hn].
        -- destruct (H2 r Hin) as [Hl|Hc].
           ++ exists r. split; auto. destruct add; auto. apply in_or_app; auto.
           ++ destruct add.
              ** exists n. split; [apply in_or_app; right; left; auto|]. eapply cv_sat_s; eauto.
              ** destruct (H3 eq_refl) as (r' & Hr' & Hc'). exists r'. split; auto.
                 eapply cv_sat_s; eauto. eapply cv_sat_s; eauto.
        -- destruct add.
           ++ exists n. split; auto. apply in_or_app; right; left; auto.
           ++ destruct (H3 eq_refl) as (r' & Hr' & Hc'). exists r'. split; auto. eapply cv_sat_s; eauto.
    + intros x. unfold match_f. cbn [r_f]. rewrite orb_false_r. auto.
    + intros r Hin. destruct add; auto. apply in_app_or in Hin as [Hin|[<-|[]]]; auto.
    + auto.
  - destruct (update_loop_cov all_le Z.ge n dominated_f sat_f cv_sat_f (r_f rs) (r_f rs)) as (l & add & -> & H1 & H2 & H3); auto.
    cbn [bind]. eexists. split; [reflexivity|]. cbn [r_s r_f st_eqb andb].
    split; [|split; [|split]].
    + intros x. unfold match_s. cbn [r_s]. rewrite orb_false_r. auto.
    + intros x. apply eq_true_iff_eq. unfold match_f. cbn [r_f]. rewrite orb_true_iff, !existsb_exists. split.
      * intros (r & Hin & Hr). destruct add.
        -- apply in_app_or in Hin as [Hin|[<-|[]]]; eauto.
        -- eauto.
      * intros [(r & Hin & Hr)|Hn].
        -- destruct (H2 r Hin) as [Hl|Hc].
           ++ exists r. split; auto. destruct add; auto. apply in_or_app; auto.
           ++ destruct add.
              ** exists n. split; [apply in_or_app; right; left; auto|]. eapply cv_sat_f; eauto.
              ** destruct (H3 eq_refl) as (r' & Hr' & Hc'). exists r'. split; auto.
                 eapply cv_sat_f; eauto. eapply cv_sat_f; eauto.
        -- destruct add.
           ++ exists n. split; auto. apply in_or_app; right; left; auto.
           ++ destruct (H3 eq_refl) as (r' & Hr' & Hc'). exists r'. split; auto. eapply cv_sat_f; eauto.
    + auto.
    + intros r Hin. destruct add; auto. apply in_app_or in Hin as [Hin|[<-|[]]]; auto.
Qed.

Lemma antichain_ext {A} (R R' : A -> A -> Prop) l : (forall a b, R a b <-> R' a b) -> antichain R l -> antichain R' l.
Proof. intros E H i j a b Hi Hj Hn Hr. apply (H i j a b Hi Hj Hn). apply E; auto. Qed.
Lemma cv_covers_s a b : cv Z.le a b <-> covers_s a b.
Proof. unfold cv, covers_s. tauto. Qed.
Lemma cv_covers_f a b : cv Z.ge a b <-> covers_f a b.
Proof.
  unfold cv, covers_f. split; intros H k v Hin; destruct (H k v Hin) as (w & Hw & L); exists w; split; auto; lia.
Qed.

Lemma update_minimal rs n s rs' :
  update_rule_set rs n s = Ok rs' ->
  (forall r, In r (r_s rs ++ r_f rs) -> NoDup (keys r)) ->
  antichain covers_s (r_s rs) -> antichain covers_f (r_f rs) ->
  antichain covers_s (r_s rs') /\ antichain covers_f (r_f rs').
Proof.
  intros H Hd Hs Hf. unfold update_rule_set in H. destruct s; [| |congruence].
  - destruct (update_loop all_ge n (r_s rs) (r_s rs)) as [[l add]|] eqn:E; cbn [bind] in H; [|congruence].
    injection H as <-. cbn [r_s r_f]. split; auto.
    destruct (update_loop_min all_ge Z.le n dominated_s Z.le_refl _ _ _ _ E) as [A B].
    + eapply antichain_ext; [|apply Hs]. intros; symmetry; apply cv_covers_s.
    + intros q Hq. apply Hd. apply in_or_app; auto.
    + intros q Hq. apply Hd. apply in_or_app; auto.
    + auto.
    + apply (antichain_ext (cv Z.le)); [apply cv_covers_s|].
      destruct add; auto. apply antichain_snoc; auto.
  - destruct (update_loop all_le n (r_f rs) (r_f rs)) as [[l add]|] eqn:E; cbn [bind] in H; [|congruence].
    injection H as <-. cbn [r_s r_f]. split; auto.
    destruct (update_loop_min all_le Z.ge n dominated_f ltac:(intros; lia) _ _ _ _ E) as [A B].
    + eapply antichain_ext; [|apply Hf]. intros; symmetry; apply cv_covers_f.
    + intros q Hq. apply Hd. apply in_or_app; auto.
    + intros q Hq. apply Hd. apply in_or_app; auto.
    + auto.
    + apply (antichain_ext (cv Z.ge)); [apply cv_covers_f|].
      destruct add; auto. apply antichain_snoc; auto.
Qed.

(** * [run_sys_fn] *)
Definition rule_good (varis : dict variable) (phi : dict Z -> bool) (x : dict Z) (rule : dict Z) (s : st) : Prop :=
  s = (if phi x then S_ else F_) /\ wf_rule varis rule /\
  (phi x = true -> sat_s rule x = true /\ forall y, In y (sp varis) -> sat_s rule y = true -> phi y = true) /\
  (phi x = false -> sat_f rule x = true /\ forall y, In y (sp varis) -> sat_f rule y = true -> phi y = false).

Lemma keys_filter_incl (g : string * Z -> bool) r : incl (keys (filter g r)) (keys r).
Proof.
  intros k Hk. apply in_map_iff in Hk as (p & <- & Hp). apply filter_In in Hp as [Hp _]. apply in_map. auto.
Qed.
Lemma NoDup_filter_keys (g : string * Z -> bool) (r : dict Z) : NoDup (keys r) -> NoDup (keys (filter g r)).
Proof.
  induction r as [|[k v] r IH]; cbn; intros H; auto. inversion_clear H as [|? ? Hn Hd].
  destruct (g (k, v)); cbn; auto. constructor; auto. intros Hin. apply Hn.
  apply (keys_filter_incl g r). auto.
Qed.

Lemma run_sys_fn_ok varis phi sys_fun x :
  wf_varis varis -> sys_ok varis phi sys_fun -> In x (sp varis) ->
  exists val m rule s, sys_fun x = (val, s, m) /\
    run_sys_fn x sys_fun varis = Ok (rule, s, (val, x, m)) /\ rule_good varis phi x rule s.
Proof.
  intros Hw [Hco Hs] Hx. destruct (Hs x Hx) as (val & m & E & Hm).
  assert (Hd := sp_nodup varis Hw x Hx). assert (Hk := sp_keys varis x Hx).
  exists val, m. unfold run_sys_fn. rewrite E.
  assert (G : forall r, m = Some r -> r <> [] -> exists rule s,
     (val, if phi x then S_ else F_, m) = (val, s, m) /\
     Ok (r, if phi x then S_ else F_, (val, x, m)) = Ok (rule, s, (val, x, m)) /\ rule_good varis phi x rule s).
  { intros r Er Hr. exists r, (if phi x then S_ else F_). split; auto. split; auto.
    destruct (Hm r Er Hr) as (H1 & H2 & H3). split; auto. }
  assert (G0 : exists rule s, (val, if phi x then S_ else F_, m) = (val, s, m) /\
     match (if phi x then S_ else F_) with
     | S_ => Ok (filter (fun kv => negb (snd kv =? 0)) x, if phi x then S_ else F_, (val, x, m))
     | _ => r <- filterM (fun kv => v <- dget varis (fst kv) ;; Ok (snd kv <? nvals v - 1)) x ;;
            Ok (r, if phi x then S_ else F_, (val, x, m))
     end = Ok (rule, s, (val, x, m)) /\ rule_good varis phi x rule s).
  { destruct (phi x) eqn:Ep.
    - exists (filter (fun kv => negb (snd kv =? 0)) x), S_. split; auto. split; auto.
      split; [rewrite Ep; auto|]. split; [split|split; [|congruence]].
      + apply NoDup_filter_keys; auto.
      + intros k Hin. rewrite <- Hk. eapply keys_filter_incl; eauto.
      + intros _. split.
        * apply sat_s_spec. intros k v Hin. apply filter_In in Hin as [Hin _]. rewrite (coord_In x k v); auto. lia.
        * intros y Hy Hsat. apply (Hco x y); auto. intros k Hkv.
          rewrite sat_s_spec in Hsat. destruct (varis_find varis k Hkv) as (v & Hv & _).
          pose proof (sp_coord varis Hw y k v Hy Hv). rewrite <- Hk in Hkv. apply coord_pair in Hkv.
          destruct (coord x k =? 0) eqn:E0; [apply Z.eqb_eq in E0; lia|].
          apply Hsat. apply filter_In. split; auto. cbn. rewrite E0. auto.
    - rewrite (filterM_ok _ (fun kv => match dfind varis (fst kv) with Some v => snd kv <? nvals v - 1 | None => false end)).
      2:{ intros [k z] Hin. cbn. assert (Hkv : In k (keys varis)) by (rewrite <- Hk; eapply In_keys; eauto).
          apply dfind_keys in Hkv as [v Hv]. unfold dget. rewrite Hv. auto. }
      cbn [bind]. eexists _, F_. split; auto. split; auto.
      split; [rewrite Ep; auto|]. split; [split|split; [congruence|]].
      + apply NoDup_filter_keys; auto.
      + intros k Hin. rewrite <- Hk. eapply keys_filter_incl; eauto.
      + intros _. split.
        * apply sat_f_spec. intros k v Hin. apply filter_In in Hin as [Hin _]. rewrite (coord_In x k v); auto. lia.
        * intros y Hy Hsat. destruct (phi y) eqn:Ey; auto. exfalso.
          assert (phi x = true); [|congruence]. apply (Hco y x); auto. intros k Hkv.
          rewrite sat_f_spec in Hsat. destruct (varis_find varis k Hkv) as (v & Hv & Hf).
          pose proof (sp_coord varis Hw y k v Hy Hv). rewrite <- Hk in Hkv. apply coord_pair in Hkv.
          destruct (coord x k <? nvals v - 1) eqn:E0; [|apply Z.ltb_ge in E0; lia].
          apply Hsat. apply filter_In. split; auto. cbn. rewrite Hf. auto. }
  destruct m as [[|p m']|].
  - destruct G0 as (rule & s & A & B & C). exists rule, s. auto.
  - destruct (G (p :: m') eq_refl ltac:(congruence)) as (rule & s & A & B & C). exists rule, s. auto.
  - destruct G0 as (rule & s & A & B & C). exists rule, s. auto.
Qed.
