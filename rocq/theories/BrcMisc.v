(** Facts about [eval_rules_prob] and [get_csys]. *)
From Coq Require Import ZArith List String Bool Lia Arith QArith Qcanon Permutation.
From Verif Require Import Py Num Vari Brc PyFacts SpecBrc VariFacts BrcFacts BrcProb.
Import ListNotations.
Open Scope string_scope.
Open Scope Z_scope.
Open Scope list_scope.

(** * Probability of a product set *)
Lemma rect_prob (P : string -> Z -> Qc) (t : string -> Z -> bool) cs : NoDup (keys cs) ->
  qsum (map (fun x => qprod (map (fun kv => P (fst kv) (snd kv)) x))
            (filter (fun x => forallb (fun kv => t (fst kv) (snd kv)) x) (space cs)))
  = qprod (map (fun kn => qsum (map (P (fst kn)) (filter (t (fst kn)) (zrange 0 (snd kn))))) cs).
Proof.
  induction cs as [|[k n] cs IH]; intros Hd; [cbn; ring|].
  inversion_clear Hd as [|? ? Hn Hd']. cbn [space map fst snd qprod].
  rewrite filter_flat_map, qsum_flat_map.
  rewrite (qsum_map_ext _ (fun v => ((if t k v then P k v else 0) *
     qprod (map (fun kn => qsum (map (P (fst kn)) (filter (t (fst kn)) (zrange 0 (snd kn))))) cs))%Qc)).
  - rewrite qsum_map_scale_r, qsum_filter. auto.
  - intros v _. rewrite filter_map, map_map. cbn [map forallb fst snd qprod]. destruct (t k v); cbn [andb].
    + rewrite <- IH by auto. rewrite <- qsum_map_scale. auto.
    +
      assert (E : forall A (l : list A), filter (fun _ => false) l = []) by (induction l; auto).
      rewrite E. cbn. ring.
Qed.

Lemma qprod_ones {A} (f : A -> Qc) l : (forall a, In a l -> f a = 1%Qc) -> qprod (map f l) = 1%Qc.
Proof. induction l; cbn; intros H; auto. rewrite H, IHl by auto. ring. Qed.

Lemma qprod_subset (f : string -> Qc) l l' :
  NoDup l -> NoDup l' -> incl l' l -> (forall k, In k l -> ~ In k l' -> f k = 1%Qc) ->
  qprod (map f l) = qprod (map f l').
Proof.
  intros H1 H2 Hi H.
  assert (P : Permutation l (l' ++ filter (fun k => negb (mem_str k l')) l)).
  { apply NoDup_Permutation; auto.
    - apply NoDup_app_intro; auto.
      + apply NoDup_filter; auto.
      + intros x Hx Hx'. apply filter_In in Hx' as [_ Hx']. unfold mem_str in Hx'.
        assert (X : existsb (String.eqb x) l' = true) by (apply existsb_exists; exists x; split; auto; apply String.eqb_refl).
        rewrite X in Hx'. cbn in Hx'. congruence.
    - intros x. rewrite in_app_iff, filter_In. split.
      + intros Hx. destruct (mem_str x l') eqn:E; [left|right; split; auto; rewrite E; auto].
        unfold mem_str in E. apply existsb_exists in E as (y & Hy & E). apply String.eqb_eq in E. subst; auto.
      + intros [Hx|[Hx _]]; auto. }
  rewrite (qprod_perm _ _ (Permutation_map f P)), map_app, qprod_app.
  rewrite (qprod_ones f (filter _ l)); [ring|].
  intros k Hk. apply filter_In in Hk as [Hk Hn]. apply H; auto. intros Hin.
  unfold mem_str in Hn. assert (X : existsb (String.eqb k) l' = true) by (apply existsb_exists; exists k; split; auto; apply String.eqb_refl).
  rewrite X in Hn. cbn in Hn. congruence.
Qed.

Section RuleProb.
Context (varis : dict variable) (probs : prob_dict) (Hw : wf_varis varis) (Hp : wf_probs varis probs).

Definition rule_test (cmp : Z -> Z -> bool) (r : dict Z) (k : string) (s : Z) : bool :=
  match dfind r k with Some v => cmp v s | None => true end.

Lemma rule_event (cmp : Z -> Z -> bool) r x : wf_rule varis r -> In x (sp varis) ->
  forallb (fun kv => cmp (snd kv) (coord x (fst kv))) r =
  forallb (fun kv => rule_test cmp r (fst kv) (snd kv)) x.
Proof.
  intros [Hd Hi] Hx. apply eq_true_iff_eq. rewrite !forallb_forall. split; intros H.
  - intros [k s] Hin. cbn. unfold rule_test. destruct (dfind r k) as [v|] eqn:E; auto.
    specialize (H (k, v) (dfind_In _ _ _ E)). cbn in H.
    rewrite (coord_In x k s) in H; auto. apply (sp_nodup varis Hw); auto.
  - intros [k v] Hin. cbn. assert (Hk : In k (keys x)).
    { rewrite (sp_keys varis x Hx). apply Hi. eapply In_keys; eauto. }
    specialize (H _ (coord_pair x k Hk)). cbn in H. unfold rule_test in H.
    rewrite (In_dfind r k v Hd Hin) in H. auto.
Qed.

Lemma rule_prob (cmp : Z -> Z -> bool) r : wf_rule varis r ->
  prob_event varis probs (fun x => forallb (fun kv => cmp (snd kv) (coord x (fst kv))) r) =
  qprod (map (fun kv => qsum (map (pr probs (fst kv))
     (filter (cmp (snd kv)) (zrange 0 (match dfind varis (fst kv) with Some v => nvals v | None => 0 end))))) r).
Proof.
  intros Hr. rewrite (prob_event_ext varis probs _ (fun x => forallb (fun kv => rule_test cmp r (fst kv) (snd kv)) x))
    by (intros x Hx; apply rule_event; auto).
  unfold prob_event, prob_of. rewrite (rect_prob (pr probs) (rule_test cmp r)) by (rewrite keys_comps_of; apply Hw).
  set (f := fun k => qsum (map (pr probs k) (filter (rule_test cmp r k)
               (zrange 0 (match dfind varis k with Some v => nvals v | None => 0 end))))).
  assert (E1 : map (fun kn : string * Z => qsum (map (pr probs (fst kn)) (filter (rule_test cmp r (fst kn)) (zrange 0 (snd kn))))) (comps_of varis)
               = map f (keys varis)).
  { unfold comps_of, keys. rewrite !map_map. apply map_ext_in. intros [k v] Hin. cbn. unfold f.
    rewrite (In_dfind varis k v); auto. apply Hw. }
  rewrite E1. destruct Hr as [Hd Hi]. rewrite (qprod_subset f (keys varis) (keys r)); auto; [|apply Hw|].
  - unfold keys. rewrite map_map. f_equal. apply map_ext_in. intros [k v] Hin. cbn. unfold f.
    f_equal. f_equal. apply filter_ext_in'. intros s _. unfold rule_test. rewrite (In_dfind r k v); auto.
  - intros k Hk Hn. unfold f. apply dfind_none in Hn.
    destruct (varis_find varis k Hk) as (v & Hv & ->).
    rewrite (filter_ext_in' _ (fun _ => true)).
    + assert (E : forall A (l : list A), filter (fun _ => true) l = l) by (induction l; cbn; congruence).
      rewrite E. apply (Hp k v Hv).
    + intros s _. unfold rule_test. rewrite Hn. auto.
Qed.

Lemma filter_ge v n : 0 <= v -> filter (fun s => v <=? s) (zrange 0 n) = zrange v n.
Proof.
  intros Hv. destruct (Z_lt_le_dec v n) as [L|L].
  - replace (zrange v n) with (zrange v ((n - 1) + 1)) by (f_equal; lia).
    rewrite <- (filter_zrange v (n - 1) n) by lia.
    apply filter_ext_in'. intros s Hs. apply In_zrange in Hs.
    destruct (Z.leb_spec v s), (Z.leb_spec s (n - 1)); cbn; auto; lia.
  - replace (zrange v n) with (@nil Z) by (unfold zrange; replace (Z.to_nat (n - v)) with O by lia; auto).
    assert (E : forall l, (forall s, In s l -> s < n) -> filter (fun s => v <=? s) l = []).
    { induction l as [|a l IH]; cbn; intros H; auto. destruct (Z.leb_spec v a); [specialize (H a (or_introl eq_refl)); lia|].
      apply IH. intros; apply H; auto. }
    apply E. intros s Hs. apply In_zrange in Hs. lia.
Qed.

(** keys of a distribution are exactly the states *)
Definition dict_probs : Prop :=
  forall k d, In (k, d) probs -> exists v l, In (k, v) varis /\ d = PDict l /\
    forall x, In x (map fst l) <-> 0 <= x < nvals v.

Lemma fold_max l : forall a, (a <= fold_left Z.max l a) /\ (forall x, In x l -> x <= fold_left Z.max l a) /\
  (fold_left Z.max l a = a \/ In (fold_left Z.max l a) l).
Proof.
  induction l as [|b l IH]; intros a; cbn; [split; [lia|split; [tauto|auto]]|].
  destruct (IH (Z.max a b)) as (H1 & H2 & H3). split; [lia|]. split.
  - intros x [<-|Hx]; [lia|auto].
  - destruct H3 as [H3|H3]; [|auto]. rewrite H3. destruct (Z.max_dec a b) as [E|E]; rewrite E; auto.
Qed.

Lemma max_state_ok k d v l : dict_probs -> In (k, v) varis -> d = PDict l -> (forall x, In x (map fst l) <-> 0 <= x < nvals v) ->
  max_state d = Ok (nvals v - 1).
Proof.
  intros _ Hv -> H. destruct Hw as [_ Hn]. specialize (Hn k v Hv). cbn.
  destruct l as [|[x q] l]; [exfalso; apply (proj2 (H 0)); lia|]. f_equal. cbn [map fst] in H.
  destruct (fold_max (map fst l) x) as (H1 & H2 & H3).
  assert (A : In (nvals v - 1) (x :: map fst l)) by (apply H; lia).
  assert (B : 0 <= fold_left Z.max (map fst l) x < nvals v).
  { apply H. destruct H3 as [->|H3]; [left; auto|right; auto]. }
  destruct A as [A|A]; [lia|]. specialize (H2 _ A). lia.
Qed.

Lemma mapM_dict {A B} (f : A -> res B) (g : string -> A -> B) (d : dict A) :
  (forall k a, In (k, a) d -> f a = Ok (g k a)) ->
  mapM (fun kv => m <- f (snd kv) ;; Ok (fst kv, m)) d = Ok (map (fun kv => (fst kv, g (fst kv) (snd kv))) d).
Proof.
  intros H. apply mapM_ok. intros [k a] Hin. cbn. rewrite (H k a Hin). auto.
Qed.

Lemma dfind_map {A B} (g : string -> A -> B) (d : dict A) k :
  dfind (map (fun kv => (fst kv, g (fst kv) (snd kv))) d) k = match dfind d k with Some a => Some (g k a) | None => None end.
Proof.
  induction d as [|[k' a] d IH]; cbn; auto. destruct (String.eqb_spec k k') as [E|]; [subst|]; auto.
Qed.

Lemma eval_rules_s rules :
  dict_probs -> (forall r, In r rules -> wf_rule varis r /\ forall k s, In (k, s) r -> 0 <= s) ->
  eval_rules_prob rules S_ probs = Ok (map (fun r => prob_event varis probs (sat_s r)) rules).
Proof.
  intros Hdp Hr. unfold eval_rules_prob.
  set (g := fun (k : string) (d : pdist) => match dfind varis k with Some v => nvals v - 1 | None => 0 end).
  rewrite (mapM_dict max_state g).
  2:{ intros k d Hin. destruct (Hdp k d Hin) as (v & l & Hv & E & Hl).
      rewrite (max_state_ok k d v l) by auto. unfold g. rewrite (In_dfind varis k v); auto. apply Hw. }
  cbn [bind]. apply mapM_ok. intros r Hin. destruct (Hr r Hin) as [Hwr Hpos].
  rewrite (foldM_ok _ (fun p kv => (p * qsum (map (pr probs (fst kv))
     (filter (fun s => (snd kv) <=? s) (zrange 0 (match dfind varis (fst kv) with Some v => nvals v | None => 0 end)))))%Qc)).
  - rewrite fold_left_qprod. f_equal. rewrite Qcmult_1_l. symmetry.
    apply (rule_prob (fun v s => v <=? s)). auto.
  - intros p [k s] Hks. cbn [fst snd]. assert (Hk : In k (keys varis)) by (apply Hwr; eapply In_keys; eauto).
    destruct (varis_find varis k Hk) as (v & Hv & Ef).
    unfold dget. rewrite dfind_map. destruct (proj1 (Hp k v Hv)) as (d & Hd & _). rewrite Hd. cbn [bind]. unfold g. rewrite Ef.
    specialize (Hpos k s Hks). rewrite (sum_range_ok varis probs Hp k v) by (auto; lia). cbn [bind].
    rewrite filter_ge by auto. replace (nvals v - 1 + 1) with (nvals v) by lia. auto.
Qed.

(** what the 'f' branch really computes: strictly below the rule *)
Definition strict_f (r x : dict Z) : bool := forallb (fun kv => coord x (fst kv) <? snd kv) r.

Lemma filter_lt v n : 0 <= v <= n -> filter (fun s => s <? v) (zrange 0 n) = zrange 0 v.
Proof.
  intros Hv. rewrite (zrange_app 0 v n) by lia. rewrite filter_app.
  assert (E1 : forall l, (forall s, In s l -> s < v) -> filter (fun s => s <? v) l = l).
  { induction l as [|a l IH]; cbn; intros H; auto. destruct (Z.ltb_spec a v); [f_equal; apply IH; intros; apply H; auto|specialize (H a (or_introl eq_refl)); lia]. }
  assert (E2 : forall l, (forall s, In s l -> v <= s) -> filter (fun s => s <? v) l = []).
  { induction l as [|a l IH]; cbn; intros H; auto. destruct (Z.ltb_spec a v); [specialize (H a (or_introl eq_refl)); lia|apply IH; intros; apply H; auto]. }
  rewrite E1, E2, app_nil_r; auto; intros s Hs; apply In_zrange in Hs; lia.
Qed.

Lemma eval_rules_f rules :
  (forall r, In r rules -> wf_rule varis r /\ forall k s v, In (k, s) r -> In (k, v) varis -> 0 <= s < nvals v) ->
  eval_rules_prob rules F_ probs = Ok (map (fun r => prob_event varis probs (strict_f r)) rules).
Proof.
  intros Hr. unfold eval_rules_prob. apply mapM_ok. intros r Hin. destruct (Hr r Hin) as [Hwr Hpos].
  rewrite (foldM_ok _ (fun p kv => (p * qsum (map (pr probs (fst kv))
     (filter (fun s => s <? (snd kv)) (zrange 0 (match dfind varis (fst kv) with Some v => nvals v | None => 0 end)))))%Qc)).
  - rewrite fold_left_qprod. f_equal. rewrite Qcmult_1_l. symmetry.
    apply (rule_prob (fun v s => s <? v)). auto.
  - intros p [k s] Hks. cbn [fst snd]. assert (Hk : In k (keys varis)) by (apply Hwr; eapply In_keys; eauto).
    destruct (varis_find varis k Hk) as (v & Hv & Ef). rewrite Ef.
    specialize (Hpos k s v Hks Hv). rewrite (sum_range_ok varis probs Hp k v) by (auto; lia). cbn [bind].
    rewrite filter_lt by lia. auto.
Qed.
End RuleProb.

(** * [get_csys] *)
Definition means (varis : dict variable) (k : string) (c lo hi : Z) : Prop :=
  exists v B e, dfind varis k = Some v /\ v_B v = Some B /\ 0 <= c /\
    nth_error B (Z.to_nat c) = Some e /\ forall x, In x e <-> lo <= x <= hi.

Lemma extend_refl varis : tables_extend varis varis.
Proof. split; auto. intros k v B H1 H2. exists v, B. auto. Qed.
Lemma extend_trans a b c : tables_extend a b -> tables_extend b c -> tables_extend a c.
Proof.
  intros [K1 H1] [K2 H2]. split; [congruence|]. intros k v B E1 E2.
  destruct (H1 k v B E1 E2) as (v' & B' & A1 & A2 & A3 & A4 & A5).
  destruct (H2 k v' B' A1 A2) as (v'' & B'' & C1 & C2 & C3 & C4 & C5).
  exists v'', B''. split; auto. split; auto. split; [congruence|]. split; [congruence|auto].
Qed.
Lemma means_extend a b k c lo hi : tables_extend a b -> means a k c lo hi -> means b k c lo hi.
Proof.
  intros [_ H] (v & B & e & E1 & E2 & E3 & E4 & E5). destruct (H k v B E1 E2) as (v' & B' & A1 & A2 & _ & _ & A5).
  exists v', B', e. repeat split; auto; apply E5; auto.
Qed.
Definition tables (varis : dict variable) : Prop := forall k v, dfind varis k = Some v -> basic_table v.
Lemma tables_extend_ok a b : tables a -> tables_extend a b -> tables b.
Proof.
  intros Ht [Hk H] k v Hv. assert (Hin : In k (keys a)) by (rewrite <- Hk; apply dfind_keys; eauto).
  apply dfind_keys in Hin as [v0 Hv0]. destruct (Ht k v0 Hv0) as (B & HB & Hb).
  destruct (H k v0 B Hv0 HB) as (v' & B' & A1 & A2 & A3 & A4 & A5).
  rewrite Hv in A1. injection A1 as <-. exists B'. split; auto. intros s Hs.
  destruct (Hb s) as (e & He & Hx). { unfold nvals in *. rewrite <- A4. auto. }
  exists e. split; auto.
Qed.

Lemma get_c_loop_ok br names : forall varis cst,
  tables varis ->
  (forall k, In k names -> In k (keys varis) /\ In k (keys (b_down br)) /\ In k (keys (b_up br)) /\
     forall v, dfind varis k = Some v -> 0 <= coord (b_down br) k <= coord (b_up br) k /\ coord (b_up br) k < nvals v) ->
  exists varis' cs, get_c_loop br names varis cst = Ok (varis', cst ++ cs) /\ tables_extend varis varis' /\
    Forall2 (fun k c => means varis' k c (coord (b_down br) k) (coord (b_up br) k)) names cs.
Proof.
  induction names as [|k names IH]; intros varis cst Ht Hn; cbn [get_c_loop].
  - exists varis, []. rewrite app_nil_r. split; auto. split; [apply extend_refl|constructor].
  - destruct (Hn k (or_introl eq_refl)) as (Hk & Hd & Hu & Hr).
    apply dfind_keys in Hk as [v Hv]. specialize (Hr v Hv).
    rewrite (dget_coord _ k Hd), (dget_coord _ k Hu). cbn [bind].
    destruct (Ht k v Hv) as (B & HB & Hb).
    destruct (coord (b_down br) k <? coord (b_up br) k) eqn:El.
    + unfold dget. rewrite Hv. cbn [bind].
      destruct (composite_state_total v B (zrange (coord (b_down br) k) (coord (b_up br) k + 1)) HB) as (v' & c & Ec).
      rewrite Ec. cbn [bind].
      destruct (composite_state_spec v B _ v' c HB Ec) as (B' & e & HB' & Nn & Nv & _ & Hpre & Hc & He & Hx).
      assert (Hext : tables_extend varis (dset varis k v')).
      { split.
        - apply keys_dset. apply dfind_keys. eauto.
        - intros k1 v1 B1 E1 E2. rewrite dfind_dset. destruct (String.eqb_spec k1 k) as [E|].
          + subst k1. rewrite Hv in E1. injection E1 as <-. rewrite HB in E2. injection E2 as <-. exists v', B'. auto.
          + exists v1, B1. auto. }
      destruct (IH (dset varis k v') (cst ++ [c])) as (varis' & cs & E & Hx' & HF).
      { eapply tables_extend_ok; eauto. }
      { intros k1 Hk1. destruct (Hn k1 (or_intror Hk1)) as (A1 & A2 & A3 & A4). split; [|split; auto; split; auto].
        - destruct Hext as [Hke _]. rewrite Hke. auto.
        - intros v1 Hv1. rewrite dfind_dset in Hv1. destruct (String.eqb_spec k1 k) as [E|].
          + subst k1. injection Hv1 as <-. unfold nvals. rewrite Nv. apply A4. auto.
          + apply A4. auto. }
      exists varis', (c :: cs). split; [rewrite E, <- app_assoc; auto|]. split; [eapply extend_trans; eauto|].
      constructor; auto. apply (means_extend (dset varis k v')); auto.
      exists v', B', e. rewrite dfind_dset, String.eqb_refl. do 4 (split; [auto; fail|]). intros x. rewrite Hx, In_zrange. lia.
    + apply Z.ltb_ge in El.
      destruct (IH varis (cst ++ [coord (b_up br) k])) as (varis' & cs & E & Hx' & HF); auto.
      { intros k1 Hk1. apply Hn. right; auto. }
      exists varis', (coord (b_up br) k :: cs). split; [rewrite E, <- app_assoc; auto|]. split; auto.
      constructor; auto. apply (means_extend varis); auto.
      destruct (Hb (coord (b_up br) k)) as (e & He & Hx); [lia|].
      exists v, B, e. do 2 (split; [auto; fail|]). split; [lia|]. split; [auto; fail|]. intros x. rewrite Hx. lia.
Qed.

Section Csys.
Context (varis : dict variable) (Hw : wf_varis varis) (Ht : tables varis) (conv : st -> Z).

Definition br_label (b : branch) : st := if st_eqb (b_down_state b) (b_up_state b) then b_down_state b else U_.
Definition row_ok (varis' : dict variable) (b : branch) (row : list Z) : Prop :=
  exists cs, row = conv (br_label b) :: cs /\
    Forall2 (fun k c => means varis' k c (coord (b_down b) k) (coord (b_up b) k)) (keys varis) cs.

Lemma row_ok_extend a b br row : tables_extend a b -> row_ok a br row -> row_ok b br row.
Proof.
  intros H (cs & -> & F). exists cs. split; auto. eapply Forall2_impl; [|apply F].
  intros k c. cbn. apply means_extend. auto.
Qed.

Lemma get_csys_loop_ok brs : forall varis1 acc,
  tables_extend varis varis1 ->
  (forall b, In b brs -> wf_br varis b) ->
  exists rows varis', get_csys_loop brs varis1 (fun s => Ok (conv s)) acc = Ok (acc ++ rows, varis') /\
    tables_extend varis1 varis' /\ Forall2 (row_ok varis') brs rows.
Proof.
  induction brs as [|b brs IH]; intros varis1 acc He Hb; cbn [get_csys_loop].
  - exists [], varis1. rewrite app_nil_r. split; auto. split; [apply extend_refl|constructor].
  - destruct (Hb b (or_introl eq_refl)) as (D & U & L).
    unfold get_c. cbn [bind]. rewrite (sp_keys varis _ U).
    destruct (get_c_loop_ok b (keys varis) varis1 [conv (br_label b)]) as (varis2 & cs & E & E2 & F).
    { eapply tables_extend_ok; eauto. }
    { intros k Hk. destruct He as [Hke Hex]. rewrite Hke. split; auto.
      rewrite (sp_keys varis _ U), (sp_keys varis _ D). split; auto. split; auto. intros v Hv.
      destruct (varis_find varis k Hk) as (v0 & Hv0 & Ef). destruct (Ht k v0 Ef) as (B & HB & _).
      destruct (Hex k v0 B Ef HB) as (v' & B' & A1 & _ & _ & A4 & _). rewrite Hv in A1. injection A1 as <-.
      pose proof (sp_coord varis Hw _ k v0 D Hv0). pose proof (sp_coord varis Hw _ k v0 U Hv0). specialize (L k Hk).
      unfold nvals in *. rewrite A4. lia. }
    fold (br_label b). rewrite E. cbn [bind].
    destruct (IH varis2 (acc ++ [[conv (br_label b)] ++ cs])) as (rows & varis' & E3 & E4 & F3).
    { eapply extend_trans; eauto. }
    { intros b' Hb'. apply Hb. right; auto. }
    exists (([conv (br_label b)] ++ cs) :: rows), varis'. split; [rewrite E3, <- app_assoc; auto|].
    split; [eapply extend_trans; eauto|]. constructor; auto.
    apply (row_ok_extend varis2); auto. exists cs. auto.
Qed.

Lemma get_csys_ok brs : brs <> [] -> (forall b, In b brs -> wf_br varis b) ->
  exists rows varis', get_csys brs varis (fun s => Ok (conv s)) = Ok (rows, varis') /\
    tables_extend varis varis' /\ Forall2 (row_ok varis') brs rows.
Proof.
  intros Hne Hb. destruct (get_csys_loop_ok brs varis [] (extend_refl _) Hb) as (rows & varis' & E & E2 & F).
  exists rows, varis'. split; auto. unfold get_csys. destruct brs as [|b0 brs]; [congruence|]. rewrite E. cbn [bind app].
  assert (X : forallb (fun r => (List.length r =? S (List.length (b_up b0)))%nat) rows = true); [|rewrite X; auto].
  apply forallb_forall. intros r Hr. destruct (Forall2_in_r _ _ _ _ F Hr) as (b & Hin & cs & -> & F').
  cbn [List.length]. apply Nat.eqb_eq. f_equal. rewrite <- (Forall2_length _ _ _ F').
  destruct (Hb b0 (or_introl eq_refl)) as (_ & U & _). rewrite <- (sp_keys varis _ U). unfold keys. apply map_length.
Qed.

Lemma row_ok_in_branch varis' b row x : wf_br varis b -> In x (sp varis) -> row_ok varis' b row ->
  exists c cs, row = c :: cs /\ c = conv (br_label b) /\ List.length cs = List.length (keys varis) /\
    (in_branch b x = true <-> Forall2 (fun k c => coded varis' k c (coord x k)) (keys varis) cs).
Proof.
  intros Hb Hx (cs & -> & F). exists (conv (br_label b)), cs. split; auto. split; auto. split; [symmetry; eapply Forall2_length; eauto|].
  rewrite (in_branch_spec varis Hw b x Hx). unfold le_vec. clear Hb. split.
  - intros [H1 H2]. induction F as [|k c l cs M F IH]; constructor.
    + destruct M as (v & B & e & A1 & A2 & A3 & A4 & A5). exists v, B, e. repeat split; auto. apply A5.
      split; [apply H1|apply H2]; left; auto.
    + apply IH; intros k' Hk'; [apply H1|apply H2]; right; auto.
  - intros H. assert (G : forall k, In k (keys varis) -> coord (b_down b) k <= coord x k <= coord (b_up b) k); [|split; intros k Hk; apply G; auto].
    induction F as [|k c l cs M F IH]; intros k' Hk'; [destruct Hk'|].
    inversion_clear H as [|? ? ? ? C1 C2]. destruct Hk' as [<-|Hk']; [|apply IH; auto].
    destruct M as (v & B & e & A1 & A2 & A3 & A4 & A5). destruct C1 as (v' & B' & e' & D1 & D2 & D3 & D4 & D5).
    rewrite A1 in D1. injection D1 as <-. rewrite A2 in D2. injection D2 as <-. rewrite A4 in D4. injection D4 as <-.
    apply A5; auto.
Qed.
End Csys.
