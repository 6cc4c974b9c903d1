(** The rules of a complete search are the extreme vectors. *)
From Coq Require Import ZArith List String Bool Arith Lia QArith Qcanon Permutation.
From Verif Require Import Py Num Vari Brc PyFacts SpecBrc VariFacts BrcFacts BrcRules BrcRun BrcMain BrcStop SpecExact.
Import ListNotations.
Open Scope string_scope.
Open Scope Z_scope.
Open Scope list_scope.

(** * The rules are those of the calls *)
Definition upd (rs : ruleset) (n : dict Z * st) : res ruleset := update_rule_set rs (fst n) (snd n).

Lemma foldM_snoc {A B} (f : A -> B -> res A) l x : forall a a' a'',
  foldM f l a = Ok a' -> f a' x = Ok a'' -> foldM f (l ++ [x]) a = Ok a''.
Proof.
  induction l as [|b l IH]; intros a a' a'' H1 H2; cbn [foldM app] in *.
  - injection H1 as <-. rewrite H2. reflexivity.
  - destruct (f a b) as [a1|]; cbn [bind] in *; [|discriminate]. eapply IH; eauto.
Qed.

Section Calls.
Context (varis : dict variable) (probs : prob_dict) (sys_fun : sysfun) (g : config) (rs0 : ruleset).
Definition from_calls (s : rstate) : Prop :=
  exists ns, foldM upd ns rs0 = Ok (s_rules s) /\
    Forall2 (fun (r : sysres) n => run_sys_fn (snd (fst r)) sys_fun varis = Ok (fst n, snd n, r)) (s_sys s) ns.

Lemma body_calls s : from_calls s ->
  match run_body varis probs sys_fun g s with
  | Ok (inl s') => from_calls s'
  | Ok (inr s') => from_calls s'
  | Err _ => True
  end.
Proof.
  intros (ns & F & C). unfold run_body.
  destruct (if g_active g then _ else _) as [brs|]; cbn [bind]; auto.
  destruct (get_comp_st _ _ _ _) as [[x|]|]; cbn [bind]; auto.
  2:{ exists ns. auto. }
  destruct (ge_bound (len brs) (g_max_nb g)); [exists ns; auto|].
  destruct (qc_ltb _ _); [exists ns; auto|].
  destruct (ge_bound _ (g_max_rules g)); [exists ns; auto|].
  destruct (run_sys_fn x sys_fun varis) as [[[rule sst] sres]|] eqn:Er; cbn [bind]; auto.
  destruct (update_rule_set (s_rules s) rule sst) as [rs'|] eqn:Eu; cbn [bind]; auto.
  destruct (update_monitor _ _ _) as [mon ctl]. exists (ns ++ [(rule, sst)]). cbn [s_rules s_sys]. split.
  - eapply foldM_snoc; eauto.
  - apply Forall2_app; [exact C|]. constructor; [|constructor]. cbn [fst snd].
    assert (E : snd (fst sres) = x).
    { unfold run_sys_fn in Er. destruct (sys_fun x) as [[val st0] m]. destruct m as [[|p m]|].
      - destruct st0; try (injection Er as _ _ <-; reflexivity);
          (destruct (filterM _ _); cbn [bind] in Er; [injection Er as _ _ <-; reflexivity|discriminate]).
      - injection Er as _ _ <-. reflexivity.
      - destruct st0; try (injection Er as _ _ <-; reflexivity);
          (destruct (filterM _ _); cbn [bind] in Er; [injection Er as _ _ <-; reflexivity|discriminate]). }
    rewrite E. exact Er.
Qed.

Lemma loop_calls fuel : forall s s', from_calls s -> run_loop fuel varis probs sys_fun g s = Ok s' -> from_calls s'.
Proof.
  induction fuel as [|fuel IH]; intros s s' C H; cbn [run_loop] in H; [discriminate|].
  destruct (c_no_sf (s_ctrl s) <? g_max_sf g).
  - pose proof (body_calls s C) as B. destruct (run_body varis probs sys_fun g s) as [[s1|s1]|]; cbn [bind] in H; [| |discriminate].
    + injection H as <-. auto.
    + eapply IH; eauto.
  - injection H as <-. auto.
Qed.
End Calls.

Lemma run_calls varis probs sys_fun g rules brs s :
  run varis probs sys_fun g rules brs = Ok s ->
  exists ns, foldM upd ns (rules_arg rules) = Ok (s_rules s) /\
    Forall2 (fun (r : sysres) n => run_sys_fn (snd (fst r)) sys_fun varis = Ok (fst n, snd n, r)) (s_sys s) ns.
Proof.
  intros H. unfold run in H. cbn [init_monitor] in H. fold (rules_arg rules) in H.
  destruct (run_loop _ _ _ _ _ _) as [s1|] eqn:E; cbn [bind] in H; [|discriminate].
  apply (loop_calls varis probs sys_fun g (rules_arg rules)) in E; [|exists []; split; [reflexivity|constructor]].
  destruct (0 <? g_max_sf g).
  - destruct (s_brs s1); [|discriminate]. destruct (update_monitor _ _ _). injection H as <-. exact E.
  - injection H as <-. exact E.
Qed.

(** * Invariants of a sequence of updates *)
Definition n_rules (rs : ruleset) : nat := (List.length (r_s rs) + List.length (r_f rs))%nat.

Lemma remove_first_length {A} (f : A -> bool) l : (List.length (remove_first f l) <= List.length l)%nat.
Proof. induction l as [|a l IH]; cbn; [lia|]. destruct (f a); cbn; lia. Qed.

Lemma update_loop_length cmp n copy : forall cur l add, update_loop cmp n copy cur = Ok (l, add) ->
  (List.length l <= List.length cur)%nat.
Proof.
  induction copy as [|r copy IH]; intros cur l add H; cbn [update_loop] in H; [injection H as <- _; lia|].
  destruct (dominated cmp n r) as [[|]|]; cbn [bind] in H; [| |discriminate].
  - apply IH in H. pose proof (remove_first_length (dict_eqb r) cur). lia.
  - destruct (dominated cmp r n) as [[|]|]; cbn [bind] in H; [| |discriminate]; [injection H as <- _; lia|eauto].
Qed.

Lemma update_length rs n s rs' : update_rule_set rs n s = Ok rs' -> (n_rules rs' <= S (n_rules rs))%nat.
Proof.
  unfold update_rule_set, n_rules. destruct s; [| |discriminate].
  - destruct (update_loop _ _ _ _) as [[l add]|] eqn:E; cbn [bind]; [|discriminate]. intros H. injection H as <-. cbn [r_s r_f].
    apply update_loop_length in E. destruct add; rewrite ?app_length; cbn [List.length]; lia.
  - destruct (update_loop _ _ _ _) as [[l add]|] eqn:E; cbn [bind]; [|discriminate]. intros H. injection H as <-. cbn [r_s r_f].
    apply update_loop_length in E. destruct add; rewrite ?app_length; cbn [List.length]; lia.
Qed.

Lemma fold_length ns : forall rs rs', foldM upd ns rs = Ok rs' -> (n_rules rs' <= n_rules rs + List.length ns)%nat.
Proof.
  induction ns as [|n ns IH]; intros rs rs' H; cbn [foldM List.length] in *; [injection H as <-; lia|].
  destruct (upd rs n) as [rs1|] eqn:E; cbn [bind] in H; [|discriminate]. apply IH in H. apply update_length in E. lia.
Qed.

(** entries of the final sets are initial rules or rules of the sequence *)
Lemma fold_origin ns : forall rs rs', foldM upd ns rs = Ok rs' ->
  (forall r, In r (r_s rs') -> In r (r_s rs) \/ In (r, S_) ns) /\
  (forall r, In r (r_f rs') -> In r (r_f rs) \/ In (r, F_) ns).
Proof.
  induction ns as [|n ns IH]; intros rs rs' H; cbn [foldM] in H; [injection H as <-; auto|].
  destruct (upd rs n) as [rs1|] eqn:E; cbn [bind] in H; [|discriminate]. apply IH in H as [H1 H2].
  destruct n as [n s]. unfold upd in E. cbn [fst snd] in E.
  assert (Hu : s <> U_) by (intros ->; cbn in E; discriminate).
  destruct (update_spec rs n s Hu) as (rs2 & E2 & _ & _ & U1 & U2). rewrite E in E2. injection E2 as <-.
  split; intros r Hr.
  - destruct (H1 r Hr) as [X|X]; [|right; right; auto]. destruct (U1 r X) as [|[-> ->]]; auto. right; left; auto.
  - destruct (H2 r Hr) as [X|X]; [|right; right; auto]. destruct (U2 r X) as [|[-> ->]]; auto. right; left; auto.
Qed.

(** * Corners *)
Section Corner.
Context (varis : dict variable) (Hw : wf_varis varis).

Lemma keys_low r : keys (low_corner varis r) = keys varis.
Proof. unfold low_corner, keys. rewrite map_map. reflexivity. Qed.
Lemma keys_high r : keys (high_corner varis r) = keys varis.
Proof. unfold high_corner, keys. rewrite map_map. reflexivity. Qed.
Lemma low_coord r k v : In (k, v) varis -> coord (low_corner varis r) k = coord r k.
Proof.
  intros H. apply coord_In; [rewrite keys_low; apply Hw|]. unfold low_corner, coord.
  apply in_map_iff. exists (k, v). auto.
Qed.
Lemma high_coord r k v : In (k, v) varis ->
  coord (high_corner varis r) k = match dfind r k with Some s => s | None => nvals v - 1 end.
Proof.
  intros H. apply coord_In; [rewrite keys_high; apply Hw|]. unfold high_corner.
  apply in_map_iff. exists (k, v). auto.
Qed.

Lemma low_space r : tidy_s varis r -> In (low_corner varis r) (sp varis).
Proof.
  intros T. apply sp_intro; auto; [apply keys_low|]. intros k v Hv. rewrite (low_coord r k v Hv). unfold coord.
  pose proof (proj2 Hw k v Hv). destruct (dfind r k) as [s|] eqn:E; [|lia].
  apply dfind_In in E. specialize (T k s v E Hv). lia.
Qed.
Lemma high_space r : tidy_f varis r -> In (high_corner varis r) (sp varis).
Proof.
  intros T. apply sp_intro; auto; [apply keys_high|]. intros k v Hv. rewrite (high_coord r k v Hv).
  pose proof (proj2 Hw k v Hv). destruct (dfind r k) as [s|] eqn:E; [|lia].
  apply dfind_In in E. specialize (T k s v E Hv). lia.
Qed.

Lemma low_sat r : wf_rule varis r -> sat_s r (low_corner varis r) = true.
Proof.
  intros [Hd Hi]. apply sat_s_spec. intros k s Hs.
  destruct (varis_find varis k (Hi k (In_keys _ _ _ Hs))) as (v & Hv & _).
  rewrite (low_coord r k v Hv), (coord_In r k s); auto. lia.
Qed.
Lemma high_sat r : wf_rule varis r -> sat_f r (high_corner varis r) = true.
Proof.
  intros [Hd Hi]. apply sat_f_spec. intros k s Hs.
  destruct (varis_find varis k (Hi k (In_keys _ _ _ Hs))) as (v & Hv & _).
  rewrite (high_coord r k v Hv), (In_dfind r k s Hd); auto. lia.
Qed.

Lemma low_least r x : In x (sp varis) -> sat_s r x = true -> le_vec varis (low_corner varis r) x.
Proof.
  intros Hx Hs k Hk. destruct (varis_find varis k Hk) as (v & Hv & _). rewrite (low_coord r k v Hv).
  pose proof (sp_coord varis Hw x k v Hx Hv). unfold coord at 1. destruct (dfind r k) as [s|] eqn:E; [|lia].
  rewrite sat_s_spec in Hs. apply Hs. apply dfind_In; auto.
Qed.
Lemma high_greatest r x : In x (sp varis) -> sat_f r x = true -> le_vec varis x (high_corner varis r).
Proof.
  intros Hx Hs k Hk. destruct (varis_find varis k Hk) as (v & Hv & _). rewrite (high_coord r k v Hv).
  pose proof (sp_coord varis Hw x k v Hx Hv). destruct (dfind r k) as [s|] eqn:E; [|lia].
  rewrite sat_f_spec in Hs. apply Hs. apply dfind_In; auto.
Qed.

Lemma le_antisym x y : In x (sp varis) -> In y (sp varis) -> le_vec varis x y -> le_vec varis y x -> x = y.
Proof.
  intros Hx Hy A B. apply vec_ext.
  - apply (sp_nodup varis Hw x Hx).
  - rewrite (sp_keys varis x Hx), (sp_keys varis y Hy). auto.
  - intros k Hk. rewrite (sp_keys varis x Hx) in Hk. specialize (A k Hk). specialize (B k Hk). lia.
Qed.

(** order of the corners = redundancy, for rules without idle entries *)
Lemma low_covers r r' : wf_rule varis r' -> tidy_s varis r' ->
  le_vec varis (low_corner varis r') (low_corner varis r) -> covers_s r' r.
Proof.
  intros [Hd Hi] T L k s Hs. assert (Hk := Hi k (In_keys _ _ _ Hs)).
  destruct (varis_find varis k Hk) as (v & Hv & _). specialize (L k Hk).
  rewrite (low_coord r' k v Hv), (low_coord r k v Hv), (coord_In r' k s) in L; auto. unfold coord in L.
  specialize (T k s v Hs Hv). destruct (dfind r k) as [w|]; [|lia]. exists w. auto.
Qed.
Lemma high_covers r r' : wf_rule varis r' -> tidy_f varis r' ->
  le_vec varis (high_corner varis r) (high_corner varis r') -> covers_f r' r.
Proof.
  intros [Hd Hi] T L k s Hs. assert (Hk := Hi k (In_keys _ _ _ Hs)).
  destruct (varis_find varis k Hk) as (v & Hv & _). specialize (L k Hk).
  rewrite (high_coord r' k v Hv), (high_coord r k v Hv), (In_dfind r' k s Hd Hs) in L; auto.
  specialize (T k s v Hs Hv). destruct (dfind r k) as [w|]; [|lia]. exists w. auto.
Qed.
End Corner.

Lemma antichain_NoDup {A B} (R : A -> A -> Prop) (f : A -> B) l :
  antichain R l -> (forall a b, In a l -> In b l -> f a = f b -> R a b) -> NoDup (map f l).
Proof.
  intros H1 H2. apply NoDup_nth_error. intros i j Hi E. rewrite map_length in Hi.
  destruct (nth_error l i) as [a|] eqn:Ea; [|apply nth_error_None in Ea; lia].
  rewrite (map_nth_error f i l Ea) in E. symmetry in E.
  destruct (nth_error l j) as [b|] eqn:Eb.
  2:{ apply nth_error_None in Eb. assert (nth_error (map f l) j = None) by (apply nth_error_None; rewrite map_length; auto). congruence. }
  rewrite (map_nth_error f j l Eb) in E. injection E as E.
  destruct (Nat.eq_dec i j) as [|Hn]; auto. exfalso. apply (H1 i j a b Ea Eb Hn).
  apply H2; [eapply nth_error_In; eauto|eapply nth_error_In; eauto|auto].
Qed.

Lemma antichain_same {A} (R : A -> A -> Prop) l a b : antichain R l -> In a l -> In b l -> R a b -> a = b.
Proof.
  intros H Ha Hb Hr. apply In_nth_error in Ha as [i Hi]. apply In_nth_error in Hb as [j Hj].
  destruct (Nat.eq_dec i j) as [->|Hn]; [congruence|]. exfalso. apply (H i j a b Hi Hj Hn Hr).
Qed.

(** * The main argument *)
Section Final.
Context (varis : dict variable) (phi : dict Z -> bool) (rs : ruleset).
Context (Hw : wf_varis varis) (Hr : wf_rules varis rs) (Hs : sound_rules varis phi rs)
        (Ht : tidy_rules varis rs) (Ha : irredundant rs).

Lemma nodup_low : NoDup (map (low_corner varis) (r_s rs)).
Proof.
  apply (antichain_NoDup covers_s); [apply Ha|]. intros a b I1 I2 E.
  apply (low_covers varis Hw b a); [apply (proj1 Hr); auto|apply (proj1 Ht); auto|]. rewrite E. apply le_vec_refl.
Qed.
Lemma nodup_high : NoDup (map (high_corner varis) (r_f rs)).
Proof.
  apply (antichain_NoDup covers_f); [apply Ha|]. intros a b I1 I2 E.
  apply (high_covers varis Hw b a); [apply (proj2 Hr); auto|apply (proj2 Ht); auto|]. rewrite E. apply le_vec_refl.
Qed.

Context (Hc : forall x, In x (sp varis) -> match_s rs x = phi x /\ match_f rs x = negb (phi x)).

Lemma corners_s x : In x (map (low_corner varis) (r_s rs)) <-> min_survivor varis phi x.
Proof.
  split.
  - intros Hx. apply in_map_iff in Hx as (r & <- & Ir).
    assert (Sp : In (low_corner varis r) (sp varis)) by (apply low_space; [auto|apply (proj1 Ht); auto]).
    split; [exact Sp|]. split; [apply (proj1 Hs r); auto; apply low_sat; [auto|apply (proj1 Hr); auto]|].
    intros y Hy Hl Py. rewrite <- (proj1 (Hc y Hy)) in Py. apply match_s_spec in Py as (r' & Ir' & Sr').
    pose proof (low_least varis Hw r' y Hy Sr') as L.
    assert (C : covers_s r' r).
    { apply (low_covers varis Hw r r'); [apply (proj1 Hr); auto|apply (proj1 Ht); auto|]. eapply le_vec_trans; eauto. }
    pose proof (antichain_same covers_s (r_s rs) r' r (proj1 Ha) Ir' Ir C). subst r'. apply (le_antisym varis Hw); auto.
  - intros (Hx & Px & M). rewrite <- (proj1 (Hc x Hx)) in Px. apply match_s_spec in Px as (r & Ir & Sr).
    apply in_map_iff. exists r. split; [|exact Ir]. apply M.
    + apply low_space; [auto|apply (proj1 Ht); auto].
    + apply low_least; auto.
    + apply (proj1 Hs r); auto; [apply low_space; [auto|apply (proj1 Ht); auto]|apply low_sat; [auto|apply (proj1 Hr); auto]].
Qed.

Lemma corners_f x : In x (map (high_corner varis) (r_f rs)) <-> max_failure varis phi x.
Proof.
  split.
  - intros Hx. apply in_map_iff in Hx as (r & <- & Ir).
    assert (Sp : In (high_corner varis r) (sp varis)) by (apply high_space; [auto|apply (proj2 Ht); auto]).
    split; [exact Sp|]. split; [apply (proj2 Hs r); auto; apply high_sat; [auto|apply (proj2 Hr); auto]|].
    intros y Hy Hl Py. assert (Fy : match_f rs y = true) by (rewrite (proj2 (Hc y Hy)), Py; reflexivity).
    apply match_f_spec in Fy as (r' & Ir' & Sr').
    pose proof (high_greatest varis Hw r' y Hy Sr') as L.
    assert (C : covers_f r' r).
    { apply (high_covers varis Hw r r'); [apply (proj2 Hr); auto|apply (proj2 Ht); auto|]. eapply le_vec_trans; eauto. }
    pose proof (antichain_same covers_f (r_f rs) r' r (proj2 Ha) Ir' Ir C). subst r'. apply (le_antisym varis Hw); auto.
  - intros (Hx & Px & M). assert (Fx : match_f rs x = true) by (rewrite (proj2 (Hc x Hx)), Px; reflexivity).
    apply match_f_spec in Fx as (r & Ir & Sr).
    apply in_map_iff. exists r. split; [|exact Ir]. apply M.
    + apply high_space; [auto|apply (proj2 Ht); auto].
    + apply high_greatest; auto.
    + apply (proj2 Hs r); auto; [apply high_space; [auto|apply (proj2 Ht); auto]|apply high_sat; [auto|apply (proj2 Hr); auto]].
Qed.
End Final.

(** * Rules returned by [run] *)
Lemma run_sys_tidy varis phi sys_fun x rule s r :
  wf_varis varis -> sys_ok varis phi sys_fun -> sys_tidy varis phi sys_fun -> In x (sp varis) ->
  run_sys_fn x sys_fun varis = Ok (rule, s, r) ->
  wf_rule varis rule /\ (s = S_ -> tidy_s varis rule) /\ (s = F_ -> tidy_f varis rule).
Proof.
  intros Hw Hs Ht Hx E. destruct (run_sys_fn_ok varis phi sys_fun x Hw Hs Hx) as (val & m & rule' & s' & Ef & Er & G1 & G2 & G3 & G4).
  rewrite E in Er. injection Er as -> -> ->. split; [exact G2|].
  assert (D : m = Some rule' \/ (s' = S_ /\ rule' = filter (fun kv => negb (snd kv =? 0)) x) \/
     (s' = F_ /\ filterM (fun kv => v <- dget varis (fst kv) ;; Ok (snd kv <? nvals v - 1)) x = Ok rule')).
  { unfold run_sys_fn in E. rewrite Ef in E. destruct (phi x); subst s'.
    - destruct m as [[|p m]|]; injection E as <-; auto.
    - destruct m as [[|p m]|].
      + destruct (filterM _ _) eqn:X; cbn [bind] in E; [injection E as <-; auto|discriminate].
      + injection E as <-. auto.
      + destruct (filterM _ _) eqn:X; cbn [bind] in E; [injection E as <-; auto|discriminate]. }
  split; intros ->.
  - intros k z v Hz Hv. destruct (phi x) eqn:Ep; [|discriminate].
    destruct (G3 eq_refl) as [Sx _]. rewrite sat_s_spec in Sx. specialize (Sx k z Hz).
    pose proof (sp_coord varis Hw x k v Hx Hv). split; [|lia].
    destruct D as [D|[[_ D]|[D _]]]; [| |discriminate].
    + subst m. specialize (Ht x val S_ rule' Hx Ef k z v Hz Hv). rewrite Ep in Ht. exact Ht.
    + rewrite D in Hz. apply filter_In in Hz as [Hz N]. cbn [snd] in N. apply negb_true_iff, Z.eqb_neq in N.
      rewrite (coord_In x k z) in H; auto; [lia|]. apply (sp_nodup varis Hw x Hx).
  - intros k z v Hz Hv. destruct (phi x) eqn:Ep; [discriminate|].
    destruct (G4 eq_refl) as [Sx _]. rewrite sat_f_spec in Sx. specialize (Sx k z Hz).
    pose proof (sp_coord varis Hw x k v Hx Hv). split; [lia|].
    destruct D as [D|[[D _]|[_ D]]]; [|discriminate|].
    + subst m. specialize (Ht x val F_ rule' Hx Ef k z v Hz Hv). rewrite Ep in Ht. exact Ht.
    + rewrite (filterM_ok _ (fun kv => match dfind varis (fst kv) with Some v => snd kv <? nvals v - 1 | None => false end)) in D.
      * injection D as <-. apply filter_In in Hz as [Hz N]. cbn [fst snd] in N.
        rewrite (In_dfind varis k v (proj1 Hw) Hv) in N. lia.
      * intros [k' z'] Hin. cbn. assert (Hkv : In k' (keys varis)) by (rewrite <- (sp_keys varis x Hx); eapply In_keys; eauto).
        apply dfind_keys in Hkv as [v' Hv']. unfold dget. rewrite Hv'. auto.
Qed.

Section RunRules.
Context (varis : dict variable) (probs : prob_dict) (phi : dict Z -> bool) (sys_fun : sysfun) (g : config)
        (rules : option ruleset) (brs : option (list branch)) (s : rstate).
Context (Hw : wf_varis varis) (Hp : wf_probs varis probs) (Hsys : sys_ok varis phi sys_fun).
Let rs0 := rules_arg rules.
Context (Hr0 : wf_rules varis rs0) (Hs0 : sound_rules varis phi rs0)
        (Hb0 : forall b, brs = Some b -> valid_brs varis probs rs0 b).
Context (Run : run varis probs sys_fun g rules brs = Ok s).

Lemma run_vectors r : In r (s_sys s) -> In (snd (fst r)) (sp varis).
Proof.
  intros Hr. destruct (Z_lt_le_dec 0 (g_max_sf g)) as [Hm|Hm].
  - pose proof (run_final varis probs phi sys_fun g rules brs Hw Hp Hsys Hr0 Hs0 Hb0 Hm) as F. rewrite Run in F.
    destruct F as (h0 & b & u & F). cbv zeta in F. destruct F as (_ & _ & _ & _ & _ & _ & _ & _ & _ & _ & (SP & _) & _).
    apply (SP r Hr).
  - rewrite (run_zero varis probs sys_fun g rules brs Hm) in Run. injection Run as <-. destruct Hr.
Qed.

Lemma run_rules_good : wf_rules varis (s_rules s) /\ sound_rules varis phi (s_rules s).
Proof.
  destruct (Z_lt_le_dec 0 (g_max_sf g)) as [Hm|Hm].
  - pose proof (run_final varis probs phi sys_fun g rules brs Hw Hp Hsys Hr0 Hs0 Hb0 Hm) as F. rewrite Run in F.
    destruct F as (h0 & b & u & F). cbv zeta in F. destruct F as (_ & A & B & _). auto.
  - rewrite (run_zero varis probs sys_fun g rules brs Hm) in Run. injection Run as <-. auto.
Qed.

Lemma run_n_rules : (n_rules (s_rules s) <= n_rules rs0 + List.length (s_sys s))%nat.
Proof.
  destruct (run_calls _ _ _ _ _ _ _ Run) as (ns & F & C). apply fold_length in F. fold rs0 in F.
  assert (L : List.length (s_sys s) = List.length ns) by (clear - C; induction C; cbn; congruence). rewrite L. exact F.
Qed.

Lemma run_ns ns : Forall2 (fun (r : sysres) n => run_sys_fn (snd (fst r)) sys_fun varis = Ok (fst n, snd n, r)) (s_sys s) ns ->
  forall n, In n ns -> exists x r, In x (sp varis) /\ run_sys_fn x sys_fun varis = Ok (fst n, snd n, r).
Proof.
  intros C n Hn. apply In_nth_error in Hn as [i Hi].
  assert (V : forall l l', Forall2 (fun (r : sysres) n => run_sys_fn (snd (fst r)) sys_fun varis = Ok (fst n, snd n, r)) l l' ->
     forall i n, nth_error l' i = Some n -> exists r, In r l /\ run_sys_fn (snd (fst r)) sys_fun varis = Ok (fst n, snd n, r)).
  { clear. intros l l' F. induction F as [|a b l l' H F IH]; intros i n Hi; [destruct i; discriminate|].
    destruct i as [|i]; cbn in Hi; [injection Hi as <-; exists a; split; [left; auto|exact H]|].
    destruct (IH i n Hi) as (r & A & B). exists r. split; [right; auto|exact B]. }
  destruct (V _ _ C i n Hi) as (r & Ir & Er). exists (snd (fst r)), r. split; [apply run_vectors; auto|exact Er].
Qed.

Context (Ha0 : irredundant rs0).
Lemma run_irredundant : irredundant (s_rules s).
Proof.
  destruct (run_calls _ _ _ _ _ _ _ Run) as (ns & F & C). destruct Ha0 as [A1 A2].
  apply (main_updates rs0 ns (s_rules s)); auto.
  - intros r Hr. apply in_app_or in Hr as [Hr|Hr]; [apply (proj1 Hr0 r Hr)|apply (proj2 Hr0 r Hr)].
  - intros n Hn. destruct (run_ns ns C n Hn) as (x & r & Hx & Er).
    destruct (run_sys_fn_ok varis phi sys_fun x Hw Hsys Hx) as (val & m & rule & s' & _ & E & _ & W & _).
    rewrite E in Er. injection Er as <- _ _. apply W.
Qed.

Context (Ht0 : tidy_rules varis rs0) (Hst : sys_tidy varis phi sys_fun).
Lemma run_tidy : tidy_rules varis (s_rules s).
Proof.
  destruct (run_calls _ _ _ _ _ _ _ Run) as (ns & F & C). apply fold_origin in F as [F1 F2].
  split; intros r Hr.
  - destruct (F1 r Hr) as [X|X]; [apply (proj1 Ht0); auto|]. destruct (run_ns ns C _ X) as (x & r' & Hx & Er).
    cbn [fst snd] in Er. destruct (run_sys_tidy _ _ _ _ _ _ _ Hw Hsys Hst Hx Er) as (_ & T & _). auto.
  - destruct (F2 r Hr) as [X|X]; [apply (proj2 Ht0); auto|]. destruct (run_ns ns C _ X) as (x & r' & Hx & Er).
    cbn [fst snd] in Er. destruct (run_sys_tidy _ _ _ _ _ _ _ Hw Hsys Hst Hx Er) as (_ & _ & T). auto.
Qed.
End RunRules.

Lemma nth_mid {A B} (f : A -> B) h e y : nth_error ((map f h ++ [f e]) ++ [y]) (List.length h) = Some (f e).
Proof.
  rewrite nth_error_app1 by (rewrite app_length, map_length; cbn; lia).
  rewrite nth_error_app2 by (rewrite map_length; lia). rewrite map_length, Nat.sub_diag. reflexivity.
Qed.

Lemma nodup_perm {A} (l l' : list A) : NoDup l -> NoDup l' -> (forall x, In x l <-> In x l') -> Permutation l l'.
Proof. intros. apply NoDup_Permutation; auto. Qed.

(** rules with the same corner have the same entries *)
Lemma low_same varis r r' : wf_varis varis -> wf_rule varis r -> wf_rule varis r' -> tidy_s varis r -> tidy_s varis r' ->
  low_corner varis r = low_corner varis r' -> forall k, dfind r k = dfind r' k.
Proof.
  intros Hw W W' T T' E k. destruct (dfind varis k) as [v|] eqn:Ev.
  - apply dfind_In in Ev. pose proof (low_coord varis Hw r k v Ev) as A. pose proof (low_coord varis Hw r' k v Ev) as B.
    rewrite E, B in A. unfold coord in A. destruct (dfind r k) as [z|] eqn:E1, (dfind r' k) as [z'|] eqn:E2; auto.
    + congruence.
    + apply dfind_In in E1. specialize (T k z v E1 Ev). lia.
    + apply dfind_In in E2. specialize (T' k z' v E2 Ev). lia.
  - assert (N : forall q, wf_rule varis q -> dfind q k = None).
    { intros q [_ I]. destruct (dfind q k) as [z|] eqn:X; auto. apply dfind_In, In_keys, I in X.
      apply dfind_keys in X as [v X]. congruence. }
    rewrite !N; auto.
Qed.
Lemma high_same varis r r' : wf_varis varis -> wf_rule varis r -> wf_rule varis r' -> tidy_f varis r -> tidy_f varis r' ->
  high_corner varis r = high_corner varis r' -> forall k, dfind r k = dfind r' k.
Proof.
  intros Hw W W' T T' E k. destruct (dfind varis k) as [v|] eqn:Ev.
  - apply dfind_In in Ev. pose proof (high_coord varis Hw r k v Ev) as A. pose proof (high_coord varis Hw r' k v Ev) as B.
    rewrite E, B in A. destruct (dfind r k) as [z|] eqn:E1, (dfind r' k) as [z'|] eqn:E2; auto.
    + congruence.
    + apply dfind_In in E1. specialize (T k z v E1 Ev). lia.
    + apply dfind_In in E2. specialize (T' k z' v E2 Ev). lia.
  - assert (N : forall q, wf_rule varis q -> dfind q k = None).
    { intros q [_ I]. destruct (dfind q k) as [z|] eqn:X; auto. apply dfind_In, In_keys, I in X.
      apply dfind_keys in X as [v X]. congruence. }
    rewrite !N; auto.
Qed.
