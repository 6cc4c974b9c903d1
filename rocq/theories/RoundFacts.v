(** Rounded arithmetic: facts for C102. *)
From Coq Require Import ZArith List String Bool Arith Lia QArith Qcanon Permutation.
From Verif Require Import Py Num Vari Brc SpecBrc PyFacts VariFacts BrcFacts BrcRules BrcProb BrcDecomp BrcRun BrcMain NetSys McsFacts Round SpecRound.
Import ListNotations.
Open Scope string_scope.
Open Scope Z_scope.
Open Scope list_scope.

(** * Relative errors *)
Section Near.
Variable u : Qc.
Hypothesis u0 : (0 <= u)%Qc.
Hypothesis u1 : (u <= 1)%Qc.

Lemma pow_s (x : Qc) n : (x ^ S n = x * x ^ n)%Qc.
Proof. reflexivity. Qed.

Lemma pow_add (x : Qc) n m : (x ^ (n + m) = x ^ n * x ^ m)%Qc.
Proof. induction n as [|n IH]; [cbn; ring|]. cbn [plus]. rewrite !pow_s, IH. ring. Qed.

Lemma pow_nonneg (x : Qc) n : (0 <= x -> 0 <= x ^ n)%Qc.
Proof. intros H. induction n as [|n IH]; [cbn; discriminate|]. rewrite pow_s. apply qcmult_nonneg; auto. Qed.

Lemma low_nonneg n : (0 <= (1 - u) ^ n)%Qc.
Proof. apply pow_nonneg. qc_lra. Qed.
Lemma high_nonneg n : (0 <= (1 + u) ^ n)%Qc.
Proof. apply pow_nonneg. qc_lra. Qed.

Lemma low_mono n m : (n <= m)%nat -> ((1 - u) ^ m <= (1 - u) ^ n)%Qc.
Proof.
  intros H. induction H as [|m H IH]; [apply Qcle_refl|]. apply Qcle_trans with ((1 - u) ^ m)%Qc; auto.
  rewrite pow_s. pose proof (qcmult_nonneg u _ u0 (low_nonneg m)) as A.
  replace ((1 - u) * (1 - u) ^ m)%Qc with ((1 - u) ^ m - u * (1 - u) ^ m)%Qc by ring. qc_lra.
Qed.
Lemma high_mono n m : (n <= m)%nat -> ((1 + u) ^ n <= (1 + u) ^ m)%Qc.
Proof.
  intros H. induction H as [|m H IH]; [apply Qcle_refl|]. apply Qcle_trans with ((1 + u) ^ m)%Qc; auto.
  rewrite pow_s. pose proof (qcmult_nonneg u _ u0 (high_nonneg m)) as A.
  replace ((1 + u) * (1 + u) ^ m)%Qc with ((1 + u) ^ m + u * (1 + u) ^ m)%Qc by ring. qc_lra.
Qed.

Lemma near_refl x : near u 0 x x.
Proof. unfold near. cbn. replace (x * 1)%Qc with x by ring. split; apply Qcle_refl. Qed.

Lemma near_nonneg n x y : (0 <= x)%Qc -> near u n x y -> (0 <= y)%Qc.
Proof. intros Hx [H _]. eapply Qcle_trans; [|exact H]. apply qcmult_nonneg; auto. apply low_nonneg. Qed.

Lemma near_more n m x y : (0 <= x)%Qc -> (n <= m)%nat -> near u n x y -> near u m x y.
Proof.
  intros Hx H [A B]. split.
  - eapply Qcle_trans; [|exact A]. apply qcmult_le_l; auto. apply low_mono; auto.
  - eapply Qcle_trans; [exact B|]. apply qcmult_le_l; auto. apply high_mono; auto.
Qed.

Lemma near_plus n x y x' y' : near u n x y -> near u n x' y' -> near u n (x + x') (y + y').
Proof.
  intros [A B] [A' B']. split.
  - replace ((x + x') * (1 - u) ^ n)%Qc with (x * (1 - u) ^ n + x' * (1 - u) ^ n)%Qc by ring.
    apply Qcplus_le_compat; auto.
  - replace ((x + x') * (1 + u) ^ n)%Qc with (x * (1 + u) ^ n + x' * (1 + u) ^ n)%Qc by ring.
    apply Qcplus_le_compat; auto.
Qed.

Lemma qcmult_le2 a b c d : (0 <= a -> a <= b -> 0 <= c -> c <= d -> a * c <= b * d)%Qc.
Proof.
  intros Ha Hab Hc Hcd. apply Qcle_trans with (b * c)%Qc.
  - apply Qcmult_le_compat_r; auto.
  - apply qcmult_le_l; auto. apply Qcle_trans with a; auto.
Qed.

Lemma near_mult n m x y x' y' : (0 <= x)%Qc -> (0 <= x')%Qc -> near u n x y -> near u m x' y' ->
  near u (n + m) (x * x') (y * y').
Proof.
  intros Hx Hx' N N'. pose proof (near_nonneg _ _ _ Hx N) as Hy. pose proof (near_nonneg _ _ _ Hx' N') as Hy'.
  destruct N as [A B], N' as [A' B']. unfold near. rewrite !pow_add. split.
  - replace (x * x' * ((1 - u) ^ n * (1 - u) ^ m))%Qc with ((x * (1 - u) ^ n) * (x' * (1 - u) ^ m))%Qc by ring.
    apply qcmult_le2; auto; apply qcmult_nonneg; auto; apply low_nonneg.
  - replace (x * x' * ((1 + u) ^ n * (1 + u) ^ m))%Qc with ((x * (1 + u) ^ n) * (x' * (1 + u) ^ m))%Qc by ring.
    apply qcmult_le2; auto.
Qed.

Lemma qabs_pos x : (0 <= x)%Qc -> qabs x = x.
Proof. intros H. unfold qabs. destruct (qc_ltb x 0) eqn:E; auto. apply qc_ltb_lt in E. exfalso. apply (Qclt_not_le _ _ E H). Qed.
Lemma qabs_ge x : (x <= qabs x)%Qc /\ (- x <= qabs x)%Qc.
Proof.
  unfold qabs. destruct (qc_ltb x 0) eqn:E.
  - apply qc_ltb_lt in E. split; [qc_lra|apply Qcle_refl].
  - apply qc_ltb_ge in E. split; [apply Qcle_refl|qc_lra].
Qed.
Lemma qabs_le x b : (x <= b)%Qc -> (- x <= b)%Qc -> (qabs x <= b)%Qc.
Proof. unfold qabs. destruct (qc_ltb x 0); auto. Qed.

Variable rnd : Qc -> Qc.
Hypothesis R : rounding u rnd.

Lemma near_rnd n x y : (0 <= x)%Qc -> near u n x y -> near u (S n) x (rnd y).
Proof.
  intros Hx N. pose proof (near_nonneg _ _ _ Hx N) as Hy. destruct N as [A B].
  pose proof (R y) as Ry. rewrite (qabs_pos y Hy) in Ry. destruct (qabs_ge (rnd y - y)) as [P1 P2].
  unfold near. rewrite !pow_s. split.
  - apply Qcle_trans with ((1 - u) * y)%Qc.
    + replace (x * ((1 - u) * (1 - u) ^ n))%Qc with ((1 - u) * (x * (1 - u) ^ n))%Qc by ring. apply qcmult_le_l; auto. qc_lra.
    + replace ((1 - u) * y)%Qc with (y - u * y)%Qc by ring. set (z := (u * y)%Qc) in *. qc_lra.
  - apply Qcle_trans with ((1 + u) * y)%Qc.
    + replace ((1 + u) * y)%Qc with (y + u * y)%Qc by ring. set (z := (u * y)%Qc) in *. qc_lra.
    + replace (x * ((1 + u) * (1 + u) ^ n))%Qc with ((1 + u) * (x * (1 + u) ^ n))%Qc by ring. apply qcmult_le_l; auto. qc_lra.
Qed.

Lemma fold_near n : forall l l', Forall2 (fun x y => (0 <= x)%Qc /\ near u n x y) l l' ->
  forall m a a', (0 <= a)%Qc -> (n <= m)%nat -> near u m a a' ->
  near u (m + List.length l) (a + qsum l) (fold_left (fun a x => rnd (a + x)%Qc) l' a').
Proof.
  induction 1 as [|x y l l' (Hx & N) F IH]; intros m a a' Ha Hnm Na; cbn [List.length fold_left qsum].
  - rewrite Nat.add_0_r. replace (a + 0)%Qc with a by ring. exact Na.
  - replace (m + S (List.length l))%nat with (S m + List.length l)%nat by lia.
    replace (a + (x + qsum l))%Qc with ((a + x) + qsum l)%Qc by ring.
    apply IH; [qc_lra|lia|]. apply near_rnd; [qc_lra|]. apply near_plus; auto. apply near_more with n; auto.
Qed.

Lemma r_sum_near n l l' : Forall2 (fun x y => (0 <= x)%Qc /\ near u n x y) l l' ->
  near u (n + List.length l) (qsum l) (r_sum rnd l').
Proof.
  intros F. unfold r_sum. pose proof (fold_near n l l' F n 0%Qc 0%Qc (Qcle_refl 0) (le_n n)) as H.
  replace (0 + qsum l)%Qc with (qsum l) in H by ring. apply H.
  apply near_more with 0%nat; [apply Qcle_refl|lia|apply near_refl].
Qed.

(** many small errors: at most twice their sum *)
Lemma high_bound n : ((1 + u) ^ n * (1 - qz (Z.of_nat n) * u) <= 1)%Qc.
Proof.
  induction n as [|n IH].
  - cbn. change (qz (Z.of_nat 0)) with 0%Qc. replace (1 * (1 - 0 * u))%Qc with 1%Qc by ring. apply Qcle_refl.
  - eapply Qcle_trans; [|exact IH]. rewrite pow_s.
    assert (E : qz (Z.of_nat (S n)) = (qz (Z.of_nat n) + 1)%Qc).
    { rewrite qz_succ. ring. }
    rewrite E. set (k := qz (Z.of_nat n)) in *.
    assert (K : (0 <= k)%Qc).
    { apply qz_nonneg. }
    replace ((1 + u) * (1 + u) ^ n * (1 - (k + 1) * u))%Qc with ((1 + u) ^ n * (1 - k * u) - (1 + u) ^ n * (u * u * (k + 1)))%Qc by ring.
    assert (X : (0 <= (1 + u) ^ n * (u * u * (k + 1)))%Qc).
    { apply qcmult_nonneg; [apply high_nonneg|]. apply qcmult_nonneg; [apply qcmult_nonneg; auto|]. qc_lra. }
    set (y := ((1 + u) ^ n * (u * u * (k + 1)))%Qc) in *. set (z := ((1 + u) ^ n * (1 - k * u))%Qc). qc_lra.
Qed.

Lemma low_bound n : (1 - qz (Z.of_nat n) * u <= (1 - u) ^ n)%Qc.
Proof.
  induction n as [|n IH].
  - cbn. change (qz (Z.of_nat 0)) with 0%Qc. replace (1 - 0 * u)%Qc with 1%Qc by ring. apply Qcle_refl.
  - rewrite pow_s, qz_succ. pose proof (qz_nonneg n) as K. set (k := qz (Z.of_nat n)) in *. set (l := ((1 - u) ^ n)%Qc) in *.
    assert (A : ((1 - u) * (1 - k * u) <= (1 - u) * l)%Qc) by (apply qcmult_le_l; [qc_lra|exact IH]).
    eapply Qcle_trans; [|exact A]. pose proof (qcmult_nonneg _ _ K (qcmult_nonneg _ _ u0 u0)) as B.
    replace ((1 - u) * (1 - k * u))%Qc with (1 - (1 + k) * u + k * (u * u))%Qc by ring.
    set (w := (k * (u * u))%Qc) in *. set (z := ((1 + k) * u)%Qc). qc_lra.
Qed.

Lemma high_twice n : (qz (Z.of_nat n) * u <= Q2Qc (1 # 2))%Qc -> ((1 + u) ^ n <= 1 + qz (Z.of_nat n) * u + qz (Z.of_nat n) * u)%Qc.
Proof.
  intros H. pose proof (high_bound n) as B. set (t := (qz (Z.of_nat n) * u)%Qc) in *. set (h := ((1 + u) ^ n)%Qc) in *.
  assert (T : (0 <= t)%Qc).
  { unfold t. apply qcmult_nonneg; auto. apply qz_nonneg. }
  destruct (Qclt_le_dec (1 + t + t) h) as [C|C]; auto. exfalso.
  assert (P : (0 < 1 - t)%Qc).
  { assert (X : (Q2Qc (1 # 2) < 1)%Qc) by (vm_compute; reflexivity). revert H X. generalize (Q2Qc (1 # 2)). intros w H X. qc_lra. }
  assert (X : ((1 + t + t) * (1 - t) < h * (1 - t))%Qc) by (apply Qcmult_lt_compat_r; auto).
  assert (Y : (0 <= t * (1 - (t + t)))%Qc).
  { apply qcmult_nonneg; auto. assert (E : (Q2Qc (1 # 2) + Q2Qc (1 # 2) <= 1)%Qc) by (vm_compute; discriminate).
    revert H E. clearbody t. clear. generalize (Q2Qc (1 # 2)). intros w H E.
    replace (1 - (t + t))%Qc with (1 - t - t)%Qc by ring. qc_lra. }
  replace ((1 + t + t) * (1 - t))%Qc with (1 + t * (1 - (t + t)))%Qc in X by ring.
  clearbody t h. set (w := (t * (1 - (t + t)))%Qc) in *. set (z := (h * (1 - t))%Qc) in *. qc_lra.
Qed.
End Near.

(** * Branches *)
Section Boxes.
Variables (varis : dict variable) (probs : prob_dict) (u : Qc) (rnd : Qc -> Qc).
Hypothesis (Hw : wf_varis varis) (Hp : wf_probs varis probs).
Hypothesis (u0 : (0 <= u)%Qc) (u1 : (u <= 1)%Qc) (R : rounding u rnd).

Lemma pr_pos k v x : In (k, v) varis -> 0 <= x < nvals v -> (0 <= pr probs k x)%Qc.
Proof.
  intros Hin Hx. destruct (Hp k v Hin) as [(d & E & H) _]. destruct (H x Hx) as (q & Eq & Q).
  unfold pr. rewrite E, Eq. exact Q.
Qed.

Lemma zr_length a b : List.length (zrange a b) = Z.to_nat (b - a).
Proof. unfold zrange. rewrite map_length, seq_length. auto. Qed.
Lemma zr_In a b x : In x (zrange a b) -> a <= x < b.
Proof. unfold zrange. intros H. apply in_map_iff in H as (i & <- & Hi). apply in_seq in Hi. lia. Qed.

Lemma prob_near_gen up : forall vs down, incl vs varis ->
  Forall2 (fun (kv : string * Z) (nv : string * variable) => fst kv = fst nv /\ 0 <= snd kv /\ coord up (fst kv) < nvals (snd nv)) down vs ->
  forall n p p', (0 <= p)%Qc -> near u n p p' ->
  near u (n + ops vs) (p * qprod (map (fun kv => qsum (map (pr probs (fst kv)) (zrange (snd kv) (coord up (fst kv) + 1)))) down))
    (fold_left (fun p kv => rnd (p * r_comp rnd probs up kv)%Qc) down p').
Proof.
  intros vs down Hi F. induction F as [|[k y] [k' v] down vs (E & H0 & H1) F IH]; intros n p p' Hp0 N.
  - cbn. rewrite Nat.add_0_r. replace (p * 1)%Qc with p by ring. exact N.
  - cbn [fst snd] in *. subst k'. cbn [map fold_left ops fold_right fst snd].
    assert (Hin : In (k, v) varis) by (apply Hi; left; auto).
    set (l := zrange y (coord up k + 1)). set (q := qsum (map (pr probs k) l)).
    assert (P : forall x, In x l -> (0 <= pr probs k x)%Qc).
    { intros x Hx. apply zr_In in Hx. apply (pr_pos k v); auto. lia. }
    assert (Q : (0 <= q)%Qc).
    { unfold q. apply qsum_nonneg. intros z Hz. apply in_map_iff in Hz as (x & <- & Hx). auto. }
    assert (Nc : near u (S (Z.to_nat (nvals v))) q (r_comp rnd probs up (k, y))).
    { unfold r_comp. cbn [fst snd]. fold l. apply near_more with (1 + List.length l)%nat; auto.
      - unfold l. rewrite zr_length. lia.
      - unfold q. rewrite <- (map_length (pr probs k) l). apply r_sum_near; auto.
        clear -P u0 u1 R. induction l as [|x l IHl]; cbn; constructor.
        + split; [apply P; left; auto|]. apply near_rnd with (n := 0%nat); auto; [apply P; left; auto|apply near_refl].
        + apply IHl. intros z Hz. apply P. right. auto. }
    cbn [qprod]. fold q.
    match goal with |- near _ _ (p * (q * ?z))%Qc _ => replace (p * (q * z))%Qc with ((p * q) * z)%Qc by ring end.
    fold (ops vs).
    replace (n + (S (S (Z.to_nat (nvals v))) + ops vs))%nat with (S (n + S (Z.to_nat (nvals v))) + ops vs)%nat by lia.
    apply IH.
    + intros z Hz. apply Hi. right. auto.
    + apply qcmult_nonneg; auto.
    + apply near_rnd; auto; [apply qcmult_nonneg; auto|]. apply near_mult; auto.
Qed.

Lemma r_prob_near b : wf_br varis b ->
  near u (ops varis) (prob_event varis probs (in_branch b)) (r_prob rnd probs (b_down b) (b_up b)).
Proof.
  intros Hb. rewrite (prob_event_box varis probs Hw b Hb). destruct Hb as (H1 & H2 & H3).
  pose proof (prob_near_gen (b_up b) varis (b_down b) (incl_refl _)) as G.
  unfold r_prob. match goal with |- near _ _ ?z _ => replace z with (1 * z)%Qc by ring end.
  apply (G) with (n := 0%nat); [|discriminate|apply near_refl].
  assert (K : keys (b_down b) = keys varis) by (apply (sp_keys varis); auto).
  assert (A : forall kv, In kv (b_down b) -> forall v, In (fst kv, v) varis -> 0 <= snd kv /\ coord (b_up b) (fst kv) < nvals v).
  { intros [k y] Hin v Hv. cbn [fst snd] in *. split.
    - pose proof (sp_coord varis Hw _ k v H1 Hv) as C. rewrite (coord_In (b_down b) k y) in C; [lia| |auto].
      rewrite K. apply Hw.
    - apply (sp_coord varis Hw _ k v H2 Hv). }
  clear G H1 H2 H3.
  assert (I : incl varis varis) by apply incl_refl. revert K A I. generalize (b_down b) as d.
  generalize varis at 1 3 5 as vs.
  induction vs as [|[k v] vs IH]; intros [|[k' y] d] K A I; try discriminate; constructor.
  - injection K as <- K. cbn. split; auto. apply (A (k', y)); [left; auto|]. apply I. left. auto.
  - injection K as <- K. apply IH; auto; [|intros z Hz; apply I; right; auto].
    intros kv Hkv v' Hv'. apply A; [right; auto|auto].
Qed.

Lemma in_whole b x : box_of b = whole varis -> In x (sp varis) -> in_branch b x = true.
Proof.
  intros E Hx. injection E as E1 E2. apply (in_branch_spec varis Hw); auto. rewrite E1, E2.
  change (le_vec varis (worst_of varis) x /\ le_vec varis x (best_of varis)).
  split; intros k Hk; destruct (varis_find varis k Hk) as (v & Hv & _); pose proof (sp_coord varis Hw x k v Hx Hv).
  - pose proof (worst_coord varis Hw k v Hv). lia.
  - pose proof (best_coord varis Hw k v Hv). lia.
Qed.

Lemma stored_near b : wf_br varis b -> stored_p rnd varis probs b ->
  near u (ops varis) (prob_event varis probs (in_branch b)) (b_p b).
Proof.
  intros Hb [->|[E ->]]; [apply r_prob_near; auto|].
  assert (X : prob_event varis probs (in_branch b) = 1%Qc).
  { rewrite <- (prob_total varis probs Hp). apply prob_event_ext. intros x Hx. apply in_whole; auto. }
  rewrite X. apply near_more with 0%nat; auto; [discriminate|lia|apply near_refl].
Qed.

Definition exactly (b : branch) : branch :=
  mkBr (b_down b) (b_up b) (b_down_state b) (b_up_state b) (prob_event varis probs (in_branch b)).

Lemma exactly_in b x : in_branch (exactly b) x = in_branch b x.
Proof. reflexivity. Qed.
Lemma exactly_partition brs : partition varis brs -> partition varis (map exactly brs).
Proof.
  intros H x Hx. rewrite <- (H x Hx). clear. induction brs as [|b brs IH]; auto. cbn [map filter]. rewrite exactly_in.
  destruct (in_branch b x); cbn; lia.
Qed.
Lemma exactly_probs brs : exact_probs varis probs (map exactly brs).
Proof. intros b Hb. apply in_map_iff in Hb as (b' & <- & _). reflexivity. Qed.
Lemma exactly_sel g brs x : (forall b, g (exactly b) = g b) -> sel g (map exactly brs) x = sel g brs x.
Proof. intros G. unfold sel. induction brs as [|b brs IH]; auto. cbn [map existsb]. rewrite G, exactly_in, IH. auto. Qed.

Lemma sum_near g brs : (forall b, g (exactly b) = g b) -> boxes varis brs -> partition varis brs ->
  (forall b, In b brs -> stored_p rnd varis probs b) ->
  near u (ops varis + List.length brs) (prob_event varis probs (sel g brs)) (r_sum rnd (map b_p (filter g brs))).
Proof.
  intros G B P S.
  assert (X : prob_event varis probs (sel g brs) = qsum (map b_p (filter g (map exactly brs)))).
  { rewrite (sel_prob varis probs g (map exactly brs)); [|apply exactly_probs|apply exactly_partition; auto].
    apply prob_event_ext. intros x _. symmetry. apply exactly_sel. auto. }
  assert (F : Forall2 (fun x y => (0 <= x)%Qc /\ near u (ops varis) x y) (map b_p (filter g (map exactly brs))) (map b_p (filter g brs))).
  { clear X P. induction brs as [|b brs IH]; [constructor|]. cbn [map filter]. rewrite G.
    assert (IH' := IH (fun z H => B z (or_intror H)) (fun z H => S z (or_intror H))).
    destruct (g b); auto. cbn [map]. constructor; auto. split; [apply prob_event_nonneg; auto|].
    apply stored_near; [apply B; left; auto|apply S; left; auto]. }
  pose proof (r_sum_near u u0 u1 rnd R _ _ _ F) as N. rewrite <- X in N.
  refine (near_more u u0 u1 _ _ _ _ _ _ N); [apply prob_event_nonneg; auto|].
  rewrite map_length. apply Nat.add_le_mono_l.
  clear. induction brs as [|b brs IH]; cbn; auto. destruct (g (exactly b)); cbn; lia.
Qed.
End Boxes.

(** * Searches *)
Section Searches.
Variables (varis : dict variable) (phi : dict Z -> bool) (sys_fun : sysfun) (rs0 : ruleset).
Hypothesis (Hw : wf_varis varis) (Hs : sys_ok varis phi sys_fun).
Hypothesis (R0 : wf_rules varis rs0) (T0 : sound_rules varis phi rs0).

Definition bare (bx : box) : branch := mkBr (fst bx) (snd bx) U_ U_ 0%Qc.

Lemma whole_wf : wf_br varis (bare (whole varis)).
Proof.
  split; [apply (worst_sp varis Hw)|]. split; [apply (best_sp varis Hw)|].
  intros k Hk. destruct (varis_find varis k Hk) as (v & Hv & _). change (coord (worst_of varis) k <= coord (best_of varis) k).
  rewrite (worst_coord varis Hw k v Hv), (best_coord varis Hw k v Hv). destruct Hw as [_ H]. specialize (H k v Hv). lia.
Qed.

Definition covered (bs : list box) : Prop :=
  Forall (fun bx => wf_br varis (bare bx)) bs /\ partition varis (map bare bs).

Lemma whole_covered : covered [whole varis].
Proof.
  split; [constructor; [apply whole_wf|constructor]|]. intros x Hx. cbn [map filter].
  rewrite (in_whole varis Hw (bare (whole varis)) x eq_refl Hx). auto.
Qed.

Lemma searched_inv rs bs : searched varis sys_fun rs0 rs bs ->
  wf_rules varis rs /\ sound_rules varis phi rs /\ covered bs.
Proof.
  induction 1 as [|rs bs H IH|rs l1 d u l2 k s H IH Hk Hks|rs bs bs' H IH Pm|rs bs x rule st r rs' H IH Hx E1 E2].
  - split; auto. split; auto. apply whole_covered.
  - destruct IH as (A & B & _). split; auto. split; auto. apply whole_covered.
  - destruct IH as (A & B & F & P). split; auto. split; auto.
    apply Forall_app in F as [F1 F2]. inversion F2 as [|? ? Wb F3]; subst.
    assert (PS : proper_split varis (bare (d, u)) k s) by (split; auto).
    set (dm := [] : prob_dict). set (rr := mkRules [] []).
    pose proof (child_up_wf varis dm rr Hw (bare (d, u)) k s Wb PS) as Wu.
    pose proof (child_down_wf varis dm rr Hw (bare (d, u)) k s Wb PS) as Wd.
    split.
    + apply Forall_app. split; [exact F1|]. constructor; [exact Wu|]. constructor; [exact Wd|exact F3].
    + intros x Hx. specialize (P x Hx). rewrite map_app in *. cbn [map] in *. rewrite filter_app in *. cbn [filter] in *.
      destruct (child_cover varis dm rr Hw (bare (d, u)) k s x Wb PS Hx) as [C0 C1].
      change (in_branch (child_up varis dm rr (bare (d, u)) k s) x) with (in_branch (bare (d, dset u k (s - 1))) x) in *.
      change (in_branch (child_down varis dm rr (bare (d, u)) k s) x) with (in_branch (bare (dset d k s, u)) x) in *.
      destruct (in_branch (bare (d, u)) x).
      * rewrite (C1 eq_refl). destruct (in_branch (bare (dset d k s, u)) x); cbn [negb]; rewrite app_length in *; cbn [List.length] in *; lia.
      * destruct (C0 eq_refl) as [-> ->]. auto.
  - destruct IH as (A & B & F & P). split; auto. split; auto. split.
    + rewrite Forall_forall in *. intros bx Hb. apply F. eapply Permutation_in; [apply Permutation_sym; eauto|auto].
    + intros x Hx. rewrite <- (P x Hx). apply Permutation_length. apply Permutation_sym.
      clear -Pm. induction Pm; cbn [map filter].
      * constructor.
      * destruct (in_branch (bare x0) x); auto.
      * destruct (in_branch (bare x0) x), (in_branch (bare y) x); try apply Permutation_refl. constructor.
      * eapply Permutation_trans; eauto.
  - destruct IH as (A & B & C). destruct (main_run_sys_fn varis phi sys_fun x Hw Hs Hx) as (rule' & s' & r' & E & Es & W & T & F).
    rewrite E1 in E. injection E as <- <- <-.
    assert (Hu : st <> U_) by (rewrite Es; destruct (phi x); discriminate).
    destruct (update_spec rs rule st Hu) as (rs2 & E & _ & _ & U1 & U2). rewrite E2 in E. injection E as <-.
    split; [|split; auto].
    + split; intros z Hz; [apply U1 in Hz|apply U2 in Hz]; destruct Hz as [Hz|[_ ->]]; auto; destruct A as [A1 A2]; auto.
    + split; intros z y Hz Hy Sz; [apply U1 in Hz|apply U2 in Hz]; destruct Hz as [Hz|[E ->]].
      * apply (proj1 B z); auto.
      * rewrite Es in E. destruct (phi x); [|discriminate]. apply T; auto.
      * apply (proj2 B z); auto.
      * rewrite Es in E. destruct (phi x); [discriminate|]. apply F; auto.
Qed.

Lemma searched_brs rs brs : searched varis sys_fun rs0 rs (map box_of brs) ->
  boxes varis brs /\ partition varis brs.
Proof.
  intros H. apply searched_inv in H as (_ & _ & F & P). split.
  - intros b Hb. rewrite Forall_forall in F. apply (F (box_of b)). apply in_map. auto.
  - intros x Hx. rewrite <- (P x Hx). clear. induction brs as [|b brs IH]; auto. cbn [map filter].
    change (in_branch (bare (box_of b)) x) with (in_branch b x). destruct (in_branch b x); cbn; lia.
Qed.

Lemma searched_labels rs brs : searched varis sys_fun rs0 rs (map box_of brs) -> labels_by_rules rs brs ->
  sound_labels varis phi brs.
Proof.
  intros H L b x Hb Hx Hin. destruct (searched_brs rs brs H) as [B _]. apply searched_inv in H as (W & [S1 S2] & _).
  destruct (L b Hb) as (LD & _ & _ & LU). destruct (B b Hb) as (D & U & _).
  apply (in_branch_spec varis Hw b x Hx) in Hin as [I1 I2]. split; intros E.
  - assert (M := LU E). apply (match_f_anti varis rs x (b_up b)) in M; auto.
    apply match_f_spec in M as (r & Hr' & M). eapply S2; eauto.
  - assert (M := LD E). apply (match_s_mono varis rs (b_down b) x) in M; auto.
    apply match_s_spec in M as (r & Hr' & M). eapply S1; eauto.
Qed.
End Searches.

(** * The decomposition with rounding *)
Section RDecomp.
Variables (varis : dict variable) (probs : prob_dict) (rs : ruleset) (rnd : Qc -> Qc).
Hypothesis (Hw : wf_varis varis) (Hp : wf_probs varis probs) (Hr : wf_rules varis rs).

Lemma r_range_ok k v a b : In (k, v) varis -> 0 <= a -> b <= nvals v ->
  r_range rnd probs k a b = Ok (r_sum rnd (map (fun x => rnd (pr probs k x)) (zrange a b))).
Proof.
  intros Hin Ha Hb. destruct (Hp k v Hin) as [(d & E & H) _]. unfold r_range.
  rewrite (mapM_ok _ (fun x => rnd (pr probs k x))); [auto|]. intros x Hx. apply zr_In in Hx.
  destruct (H x) as (q & Eq & _); [lia|]. unfold pr, dget. rewrite E. cbn [bind]. rewrite Eq. auto.
Qed.

Lemma r_approx_ok d u : In d (sp varis) -> In u (sp varis) ->
  r_approx rnd d u probs = Ok (r_prob rnd probs d u).
Proof.
  intros Hd Hu. unfold r_approx, r_prob. apply foldM_ok. intros p [k y] Hin. cbn [fst snd].
  assert (Hk : In k (keys varis)) by (rewrite <- (sp_keys varis _ Hd); eapply In_keys; eauto).
  rewrite dget_coord by (rewrite (sp_keys varis _ Hu); auto). cbn [bind].
  destruct (varis_find varis k Hk) as (v & Hv & _).
  pose proof (sp_coord varis Hw _ k v Hd Hv) as B1. pose proof (sp_coord varis Hw _ k v Hu Hv) as B2.
  rewrite (coord_In d k y) in B1; [|apply (sp_nodup varis Hw); auto|auto].
  rewrite (r_range_ok k v); [auto|auto|lia|lia].
Qed.

Lemma r_joint_ok b sr : wf_br varis b -> good varis b sr -> exists q, r_joint rnd b (snd sr) (fst sr) probs = Ok q.
Proof.
  intros (H1 & H2 & H3) G. destruct sr as [[| |] r]; cbn in *; try tauto.
  - destruct G as (_ & _ & G).
    eexists. apply (foldM_ok _ (fun p kv => rnd (p * r_sum rnd (map (fun x => rnd (pr probs (fst kv) x)) (zrange (snd kv) (coord (b_up b) (fst kv) + 1))))%Qc)).
    intros p [k v] Hin. cbn. destruct (G k v Hin) as [Hk Hv].
    rewrite dget_coord by (rewrite (sp_keys varis _ H2); auto). cbn.
    destruct (varis_find varis k Hk) as (vv & Hvv & _).
    assert (B1 := sp_coord varis Hw _ k vv H1 Hvv). assert (B2 := sp_coord varis Hw _ k vv H2 Hvv).
    rewrite (r_range_ok k vv) by (auto; lia). auto.
  - destruct G as (_ & _ & G).
    eexists. apply (foldM_ok _ (fun p kv => rnd (p * r_sum rnd (map (fun x => rnd (pr probs (fst kv) x)) (zrange (coord (b_down b) (fst kv)) (snd kv + 1))))%Qc)).
    intros p [k v] Hin. cbn. destruct (G k v Hin) as [Hk Hv].
    rewrite dget_coord by (rewrite (sp_keys varis _ H1); auto). cbn.
    destruct (varis_find varis k Hk) as (vv & Hvv & _).
    assert (B1 := sp_coord varis Hw _ k vv H1 Hvv). assert (B2 := sp_coord varis Hw _ k vv H2 Hvv).
    rewrite (r_range_ok k vv) by (auto; lia). auto.
Qed.

Lemma r_decomp_comp_ok b : wf_br varis b -> no_rules (compat b rs) = false ->
  exists xd x, r_decomp_comp rnd b (compat b rs) probs = Ok (Some (xd, x)) /\ proper_split varis b xd x.
Proof.
  intros Hb Hn. unfold r_decomp_comp.
  set (srs := map (fun r => (S_, r)) (r_s (compat b rs)) ++ map (fun r => (F_, r)) (r_f (compat b rs))).
  assert (Hg : Forall (good varis b) srs).
  { apply Forall_forall. intros sr Hin. unfold srs in Hin. apply in_app_or in Hin as [Hin|Hin];
      apply in_map_iff in Hin as (r & <- & Hin); unfold good; cbn.
    - apply (compat_s_good varis rs Hr). auto.
    - apply (compat_f_good varis rs Hr). auto. }
  assert (Hne : srs <> []).
  { unfold srs. apply no_rules_false in Hn. intros E. apply app_eq_nil in E as [E1 E2].
    apply map_eq_nil in E1, E2. tauto. }
  set (comps := most_common (flat_map (fun sr => keys (snd sr)) srs)).
  assert (Hcov : forall sr k, In sr srs -> In k (keys (snd sr)) -> In k comps).
  { intros sr k H1 H2. apply most_common_In. apply in_flat_map. eauto. }
  assert (Hi : incl comps (keys varis)).
  { intros k Hk. apply (proj1 (most_common_In _ _)) in Hk. apply in_flat_map in Hk as (sr & H1 & H2).
    rewrite Forall_forall in Hg. specialize (Hg sr H1). unfold good in Hg.
    apply in_map_iff in H2 as ([k' v] & E & H2). cbn in E. subst k'.
    destruct sr as [[| |] r]; cbn in *; try tauto; destruct Hg as (_ & _ & Hg); apply (Hg k v H2). }
  destruct (1 <? List.length srs)%nat.
  - assert (exists ks, mapM (fun sr => q <- r_joint rnd b (snd sr) (fst sr) probs ;; Ok (q, sr)) srs = Ok ks /\ map snd ks = srs) as (ks & -> & Eks).
    { clear Hne Hcov. clearbody srs comps. induction srs as [|sr l IH]; cbn.
      - exists []. auto.
      - inversion_clear Hg as [|? ? G Hg']. destruct (r_joint_ok b sr Hb G) as [q ->]. cbn.
        destruct (IH Hg') as (ks & -> & E). cbn. exists ((q, sr) :: ks). cbn. rewrite E. auto. }
    cbn [bind]. set (sorted := sort_desc _ ks).
    assert (P : Permutation (map snd sorted) srs).
    { rewrite <- Eks. apply Permutation_map, sort_desc_perm. }
    apply decomp_in_rules_ok; auto.
    + rewrite Forall_forall in *. intros sr Hin. apply Hg. eapply Permutation_in; eauto.
    + intros E. rewrite E in P. apply Permutation_nil in P. auto.
    + intros sr k H1 H2. apply (Hcov sr k); auto. eapply Permutation_in; eauto.
  - cbn [bind]. apply decomp_in_rules_ok; auto.
Qed.

Definition rc_up (b : branch) (xd : string) (s : Z) : branch :=
  let up := dset (b_up b) xd (s - 1) in
  mkBr (b_down b) up (b_down_state b) (gstate up rs) (r_prob rnd probs (b_down b) up).
Definition rc_down (b : branch) (xd : string) (s : Z) : branch :=
  let down := dset (b_down b) xd s in
  mkBr down (b_up b) (gstate down rs) (b_up_state b) (r_prob rnd probs down (b_up b)).

Lemma rc_up_wf b xd s : wf_br varis b -> proper_split varis b xd s -> wf_br varis (rc_up b xd s).
Proof. intros Hb Hs. exact (child_up_wf varis probs rs Hw b xd s Hb Hs). Qed.
Lemma rc_down_wf b xd s : wf_br varis b -> proper_split varis b xd s -> wf_br varis (rc_down b xd s).
Proof. intros Hb Hs. exact (child_down_wf varis probs rs Hw b xd s Hb Hs). Qed.

Lemma same_length x y : In x (sp varis) -> In y (sp varis) -> List.length x = List.length y.
Proof.
  intros Hx Hy. apply (sp_keys varis) in Hx, Hy. unfold keys in *. rewrite <- (map_length fst x), <- (map_length fst y). congruence.
Qed.

Lemma r_new_up b xd s : wf_br varis b -> proper_split varis b xd s ->
  r_new_branch rnd b rs probs xd s true = Ok (rc_up b xd s).
Proof.
  intros Hb Hs. destruct (rc_up_wf b xd s Hb Hs) as (W1 & W2 & _). cbn [rc_up b_down b_up] in *.
  unfold r_new_branch. rewrite (get_state_ok varis); [|apply (sp_keys varis); auto|auto]. cbn [bind].
  unfold mk_branch. rewrite (same_length _ _ W1 W2), Nat.eqb_refl. cbn [bind].
  rewrite r_approx_ok by auto. auto.
Qed.
Lemma r_new_down b xd s : wf_br varis b -> proper_split varis b xd s ->
  r_new_branch rnd b rs probs xd s false = Ok (rc_down b xd s).
Proof.
  intros Hb Hs. destruct (rc_down_wf b xd s Hb Hs) as (W1 & W2 & _). cbn [rc_down b_down b_up] in *.
  unfold r_new_branch. rewrite (get_state_ok varis); [|apply (sp_keys varis); auto|auto]. cbn [bind].
  unfold mk_branch. rewrite (same_length _ _ W1 W2), Nat.eqb_refl. cbn [bind].
  rewrite r_approx_ok by auto. auto.
Qed.

Definition rok (bc : branch * ruleset) : Prop :=
  let (b, c) := bc in
  wf_br varis b /\ stored_p rnd varis probs b /\ lab_ok rs b /\ (c = compat b rs \/ no_rules c = true).

Inductive r_split_of : branch * ruleset -> list (branch * ruleset) -> Prop :=
| rso_keep b c : keep_branch (eval_br b rs) c = true ->
    r_split_of (b, c) [(eval_br b rs, mkRules [] [])]
| rso_split b c xd s :
    keep_branch (eval_br b rs) c = false -> proper_split varis b xd s ->
    let b1 := rc_up (eval_br b rs) xd s in
    let b2 := rc_down (eval_br b rs) xd s in
    r_split_of (b, c) [(b1, compat b1 rs); (b2, compat b2 rs)].

Lemma r_split_ok bc l : rok bc -> r_split_of bc l ->
  Forall rok l /\
  (forall bc', In bc' l -> no_rules (snd bc') = false -> no_rules (snd bc) = false /\ (width (fst bc') < width (fst bc))%nat).
Proof.
  intros H Sp. destruct Sp as [b c Hk|b c xd s Hk Hs b1 b2]; destruct H as (Hb & Hst & Hl & Hcc).
  - split.
    + constructor; [|constructor]. split; [auto|]. split; [exact Hst|]. split; [|right; auto].
      apply lab_full_ok. apply eval_br_full; auto.
    + intros bc' [<-|[]]. cbn. congruence.
  - assert (Hf := eval_br_full rs b Hl). assert (Hb' : wf_br varis (eval_br b rs)) by auto.
    assert (Hs' : proper_split varis (eval_br b rs) xd s) by auto.
    split.
    + constructor; [|constructor; [|constructor]].
      * split; [apply rc_up_wf; auto|]. split; [left; auto|]. split; [|auto]. apply lab_full_ok. split; [apply Hf|apply gstate_full].
      * split; [apply rc_down_wf; auto|]. split; [left; auto|]. split; [|auto]. apply lab_full_ok. split; [apply gstate_full|apply Hf].
    + intros bc' Hin _. split.
      * cbn. unfold keep_branch in Hk. apply orb_false_iff in Hk. tauto.
      * destruct Hin as [<-|[<-|[]]]; cbn [fst].
        -- exact (child_up_width varis probs rs Hw _ _ _ Hb' Hs').
        -- exact (child_down_width varis probs rs Hw _ _ _ Hb' Hs').
Qed.

Lemma r_pass_spec max_nb nb todo : forall acc, Forall rok todo ->
  exists don rest ls go,
    r_pass rnd rs probs max_nb nb todo acc = Ok (acc ++ List.concat ls ++ rest, go) /\
    todo = don ++ rest /\ Forall2 r_split_of don ls /\ (go = true -> rest = []).
Proof.
  induction todo as [|[b c] todo IH]; intros acc Hok.
  - exists [], [], [], true. cbn. rewrite app_nil_r. repeat split; auto.
  - inversion_clear Hok as [|? ? Hbc Hok']. destruct Hbc as (Hb & Hpb & Hl & Hcc).
    cbn [r_pass]. rewrite (eval_state_ok varis) by (auto; apply (sp_keys varis); apply Hb). cbn [bind].
    destruct (keep_branch (eval_br b rs) c) eqn:Hk.
    + destruct (IH (acc ++ [(eval_br b rs, mkRules [] [])]) Hok') as (don & rest & ls & go & E & Et & F & G1).
      exists ((b, c) :: don), rest, ([(eval_br b rs, mkRules [] [])] :: ls), go. rewrite E.
      cbn [List.concat app]. rewrite <- !app_assoc. cbn [app]. rewrite Et.
      split; [auto|]. split; [auto|]. split; [constructor; auto; constructor; auto|auto].
    + assert (Hcomp : c = compat b rs).
      { destruct Hcc as [|N]; auto. unfold keep_branch in Hk. rewrite N, orb_true_r in Hk. congruence. }
      assert (Hn : no_rules (compat (eval_br b rs) rs) = false).
      { change (compat (eval_br b rs) rs) with (compat b rs). rewrite <- Hcomp.
        unfold keep_branch in Hk. apply orb_false_iff in Hk. tauto. }
      assert (Hb' : wf_br varis (eval_br b rs)) by auto.
      destruct (r_decomp_comp_ok (eval_br b rs) Hb' Hn) as (xd & s & E & Hs).
      change (compat (eval_br b rs) rs) with (compat b rs) in E. rewrite <- Hcomp in E. rewrite E. cbn [bind].
      assert (W1 := rc_up_wf _ _ _ Hb' Hs). assert (W2 := rc_down_wf _ _ _ Hb' Hs).
      rewrite r_new_up by auto. cbn [bind].
      rewrite (get_compat_rules_ok varis) by (auto; apply (sp_keys varis); apply W1). cbn [bind].
      rewrite r_new_down by auto. cbn [bind].
      rewrite (get_compat_rules_ok varis) by (auto; apply (sp_keys varis); apply W2). cbn [bind].
      set (b1 := rc_up (eval_br b rs) xd s). set (b2 := rc_down (eval_br b rs) xd s).
      set (l2 := [(b1, compat b1 rs); (b2, compat b2 rs)]).
      assert (Hso : r_split_of (b, c) l2) by (apply rso_split; auto).
      destruct (gt_bound (Z.of_nat (List.length (acc ++ l2) + nb)) max_nb) eqn:Hg.
      * exists [(b, c)], todo, [l2], false. cbn [List.concat]. rewrite app_nil_r, <- app_assoc.
        split; [auto|]. split; [auto|]. split; [constructor; auto|congruence].
      * destruct (IH (acc ++ l2) Hok') as (don & rest & ls & go & E' & Et & F & G1).
        exists ((b, c) :: don), rest, (l2 :: ls), go. rewrite E'.
        cbn [List.concat]. rewrite <- !app_assoc. rewrite Et.
        split; [auto|]. split; [auto|]. split; [constructor; auto|auto].
Qed.

(** lists of boxes that are closed under splitting and reordering *)
Variable P : list box -> Prop.
Hypothesis (P_split : forall l1 d u l2 k s, P (l1 ++ (d, u) :: l2) -> In k (keys varis) -> coord d k < s <= coord u k ->
              P (l1 ++ (d, dset u k (s - 1)) :: (dset d k s, u) :: l2))
           (P_order : forall l l', P l -> Permutation l l' -> P l').

Definition bxs (l : list (branch * ruleset)) : list box := map (fun bc => box_of (fst bc)) l.

Lemma splits_P rest : forall don ls, Forall2 r_split_of don ls -> forall acc,
  P (acc ++ bxs don ++ rest) -> P (acc ++ bxs (List.concat ls) ++ rest).
Proof.
  induction 1 as [|bc l don ls Sp F IH]; intros acc H; auto.
  cbn [List.concat]. unfold bxs in *. rewrite map_app, <- app_assoc.
  rewrite (app_assoc acc). apply IH.
  destruct Sp as [b c Hk|b c xd s Hk [Hs1 Hs2] b1 b2]; cbn [map fst] in *.
  - rewrite <- app_assoc. exact H.
  - rewrite <- app_assoc. cbn [app] in *. apply (P_split acc (b_down b) (b_up b)); auto.
Qed.

Lemma r_loop_spec max_nb : forall m fuel bcs,
  (m < fuel)%nat -> Forall rok bcs -> P (bxs bcs) ->
  (forall bc, In bc bcs -> no_rules (snd bc) = false -> (width (fst bc) <= m)%nat) ->
  exists out, r_loop rnd fuel rs probs max_nb bcs = Ok out /\ Forall rok out /\ P (bxs out).
Proof.
  induction m as [m IHm] using lt_wf_ind. intros fuel bcs Hf Hok HP Hwid.
  destruct fuel as [|fuel]; [lia|]. cbn [r_loop].
  set (sorted := sort_desc _ bcs).
  assert (Pm : Permutation sorted bcs) by apply sort_desc_perm.
  assert (Hok' : Forall rok sorted).
  { rewrite Forall_forall in *. intros bc Hin. apply Hok. eapply Permutation_in; eauto. }
  destruct (r_pass_spec max_nb (List.length sorted) sorted [] Hok') as (don & rest & ls & go & E & Et & F & G1).
  rewrite E. cbn [bind app].
  assert (Hd : Forall rok don /\ Forall rok rest).
  { rewrite Et in Hok'. apply Forall_app in Hok'. auto. }
  destruct Hd as [Hd Hrest].
  assert (Hls : Forall rok (List.concat ls) /\
    forall bc', In bc' (List.concat ls) -> no_rules (snd bc') = false ->
      exists bc, In bc don /\ no_rules (snd bc) = false /\ (width (fst bc') < width (fst bc))%nat).
  { clear - F Hd Hw Hp Hr. induction F as [|bc l don ls S F IH]; [cbn; split; auto; intros ? []|].
    inversion_clear Hd as [|? ? H1 H2]. destruct (IH H2) as (I1 & I3).
    destruct (r_split_ok bc l H1 S) as (A1 & A4). cbn [List.concat].
    split; [apply Forall_app; auto|].
    intros bc' Hin Hn. apply in_app_or in Hin as [Hin|Hin].
    - exists bc. split; [left; auto|]. apply A4; auto.
    - destruct (I3 bc' Hin Hn) as (bc0 & ? & ? & ?). exists bc0. split; [right; auto|auto]. }
  destruct Hls as (L1 & L3).
  assert (Hout : Forall rok (List.concat ls ++ rest)) by (apply Forall_app; auto).
  assert (HP' : P (bxs (List.concat ls ++ rest))).
  { unfold bxs. rewrite map_app. apply (splits_P (bxs rest) don ls F []). cbn [app].
    apply P_order with (bxs bcs); auto. unfold bxs. rewrite <- map_app, <- Et. apply Permutation_map. apply Permutation_sym. exact Pm. }
  destruct (go && negb (forallb (fun bc => no_rules (snd bc)) (List.concat ls ++ rest))) eqn:Hgo.
  - apply andb_true_iff in Hgo as [Hg Hn]. rewrite (G1 Hg) in *. rewrite app_nil_r in *.
    assert (Hex : exists bc', In bc' (List.concat ls) /\ no_rules (snd bc') = false).
    { clear - Hn. induction (List.concat ls) as [|bc l IH]; cbn in Hn; [congruence|].
      destruct (no_rules (snd bc)) eqn:E; cbn in Hn.
      - destruct (IH Hn) as (bc' & ? & ?). exists bc'. split; [right; auto|auto].
      - exists bc. split; [left; auto|auto]. }
    destruct Hex as (bc' & Hin & Hnr). destruct (L3 bc' Hin Hnr) as (bc0 & Hin0 & Hnr0 & Hlt).
    assert (Hw0 : (width (fst bc0) <= m)%nat).
    { apply Hwid; auto. eapply Permutation_in; [apply Pm|]. rewrite Et. auto. }
    apply (IHm (m - 1)%nat ltac:(lia) fuel (List.concat ls)); auto; try lia.
    intros bc1 Hin1 Hnr1. destruct (L3 bc1 Hin1 Hnr1) as (bc2 & Hin2 & Hnr2 & Hlt2).
    assert (width (fst bc2) <= m)%nat; [|lia].
    apply Hwid; auto. eapply Permutation_in; [apply Pm|]. rewrite Et. auto.
  - exists (List.concat ls ++ rest). auto.
Qed.

Definition rbr (b : branch) : Prop := wf_br varis b /\ stored_p rnd varis probs b /\ lab_ok rs b.

Lemma r_decomp_spec max_nb brs : Forall rbr brs -> (brs <> [] -> P (map box_of brs)) -> P [whole varis] ->
  exists out, r_decomp rnd varis rs probs max_nb brs = Ok out /\ Forall rbr out /\ P (map box_of out).
Proof.
  intros Hok HP HW. unfold r_decomp.
  assert (exists brs0, (match brs with [] => init_branch varis rs | _ => Ok brs end) = Ok brs0 /\ Forall rbr brs0 /\ P (map box_of brs0))
    as (brs0 & -> & H1 & H2).
  { destruct brs as [|b0 bs]; [|exists (b0 :: bs); split; auto; split; auto; apply HP; congruence].
    unfold init_branch. rewrite !(get_state_ok varis); auto.
    2:{ apply (sp_keys varis). apply best_sp; auto. }
    2:{ apply (sp_keys varis). apply worst_sp; auto. }
    cbn [bind]. unfold mk_branch.
    rewrite (same_length _ _ (worst_sp varis Hw) (best_sp varis Hw)), Nat.eqb_refl. cbn [bind].
    eexists. split; [reflexivity|]. split; [|exact HW]. constructor; [|constructor].
    split; [apply whole_wf; auto|]. split; [right; split; reflexivity|]. apply lab_full_ok. split; apply gstate_full. }
  cbn [bind].
  rewrite (mapM_ok _ (fun b => compat b rs)).
  2:{ intros b Hb. rewrite Forall_forall in H1. destruct (H1 b Hb) as ((W1 & W2 & _) & _).
      apply (get_compat_rules_ok varis); auto; apply (sp_keys varis); auto. }
  cbn [bind].
  set (bcs := combine brs0 (map (fun b => compat b rs) brs0)).
  assert (Ebcs : bcs = map (fun b => (b, compat b rs)) brs0).
  { unfold bcs. clear. induction brs0; cbn; congruence. }
  destruct (r_loop_spec max_nb (fold_right Nat.max O (map width brs0)) (decomp_fuel brs0) bcs) as (out & E & O1 & O2); auto.
  { unfold decomp_fuel. lia. }
  { rewrite Ebcs. apply Forall_forall. intros bc Hin. apply in_map_iff in Hin as (b & <- & Hin).
    rewrite Forall_forall in H1. destruct (H1 b Hin) as (A & B & C). split; [auto|]. split; [auto|]. split; auto. }
  { rewrite Ebcs. unfold bxs. rewrite map_map. exact H2. }
  { intros bc Hin _. rewrite Ebcs in Hin. apply in_map_iff in Hin as (b & <- & Hin). cbn.
    clear - Hin. induction brs0 as [|b0 l IH]; [destruct Hin|]. cbn. destruct Hin as [->|Hin]; [lia|]. specialize (IH Hin). lia. }
  rewrite E. cbn [bind]. exists (map fst out). split; auto. split.
  - rewrite Forall_forall in *. intros b Hin. apply in_map_iff in Hin as ([b' c] & <- & Hin).
    destruct (O1 _ Hin) as (A & B & C & _). split; auto.
  - rewrite map_map. exact O2.
Qed.
End RDecomp.

(** * The search with rounding *)
Section RRun.
Variables (varis : dict variable) (probs : prob_dict) (phi : dict Z -> bool) (sys_fun : sysfun)
  (rs0 : ruleset) (g : config) (rnd : Qc -> Qc).
Hypothesis (Hw : wf_varis varis) (Hp : wf_probs varis probs) (Hs : sys_ok varis phi sys_fun).
Hypothesis (R0 : wf_rules varis rs0) (T0 : sound_rules varis phi rs0).

Notation srch := (searched varis sys_fun rs0).

Lemma find_In {A} (f : A -> bool) l x : find f l = Some x -> In x l.
Proof. intros H. apply find_some in H. tauto. Qed.

Definition ends (b : branch) : Prop := In (b_down b) (sp varis) /\ In (b_up b) (sp varis).

Lemma r_unknown_inv brs : forall last acc l, Forall ends brs -> Forall ends acc -> (forall b, last = Some b -> ends b) ->
  r_unknown_ends rnd (worst_of varis) (best_of varis) probs brs last acc = Ok l -> Forall ends l.
Proof.
  induction brs as [|b brs IH]; intros last acc l H1 H2 H3 H; cbn [r_unknown_ends] in H; [congruence|].
  inversion_clear H1 as [|? ? [B1 B2] H1'].
  destruct (st_eqb (b_up_state b) U_).
  - rewrite (r_approx_ok varis probs rnd Hw Hp) in H; [|auto|apply best_sp; auto]. cbn [bind] in H.
    unfold mk_branch in H. rewrite (same_length varis _ _ B2 (best_sp varis Hw)), Nat.eqb_refl in H. cbn [bind] in H.
    set (nb := mkBr (b_up b) (best_of varis) U_ S_ (r_prob rnd probs (b_up b) (best_of varis))) in *.
    assert (N : ends nb) by (split; [exact B2|apply best_sp; auto]).
    destruct (st_eqb (b_down_state b) U_).
    + rewrite (r_approx_ok varis probs rnd Hw Hp) in H; [|apply worst_sp; auto|auto]. cbn [bind] in H.
      rewrite (same_length varis _ _ (worst_sp varis Hw) B1), Nat.eqb_refl in H. cbn [bind] in H.
      eapply IH; [| | |exact H]; auto; [|intros ? [= <-]; auto]. rewrite !Forall_app. auto.
    + eapply IH; [| | |exact H]; auto; [|intros ? [= <-]; auto]. rewrite !Forall_app. auto.
  - cbn [bind] in H. destruct (st_eqb (b_down_state b) U_).
    + rewrite (r_approx_ok varis probs rnd Hw Hp) in H; [|apply worst_sp; auto|auto]. cbn [bind] in H.
      unfold mk_branch in H. rewrite (same_length varis _ _ (worst_sp varis Hw) B1), Nat.eqb_refl in H. cbn [bind] in H.
      destruct last as [b'|]; [|discriminate]. cbn [bind] in H.
      eapply IH; [| | |exact H]; auto. rewrite Forall_app. auto.
    + eapply IH; [| | |exact H]; auto.
Qed.

Lemma r_comp_st_inv brs sf x : Forall ends brs -> r_comp_st rnd brs sf varis probs = Ok (Some x) -> In x (sp varis).
Proof.
  intros F H. unfold r_comp_st in H.
  assert (G : forall l b, Forall ends l -> In b (sort_desc br_gtb l) -> ends b).
  { intros l b Fl Hb. rewrite Forall_forall in Fl. apply Fl. eapply Permutation_in; [apply sort_desc_perm|exact Hb]. }
  destruct sf.
  - destruct (find (fun b => st_eqb (b_up_state b) U_) (sort_desc br_gtb brs)) as [b|] eqn:E.
    + injection H as <-. apply find_In in E. apply (G brs b F E).
    + destruct (find (fun b => st_eqb (b_down_state b) U_) (sort_desc br_gtb brs)) as [b|] eqn:E'; [|discriminate].
      injection H as <-. apply find_In in E'. apply (G brs b F E').
  - destruct (r_unknown_ends _ _ _ _ _ _ _) as [l|] eqn:E; [|discriminate]. cbn [bind] in H.
    apply r_unknown_inv in E; auto; [|intros; discriminate].
    destruct (sort_desc br_gtb l) as [|b l'] eqn:El; [discriminate|].
    assert (B : ends b) by (apply (G l b E); rewrite El; left; auto).
    destruct (st_eqb (b_up_state b) U_); [injection H as <-; apply B|].
    destruct (st_eqb (b_down_state b) U_); [injection H as <-; apply B|discriminate].
Qed.

Lemma rbr_ends rs brs : Forall (rbr varis probs rs rnd) brs -> Forall ends brs.
Proof. intros F. eapply Forall_impl; [|exact F]. intros b ((A & B & _) & _). split; auto. Qed.

Definition rec_ok (e : ruleset * list branch) : Prop :=
  srch (fst e) (map box_of (snd e)) /\ Forall (rbr varis probs (fst e) rnd) (snd e).
Definition rhist (m : monitor) : Prop :=
  exists h, Forall rec_ok h /\ m_pf_low m = map (fun e => r_low rnd (snd e)) h /\
    m_pf_up m = map (fun e => r_up rnd (snd e)) h /\ m_no_br m = map (fun e => len (snd e)) h.

Lemma rhist_snoc m rs brs : rhist m -> rec_ok (rs, brs) -> rhist (fst (r_monitor rnd m brs rs)).
Proof.
  intros (h & F & E1 & E2 & E3) N. exists (h ++ [(rs, brs)]). split; [apply Forall_app; auto|].
  unfold r_monitor, update_monitor. cbn. rewrite E1, E2, E3, !map_app. auto.
Qed.

Lemma rbr_grows rs rs' b : (forall x, match_s rs x = true -> match_s rs' x = true) ->
  (forall x, match_f rs x = true -> match_f rs' x = true) ->
  rbr varis probs rs rnd b -> rbr varis probs rs' rnd b.
Proof.
  intros G1 G2 (A & B & [[C1 C2] [C3 C4]]). split; auto. split; auto. split; split; intros E; auto.
Qed.

Definition rinv (s : rstate) : Prop :=
  (match s_brs s with
   | None => srch (s_rules s) [whole varis]
   | Some b => rec_ok (s_rules s, b)
   end) /\ rhist (s_mon s).

Lemma rec_nonempty rs b : rec_ok (rs, b) -> b <> [].
Proof.
  intros [H _] E. subst b. cbn in H. destruct (searched_inv varis phi sys_fun rs0 Hw Hs R0 T0 _ _ H) as (_ & _ & _ & P).
  specialize (P _ (worst_sp varis Hw)). discriminate.
Qed.

Lemma r_body_spec s : rinv s ->
  (exists s', r_body rnd varis probs sys_fun g s = Ok (inl s') /\ rinv s' /\ s_brs s' <> None) \/
  (exists s', r_body rnd varis probs sys_fun g s = Ok (inr s') /\ rinv s' /\ s_brs s' <> None /\
     c_no_sf (s_ctrl s') = c_no_sf (s_ctrl s) + 1) \/
  (g_surv_first g = false /\ exists e, r_body rnd varis probs sys_fun g s = Err e).
Proof.
  intros [I H].
  assert (Sw : srch (s_rules s) [whole varis]).
  { destruct (s_brs s) as [b|]; auto. destruct I as [I _]. eapply S_anew. exact I. }
  destruct (searched_inv varis phi sys_fun rs0 Hw Hs R0 T0 _ _ Sw) as (W & T & _).
  assert (D : exists out, (if g_active g then r_decomp rnd varis (s_rules s) probs (g_max_nb g) []
          else r_decomp rnd varis (s_rules s) probs (g_max_nb g) (match s_brs s with None => [] | Some b => b end)) = Ok out /\
          rec_ok (s_rules s, out)).
  { assert (Q : forall brs, Forall (rbr varis probs (s_rules s) rnd) brs -> (brs <> [] -> srch (s_rules s) (map box_of brs)) ->
      exists out, r_decomp rnd varis (s_rules s) probs (g_max_nb g) brs = Ok out /\ rec_ok (s_rules s, out)).
    { intros brs F HP. destruct (r_decomp_spec varis probs (s_rules s) rnd Hw Hp W (srch (s_rules s))
        (fun l1 d u l2 k z A B C => S_split _ _ _ _ l1 d u l2 k z A B C) (fun l l' A B => S_order _ _ _ _ l l' A B)
        (g_max_nb g) brs F HP Sw) as (out & E & F' & P'). exists out. split; auto. split; auto. }
    destruct (g_active g); [apply Q; [constructor|congruence]|].
    destruct (s_brs s) as [b|]; [|apply Q; [constructor|congruence]]. destruct I as [I1 I2]. apply Q; auto. }
  destruct D as (brs & ED & RD). unfold r_body. rewrite ED. cbn [bind].
  assert (RF := proj2 RD). cbn [snd fst] in RF.
  destruct (r_comp_st rnd brs (g_surv_first g) varis probs) as [[x|]|e] eqn:EX; cbn [bind].
  - assert (Hx := r_comp_st_inv _ _ _ (rbr_ends _ _ RF) EX).
    assert (St : forall f, rinv (mkSt (Some brs) (s_rules s) (s_sys s) (set_flag (s_mon s) f) (s_ctrl s))) by (intros f; split; auto).
    destruct (ge_bound (len brs) (g_max_nb g)); [left; eexists; split; [reflexivity|split; [apply St|discriminate]]|].
    destruct (qc_ltb _ _); [left; eexists; split; [reflexivity|split; [apply St|discriminate]]|].
    destruct (ge_bound _ (g_max_rules g)); [left; eexists; split; [reflexivity|split; [apply St|discriminate]]|].
    right. left.
    destruct (main_run_sys_fn varis phi sys_fun x Hw Hs Hx) as (rule & sst & sr & E & Es & _).
    rewrite E. cbn [bind].
    assert (Hu : sst <> U_) by (rewrite Es; destruct (phi x); discriminate).
    destruct (update_spec (s_rules s) rule sst Hu) as (rs' & E' & M1 & M2 & _ & _). rewrite E'. cbn [bind].
    assert (RN : rec_ok (rs', brs)).
    { split; cbn [fst snd].
      - eapply S_call; [apply RD|exact Hx|exact E|exact E'].
      - eapply Forall_impl; [|exact RF]. intros b. apply rbr_grows; intros y Hy; [rewrite M1|rewrite M2]; rewrite Hy; auto. }
    assert (HN := rhist_snoc (push_no_sf (s_mon s) (c_no_sf (s_ctrl s) + 1)) rs' brs H RN).
    destruct (r_monitor rnd (push_no_sf (s_mon s) (c_no_sf (s_ctrl s) + 1)) brs rs') as [mon ctl] eqn:Em. cbn [fst] in HN.
    eexists. split; [reflexivity|]. split; [split; [exact RN|]|split; [discriminate|]]; cbn [s_mon s_ctrl].
    + destruct (_ =? _); [exact HN|exact HN].
    + unfold r_monitor, update_monitor in Em. injection Em as _ <-. cbn. rewrite last_last. auto.
  - left. eexists. split; [reflexivity|]. split; [split; auto|discriminate].
  - right. right. split; [|eauto]. destruct (g_surv_first g) eqn:Ef; auto. unfold r_comp_st in EX.
    destruct (find _ _); [discriminate|]. destruct (find _ _); discriminate.
Qed.

Lemma r_run_loop_spec fuel : forall s, rinv s -> (Z.to_nat (g_max_sf g - c_no_sf (s_ctrl s)) < fuel)%nat ->
  (exists s', r_run_loop rnd fuel varis probs sys_fun g s = Ok s' /\ rinv s' /\
     (c_no_sf (s_ctrl s) < g_max_sf g \/ s_brs s <> None -> s_brs s' <> None)) \/
  (g_surv_first g = false /\ exists e, r_run_loop rnd fuel varis probs sys_fun g s = Err e).
Proof.
  induction fuel as [|fuel IH]; intros s I Hf; [lia|]. cbn [r_run_loop].
  destruct (Z.ltb_spec (c_no_sf (s_ctrl s)) (g_max_sf g)) as [L|L].
  - destruct (r_body_spec s I) as [(s' & -> & I' & N)|[(s' & -> & I' & N & C)|(S & e & ->)]]; cbn [bind].
    + left. exists s'. auto.
    + destruct (IH s' I') as [(s2 & E & I2 & N2)|X]; [lia| |right; exact X].
      left. exists s2. split; auto.
    + right. eauto.
  - left. exists s. split; auto. split; auto. intros [X|X]; [lia|auto].
Qed.

Lemma r_run_spec rules : rules_arg rules = rs0 ->
  (exists s', r_run rnd varis probs sys_fun g rules None = Ok s' /\ rhist (s_mon s') /\
     (0 < g_max_sf g -> exists b, s_brs s' = Some b /\ rec_ok (s_rules s', b) /\
        last (m_pf_low (s_mon s')) 0%Qc = r_low rnd b /\ last (m_pf_up (s_mon s')) 0%Qc = r_up rnd b)) \/
  (g_surv_first g = false /\ exists e, r_run rnd varis probs sys_fun g rules None = Err e).
Proof.
  intros Er. unfold r_run. unfold rules_arg in Er. rewrite Er. unfold init_monitor.
  match goal with |- context [r_run_loop rnd ?f varis probs sys_fun g ?s0] => set (st0 := s0); set (fl := f) end.
  assert (I : rinv st0).
  { split; [apply S_start|]. exists []. cbn. auto. }
  destruct (r_run_loop_spec fl st0 I) as [(s' & -> & [I1 I2] & N)|(S & e & ->)]; cbn [bind].
  - unfold fl, st0. cbn. lia.
  - left. destruct (Z.ltb_spec 0 (g_max_sf g)) as [L|L].
    + destruct (s_brs s') as [b|] eqn:Eb; [|exfalso; apply N; auto].
      destruct (r_monitor rnd (s_mon s') b (s_rules s')) as [m c] eqn:Em. eexists. split; [reflexivity|]. cbn [s_mon s_brs s_rules].
      pose proof (rhist_snoc (s_mon s') (s_rules s') b I2 I1) as HN. rewrite Em in HN. split; [exact HN|].
      intros _. exists b. split; auto. split; auto. unfold r_monitor, update_monitor in Em. injection Em as <- _. cbn.
      rewrite !last_last. auto.
    + eexists. split; [reflexivity|]. split; [auto|intros; lia].
  - right. eauto.
Qed.
End RRun.

(** * Without rounding *)
Section Exact.
Notation id_ := (fun x : Qc => x).

Lemma mapM_same {A B} (f f' : A -> res B) l : (forall a, f a = f' a) -> mapM f l = mapM f' l.
Proof. intros H. induction l as [|a l IH]; auto. cbn. rewrite H, IH. auto. Qed.
Lemma foldM_same {A B} (f f' : B -> A -> res B) l : (forall a b, f b a = f' b a) -> forall b, foldM f l b = foldM f' l b.
Proof. intros H. induction l as [|a l IH]; intros b; auto. cbn. rewrite H. destruct (f' b a); cbn; auto. Qed.

Lemma r_sum_id l : r_sum id_ l = qsum l.
Proof.
  unfold r_sum. assert (G : forall a, fold_left (fun a x => (a + x)%Qc) l a = (a + qsum l)%Qc).
  { induction l as [|x l IH]; intros a; cbn [fold_left qsum]; [ring|]. rewrite IH. cbn. ring. }
  rewrite G. ring.
Qed.
Lemma r_range_id probs k a b : r_range id_ probs k a b = sum_range probs k a b.
Proof.
  unfold r_range, sum_range. rewrite (mapM_same _ (fun x => d <- dget probs k ;; pget d x)).
  - destruct (mapM _ _); cbn; auto. rewrite r_sum_id. auto.
  - intros x. destruct (dget probs k) as [d|]; cbn; auto. destruct (pget d x); auto.
Qed.
Lemma r_approx_id d u probs : r_approx id_ d u probs = approx_prob_by_comps d u probs.
Proof. apply foldM_same. intros [k y] p. cbn [fst snd]. destruct (dget u k); cbn [bind]; auto. rewrite r_range_id. auto. Qed.
Lemma r_joint_id b r s probs : r_joint id_ b r s probs = approx_joint_prob b r s probs.
Proof.
  destruct s; auto; apply foldM_same; intros [k y] p; cbn [fst snd]; [destruct (dget (b_up b) k)|destruct (dget (b_down b) k)]; cbn [bind]; auto;
    rewrite r_range_id; auto.
Qed.
Lemma r_decomp_comp_id b rs probs : r_decomp_comp id_ b rs probs = get_decomp_comp b rs probs.
Proof.
  unfold r_decomp_comp, get_decomp_comp. destruct (1 <? _)%nat; auto.
  rewrite (mapM_same _ (fun sr => q <- approx_joint_prob b (snd sr) (fst sr) probs ;; Ok (q, sr))); auto.
  intros sr. rewrite r_joint_id. auto.
Qed.
Lemma r_new_branch_id b rs probs xd s f : r_new_branch id_ b rs probs xd s f = get_new_branch b rs probs xd s f.
Proof. unfold r_new_branch, get_new_branch. rewrite !r_approx_id. auto. Qed.
Lemma r_pass_id rs probs m nb todo : forall acc, r_pass id_ rs probs m nb todo acc = decomp_pass rs probs m nb todo acc.
Proof.
  induction todo as [|[b c] todo IH]; intros acc; auto. cbn [r_pass decomp_pass].
  destruct (eval_state b rs) as [b'|]; cbn [bind]; auto. destruct (keep_branch b' c); auto.
  rewrite r_decomp_comp_id. destruct (get_decomp_comp b' c probs) as [[[xd s]|]|]; cbn [bind]; auto.
  rewrite !r_new_branch_id. destruct (get_new_branch b' rs probs xd s true) as [b1|]; cbn [bind]; auto.
  destruct (get_compat_rules b1 rs) as [c1|]; cbn [bind]; auto.
  destruct (get_new_branch b' rs probs xd s false) as [b2|]; cbn [bind]; auto.
  destruct (get_compat_rules b2 rs) as [c2|]; cbn [bind]; auto. rewrite IH. auto.
Qed.
Lemma r_loop_id rs probs m fuel : forall bcs, r_loop id_ fuel rs probs m bcs = decomp_loop fuel rs probs m bcs.
Proof.
  induction fuel as [|fuel IH]; intros bcs; auto. cbn [r_loop decomp_loop]. rewrite r_pass_id.
  destruct (decomp_pass _ _ _ _ _ _) as [[bcs' go]|]; cbn [bind]; auto. rewrite IH. auto.
Qed.
Lemma r_decomp_id varis rs probs m brs : r_decomp id_ varis rs probs m brs = decomp_depth_first varis rs probs m brs.
Proof.
  unfold r_decomp, decomp_depth_first. destruct (match brs with [] => init_branch varis rs | _ => Ok brs end); cbn [bind]; auto.
  destruct (mapM _ _); cbn [bind]; auto. rewrite r_loop_id. auto.
Qed.
Lemma r_unknown_id w b probs brs : forall last acc, r_unknown_ends id_ w b probs brs last acc = unknown_ends w b probs brs last acc.
Proof.
  induction brs as [|br brs IH]; intros last acc; auto. cbn [r_unknown_ends unknown_ends]. rewrite !r_approx_id.
  match goal with |- bind ?x _ = bind ?y _ => change y with x; destruct x as [[l1 a1]|]; cbn [bind]; auto end.
  match goal with |- bind ?x _ = bind ?y _ => change y with x; destruct x as [a2|]; cbn [bind]; auto end.
Qed.
Lemma r_comp_st_id brs sf varis probs : r_comp_st id_ brs sf varis probs = get_comp_st brs sf varis probs.
Proof. unfold r_comp_st, get_comp_st. rewrite r_unknown_id. auto. Qed.
Lemma r_monitor_id m brs rs : r_monitor id_ m brs rs = update_monitor m brs rs.
Proof. unfold r_monitor, update_monitor, r_up, r_low, r_surv, pr_bf, pr_bs. rewrite !r_sum_id. auto. Qed.
Lemma r_body_id varis probs f g s : r_body id_ varis probs f g s = run_body varis probs f g s.
Proof.
  unfold r_body, run_body. rewrite !r_decomp_id.
  match goal with |- bind ?x _ = bind ?y _ => destruct x as [brs|]; cbn [bind]; auto end.
  rewrite r_comp_st_id. destruct (get_comp_st brs (g_surv_first g) varis probs) as [[x|]|]; cbn [bind]; auto.
  destruct (ge_bound _ _); auto. destruct (qc_ltb _ _); auto. destruct (ge_bound _ _); auto.
  destruct (run_sys_fn x f varis) as [[[rule sst] sr]|]; cbn [bind]; auto.
  destruct (update_rule_set _ _ _); cbn [bind]; auto. rewrite r_monitor_id. auto.
Qed.
Lemma r_run_loop_id varis probs f g fuel : forall s, r_run_loop id_ fuel varis probs f g s = run_loop fuel varis probs f g s.
Proof.
  induction fuel as [|fuel IH]; intros s; auto. cbn [r_run_loop run_loop]. destruct (_ <? _); auto. rewrite r_body_id.
  destruct (run_body _ _ _ _ _) as [[s'|s']|]; cbn [bind]; auto.
Qed.
Lemma run_exact varis probs f g rules brs : r_run id_ varis probs f g rules brs = run varis probs f g rules brs.
Proof.
  unfold r_run, run, init_monitor. rewrite r_run_loop_id. destruct (run_loop _ _ _ _ _ _) as [s|]; cbn [bind]; auto.
  destruct (0 <? g_max_sf g); auto. destruct (s_brs s); auto. rewrite r_monitor_id. auto.
Qed.
End Exact.
