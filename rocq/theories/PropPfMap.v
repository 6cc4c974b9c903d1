(** The failure map: properties C80 and C81. *)
From Coq Require Import ZArith List String Bool Arith QArith Qcanon Lia Lqa Permutation.
From Verif Require Import Py PyFacts Num Vari Brc SpecBrc Cpm SpecCpm Model Bnb SpecBnb Trans SpecTrans NxPaths.
From Verif Require Import VariFacts Config SpecConfig PfMap SpecMap PfMapGeom PfMapFacts PfMapMain PfMapRun PfMapTable PropTrans.
Import ListNotations.
Open Scope string_scope.
Open Scope Z_scope.
Open Scope list_scope.

(** * C80: distances, failure probabilities and covariances of the roads *)

(** The distance of the epicentre to a road is the least distance to a point of it, as exact
    as the square root. *)
Theorem C80_distance : forall root eps a b p,
  (0 <= eps)%Qc -> (eps < 1)%Qc -> root_within eps root -> a <> b ->
  exists r m, shortest_distance root a b p = Ok r /\ least_dist2 a b p m /\ (0 <= r)%Qc /\
    ((1 - eps) * m <= r * r)%Qc /\ ((1 - eps) * (r * r) <= m)%Qc.
Proof. intros. apply shortest_ok; auto. Qed.
Print Assumptions C80_distance.
(** A road whose ends are at the same place has none. *)
Theorem C80_degenerate : forall root a p, shortest_distance root a a p = Err ZeroDivisionError.
Proof. intros. apply shortest_same. Qed.
Print Assumptions C80_degenerate.

Lemma Forall2_nth {A B} (R : A -> B -> Prop) l l' i a : Forall2 R l l' -> nth_error l i = Some a -> exists b, nth_error l' i = Some b /\ R a b.
Proof. intros F. revert i. induction F as [|x y l l' H F IH]; intros [|i] E; cbn in *; try discriminate; [injection E as <-; eauto|auto]. Qed.
Lemma nth_nodup {A} (l : list A) i j a : NoDup l -> nth_error l i = Some a -> nth_error l j = Some a -> i = j.
Proof. intros N E1 E2. apply (proj1 (NoDup_nth_error l) N); [apply nth_error_Some; congruence|congruence]. Qed.
Lemma es_keys (np_sqrt np_log : Qc -> Qc) (norm_cdf : Qc -> Qc -> Qc -> Qc) gm_ln_sa gm_std_al gm_std_ep f e (es : dict (Qc * Qc * Qc)) :
  Forall2 (fun kr en => road_pf np_sqrt np_log norm_cdf gm_ln_sa gm_std_al gm_std_ep f e kr (fst en) (fst (fst (snd en))) (snd (fst (snd en))) (snd (snd en))) (pm_roads f) es ->
  keys es = keys (pm_roads f).
Proof. induction 1 as [|kr en l es (E & _) F IH]; [reflexivity|]. cbn. unfold keys in IH. rewrite IH, E. reflexivity. Qed.

(** Failure probability, mean and covariances of the roads, in the order of the roads. *)
Theorem C80_roads : forall np_sqrt np_log norm_cdf gm_ln_sa gm_std_al gm_std_ep f name pf mean cov,
  NoDup (keys (pm_roads f)) ->
  cal_edge_dist np_sqrt np_log norm_cdf gm_ln_sa gm_std_al gm_std_ep f name = Ok (pf, mean, cov) ->
  exists e, dfind (pm_eq f) name = Some e /\ (Q2Qc 6 <= mw e)%Qc /\ (mw e <= Q2Qc (17 # 2))%Qc /\
    keys pf = keys (pm_roads f) /\ keys mean = keys (pm_roads f) /\ List.length cov = List.length (pm_roads f) /\
    forall i k r, nth_error (pm_roads f) i = Some (k, r) ->
      exists a b fr med R row, let m := (np_log med - gm_ln_sa (mw e) R)%Qc in
        let var := (gm_std_al (mw e) * gm_std_al (mw e) + gm_std_ep (mw e) R * gm_std_ep (mw e) R + sa_g_dispersion fr * sa_g_dispersion fr)%Qc in
        dfind (pm_nodes f) (r_from r) = Some a /\ dfind (pm_nodes f) (r_to r) = Some b /\
        shortest_distance np_sqrt a b (epicentre e) = Ok R /\
        dfind (pm_frag f) (r_frag r) = Some fr /\ nth_error (sa_g fr) 2 = Some med /\
        nth_error mean i = Some (k, m) /\ nth_error pf i = Some (k, norm_cdf 0%Qc m (np_sqrt var)) /\
        nth_error cov i = Some row /\ List.length row = List.length (pm_roads f) /\
        forall j c, nth_error row j = Some c -> c = if Nat.eqb i j then var else (gm_std_al (mw e) * gm_std_al (mw e))%Qc.
Proof.
  intros np_sqrt np_log norm_cdf gm_ln_sa gm_std_al gm_std_ep f name pf mean cov N H.
  destruct (edge_dist_inv _ _ _ _ _ _ f name pf mean cov N H) as (e & es & Ee & Em & F & -> & -> & ->).
  pose proof (es_keys _ _ _ _ _ _ _ _ _ F) as Ke. pose proof (Forall2_length _ _ _ F) as Le.
  unfold mw_ok in Em. apply andb_true_iff in Em as [M1 M2]. apply qc_leb_le in M1, M2.
  exists e. split; auto. split; auto. split; auto. split; [rewrite <- Ke; unfold keys; rewrite map_map; reflexivity|].
  split; [rewrite <- Ke; unfold keys; rewrite map_map; reflexivity|]. split; [rewrite map_length; auto|].
  intros i k r E. destruct (Forall2_nth _ _ _ _ _ F E) as ([k' [[p m] var]] & Ei & (K1 & a & b & fr & med & R & A & B & Fr & Md & S & Ev & Emn & Ep)). cbn [fst snd] in *. subst k' var m p.
  exists a, b, fr, med, R. eexists. cbv zeta. split; auto. split; auto. split; auto. split; auto. split; auto.
  split; [rewrite nth_error_map, Ei; reflexivity|]. split; [rewrite nth_error_map, Ei; reflexivity|]. split; [rewrite nth_error_map, Ei; reflexivity|].
  split; [rewrite map_length; auto|]. intros j c Ec. rewrite nth_error_map in Ec. destruct (nth_error es j) as [[k2 q2]|] eqn:Ej; [|discriminate]. cbn in Ec. injection Ec as <-.
  destruct (Nat.eqb_spec i j) as [->|Nij].
  - rewrite Ei in Ej. injection Ej as <- <-. rewrite String.eqb_refl. reflexivity.
  - destruct (String.eqb_spec k k2) as [->|]; auto. destruct Nij. apply (nth_nodup (keys es) i j k2); [rewrite Ke; auto|..]; unfold keys; rewrite nth_error_map; [rewrite Ei|rewrite Ej]; reflexivity.
Qed.
Print Assumptions C80_roads.

(** The covariances are those of random variables: the matrix is symmetric and no linear
    combination has a negative variance. *)
Theorem C80_covariance : forall np_sqrt np_log norm_cdf gm_ln_sa gm_std_al gm_std_ep f name pf mean cov,
  NoDup (keys (pm_roads f)) ->
  cal_edge_dist np_sqrt np_log norm_cdf gm_ln_sa gm_std_al gm_std_ep f name = Ok (pf, mean, cov) ->
  (forall i j ri rj c c', nth_error cov i = Some ri -> nth_error ri j = Some c -> nth_error cov j = Some rj -> nth_error rj i = Some c' -> c = c') /\
  forall w, List.length w = List.length (pm_roads f) -> (0 <= quad cov w)%Qc.
Proof.
  intros np_sqrt np_log norm_cdf gm_ln_sa gm_std_al gm_std_ep f name pf mean cov N H.
  destruct (edge_dist_inv _ _ _ _ _ _ f name pf mean cov N H) as (e & es & Ee & Em & F & -> & -> & ->).
  pose proof (es_keys _ _ _ _ _ _ _ _ _ F) as Ke. pose proof (Forall2_length _ _ _ F) as Le. split.
  - intros i j ri rj c c' E1 E2 E3 E4. rewrite nth_error_map in E1, E3. destruct (nth_error es i) as [[k q]|] eqn:Ei; [|discriminate]. destruct (nth_error es j) as [[k2 q2]|] eqn:Ej; [|discriminate].
    cbn in E1, E3. injection E1 as <-. injection E3 as <-. rewrite nth_error_map, Ej in E2. rewrite nth_error_map, Ei in E4. cbn in E2, E4. injection E2 as <-. injection E4 as <-.
    destruct (String.eqb_spec k k2) as [->|Ne].
    + rewrite String.eqb_refl. assert (i = j) as -> by (apply (nth_nodup (keys es) i j k2); [rewrite Ke; auto|..]; unfold keys; rewrite nth_error_map; [rewrite Ei|rewrite Ej]; reflexivity).
      congruence.
    + destruct (String.eqb_spec k2 k); congruence.
  - intros w Lw. set (c := (gm_std_al (mw e) * gm_std_al (mw e))%Qc).
    assert (Q := quad_pos c (map (fun en => (fst en, snd (snd en))) es) w).
    rewrite map_map in Q. cbn [fst snd] in Q.
    match goal with |- (0 <= quad ?c1 w)%Qc => match type of Q with context [quad ?c2 w] => replace c1 with c2 end end.
    + apply Q.
      * rewrite map_length. congruence.
      * unfold keys. rewrite map_map. cbn [fst]. change (NoDup (keys es)). rewrite Ke. auto.
      * apply qc_sq_pos.
      * intros k v I. apply in_map_iff in I as ([k' [[p m] var]] & E & I). cbn [fst snd] in E. injection E as -> ->.
        destruct (Forall2_in_r _ _ _ _ F I) as (kr & _ & (_ & a & b & fr & med & R & _ & _ & _ & _ & _ & Ev & _)). cbn [fst snd] in Ev. subst v. fold c.
        pose proof (qc_sq_pos (gm_std_ep (mw e) R)) as P1. pose proof (qc_sq_pos (sa_g_dispersion fr)) as P2.
        set (c3 := (gm_std_ep (mw e) R * gm_std_ep (mw e) R)%Qc) in *. set (c4 := (sa_g_dispersion fr * sa_g_dispersion fr)%Qc) in *. clear - P1 P2. clearbody c c3 c4. qc_lra.
    + apply map_ext. intros en. rewrite map_map. reflexivity.
Qed.
Print Assumptions C80_covariance.

(** They are returned when nothing is missing. *)
Theorem C80_total : forall np_sqrt np_log norm_cdf gm_ln_sa gm_std_al gm_std_ep f name, map_full f name ->
  exists pf mean cov, cal_edge_dist np_sqrt np_log norm_cdf gm_ln_sa gm_std_al gm_std_ep f name = Ok (pf, mean, cov).
Proof. intros. apply edge_dist_total. auto. Qed.
Print Assumptions C80_total.

(** The points handed to the interpolation are not those of the table: the value of the table
    for magnitude 5.4 and distance 1 is 0.22, the one handed over for them is 0.25. *)
Theorem C80_table_refuted : ~ (forall m r v, In (m, r, v) ep_knots ->
  exists i j row, nth_error ep_mw i = Some m /\ nth_error ep_rrup j = Some r /\ nth_error ep_val i = Some row /\ nth_error row j = Some v).
Proof.
  intros H. destruct (H (54 # 10)%Q 1%Q (25 # 100)%Q) as (i & j & row & E1 & E2 & E3 & E4); [right; left; reflexivity|].
  assert (i = 1%nat). { do 9 (destruct i as [|i]; [try discriminate; auto|]). destruct i; discriminate. } subst i.
  assert (j = 0%nat). { do 11 (destruct j as [|j]; [try discriminate; auto|]). destruct j; discriminate. } subst j.
  cbn in E3. injection E3 as <-. cbn in E4. discriminate.
Qed.
Print Assumptions C80_table_refuted.

(** * C81: the map *)

(** Whatever is returned, whatever order the processes finish in: the table has the nodes other
    than the origins and the epicentre, and the probability of being late is within the bounds. *)
Theorem C81_enclosed : forall np_sqrt np_log norm_cdf gm_ln_sa gm_std_al gm_std_ep nx_multi f name max_sf max_nb wr done lines saved,
  nx_multi_ok nx_multi -> (forall a, (0 < a)%Qc -> (0 < np_sqrt a)%Qc) ->
  (forall x m s, (0 < s)%Qc -> (0 <= norm_cdf x m s)%Qc /\ (norm_cdf x m s <= 1)%Qc) -> (forall m, gm_std_al m <> 0%Qc) ->
  map_ok f -> match max_sf with Some m => 1 <= m | None => True end -> Permutation done (keys (pm_nodes f)) ->
  pm_main np_sqrt np_log norm_cdf gm_ln_sa gm_std_al gm_std_ep nx_multi f name max_sf max_nb wr done = Ok (lines, saved) ->
  exists pf mean cov, cal_edge_dist np_sqrt np_log norm_cdf gm_ln_sa gm_std_al gm_std_ep f name = Ok (pf, mean, cov) /\
    (forall n, In n (map fst lines) <-> In n (keys (pm_nodes f)) /\ n <> "epi" /\ ~ In n (pm_origins f)) /\ NoDup (map fst lines) /\
    forall n low up ns cv, In (n, (low, up, ns, cv)) lines ->
      ns = 0 /\ cv = 0%Qc /\ (0 <= low)%Qc /\ (up <= 1)%Qc /\
      forall lateb, (forall x, In x (arc_states (keys (pm_roads f))) -> (lateb x = true <-> late (timed_roads np_sqrt f) (pm_thres f) (pm_origins f) n x)) ->
        (low <= event_prob (keys (pm_roads f)) (road_scen pf) lateb)%Qc /\ (event_prob (keys (pm_roads f)) (road_scen pf) lateb <= up)%Qc.
Proof.
  intros np_sqrt np_log norm_cdf gm_ln_sa gm_std_al gm_std_ep nx_multi f name max_sf max_nb wr done lines saved Hnx Hroot Hcdf Hal Hf Hmx Hdone H.
  destruct (map_enclosed np_sqrt np_log norm_cdf gm_ln_sa gm_std_al gm_std_ep nx_multi Hnx Hroot Hcdf Hal f Hf name max_sf max_nb wr done Hmx lines saved H) as (pf & mean & cov & Hed & El & Hl).
  exists pf, mean, cov. split; auto. split; [|split].
  - intros n. rewrite El, filter_In. rewrite andb_true_iff, !negb_true_iff, String.eqb_neq, <- not_true_iff_false, mem_str_In. tauto.
  - rewrite El. apply NoDup_filter. apply Hf.
  - intros n low up ns cv I. destruct (Hl n low up ns cv I) as (A & B & C & D & E & _). auto.
Qed.
Print Assumptions C81_enclosed.

(** With limits out of reach it is returned, and for every node the bounds agree or are as
    close as asked for. *)
Theorem C81_exact : forall np_sqrt np_log norm_cdf gm_ln_sa gm_std_al gm_std_ep nx_multi f name max_sf max_nb wr done,
  nx_multi_ok nx_multi -> (forall a, (0 < a)%Qc -> (0 < np_sqrt a)%Qc) ->
  (forall x m s, (0 < s)%Qc -> (0 <= norm_cdf x m s)%Qc /\ (norm_cdf x m s <= 1)%Qc) -> (forall m, gm_std_al m <> 0%Qc) ->
  map_ok f -> map_full f name -> Permutation done (keys (pm_nodes f)) ->
  match max_sf with Some m => 2 ^ Z.of_nat (List.length (pm_roads f)) < m | None => True end ->
  2 * 2 ^ Z.of_nat (List.length (pm_roads f)) <= max_nb -> (0 <= wr)%Qc ->
  exists lines saved pf mean cov,
    pm_main np_sqrt np_log norm_cdf gm_ln_sa gm_std_al gm_std_ep nx_multi f name max_sf max_nb wr done = Ok (lines, saved) /\
    cal_edge_dist np_sqrt np_log norm_cdf gm_ln_sa gm_std_al gm_std_ep f name = Ok (pf, mean, cov) /\
    forall n, In n (keys (pm_nodes f)) -> n <> "epi" -> ~ In n (pm_origins f) ->
      exists low up lateb, In (n, (low, up, 0, 0%Qc)) lines /\
        (forall x, In x (arc_states (keys (pm_roads f))) -> (lateb x = true <-> late (timed_roads np_sqrt f) (pm_thres f) (pm_origins f) n x)) /\
        let P := event_prob (keys (pm_roads f)) (road_scen pf) lateb in
        (low <= P)%Qc /\ (P <= up)%Qc /\ ((low = P /\ up = P) \/ (up - low < low * wr)%Qc).
Proof.
  intros np_sqrt np_log norm_cdf gm_ln_sa gm_std_al gm_std_ep nx_multi f name max_sf max_nb wr done Hnx Hroot Hcdf Hal Hf Hful Hdone Hsf Hnb Hwr.
  assert (P0 : 0 < 2 ^ Z.of_nat (List.length (pm_roads f))) by (apply Z.pow_pos_nonneg; lia).
  assert (Hmx : match max_sf with Some m => 1 <= m | None => True end) by (destruct max_sf; auto; lia).
  destruct (map_total np_sqrt np_log norm_cdf gm_ln_sa gm_std_al gm_std_ep nx_multi Hnx Hroot Hcdf Hal f Hf name max_sf max_nb wr done Hmx Hdone Hful Hnb Hsf Hwr) as (lines & saved & H).
  destruct (map_enclosed np_sqrt np_log norm_cdf gm_ln_sa gm_std_al gm_std_ep nx_multi Hnx Hroot Hcdf Hal f Hf name max_sf max_nb wr done Hmx lines saved H) as (pf & mean & cov & Hed & El & Hl).
  exists lines, saved, pf, mean, cov. split; auto. split; auto. intros n Hn He Hno.
  assert (I : In n (map fst lines)).
  { rewrite El, filter_In. rewrite andb_true_iff, !negb_true_iff, String.eqb_neq, <- not_true_iff_false, mem_str_In. tauto. }
  apply in_map_iff in I as ([n' [[[low up] ns] cv]] & E & I). cbn in E. subst n'. destruct (Hl n low up ns cv I) as (-> & -> & _ & _ & B & _ & X). specialize (X Hnb Hsf Hwr).
  destruct (map_late_ex np_sqrt np_log norm_cdf gm_ln_sa gm_std_al gm_std_ep nx_multi Hnx Hroot f Hf name n (ex_intro _ pf (ex_intro _ mean (ex_intro _ cov Hed))) Hn Hno) as (lateb & Hb).
  destruct (B lateb Hb) as [B1 B2]. exists low, up, lateb. split; auto. split; auto. cbv zeta. split; auto. split; auto.
  destruct X as [-> |X]; [left|right; auto]. split; apply Qcle_antisym; auto.
Qed.
Print Assumptions C81_exact.

(** A node without a route to an origin has failure probability nought. *)
Theorem C81_cut_off : forall np_sqrt np_log norm_cdf gm_ln_sa gm_std_al gm_std_ep nx_multi f name max_sf max_nb wr done lines saved n low up ns cv,
  nx_multi_ok nx_multi -> (forall a, (0 < a)%Qc -> (0 < np_sqrt a)%Qc) ->
  (forall x m s, (0 < s)%Qc -> (0 <= norm_cdf x m s)%Qc /\ (norm_cdf x m s <= 1)%Qc) -> (forall m, gm_std_al m <> 0%Qc) ->
  map_ok f -> match max_sf with Some m => 1 <= m | None => True end -> Permutation done (keys (pm_nodes f)) ->
  pm_main np_sqrt np_log norm_cdf gm_ln_sa gm_std_al gm_std_ep nx_multi f name max_sf max_nb wr done = Ok (lines, saved) ->
  (forall d t, In d (pm_origins f) -> ~ reach false (timed_roads np_sqrt f) (fun _ => True) n d t) ->
  In (n, (low, up, ns, cv)) lines -> low = 0%Qc.
Proof.
  intros np_sqrt np_log norm_cdf gm_ln_sa gm_std_al gm_std_ep nx_multi f name max_sf max_nb wr done lines saved n low up ns cv Hnx Hroot Hcdf Hal Hf Hmx Hdone H No I.
  destruct (C81_enclosed np_sqrt np_log norm_cdf gm_ln_sa gm_std_al gm_std_ep nx_multi f name max_sf max_nb wr done lines saved Hnx Hroot Hcdf Hal Hf Hmx Hdone H) as (pf & mean & cov & _ & _ & _ & Hl).
  destruct (Hl n low up ns cv I) as (_ & _ & L0 & _ & B). destruct (B (fun _ => false)) as [B1 _].
  - intros x _. split; [discriminate|]. intros (t0 & ((d & Id & R) & _) & _). destruct (No d t0 Id R).
  - apply Qcle_antisym; auto. replace 0%Qc with (event_prob (keys (pm_roads f)) (road_scen pf) (fun _ => false)); auto.
    unfold event_prob. replace (filter (fun _ => false) (arc_states (keys (pm_roads f)))) with (@nil (dict Z)); [reflexivity|]. clear. induction (arc_states (keys (pm_roads f))); auto.
Qed.
Print Assumptions C81_cut_off.

(** The saved CPMs give the bounds: the probabilities of failure, survival and of the unknown. *)
Theorem C81_saved : forall np_sqrt np_log norm_cdf gm_ln_sa gm_std_al gm_std_ep nx_multi f name max_sf max_nb wr done lines saved n low up ns cv d,
  nx_multi_ok nx_multi -> (forall a, (0 < a)%Qc -> (0 < np_sqrt a)%Qc) ->
  (forall x m s, (0 < s)%Qc -> (0 <= norm_cdf x m s)%Qc /\ (norm_cdf x m s <= 1)%Qc) -> (forall m, gm_std_al m <> 0%Qc) ->
  map_ok f -> match max_sf with Some m => 1 <= m | None => True end -> Permutation done (keys (pm_nodes f)) ->
  pm_main np_sqrt np_log norm_cdf gm_ln_sa gm_std_al gm_std_ep nx_multi f name max_sf max_nb wr done = Ok (lines, saved) ->
  In (n, (low, up, ns, cv)) lines -> In (n, d) saved ->
  let varis := map (fun kr => (fst kr, mk_variable (fst kr) [VInf; VNum (road_time np_sqrt f (snd kr))] None)) (pm_roads f) ++ [(n, mk_variable n [VStr "f"; VStr "s"; VStr "u"] None)] in
  let q z := compute_prob d varis (keys (pm_roads f)) n (SI z) true in
  exists M, q 0 = Ok (low, M) /\ q 1 = Ok ((1 - up)%Qc, M) /\ q 2 = Ok ((up - low)%Qc, M).
Proof.
  intros np_sqrt np_log norm_cdf gm_ln_sa gm_std_al gm_std_ep nx_multi f name max_sf max_nb wr done lines saved n low up ns cv d Hnx Hroot Hcdf Hal Hf Hmx Hdone H I Id.
  destruct (map_enclosed np_sqrt np_log norm_cdf gm_ln_sa gm_std_al gm_std_ep nx_multi Hnx Hroot Hcdf Hal f Hf name max_sf max_nb wr done Hmx lines saved H) as (pf & mean & cov & Hed & El & Hl).
  destruct (Hl n low up ns cv I) as (_ & _ & _ & _ & _ & Q & _). destruct (Q d Id) as (M & Q1 & Q2 & Q3). exists M. cbv zeta. auto.
Qed.
Print Assumptions C81_saved.

(** * A file *)
(** square roots: [k] binary digits *)
Definition ref_root (k : Z) (q : Qc) : Qc :=
  (qz (Z.sqrt (Qnum (this q) * Zpos (Qden (this q)) * 4 ^ k)) / qz (Zpos (Qden (this q)) * 2 ^ k))%Qc.
Lemma qz_this a : (this (qz a) == inject_Z a)%Q.
Proof. apply Qred_correct. Qed.
Lemma qz_mult a b : qz (a * b) = (qz a * qz b)%Qc.
Proof. apply Qc_is_canon. rewrite qc_this_mult, !qz_this. unfold Qeq. cbn. lia. Qed.
Lemma qz_plus a b : qz (a + b) = (qz a + qz b)%Qc.
Proof. apply Qc_is_canon. rewrite qc_this_plus, !qz_this. unfold Qeq. cbn. lia. Qed.
Lemma qz_minus a b : qz (a - b) = (qz a - qz b)%Qc.
Proof. apply Qc_is_canon. rewrite qc_this_minus, !qz_this. unfold Qeq. cbn. lia. Qed.
Lemma qz_le a b : a <= b -> (qz a <= qz b)%Qc.
Proof. intros H. unfold Qcle. rewrite !qz_this. unfold Qle. cbn. lia. Qed.
Lemma qz_lt a b : a < b -> (qz a < qz b)%Qc.
Proof. intros H. unfold Qclt. rewrite !qz_this. unfold Qlt. cbn. lia. Qed.
Lemma qz_num (q : Qc) : (q * qz (Zpos (Qden (this q))) = qz (Qnum (this q)))%Qc.
Proof. apply Qc_is_canon. rewrite qc_this_mult, !qz_this. destruct q as [[n d] C]. cbn. unfold Qeq. cbn. lia. Qed.
Lemma qc_pos_ne' (a : Qc) : (0 < a)%Qc -> a <> 0%Qc.
Proof. intros H ->. apply (Qclt_not_eq _ _ H). reflexivity. Qed.
Lemma qcdiv_nonneg (a b : Qc) : (0 <= a)%Qc -> (0 < b)%Qc -> (0 <= a / b)%Qc.
Proof. intros A B. apply (qc_pos_cancel _ _ b B). replace (a / b * b)%Qc with a by (field; apply qc_pos_ne'; auto). replace (0 * b)%Qc with 0%Qc by ring. auto. Qed.
Lemma qcdiv_pos (a b : Qc) : (0 < a)%Qc -> (0 < b)%Qc -> (0 < a / b)%Qc.
Proof.
  intros A B. apply qc_pos_ne; [apply qcdiv_nonneg; auto; apply Qclt_le_weak; auto|]. intros E. apply (qc_pos_ne' a A). replace a with (a / b * b)%Qc by (field; apply qc_pos_ne'; auto).
  rewrite E. ring.
Qed.
Lemma ref_root_pos k a : 0 <= k -> (0 < a)%Qc -> (0 < ref_root k a)%Qc.
Proof.
  intros Hk Ha. unfold ref_root. set (n := Qnum (this a)). set (d := Qden (this a)).
  assert (Hn : 0 < n). { unfold Qclt in Ha. rewrite qc_this_0 in Ha. unfold Qlt in Ha. cbn in Ha. fold n in Ha. lia. }
  assert (P4 : 0 < 4 ^ k) by (apply Z.pow_pos_nonneg; lia). assert (P2 : 0 < 2 ^ k) by (apply Z.pow_pos_nonneg; lia).
  assert (S : 0 < Z.sqrt (n * Zpos d * 4 ^ k)) by (apply Z.sqrt_pos; nia).
  apply qcdiv_pos; [apply (qz_lt 0); auto|apply (qz_lt 0); nia].
Qed.
Lemma ref_root_within k : 0 <= k -> root_within (qz 2 / qz (2 ^ k))%Qc (ref_root k).
Proof.
  intros Hk a Ha. unfold ref_root. set (n := Qnum (this a)). set (d := Zpos (Qden (this a))). set (s := Z.sqrt (n * d * 4 ^ k)). set (W := d * 2 ^ k).
  assert (Hn : 0 <= n). { unfold Qcle in Ha. rewrite qc_this_0 in Ha. unfold Qle in Ha. cbn in Ha. fold n in Ha. lia. }
  assert (P2 : 0 < 2 ^ k) by (apply Z.pow_pos_nonneg; lia). assert (E4 : 4 ^ k = 2 ^ k * 2 ^ k) by (rewrite <- Z.pow_mul_l; reflexivity).
  assert (Hd : 0 < d) by (unfold d; lia). assert (HW : 0 < W) by (unfold W; nia).
  assert (HN : 0 <= n * d * 4 ^ k) by nia. pose proof (Z.sqrt_spec _ HN) as [S1 S2]. fold s in S1, S2. assert (S0 : 0 <= s) by apply Z.sqrt_nonneg.
  assert (Key : (n * d * 4 ^ k - s * s) * 2 ^ k <= 2 * (n * d * 4 ^ k)).
  { destruct (Z.eq_dec n 0) as [Z0|Nz]; [rewrite Z0 in *; cbn [Z.mul] in *; nia|]. assert (2 ^ k <= s) by (apply Z.sqrt_le_square; nia). nia. }
  assert (W0 : (0 < qz W)%Qc) by (apply (qz_lt 0); auto). assert (Wn : qz W <> 0%Qc) by (apply qc_pos_ne'; auto). assert (K0 : (0 < qz (2 ^ k))%Qc) by (apply (qz_lt 0); auto).
  assert (Kn : qz (2 ^ k) <> 0%Qc) by (apply qc_pos_ne'; auto).
  assert (EN : (a * (qz W * qz W) = qz (n * d * 4 ^ k))%Qc). { unfold W. rewrite E4, !qz_mult. replace (qz n) with (a * qz d)%Qc by apply qz_num. ring. }
  assert (Er : (qz s / qz W * (qz s / qz W) * (qz W * qz W) = qz (s * s))%Qc) by (rewrite qz_mult; field; auto).
  assert (WW : (0 < qz W * qz W)%Qc) by (apply qc_mult_pos; auto).
  split; [apply qcdiv_nonneg; auto; apply (qz_le 0); auto|]. split; apply (qc_pos_cancel _ _ (qz W * qz W)%Qc WW).
  - rewrite Er. replace ((1 - qz 2 / qz (2 ^ k)) * a * (qz W * qz W))%Qc with ((1 - qz 2 / qz (2 ^ k)) * (a * (qz W * qz W)))%Qc by ring. rewrite EN.
    apply (qc_pos_cancel _ _ (qz (2 ^ k)) K0). replace ((1 - qz 2 / qz (2 ^ k)) * qz (n * d * 4 ^ k) * qz (2 ^ k))%Qc with ((qz (2 ^ k) - qz 2) * qz (n * d * 4 ^ k))%Qc by (field; auto).
    rewrite <- qz_mult. replace ((qz (2 ^ k) - qz 2) * qz (n * d * 4 ^ k))%Qc with (qz ((2 ^ k - 2) * (n * d * 4 ^ k)))%Qc.
    + apply qz_le. nia.
    + rewrite qz_mult, qz_minus. reflexivity.
  - rewrite Er. replace ((1 + qz 2 / qz (2 ^ k)) * a * (qz W * qz W))%Qc with ((1 + qz 2 / qz (2 ^ k)) * (a * (qz W * qz W)))%Qc by ring. rewrite EN.
    apply (qc_pos_cancel _ _ (qz (2 ^ k)) K0). replace ((1 + qz 2 / qz (2 ^ k)) * qz (n * d * 4 ^ k) * qz (2 ^ k))%Qc with ((qz (2 ^ k) + qz 2) * qz (n * d * 4 ^ k))%Qc by (field; auto).
    rewrite <- qz_mult. replace ((qz (2 ^ k) + qz 2) * qz (n * d * 4 ^ k))%Qc with (qz ((2 ^ k + 2) * (n * d * 4 ^ k)))%Qc.
    + apply qz_le. nia.
    + rewrite qz_mult, qz_plus. reflexivity.
Qed.
(** a distribution function, and parts of a ground motion model *)
Definition ref_cdf (x m s : Qc) : Qc := let z := ((x - m) / s)%Qc in ((1 + qabs z + z) / (qz 2 * (1 + qabs z)))%Qc.
Lemma ref_cdf_range x m s : (0 < s)%Qc -> (0 <= ref_cdf x m s)%Qc /\ (ref_cdf x m s <= 1)%Qc.
Proof.
  intros _. unfold ref_cdf. set (z := ((x - m) / s)%Qc). clearbody z. cbv zeta.
  assert (A : (0 <= qabs z)%Qc /\ (0 <= qabs z + z)%Qc /\ (z <= qabs z)%Qc).
  { unfold qabs. destruct (qc_ltb z 0%Qc) eqn:E; [apply qc_ltb_lt in E|assert (0 <= z)%Qc by (apply Qcnot_lt_le; intros C; apply qc_ltb_lt in C; congruence)]; repeat split; qc_lra. }
  destruct A as (A1 & A2 & A3). set (w := qabs z) in *. clearbody w. assert (D : (0 < qz 2 * (1 + w))%Qc) by (apply qc_mult_pos; [reflexivity|qc_lra]). split.
  - apply qcdiv_nonneg; auto. qc_lra.
  - apply (qc_pos_cancel _ _ _ D). replace ((1 + w + z) / (qz 2 * (1 + w)) * (qz 2 * (1 + w)))%Qc with (1 + w + z)%Qc by (set (e := (qz 2 * (1 + w))%Qc) in *; clearbody e; field; apply qc_pos_ne'; auto).
    replace (qz 2) with (1 + 1)%Qc by (apply Qc_is_canon; reflexivity). qc_all. lra.
Qed.
Definition ref_ln_sa (m r : Qc) : Qc := (m - qz 7 - r / qz 4)%Qc.
Definition ref_log (x : Qc) : Qc := (x - 1)%Qc.
Definition ref_al (m : Qc) : Qc := Q2Qc (1 # 2).
Definition ref_ep (m r : Qc) : Qc := Q2Qc (1 # 5).
Lemma ref_al_ne m : ref_al m <> 0%Qc.
Proof. intros H. apply qc_eq_q in H. discriminate. Qed.

(** three roads, one of them direct from the place of help [n1] to [n2], the others by [n3];
    [n4] has no road *)
Definition mfile : mapfile := mkMap
  [("n1", (qz 0, qz 0)); ("n2", (qz 3, qz 4)); ("n3", (qz 3, qz 0)); ("n4", (qz 9, qz 9)); ("epi", (qz 0, qz 12))]
  [("e12", mkRoad "n1" "n2" "bridge" 1%Qc); ("e13", mkRoad "n1" "n3" "road" 1%Qc); ("e32", mkRoad "n3" "n2" "bridge" 1%Qc)]
  None ["n1"]
  [("s1", mkQuake (qz 7) (qz 0, qz 12))]
  [("road", mkFrag [Q2Qc (1 # 2); 1%Qc; qz 2] (Q2Qc (2 # 5))); ("bridge", mkFrag [Q2Qc (1 # 4); Q2Qc (1 # 2); 1%Qc] (Q2Qc (2 # 5)))]
  (qz 2).
Lemma mfile_ok : map_ok mfile.
Proof.
  assert (X : forall k r, In (k, r) (pm_roads mfile) -> (k = "e12" /\ r_from r = "n1" /\ r_to r = "n2") \/ (k = "e13" /\ r_from r = "n1" /\ r_to r = "n3") \/ (k = "e32" /\ r_from r = "n3" /\ r_to r = "n2")).
  { intros k r [E|[E|[E|[]]]]; injection E as <- <-; auto. }
  repeat apply conj.
  - left; auto.
  - repeat constructor; cbn; intuition discriminate.
  - repeat constructor; cbn; intuition discriminate.
  - discriminate.
  - intros k r k' r' I I' H. apply X in I, I'. destruct I as [(-> & F1 & T1)|[(-> & F1 & T1)|(-> & F1 & T1)]], I' as [(-> & F2 & T2)|[(-> & F2 & T2)|(-> & F2 & T2)]]; auto;
      rewrite F1, T1, F2, T2 in H; destruct H as [[H1 H2]|[H1 H2]]; discriminate.
  - discriminate.
  - intros n [<-|[]]. cbn. auto.
  - reflexivity.
  - intros n Hn Hk. cbn in Hn, Hk. intuition congruence.
Qed.
Lemma mfile_full : map_full mfile "s1".
Proof.
  split.
  - intros k r [E|[E|[E|[]]]]; injection E as <- <-; (split; [eexists _, _; split; [reflexivity|split; [reflexivity|]]|eexists; split; [reflexivity|cbn; lia]]); intros H; injection H; intros; discriminate.
  - eexists. split; [reflexivity|]. split; discriminate.
Qed.
Notation mdist := (cal_edge_dist (ref_root 10) ref_log ref_cdf ref_ln_sa ref_al ref_ep).
Notation mmain := (pm_main (ref_root 10) ref_log ref_cdf ref_ln_sa ref_al ref_ep bf_multi).

(** the road [e12] ends at [n2], the point of it nearest to the epicentre *)
Example C80_distance_example : exists r m, shortest_distance (ref_root 10) (qz 0, qz 0) (qz 3, qz 4) (qz 0, qz 12) = Ok r /\
  least_dist2 (qz 0, qz 0) (qz 3, qz 4) (qz 0, qz 12) m /\ this m = 73%Q /\ this r = (8749 # 1024)%Q /\
  root_within (qz 2 / qz (2 ^ 10))%Qc (ref_root 10) /\ (qz 2 / qz (2 ^ 10) < 1)%Qc.
Proof.
  assert (R : root_within (qz 2 / qz (2 ^ 10))%Qc (ref_root 10)) by (apply ref_root_within; lia).
  exists (Q2Qc (8749 # 1024)), (qz 73). split; [|split].
  - destruct (shortest_distance (ref_root 10) (qz 0, qz 0) (qz 3, qz 4) (qz 0, qz 12)) as [r|e] eqn:E.
    + f_equal. apply Qc_is_canon. vm_compute in E. injection E as <-. reflexivity.
    + vm_compute in E. discriminate.
  - split.
    + exists (qz 3, qz 4). split; [|apply Qc_is_canon; reflexivity]. exists 1%Qc. split; [discriminate|]. split; [discriminate|]. split; apply Qc_is_canon; reflexivity.
    + intros [qx qy] (t & L0 & L1 & E1 & E2). cbn [fst snd] in *. subst qx qy. unfold dist2. cbn [fst snd].
      assert (E : (qz 73 = qz 73)%Qc) by reflexivity. unfold Qcle in *. rewrite ?qc_this_0, ?qc_this_1 in *.
      repeat progress (rewrite ?qc_this_plus, ?qc_this_minus, ?qc_this_opp, ?qc_this_mult, ?qz_this). unfold inject_Z. nra.
  - split; [reflexivity|]. split; [reflexivity|]. split; auto. reflexivity.
Qed.
Example C80_roads_example : map_ok mfile /\ map_full mfile "s1" /\
  match mdist mfile "s1" with
  | Ok (pf, mean, cov) => map (fun kp => (fst kp, this (snd kp))) pf = [("e12", 6869 # 57483); ("e13", 6869 # 95658); ("e32", 6869 # 57483)]%Q /\
      map (map this) cov = [[9 # 20; 1 # 4; 1 # 4]; [1 # 4; 9 # 20; 1 # 4]; [1 # 4; 1 # 4; 9 # 20]]%Q
  | Err _ => False
  end.
Proof. split; [exact mfile_ok|]. split; [exact mfile_full|]. vm_compute. auto. Qed.

(** [n2] is late when the direct road and one of the others fail, [n3] when its road fails: the
    detour takes three times as long.  The table has no line for the place of help. *)
Example C81_example : nx_multi_ok bf_multi /\ (forall a, (0 < a)%Qc -> (0 < ref_root 10 a)%Qc) /\
  (forall x m s, (0 < s)%Qc -> (0 <= ref_cdf x m s)%Qc /\ (ref_cdf x m s <= 1)%Qc) /\ (forall m, ref_al m <> 0%Qc) /\
  map_ok mfile /\ map_full mfile "s1" /\ Permutation ["n3"; "n1"; "epi"; "n4"; "n2"] (keys (pm_nodes mfile)) /\
  match mmain mfile "s1" None 16 0%Qc ["n3"; "n1"; "epi"; "n4"; "n2"] with
  | Ok (lines, saved) =>
      map (fun nb => (fst nb, (this (fst (fst (fst (snd nb)))), this (snd (fst (fst (snd nb))))))) lines =
        [("n2", (3450787662896 # 158041139377581, 3450787662896 # 158041139377581)); ("n3", (6869 # 95658, 6869 # 95658)); ("n4", (0, 0))]%Q /\
      keys saved = ["n3"; "epi"; "n4"; "n2"]
  | Err _ => False
  end /\
  (let p := 6869 # 57483 in let q := 6869 # 95658 in p * (1 - (1 - q) * (1 - p)) == 3450787662896 # 158041139377581)%Q.
Proof.
  split; [exact bf_multi_ok|]. split; [intros a Ha; apply ref_root_pos; auto; lia|]. split; [exact ref_cdf_range|]. split; [exact ref_al_ne|].
  split; [exact mfile_ok|]. split; [exact mfile_full|]. split.
  { apply NoDup_Permutation; [repeat constructor; cbn; intuition discriminate|apply mfile_ok|]. intros x. cbn. tauto. }
  split; [vm_compute; auto|reflexivity].
Qed.

(** With a limit in reach there is no table: sampling the unknown branches fails. *)
Theorem C81_limit_refuted : ~ (forall f name max_sf max_nb wr done, map_ok f -> map_full f name ->
  match max_sf with Some m => 1 <= m | None => True end -> 1 <= max_nb -> Permutation done (keys (pm_nodes f)) ->
  exists lines saved, mmain f name max_sf max_nb wr done = Ok (lines, saved)).
Proof.
  intros H. destruct (H mfile "s1" (Some 1) 16 0%Qc (keys (pm_nodes mfile))) as (lines & saved & E); [exact mfile_ok|exact mfile_full|lia|lia|apply Permutation_refl|].
  vm_compute in E. discriminate.
Qed.
Print Assumptions C81_limit_refuted.
Example C81_limit_branches : mmain mfile "s1" None 2 0%Qc (keys (pm_nodes mfile)) = Err TypeError.
Proof. vm_compute. reflexivity. Qed.
