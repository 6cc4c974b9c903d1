(** The evaluations that follow the failure map: properties C89 and C90. *)
From Coq Require Import ZArith List String Bool Arith QArith Qcanon Lia Permutation.
From Verif Require Import Py PyFacts Num Vari VariFacts Brc SpecBrc BrcProb BrcMisc Cpm SpecCpm Model ModelFacts Bnb SpecBnb Trans SpecTrans NxPaths Config SpecConfig ConfigFacts SpecDemo.
From Verif Require Import PfMap SpecMap PfMapGeom PfMapFacts PfMapMain PfMapRun PfMapTable PropTrans PropPfMap TwoNet PostMap SpecPost PostRun PostUpd PostDep PostEnc PostSame.
Import ListNotations.
Open Scope string_scope.
Open Scope Z_scope.
Open Scope list_scope.

Section Facts.
Variables (np_sqrt np_log : Qc -> Qc) (norm_cdf : Qc -> Qc -> Qc -> Qc) (gm_ln_sa : Qc -> Qc -> Qc) (gm_std_al : Qc -> Qc) (gm_std_ep : Qc -> Qc -> Qc).
Variable nx_multi : graph -> list string -> string -> res (value * list string).
Hypothesis Hnx : nx_multi_ok nx_multi.
Hypothesis Hroot : forall a, (0 < a)%Qc -> (0 < np_sqrt a)%Qc.
Hypothesis Hcdf : forall x m s, (0 < s)%Qc -> (0 <= norm_cdf x m s)%Qc /\ (norm_cdf x m s <= 1)%Qc.
Hypothesis Hal : forall m, gm_std_al m <> 0%Qc.
Notation edge_dist := (cal_edge_dist np_sqrt np_log norm_cdf gm_ln_sa gm_std_al gm_std_ep).
Notation main := (pm_main np_sqrt np_log norm_cdf gm_ln_sa gm_std_al gm_std_ep nx_multi).
Notation update := (update_pfs np_sqrt np_log norm_cdf gm_ln_sa gm_std_al gm_std_ep).
Notation eval_dep := (eval_pfs_dep np_sqrt np_log norm_cdf gm_ln_sa gm_std_al gm_std_ep).
Variable f : mapfile.
Hypothesis Hf : map_ok f.
Notation K := (keys (pm_roads f)).
Notation V := (map_varis np_sqrt f).
Notation sp := (arc_states K).
Variables (name1 : string) (max_sf : option Z) (max_nb : Z) (wr : Qc) (done : list string) (lines : list (string * (Qc * Qc * Z * Qc))) (saved : dict (dict cpm)).
Hypothesis Hmx : match max_sf with Some m => 1 <= m | None => True end.
Hypothesis Hdone : Permutation done (keys (pm_nodes f)).
Hypothesis Hm : main f name1 max_sf max_nb wr done = Ok (lines, saved).

Lemma post_in n : In n (post_nodes f) <-> In n (keys (pm_nodes f)) /\ n <> "epi" /\ ~ In n (pm_origins f).
Proof. unfold post_nodes. rewrite filter_In, andb_true_iff, !negb_true_iff, String.eqb_neq, <- not_true_iff_false, mem_str_In. tauto. Qed.
Lemma have n : In n (post_nodes f) -> exists brs rows pf mean cov, edge_dist f name1 = Ok (pf, mean, cov) /\ told np_sqrt f n brs rows /\
    dfind saved n = Some (map (fun kv => (fst kv, comp_M (pm_probs pf) kv)) V ++ [(n, sys_M V (node_var n) rows)]).
Proof. intros H. apply post_in in H as (H1 & _ & H3). apply (saved_told np_sqrt np_log norm_cdf gm_ln_sa gm_std_al gm_std_ep nx_multi Hnx Hroot Hcdf Hal f Hf name1 max_sf max_nb wr done lines saved Hmx Hdone Hm n H1 H3). Qed.
Lemma kind_nonneg (w : dict Z -> Qc) brs l : (forall x, In x sp -> (0 <= w x)%Qc) -> (0 <= kind sp w brs in_branch l)%Qc.
Proof.
  intros H. unfold kind. apply qsum_nonneg. intros q Hq. apply in_map_iff in Hq as (b & <- & _). unfold wt. apply qsum_nonneg. intros q Hq. apply in_map_iff in Hq as (x & <- & Hx). apply filter_In in Hx. apply H. apply Hx.
Qed.
Lemma mapM_err {A B} (g : A -> res B) e l : l <> [] -> (forall x, In x l -> g x = Err e) -> mapM g l = Err e.
Proof. destruct l as [|a l]; [contradiction|]. intros _ H. cbn. rewrite (H a) by (left; auto). reflexivity. Qed.
Lemma told_enclose n brs rows (w : dict Z -> Qc) lateb : told np_sqrt f n brs rows -> (forall x, In x sp -> (0 <= w x)%Qc) ->
  (forall x, In x sp -> (lateb x = true <-> late (timed_roads np_sqrt f) (pm_thres f) (pm_origins f) n x)) ->
  (kind sp w brs in_branch F_ <= wt sp w lateb)%Qc /\ (wt sp w lateb <= kind sp w brs in_branch F_ + kind sp w brs in_branch U_)%Qc.
Proof.
  intros T Hw Hl. apply kinds_enclose; auto; [apply (arc_one np_sqrt f n brs rows T)|]. destruct T as (_ & _ & _ & _ & Lb). intros b x Hb Hx Hin. destruct (Lb b x Hb Hx Hin) as [L1 L2]. split; intros E.
  - apply Hl; auto.
  - apply not_true_iff_false. rewrite Hl; auto.
Qed.

Section Upd.
Variables (name2 : string) (pf2 mean2 : dict Qc) (cov2 : list (list Qc)).
Hypothesis Hed2 : edge_dist f name2 = Ok (pf2, mean2, cov2).
Notation w2 := (arc_prob (road_scen pf2)).
Lemma upd_eq has : update has f name2 saved = mapM (fun n => r <- update_pf1 has (keys (pm_arcs f)) (new_pairs pf2) saved n ;; Ok (n, r)) (post_nodes f).
Proof. unfold update_pfs. rewrite (read_ok (pm_net f) false false (proj1 Hf)). cbn [bind]. rewrite Hed2. reflexivity. Qed.
Lemma upd_node has n : In n (post_nodes f) -> exists brs rows, told np_sqrt f n brs rows /\
  update_pf1 has (keys (pm_arcs f)) (new_pairs pf2) saved n = if has then Ok (kind sp w2 brs in_branch F_, kind sp w2 brs in_branch U_) else Err AttributeError.
Proof.
  intros H. destruct (have n H) as (brs & rows & pf & mean & cov & _ & T & E). exists brs, rows. split; auto.
  apply (upd_one np_sqrt np_log norm_cdf gm_ln_sa gm_std_al gm_std_ep Hroot Hcdf Hal f Hf name2 pf2 mean2 cov2 Hed2 has n pf brs rows saved); auto. apply post_in in H. apply H.
Qed.
Lemma all_one brs rows n : told np_sqrt f n brs rows -> (kind sp w2 brs in_branch F_ + kind sp w2 brs in_branch S_ + kind sp w2 brs in_branch U_ = 1)%Qc.
Proof.
  intros T. rewrite (kinds_total sp w2 brs in_branch (arc_one np_sqrt f n brs rows T)).
  rewrite <- (event_wt np_sqrt np_log norm_cdf gm_ln_sa gm_std_al gm_std_ep Hroot Hcdf Hal f Hf name2 pf2 mean2 cov2 Hed2).
  apply prob_total. apply (probs_wf np_sqrt np_log norm_cdf gm_ln_sa gm_std_al gm_std_ep Hroot Hcdf Hal f Hf name2 pf2 mean2 cov2 Hed2).
Qed.
Lemma upd_total : exists out, update true f name2 saved = Ok out /\ map fst out = post_nodes f /\
  forall n p b, In (n, (p, b)) out -> In n (post_nodes f) /\ exists brs rows, told np_sqrt f n brs rows /\ p = kind sp w2 brs in_branch F_ /\ b = kind sp w2 brs in_branch U_ /\
    update_pf1 true (keys (pm_arcs f)) (new_pairs pf2) saved n = Ok (p, b).
Proof.
  rewrite upd_eq.
  assert (G : forall l, incl l (post_nodes f) -> exists out, mapM (fun n => r <- update_pf1 true (keys (pm_arcs f)) (new_pairs pf2) saved n ;; Ok (n, r)) l = Ok out /\ map fst out = l /\
    forall n p b, In (n, (p, b)) out -> In n l /\ exists brs rows, told np_sqrt f n brs rows /\ p = kind sp w2 brs in_branch F_ /\ b = kind sp w2 brs in_branch U_ /\
      update_pf1 true (keys (pm_arcs f)) (new_pairs pf2) saved n = Ok (p, b)).
  { induction l as [|n l IH]; intros I; [exists []; split; auto; split; auto; intros ? ? ? []|]. destruct IH as (out & E & F & H); [intros x Hx; apply I; right; auto|].
    destruct (upd_node true n (I n (or_introl eq_refl))) as (brs & rows & T & Eu). cbn [mapM]. rewrite Eu. cbn [bind]. rewrite E. cbn [bind]. eexists. split; [reflexivity|]. split; [cbn; rewrite F; auto|].
    intros n' p b [X|X]; [injection X as <- <- <-; split; [left; auto|exists brs, rows; auto]|]. destruct (H n' p b X). split; auto. right; auto. }
  apply G. intros x Hx; auto.
Qed.
End Upd.
End Facts.

(** * C89: the update with the probabilities of a new scenario *)

(** Were the two functions where the demo looks for them: for every node other than the origins
    and the epicentre the new probability of being late lies between [pf] and [pf + pf_bnd]. *)
Theorem C89_enclosed : forall np_sqrt np_log norm_cdf gm_ln_sa gm_std_al gm_std_ep nx_multi f name1 name2 max_sf max_nb wr done lines saved pf mean cov,
  nx_multi_ok nx_multi -> (forall a, (0 < a)%Qc -> (0 < np_sqrt a)%Qc) ->
  (forall x m s, (0 < s)%Qc -> (0 <= norm_cdf x m s)%Qc /\ (norm_cdf x m s <= 1)%Qc) -> (forall m, gm_std_al m <> 0%Qc) ->
  map_ok f -> match max_sf with Some m => 1 <= m | None => True end -> Permutation done (keys (pm_nodes f)) ->
  pm_main np_sqrt np_log norm_cdf gm_ln_sa gm_std_al gm_std_ep nx_multi f name1 max_sf max_nb wr done = Ok (lines, saved) ->
  cal_edge_dist np_sqrt np_log norm_cdf gm_ln_sa gm_std_al gm_std_ep f name2 = Ok (pf, mean, cov) ->
  exists out, update_pfs np_sqrt np_log norm_cdf gm_ln_sa gm_std_al gm_std_ep true f name2 saved = Ok out /\
    (forall n, In n (map fst out) <-> In n (keys (pm_nodes f)) /\ n <> "epi" /\ ~ In n (pm_origins f)) /\ NoDup (map fst out) /\
    forall n p b, In (n, (p, b)) out -> (0 <= p)%Qc /\ (0 <= b)%Qc /\ (p + b <= 1)%Qc /\
      forall lateb, (forall x, In x (arc_states (keys (pm_roads f))) -> (lateb x = true <-> late (timed_roads np_sqrt f) (pm_thres f) (pm_origins f) n x)) ->
        (p <= event_prob (keys (pm_roads f)) (road_scen pf) lateb)%Qc /\ (event_prob (keys (pm_roads f)) (road_scen pf) lateb <= p + b)%Qc.
Proof.
  intros np_sqrt np_log norm_cdf gm_ln_sa gm_std_al gm_std_ep nx_multi f name1 name2 max_sf max_nb wr done lines saved pf mean cov Hnx Hroot Hcdf Hal Hf Hmx Hdone Hm Hed.
  destruct (upd_total np_sqrt np_log norm_cdf gm_ln_sa gm_std_al gm_std_ep nx_multi Hnx Hroot Hcdf Hal f Hf name1 max_sf max_nb wr done lines saved Hmx Hdone Hm name2 pf mean cov Hed) as (out & E & F & H).
  exists out. split; auto. split; [intros n; rewrite F; apply post_in|]. split; [rewrite F; apply NoDup_filter, Hf|].
  assert (Nn := scen_nonneg np_sqrt np_log norm_cdf gm_ln_sa gm_std_al gm_std_ep Hroot Hcdf Hal f Hf name2 pf mean cov Hed).
  intros n p b I. destruct (H n p b I) as (_ & brs & rows & T & -> & -> & _).
  split; [apply kind_nonneg; auto|]. split; [apply kind_nonneg; auto|]. split.
  - pose proof (all_one np_sqrt np_log norm_cdf gm_ln_sa gm_std_al gm_std_ep Hroot Hcdf Hal f Hf name2 pf mean cov Hed brs rows n T) as A.
    pose proof (kind_nonneg f (arc_prob (road_scen pf)) brs S_ Nn) as B. revert A B. match goal with |- (?a + ?b + ?c = 1)%Qc -> _ => generalize a b c end. clear. intros a s u A B. rewrite <- A. replace (a + s + u)%Qc with (a + u + s)%Qc by ring.
    generalize dependent (a + u)%Qc. intros q. clear A. qc_lra.
  - intros lateb Hl. apply (told_enclose np_sqrt f n brs rows (arc_prob (road_scen pf)) lateb T Nn Hl).
Qed.
Print Assumptions C89_enclosed.

(** With the scenario of the map it gives the bounds of the map. *)
Theorem C89_same : forall np_sqrt np_log norm_cdf gm_ln_sa gm_std_al gm_std_ep nx_multi f name max_sf max_nb wr done lines saved,
  nx_multi_ok nx_multi -> (forall a, (0 < a)%Qc -> (0 < np_sqrt a)%Qc) ->
  (forall x m s, (0 < s)%Qc -> (0 <= norm_cdf x m s)%Qc /\ (norm_cdf x m s <= 1)%Qc) -> (forall m, gm_std_al m <> 0%Qc) ->
  map_ok f -> match max_sf with Some m => 1 <= m | None => True end -> Permutation done (keys (pm_nodes f)) ->
  pm_main np_sqrt np_log norm_cdf gm_ln_sa gm_std_al gm_std_ep nx_multi f name max_sf max_nb wr done = Ok (lines, saved) ->
  exists out, update_pfs np_sqrt np_log norm_cdf gm_ln_sa gm_std_al gm_std_ep true f name saved = Ok out /\
    forall n low up ns cv p b, In (n, (low, up, ns, cv)) lines -> In (n, (p, b)) out -> p = low /\ b = (up - low)%Qc.
Proof.
  intros np_sqrt np_log norm_cdf gm_ln_sa gm_std_al gm_std_ep nx_multi f name max_sf max_nb wr done lines saved Hnx Hroot Hcdf Hal Hf Hmx Hdone Hm.
  destruct (C81_enclosed np_sqrt np_log norm_cdf gm_ln_sa gm_std_al gm_std_ep nx_multi f name max_sf max_nb wr done lines saved Hnx Hroot Hcdf Hal Hf Hmx Hdone Hm) as (pf & mean & cov & Hed & _).
  destruct (upd_total np_sqrt np_log norm_cdf gm_ln_sa gm_std_al gm_std_ep nx_multi Hnx Hroot Hcdf Hal f Hf name max_sf max_nb wr done lines saved Hmx Hdone Hm name pf mean cov Hed) as (out & E & F & H).
  exists out. split; auto. intros n low up ns cv p b Il Io. destruct (H n p b Io) as (Hn & _ & _ & _ & _ & _ & Eu).
  destruct (have np_sqrt np_log norm_cdf gm_ln_sa gm_std_al gm_std_ep nx_multi Hnx Hroot Hcdf Hal f Hf name max_sf max_nb wr done lines saved Hmx Hdone Hm n Hn) as (brs & rows & pf' & mean' & cov' & Hed' & T & Es).
  rewrite Hed in Hed'. injection Hed' as <- _ _. assert (Hk : In n (keys (pm_nodes f))) by (apply post_in in Hn; apply Hn).
  assert (U := upd_one np_sqrt np_log norm_cdf gm_ln_sa gm_std_al gm_std_ep Hroot Hcdf Hal f Hf name pf mean cov Hed true n pf brs rows saved Hk T Es). rewrite U in Eu. injection Eu as <- <-.
  destruct (saved_kinds np_sqrt np_log norm_cdf gm_ln_sa gm_std_al gm_std_ep Hroot Hcdf Hal f Hf name pf mean cov Hed n brs rows Hk T) as (M & HM).
  destruct (C81_saved np_sqrt np_log norm_cdf gm_ln_sa gm_std_al gm_std_ep nx_multi f name max_sf max_nb wr done lines saved n low up ns cv _ Hnx Hroot Hcdf Hal Hf Hmx Hdone Hm Il (dfind_In _ _ _ Es)) as (M' & Q0 & _ & Q2).
  pose proof (HM F_) as HF. pose proof (HM U_) as HU. cbn [conv3] in HF, HU.
  assert (X0 := eq_trans (eq_sym HF) Q0). assert (X2 := eq_trans (eq_sym HU) Q2). injection X0 as X0 _. injection X2 as X2 _. auto.
Qed.
Print Assumptions C89_same.

(** As the package is, there is no table: the functions are looked up in the wrong module. *)
Theorem C89_attribute : forall np_sqrt np_log norm_cdf gm_ln_sa gm_std_al gm_std_ep nx_multi f name1 name2 max_sf max_nb wr done lines saved pf mean cov,
  nx_multi_ok nx_multi -> (forall a, (0 < a)%Qc -> (0 < np_sqrt a)%Qc) ->
  (forall x m s, (0 < s)%Qc -> (0 <= norm_cdf x m s)%Qc /\ (norm_cdf x m s <= 1)%Qc) -> (forall m, gm_std_al m <> 0%Qc) ->
  map_ok f -> match max_sf with Some m => 1 <= m | None => True end -> Permutation done (keys (pm_nodes f)) ->
  pm_main np_sqrt np_log norm_cdf gm_ln_sa gm_std_al gm_std_ep nx_multi f name1 max_sf max_nb wr done = Ok (lines, saved) ->
  cal_edge_dist np_sqrt np_log norm_cdf gm_ln_sa gm_std_al gm_std_ep f name2 = Ok (pf, mean, cov) ->
  (exists n, In n (keys (pm_nodes f)) /\ n <> "epi" /\ ~ In n (pm_origins f)) ->
  update_pfs np_sqrt np_log norm_cdf gm_ln_sa gm_std_al gm_std_ep false f name2 saved = Err AttributeError.
Proof.
  intros np_sqrt np_log norm_cdf gm_ln_sa gm_std_al gm_std_ep nx_multi f name1 name2 max_sf max_nb wr done lines saved pf mean cov Hnx Hroot Hcdf Hal Hf Hmx Hdone Hm Hed (n & Hn).
  rewrite (upd_eq np_sqrt np_log norm_cdf gm_ln_sa gm_std_al gm_std_ep f Hf saved name2 pf mean cov Hed). apply post_in in Hn. apply mapM_err; [intros X; rewrite X in Hn; destruct Hn|].
  intros n' Hn'. destruct (upd_node np_sqrt np_log norm_cdf gm_ln_sa gm_std_al gm_std_ep nx_multi Hnx Hroot Hcdf Hal f Hf name1 max_sf max_nb wr done lines saved Hmx Hdone Hm name2 pf mean cov Hed false n' Hn') as (brs & rows & _ & E).
  rewrite E. reflexivity.
Qed.
Print Assumptions C89_attribute.

(** Without the file of a node its evaluation ends there. *)
Theorem C89_missing : forall has arcs new_probs saved n, dfind saved n = None -> update_pf1 has arcs new_probs saved n = Err FileNotFoundError.
Proof. intros has arcs new_probs saved n H. unfold update_pf1, load_cpms. rewrite H. reflexivity. Qed.
Print Assumptions C89_missing.

(** the file of C81 with two more roads, by [n5], and a second earthquake *)
Definition mfile2 : mapfile := mkMap (("n5", (qz 0, qz 4)) :: pm_nodes mfile)
  (pm_roads mfile ++ [("e15", mkRoad "n1" "n5" "road" 1%Qc); ("e52", mkRoad "n5" "n2" "road" 1%Qc)]) (pm_type mfile) (pm_origins mfile)
  (pm_eq mfile ++ [("s2", mkQuake (Q2Qc (15 # 2)) (qz 2, (- qz 3)%Qc))]) (pm_frag mfile) (pm_thres mfile).
Lemma mfile2_ok : map_ok mfile2.
Proof.
  assert (X : forall k r, In (k, r) (pm_roads mfile2) -> (k = "e12" /\ r_from r = "n1" /\ r_to r = "n2") \/ (k = "e13" /\ r_from r = "n1" /\ r_to r = "n3") \/ (k = "e32" /\ r_from r = "n3" /\ r_to r = "n2") \/
    (k = "e15" /\ r_from r = "n1" /\ r_to r = "n5") \/ (k = "e52" /\ r_from r = "n5" /\ r_to r = "n2")).
  { intros k r [E|[E|[E|[E|[E|[]]]]]]; injection E as <- <-; tauto. }
  repeat apply conj.
  - left; auto.
  - repeat constructor; cbn; intuition discriminate.
  - repeat constructor; cbn; intuition discriminate.
  - discriminate.
  - intros k r k' r' I I' H. apply X in I, I'. destruct I as [(-> & F1 & T1)|[(-> & F1 & T1)|[(-> & F1 & T1)|[(-> & F1 & T1)|(-> & F1 & T1)]]]], I' as [(-> & F2 & T2)|[(-> & F2 & T2)|[(-> & F2 & T2)|[(-> & F2 & T2)|(-> & F2 & T2)]]]]; auto;
      rewrite F1, T1, F2, T2 in H; destruct H as [[H1 H2]|[H1 H2]]; discriminate.
  - discriminate.
  - intros n [<-|[]]. cbn. auto.
  - reflexivity.
  - intros n Hn Hk. cbn in Hn, Hk. intuition congruence.
Qed.
Lemma mfile2_full s : s = "s1" \/ s = "s2" -> map_full mfile2 s.
Proof.
  intros H. split.
  - intros k r [E|[E|[E|[E|[E|[]]]]]]; injection E as <- <-; (split; [eexists _, _; split; [reflexivity|split; [reflexivity|]]|eexists; split; [reflexivity|cbn; lia]]); intros H0; injection H0; intros; discriminate.
  - destruct H as [->| ->]; (eexists; split; [reflexivity|]; split; discriminate).
Qed.
Notation mupdate := (update_pfs (ref_root 10) ref_log ref_cdf ref_ln_sa ref_al ref_ep).
Definition shown_post (r : res (list (string * (Qc * Qc)))) : res (list (string * (Q * Q))) :=
  match r with Ok l => Ok (map (fun x => (fst x, (this (fst (snd x)), this (snd (snd x))))) l) | Err e => Err e end.
Notation mdone := ["n3"; "n1"; "epi"; "n4"; "n2"; "n5"].
Notation mrun := (mmain mfile2 "s1" None 64 0%Qc mdone).
Notation mrun_wide := (mmain mfile2 "s1" None 64 (Q2Qc 1) mdone).
Lemma mfile2_perm : Permutation mdone (keys (pm_nodes mfile2)).
Proof. apply NoDup_Permutation; [repeat constructor; cbn; intuition discriminate|apply mfile2_ok|]. intros x. cbn. tauto. Qed.
Definition of_run {A B : Type} (r : res (A * B)) (P : A -> B -> Prop) : Prop := match r with Ok x => P (fst x) (snd x) | Err _ => False end.
(** with bounds that meet, and with bounds that do not for [n2] *)
Example C89_example : map_ok mfile2 /\ map_full mfile2 "s1" /\ map_full mfile2 "s2" /\ Permutation mdone (keys (pm_nodes mfile2)) /\
  of_run mrun (fun lines saved =>
      shown_post (mupdate true mfile2 "s1" saved) = Ok [("n5", (1483816047128 # 81219623097843, 0)); ("n2", (5925865114108156 # 1556249198177769723, 0)); ("n3", (6869 # 95658, 0)); ("n4", (0, 0))]%Q /\
      shown_post (mupdate true mfile2 "s2" saved) = Ok [("n5", (1178116347009 # 18580539628024, 0)); ("n2", (94849145189834874643 # 2539478456852356466304, 0)); ("n3", (6869 # 39338, 0)); ("n4", (0, 0))]%Q /\
      mupdate false mfile2 "s2" saved = Err AttributeError) /\
  of_run mrun_wide (fun lines saved =>
      shown_post (mupdate true mfile2 "s2" saved) = Ok [("n5", (1178116347009 # 18580539628024, 0));
        ("n2", (43514086784201521561 # 1349097930202814372724, 5640633105967799461 # 1106952147858719485312)); ("n3", (6869 # 39338, 0)); ("n4", (0, 0))]%Q) /\
  (let p12 := 6869 # 21958 in let p13 := 6869 # 39338 in let p32 := 6869 # 19688 in let p15 := 6869 # 42438 in let p52 := 6869 # 59818 in
   p12 * (1 - (1 - p13) * (1 - p32)) * (1 - (1 - p15) * (1 - p52)) == 94849145189834874643 # 2539478456852356466304)%Q.
Proof.
  split; [exact mfile2_ok|]. split; [apply mfile2_full; auto|]. split; [apply mfile2_full; auto|]. split; [exact mfile2_perm|]. split; [vm_compute; auto|]. split; [vm_compute; auto|reflexivity].
Qed.
Lemma ref_root_10 a : (0 < a)%Qc -> (0 < ref_root 10 a)%Qc.
Proof. apply ref_root_pos. lia. Qed.
Lemma mrun_ok : exists lines saved, mrun = Ok (lines, saved).
Proof.
  destruct (C81_exact (ref_root 10) ref_log ref_cdf ref_ln_sa ref_al ref_ep bf_multi mfile2 "s1" None 64 0%Qc mdone bf_multi_ok ref_root_10 ref_cdf_range ref_al_ne mfile2_ok (mfile2_full _ (or_introl eq_refl)) mfile2_perm I) as (lines & saved & _ & _ & _ & E & _).
  - vm_compute. discriminate.
  - apply Qcle_refl.
  - exists lines, saved. exact E.
Qed.
(** it is never returned, whatever the map has stored *)
Theorem C89_as_is_refuted : ~ (forall f name1 name2 max_sf max_nb wr done lines saved, map_ok f -> map_full f name1 -> map_full f name2 ->
  match max_sf with Some m => 1 <= m | None => True end -> Permutation done (keys (pm_nodes f)) ->
  mmain f name1 max_sf max_nb wr done = Ok (lines, saved) -> exists out, mupdate false f name2 saved = Ok out).
Proof.
  intros H. destruct mrun_ok as (lines & saved & E).
  destruct (H mfile2 "s1" "s2" None 64 0%Qc mdone lines saved mfile2_ok (mfile2_full _ (or_introl eq_refl)) (mfile2_full _ (or_intror eq_refl)) I mfile2_perm E) as (out & Eo).
  destruct (C80_total (ref_root 10) ref_log ref_cdf ref_ln_sa ref_al ref_ep mfile2 "s2" (mfile2_full _ (or_intror eq_refl))) as (pf & mean & cov & Hed).
  assert (A : mupdate false mfile2 "s2" saved = Err AttributeError).
  { refine (C89_attribute (ref_root 10) ref_log ref_cdf ref_ln_sa ref_al ref_ep bf_multi mfile2 "s1" "s2" None 64 0%Qc mdone lines saved pf mean cov bf_multi_ok ref_root_10 ref_cdf_range ref_al_ne mfile2_ok I mfile2_perm E Hed _).
    exists "n2". split; [cbn; auto|]. split; [discriminate|]. intros [X|[]]. discriminate. }
  exact (match eq_trans (eq_sym A) Eo in _ = r return match r with Ok _ => False | Err _ => True end with eq_refl => I end).
Qed.
Print Assumptions C89_as_is_refuted.

(** * C90: the evaluation with dependent roads *)

(** The arguments of the distribution function, for every row of the matrix that the map has
    stored for a node.  Let the roads be random variables with the means and covariances of
    [cal_edge_dist].  The means of the turned variables are right; their covariances are right
    exactly when the row has all the roads that it decides on in the same state. *)
Theorem C90_arguments : forall np_sqrt np_log norm_cdf gm_ln_sa gm_std_al gm_std_ep nx_multi f name1 name2 max_sf max_nb wr done lines saved pf mean cov l n,
  nx_multi_ok nx_multi -> (forall a, (0 < a)%Qc -> (0 < np_sqrt a)%Qc) ->
  (forall x m s, (0 < s)%Qc -> (0 <= norm_cdf x m s)%Qc /\ (norm_cdf x m s <= 1)%Qc) -> (forall m, gm_std_al m <> 0%Qc) ->
  map_ok f -> match max_sf with Some m => 1 <= m | None => True end -> Permutation done (keys (pm_nodes f)) ->
  pm_main np_sqrt np_log norm_cdf gm_ln_sa gm_std_al gm_std_ep nx_multi f name1 max_sf max_nb wr done = Ok (lines, saved) ->
  cal_edge_dist np_sqrt np_log norm_cdf gm_ln_sa gm_std_al gm_std_ep f name2 = Ok (pf, mean, cov) ->
  law_fits (keys (pm_roads f)) mean cov l ->
  In n (keys (pm_nodes f)) -> n <> "epi" -> ~ In n (pm_origins f) ->
  exists d M, dfind saved n = Some d /\ dget d n = Ok M /\
    forall row, In row (c_C M) -> let D := decided (keys (pm_roads f)) row in
      exists a, row_args (c_vars M) mean cov (keys (pm_roads f)) row = Ok a /\
        fst a = side_means l D /\
        (snd a = side_covs l D <-> forall kc kc', In kc D -> In kc' D -> snd kc = snd kc').
Proof.
  intros np_sqrt np_log norm_cdf gm_ln_sa gm_std_al gm_std_ep nx_multi f name1 name2 max_sf max_nb wr done lines saved pf mean cov l n Hnx Hroot Hcdf Hal Hf Hmx Hdone Hm Hed Hfit Hn He Ho.
  assert (Hp : In n (post_nodes f)) by (apply post_in; auto).
  destruct (have np_sqrt np_log norm_cdf gm_ln_sa gm_std_al gm_std_ep nx_multi Hnx Hroot Hcdf Hal f Hf name1 max_sf max_nb wr done lines saved Hmx Hdone Hm n Hp) as (brs & rows & pf' & mean' & cov' & _ & T & Es).
  assert (Nn : ~ In n (keys (pm_roads f))) by (destruct Hf as (_ & _ & _ & _ & _ & _ & _ & _ & Nk); apply Nk; auto).
  assert (NK := K_nodup f Hf).
  eexists _, _. split; [exact Es|]. split.
  { apply dget_mid. unfold keys. rewrite map_map. cbn [fst]. change (~ In n (keys (map_varis np_sqrt f))). rewrite PfMapMain.V_keys. auto. }
  cbn [sys_M c_C c_vars]. intros row Hr. destruct (rows_shape np_sqrt f Hf n brs rows T row Hr) as (b & cs & Hb & -> & Hl & Hc). cbv zeta.
  assert (Hv : map v_name (node_var n :: map snd (map_varis np_sqrt f)) = n :: keys (pm_roads f)).
  { cbn [map]. f_equal. change (map v_name (map snd (map_varis np_sqrt f))) with (names (map snd (map_varis np_sqrt f))). rewrite (vnames (map_varis np_sqrt f) (V_st np_sqrt f)). apply PfMapMain.V_keys. }
  assert (HM : forall k, In k (keys (pm_roads f)) -> exists m, dfind mean k = Some m) by (intros k Hk; destruct Hfit as (_ & X & _); eauto).
  eexists. split; [apply (args_eq n (keys (pm_roads f)) NK Nn _ Hv mean cov HM (conv3 (br_label b)) cs Hl Hc)|]. cbn [fst snd]. split.
  - apply (means_right (keys (pm_roads f)) mean cov (conv3 (br_label b)) cs Hl Hc l Hfit).
  - apply (covs_right (keys (pm_roads f)) mean cov (conv3 (br_label b)) cs Hl Hc l Hfit).
    intros i j ki kj Nij Ei Ej. destruct (C80_roads np_sqrt np_log norm_cdf gm_ln_sa gm_std_al gm_std_ep f name2 pf mean cov NK Hed) as (e & _ & _ & _ & _ & _ & Lc & HR).
    unfold keys in Ei, Ej. rewrite nth_error_map in Ei, Ej. destruct (nth_error (pm_roads f) i) as [[k r]|] eqn:Ri; [|discriminate]. destruct (nth_error (pm_roads f) j) as [kr|] eqn:Rj; [|discriminate].
    destruct (HR i k r Ri) as (? & ? & ? & ? & ? & rw & X). cbv zeta in X. destruct X as (_ & _ & _ & _ & _ & _ & _ & Er & Lr & Hrw).
    assert (Lj : (j < List.length rw)%nat) by (rewrite Lr; apply nth_error_Some; congruence). destruct (nth_error rw j) as [c|] eqn:Ec; [|apply nth_error_None in Ec; lia].
    specialize (Hrw j c Ec). destruct (Nat.eqb_spec i j) as [|_]; [contradiction|]. unfold mat. rewrite (nth_error_nth _ _ [] Er), (nth_error_nth _ _ 0%Qc Ec), Hrw.
    intros Z. apply Qcmult_integral in Z as [Z|Z]; apply (Hal _ Z).
Qed.
Print Assumptions C90_arguments.

(** Were the functions found, and did the distribution function give for the rows the weights
    of their states, whatever these are: the probability of being late that belongs to the weights lies
    between [pf] and [pf + pf_bnd]. *)
Theorem C90_enclosed : forall np_sqrt np_log norm_cdf gm_ln_sa gm_std_al gm_std_ep mvn_cdf nx_multi f name1 name2 max_sf max_nb wr done lines saved pf mean cov n w,
  nx_multi_ok nx_multi -> (forall a, (0 < a)%Qc -> (0 < np_sqrt a)%Qc) ->
  (forall x m s, (0 < s)%Qc -> (0 <= norm_cdf x m s)%Qc /\ (norm_cdf x m s <= 1)%Qc) -> (forall m, gm_std_al m <> 0%Qc) ->
  map_ok f -> match max_sf with Some m => 1 <= m | None => True end -> Permutation done (keys (pm_nodes f)) ->
  pm_main np_sqrt np_log norm_cdf gm_ln_sa gm_std_al gm_std_ep nx_multi f name1 max_sf max_nb wr done = Ok (lines, saved) ->
  cal_edge_dist np_sqrt np_log norm_cdf gm_ln_sa gm_std_al gm_std_ep f name2 = Ok (pf, mean, cov) ->
  In n (keys (pm_nodes f)) -> n <> "epi" -> ~ In n (pm_origins f) ->
  let sp := arc_states (keys (pm_roads f)) in
  (forall x, In x sp -> (0 <= w x)%Qc) -> weight_of sp w (fun _ => true) <> 0%Qc ->
  (forall d M row, dfind saved n = Some d -> dget d n = Ok M -> In row (c_C M) ->
     exists a, row_args (c_vars M) mean cov (keys (pm_roads f)) row = Ok a /\ mvn_cdf (fst a) (snd a) = Ok (weight_of sp w (row_has (keys (pm_roads f)) row))) ->
  (exists p b, cal_prob_dep np_sqrt np_log norm_cdf gm_ln_sa gm_std_al gm_std_ep mvn_cdf true f name2 (keys (pm_arcs f)) saved n = Ok (p, b) /\
    (0 <= p)%Qc /\ (0 <= b)%Qc /\ (p + b <= 1)%Qc /\
    forall lateb, (forall x, In x sp -> (lateb x = true <-> late (timed_roads np_sqrt f) (pm_thres f) (pm_origins f) n x)) ->
      let P := (weight_of sp w lateb / weight_of sp w (fun _ => true))%Qc in (p <= P)%Qc /\ (P <= p + b)%Qc) /\
  cal_prob_dep np_sqrt np_log norm_cdf gm_ln_sa gm_std_al gm_std_ep mvn_cdf false f name2 (keys (pm_arcs f)) saved n = Err AttributeError.
Proof.
  intros np_sqrt np_log norm_cdf gm_ln_sa gm_std_al gm_std_ep mvn_cdf nx_multi f name1 name2 max_sf max_nb wr done lines saved pf mean cov n w Hnx Hroot Hcdf Hal Hf Hmx Hdone Hm Hed Hn He Ho sp Hw NW Hmv.
  assert (Hp : In n (post_nodes f)) by (apply post_in; auto).
  destruct (have np_sqrt np_log norm_cdf gm_ln_sa gm_std_al gm_std_ep nx_multi Hnx Hroot Hcdf Hal f Hf name1 max_sf max_nb wr done lines saved Hmx Hdone Hm n Hp) as (brs & rows & pf' & mean' & cov' & _ & T & Es).
  assert (Nn : ~ In n (keys (pm_roads f))) by (destruct Hf as (_ & _ & _ & _ & _ & _ & _ & _ & Nk); apply Nk; auto).
  assert (Hd : dget (map (fun kv => (fst kv, comp_M (pm_probs pf') kv)) (map_varis np_sqrt f) ++ [(n, sys_M (map_varis np_sqrt f) (node_var n) rows)]) n = Ok (sys_M (map_varis np_sqrt f) (node_var n) rows)).
  { apply dget_mid. unfold keys. rewrite map_map. cbn [fst]. change (~ In n (keys (map_varis np_sqrt f))). rewrite PfMapMain.V_keys. auto. }
  assert (Hmv' : forall row, In row rows -> exists a, row_args (node_var n :: map snd (map_varis np_sqrt f)) mean cov (keys (pm_roads f)) row = Ok a /\ mvn_cdf (fst a) (snd a) = Ok (wt sp w (row_has (keys (pm_roads f)) row))).
  { intros row Hr. apply (Hmv _ _ row Es Hd Hr). }
  assert (D := fun has => dep_one np_sqrt np_log norm_cdf gm_ln_sa gm_std_al gm_std_ep mvn_cdf f Hf n brs rows Hn T w has name2 pf mean cov pf' saved Hed Es NW Hmv').
  split; [|apply (D false)]. eexists _, _. split; [apply (D true)|].
  assert (W0 : (0 < wt sp w (fun _ => true))%Qc).
  { apply qc_pos_ne; auto. unfold wt. apply qsum_nonneg. intros q Hq. apply in_map_iff in Hq as (x & <- & Hx). apply filter_In in Hx. apply Hw. apply Hx. }
  assert (KF := kind_nonneg f w brs F_ Hw). assert (KU := kind_nonneg f w brs U_ Hw). assert (KS := kind_nonneg f w brs S_ Hw).
  assert (Tot := kinds_total (arc_states (keys (pm_roads f))) w brs in_branch (arc_one np_sqrt f n brs rows T)).
  pose proof (fun lateb Hl => told_enclose np_sqrt f n brs rows w lateb T Hw Hl) as Enc. fold sp in KF, KU, KS, Tot, Enc |- *.
  set (W := wt sp w (fun _ => true)) in *. set (a := kind sp w brs in_branch F_) in *. set (u := kind sp w brs in_branch U_) in *. set (s := kind sp w brs in_branch S_) in *.
  assert (Wn : W <> 0%Qc) by (apply qc_pos_ne'; auto). change (weight_of sp w) with (wt sp w).
  assert (Mono : forall x y, (x <= y)%Qc -> (x / W <= y / W)%Qc).
  { intros x y Hxy. apply (qc_pos_cancel _ _ W W0). replace (x / W * W)%Qc with x by (field; auto). replace (y / W * W)%Qc with y by (field; auto). auto. }
  assert (Add : (a / W + u / W = (a + u) / W)%Qc) by (field; auto).
  split; [apply qcdiv_nonneg; auto|]. split; [apply qcdiv_nonneg; auto|]. rewrite Add. split.
  - replace 1%Qc with (W / W)%Qc by (field; auto). apply Mono. rewrite <- Tot. replace (a + s + u)%Qc with (a + u + s)%Qc by ring. revert KS. clear. generalize (a + u)%Qc. intros q KS. qc_lra.
  - intros lateb Hl. cbv zeta. destruct (Enc lateb Hl) as [E1 E2]. fold W. split; apply Mono; auto.
Qed.
Print Assumptions C90_enclosed.
(** The same for the whole table; the hypotheses are met by the run of [C90_enclosed_example] below, which checks them for every node. *)
Theorem C90_table : forall np_sqrt np_log norm_cdf gm_ln_sa gm_std_al gm_std_ep mvn_cdf nx_multi f name1 name2 max_sf max_nb wr done lines saved pf mean cov w,
  nx_multi_ok nx_multi -> (forall a, (0 < a)%Qc -> (0 < np_sqrt a)%Qc) ->
  (forall x m s, (0 < s)%Qc -> (0 <= norm_cdf x m s)%Qc /\ (norm_cdf x m s <= 1)%Qc) -> (forall m, gm_std_al m <> 0%Qc) ->
  map_ok f -> match max_sf with Some m => 1 <= m | None => True end -> Permutation done (keys (pm_nodes f)) ->
  pm_main np_sqrt np_log norm_cdf gm_ln_sa gm_std_al gm_std_ep nx_multi f name1 max_sf max_nb wr done = Ok (lines, saved) ->
  cal_edge_dist np_sqrt np_log norm_cdf gm_ln_sa gm_std_al gm_std_ep f name2 = Ok (pf, mean, cov) ->
  let sp := arc_states (keys (pm_roads f)) in
  (forall x, In x sp -> (0 <= w x)%Qc) -> weight_of sp w (fun _ => true) <> 0%Qc ->
  (forall n d M row, In n (keys (pm_nodes f)) -> n <> "epi" -> ~ In n (pm_origins f) -> dfind saved n = Some d -> dget d n = Ok M -> In row (c_C M) ->
     exists a, row_args (c_vars M) mean cov (keys (pm_roads f)) row = Ok a /\ mvn_cdf (fst a) (snd a) = Ok (weight_of sp w (row_has (keys (pm_roads f)) row))) ->
  exists out, eval_pfs_dep np_sqrt np_log norm_cdf gm_ln_sa gm_std_al gm_std_ep mvn_cdf true f name2 saved = Ok out /\
    (forall n, In n (map fst out) <-> In n (keys (pm_nodes f)) /\ n <> "epi" /\ ~ In n (pm_origins f)) /\ NoDup (map fst out) /\
    forall n p b, In (n, (p, b)) out -> (0 <= p)%Qc /\ (0 <= b)%Qc /\ (p + b <= 1)%Qc /\
      forall lateb, (forall x, In x sp -> (lateb x = true <-> late (timed_roads np_sqrt f) (pm_thres f) (pm_origins f) n x)) ->
        let P := (weight_of sp w lateb / weight_of sp w (fun _ => true))%Qc in (p <= P)%Qc /\ (P <= p + b)%Qc.
Proof.
  intros np_sqrt np_log norm_cdf gm_ln_sa gm_std_al gm_std_ep mvn_cdf nx_multi f name1 name2 max_sf max_nb wr done lines saved pf mean cov w Hnx Hroot Hcdf Hal Hf Hmx Hdone Hm Hed sp Hw NW Hmv.
  pose (Q := fun n p b => (0 <= p)%Qc /\ (0 <= b)%Qc /\ (p + b <= 1)%Qc /\
      forall lateb, (forall x, In x sp -> (lateb x = true <-> late (timed_roads np_sqrt f) (pm_thres f) (pm_origins f) n x)) ->
        let P := (weight_of sp w lateb / weight_of sp w (fun _ => true))%Qc in (p <= P)%Qc /\ (P <= p + b)%Qc).
  assert (G : forall l, incl l (post_nodes f) -> exists out,
    mapM (fun n => r <- cal_prob_dep np_sqrt np_log norm_cdf gm_ln_sa gm_std_al gm_std_ep mvn_cdf true f name2 (keys (pm_arcs f)) saved n ;; Ok (n, r)) l = Ok out /\ map fst out = l /\
    forall n p b, In (n, (p, b)) out -> Q n p b).
  { induction l as [|n l IH]; intros Hin; [exists []; split; auto; split; auto; intros ? ? ? []|]. destruct IH as (out & E & F & H); [intros x Hx; apply Hin; right; auto|].
    assert (Hn := Hin n (or_introl eq_refl)). apply post_in in Hn as (N1 & N2 & N3).
    destruct (C90_enclosed np_sqrt np_log norm_cdf gm_ln_sa gm_std_al gm_std_ep mvn_cdf nx_multi f name1 name2 max_sf max_nb wr done lines saved pf mean cov n w Hnx Hroot Hcdf Hal Hf Hmx Hdone Hm Hed N1 N2 N3 Hw NW
      (fun d M row => Hmv n d M row N1 N2 N3)) as ((p & b & Ep & Hp) & _).
    cbn [mapM]. rewrite Ep. cbn [bind]. rewrite E. cbn [bind]. eexists. split; [reflexivity|]. split; [cbn; rewrite F; auto|].
    intros n' p' b' [X|X]; [injection X as <- <- <-; exact Hp|]. apply H; auto. }
  destruct (G (post_nodes f)) as (out & E & F & H); [intros x Hx; auto|]. exists out.
  split; [unfold eval_pfs_dep; rewrite (read_ok (pm_net f) false false (proj1 Hf)); cbn [bind]; rewrite Hed; exact E|].
  split; [intros n; rewrite F; apply post_in|]. split; [rewrite F; apply NoDup_filter, Hf|]. exact H.
Qed.
Print Assumptions C90_table.

(** Without the file of a node its evaluation ends there. *)
Theorem C90_missing : forall np_sqrt np_log norm_cdf gm_ln_sa gm_std_al gm_std_ep mvn_cdf has f name arcs saved n r,
  cal_edge_dist np_sqrt np_log norm_cdf gm_ln_sa gm_std_al gm_std_ep f name = Ok r -> dfind saved n = None ->
  cal_prob_dep np_sqrt np_log norm_cdf gm_ln_sa gm_std_al gm_std_ep mvn_cdf has f name arcs saved n = Err FileNotFoundError.
Proof. intros until r. intros Hed H. unfold cal_prob_dep, load_cpms. rewrite Hed, H. destruct r as [[pf mean] cov]. reflexivity. Qed.
Print Assumptions C90_missing.

(** As the package is, no table is ever returned. *)
Theorem C90_attribute : forall np_sqrt np_log norm_cdf gm_ln_sa gm_std_al gm_std_ep mvn_cdf f name saved,
  (exists n, In n (keys (pm_nodes f)) /\ n <> "epi" /\ ~ In n (pm_origins f)) ->
  forall out, eval_pfs_dep np_sqrt np_log norm_cdf gm_ln_sa gm_std_al gm_std_ep mvn_cdf false f name saved <> Ok out.
Proof.
  intros np_sqrt np_log norm_cdf gm_ln_sa gm_std_al gm_std_ep mvn_cdf f name saved (n & Hn) out H. apply post_in in Hn. unfold eval_pfs_dep in H.
  destruct (read_model (pm_net f)); [|discriminate]. cbn [bind] in H. destruct (cal_edge_dist np_sqrt np_log norm_cdf gm_ln_sa gm_std_al gm_std_ep f name) as [[[pf mean] cov]|] eqn:Hed; [|discriminate]. cbn [bind] in H.
  destruct (post_nodes f) as [|m ns]; [destruct Hn|]. cbn [mapM] in H. unfold cal_prob_dep in H. rewrite Hed in H. cbn [bind] in H.
  destruct (load_cpms saved m) as [cp|]; [|discriminate]. cbn [bind] in H. destruct (dget cp m) as [M|]; [|discriminate]. cbn [bind] in H.
  match type of H with context [mapM ?g (c_C M)] => destruct (mapM g (c_C M)) as [p|]; [|discriminate] end. cbn [bind] in H. destruct (qc_eqb (qsum p) 0%Qc); [discriminate|].
  match type of H with context [set_p M ?q] => destruct (set_p M q); discriminate end.
Qed.
Print Assumptions C90_attribute.

(** random variables with the means and covariances of the second earthquake: a common part and one for a road *)
Definition mlaw (mean : dict Qc) : law :=
  flat_map (fun a => flat_map (fun k => map (fun s => (Q2Qc (1 # 20), fun k' =>
    (match dfind mean k' with Some m => m | None => 0%Qc end + a + if String.eqb k k' then s else 0)%Qc)) [1%Qc; (- (1))%Qc]) (keys (pm_roads mfile2))) [Q2Qc (1 # 2); Q2Qc (- 1 # 2)].
Definition law_fitsb (names : list string) (MEAN : dict Qc) (COV : list (list Qc)) (l : law) : bool :=
  qc_eqb (qsum (map fst l)) 1%Qc &&
  forallb (fun k => match dfind MEAN k with Some m => qc_eqb m (mean_of l (fun z => z k)) | None => false end) names &&
  forallb (fun ik => forallb (fun jk => match nth_error COV (fst ik) with
      | Some row => match nth_error row (fst jk) with Some c => qc_eqb c (cov_of l (fun z => z (snd ik)) (fun z => z (snd jk))) | None => false end
      | None => false end) (combine (seq 0 (List.length names)) names)) (combine (seq 0 (List.length names)) names).
Lemma nth_numbered {A} (l : list A) i x : nth_error l i = Some x -> In (i, x) (combine (seq 0 (List.length l)) l).
Proof.
  assert (G : forall (l : list A) s i x, nth_error l i = Some x -> In ((s + i)%nat, x) (combine (seq s (List.length l)) l)).
  { clear. induction l as [|a l IH]; intros s [|i] x H; cbn in *; try discriminate; [injection H as <-; left; f_equal; lia|]. right. replace (s + S i)%nat with (S s + i)%nat by lia. auto. }
  apply (G l 0%nat).
Qed.
Lemma law_fitsb_ok names MEAN COV l : law_fitsb names MEAN COV l = true -> law_fits names MEAN COV l.
Proof.
  unfold law_fitsb. rewrite !andb_true_iff, !forallb_forall. intros [[A B] C]. split; [apply qc_eqb_eq; auto|]. split.
  - intros k Hk. specialize (B k Hk). destruct (dfind MEAN k); [|discriminate]. apply qc_eqb_eq in B. congruence.
  - intros i j ki kj Hi Hj. specialize (C _ (nth_numbered _ _ _ Hi)). cbn [fst snd] in C. rewrite forallb_forall in C. specialize (C _ (nth_numbered _ _ _ Hj)). cbn [fst snd] in C.
    destruct (nth_error COV i) as [row|]; [|discriminate]. exists row. split; auto. destruct (nth_error row j); [|discriminate]. apply qc_eqb_eq in C. congruence.
Qed.
Lemma mlaw_fits pf mean cov : mdist mfile2 "s2" = Ok (pf, mean, cov) -> law_fits (keys (pm_roads mfile2)) mean cov (mlaw mean).
Proof.
  intros E. assert (B : of_run (mdist mfile2 "s2") (fun pm c => law_fitsb (keys (pm_roads mfile2)) (snd pm) c (mlaw (snd pm)) = true)) by (vm_compute; reflexivity).
  rewrite E in B. apply law_fitsb_ok. exact B.
Qed.
(** the rows of [n2] and what [cal_prob_dep] makes of them; [1; 0; 2; 2; 1; 1]: not late when [e12] fails, [e15] and [e52] do not *)
Example C90_arguments_example : of_run mrun_wide (fun lines saved =>
  match dfind saved "n2" with
  | Some d => match dget d "n2" with
      | Ok M => c_C M = [[1; 1; 2; 2; 2; 2]; [1; 0; 2; 2; 1; 1]; [1; 0; 1; 1; 2; 0]; [2; 0; 0; 1; 0; 1]; [1; 0; 1; 1; 0; 1]; [0; 0; 2; 0; 2; 0]; [0; 0; 2; 0; 0; 1]; [0; 0; 0; 1; 2; 0]] /\
          of_run (mdist mfile2 "s2") (fun pm c =>
            match row_args (c_vars M) (snd pm) c (keys (pm_roads mfile2)) [1; 0; 2; 2; 1; 1] with
            | Ok a => map this (fst a) = [411 # 1024; - 1435 # 1024; - 9 # 4]%Q /\ map (map this) (snd a) = [[9 # 20; 1 # 4; 1 # 4]; [1 # 4; 9 # 20; 1 # 4]; [1 # 4; 1 # 4; 9 # 20]]%Q
            | Err _ => False
            end /\
            decided (keys (pm_roads mfile2)) [1; 0; 2; 2; 1; 1] = [("e12", 0); ("e15", 1); ("e52", 1)] /\
            let D := decided (keys (pm_roads mfile2)) [1; 0; 2; 2; 1; 1] in
            map this (side_means (mlaw (snd pm)) D) = [411 # 1024; - 1435 # 1024; - 9 # 4]%Q /\
            map (map this) (side_covs (mlaw (snd pm)) D) = [[9 # 20; - 1 # 4; - 1 # 4]; [- 1 # 4; 9 # 20; 1 # 4]; [- 1 # 4; 1 # 4; 9 # 20]]%Q)
      | Err _ => False
      end
  | None => False
  end).
Proof. vm_compute. repeat split. Qed.
(** Roads in different states of a row: the distribution function gets the wrong covariances. *)
Theorem C90_dependence_refuted : ~ (forall f name1 name2 max_sf max_nb wr done lines saved pf mean cov l n d M row a,
  map_ok f -> map_full f name1 -> map_full f name2 -> match max_sf with Some m => 1 <= m | None => True end -> Permutation done (keys (pm_nodes f)) ->
  mmain f name1 max_sf max_nb wr done = Ok (lines, saved) -> mdist f name2 = Ok (pf, mean, cov) -> law_fits (keys (pm_roads f)) mean cov l ->
  dfind saved n = Some d -> dget d n = Ok M -> In row (c_C M) -> row_args (c_vars M) mean cov (keys (pm_roads f)) row = Ok a ->
  snd a = side_covs l (decided (keys (pm_roads f)) row)).
Proof.
  intros H. destruct mrun_ok as (lines & saved & E).
  destruct (C80_total (ref_root 10) ref_log ref_cdf ref_ln_sa ref_al ref_ep mfile2 "s2" (mfile2_full _ (or_intror eq_refl))) as (pf & mean & cov & Hed).
  pose proof (mlaw_fits pf mean cov Hed) as Hfit.
  destruct (C90_arguments (ref_root 10) ref_log ref_cdf ref_ln_sa ref_al ref_ep bf_multi mfile2 "s1" "s2" None 64 0%Qc mdone lines saved pf mean cov (mlaw mean) "n2" bf_multi_ok ref_root_10 ref_cdf_range ref_al_ne mfile2_ok I mfile2_perm E Hed Hfit)
    as (d & M & Ed & EM & HM); [cbn; auto|discriminate|intros [X|[]]; discriminate|].
  assert (B : of_run mrun (fun lines saved => match dfind saved "n2" with Some d => match dget d "n2" with Ok M => In [1; 0; 2; 2; 1; 1] (c_C M) | Err _ => False end | None => False end)) by (vm_compute; auto).
  rewrite E in B. cbn [of_run fst snd] in B. rewrite Ed in B. rewrite EM in B.
  destruct (HM _ B) as (a & Ea & _ & Hc).
  pose proof (H mfile2 "s1" "s2" None 64 0%Qc mdone lines saved pf mean cov (mlaw mean) "n2" d M _ a mfile2_ok (mfile2_full _ (or_introl eq_refl)) (mfile2_full _ (or_intror eq_refl)) I mfile2_perm E Hed Hfit Ed EM B Ea) as X.
  assert (C := proj1 Hc X ("e12", 0) ("e15", 1)). cbn in C. discriminate C; auto.
Qed.
Print Assumptions C90_dependence_refuted.

(** a distribution function for independent roads: then the weights are the probabilities of the update, and the results those of it *)
Definition ref_mvn (mean : list Qc) (cov : list (list Qc)) : res Qc :=
  Ok (qprod (map (fun i => ref_cdf 0%Qc (nth i mean 0%Qc) (ref_root 10 (mat cov i i))) (seq 0 (List.length mean)))).
Notation meval := (eval_pfs_dep (ref_root 10) ref_log ref_cdf ref_ln_sa ref_al ref_ep ref_mvn).
Definition weights_okb (saved : dict (dict cpm)) (n : string) (pf mean : dict Qc) (cov : list (list Qc)) : bool :=
  let K := keys (pm_roads mfile2) in
  match dfind saved n with
  | Some d => match dget d n with
      | Ok M => forallb (fun row => match row_args (c_vars M) mean cov K row with
          | Ok a => match ref_mvn (fst a) (snd a) with Ok q => qc_eqb q (weight_of (arc_states K) (arc_prob (road_scen pf)) (row_has K row)) | Err _ => false end
          | Err _ => false end) (c_C M)
      | Err _ => false end
  | None => false end.
Example C90_enclosed_example : of_run mrun_wide (fun lines saved =>
  of_run (mdist mfile2 "s2") (fun pm c => forallb (fun n => weights_okb saved n (fst pm) (snd pm) c) ["n5"; "n2"; "n3"; "n4"] = true /\
    qc_eqb (weight_of (arc_states (keys (pm_roads mfile2))) (arc_prob (road_scen (fst pm))) (fun _ => true)) 1%Qc = true) /\
  shown_post (meval true mfile2 "s2" saved) = Ok [("n5", (1178116347009 # 18580539628024, 0));
    ("n2", (43514086784201521561 # 1349097930202814372724, 5640633105967799461 # 1106952147858719485312)); ("n3", (6869 # 39338, 0)); ("n4", (0, 0))]%Q /\
  meval false mfile2 "s2" saved = Err AttributeError).
Proof. vm_compute. repeat split. Qed.
