(** The demos routine and n3e3 from end to end: lemmas. *)
From Coq Require Import ZArith List String Bool Arith QArith Qcanon Lia Permutation.
From Verif Require Import Py PyFacts Num Vari VariFacts Brc SpecBrc BrcFacts BrcDecomp BrcProb BrcRun BrcMisc BrcMain BrcProper.
From Verif Require Import Cpm SpecCpm CpmFacts CpmMarg CpmSum CpmCond CpmElim CpmProb Model ModelFacts SysEvent SysJoint MsysProd SpecProd PropProd.
From Verif Require Import Bnb SpecBnb PathModel PathModelFacts Trans SpecTrans NetSys Config SpecConfig ConfigFacts.
From Verif Require Import PropBrc PfMapRun DemoNet SpecDemo TwoNet RbdRun.
Import ListNotations.
Open Scope string_scope.
Open Scope Z_scope.
Open Scope list_scope.

(** * Probabilities given as pairs *)
Section Pairs.
Context (K : list string) (NK : NoDup K) (prs : dict (Qc * Qc)) (Hpr : pairs_ok K prs).
Notation V := (arc_vars K fs2).
Definition pair_probs : prob_dict := map (fun kp => (fst kp, PDict [(0, fst (snd kp)); (1, snd (snd kp))])) prs.

Lemma pairs_find k : dfind pair_probs k = match dfind prs k with Some p => Some (PDict [(0, fst p); (1, snd p)]) | None => None end.
Proof. unfold pair_probs. clear. induction prs as [|[k' p] l IH]; auto. cbn [map dfind fst snd]. destruct (String.eqb _ _); auto. Qed.
Lemma pairs_pr k p : dfind prs k = Some p -> pr pair_probs k 0 = fst p /\ pr pair_probs k 1 = snd p.
Proof. intros E. unfold pr. rewrite pairs_find, E. auto. Qed.
Lemma pairs_wf : wf_probs V pair_probs.
Proof.
  intros k v Hv. apply arc_in in Hv as [Hk ->]. destruct (Hpr k Hk) as (p & E & P0 & P1 & S). destruct (pairs_pr k p E) as [E0 E1].
  change (nvals (tv k)) with 2. split.
  - rewrite pairs_find, E. eexists. split; [reflexivity|]. intros x Hx. assert (X : x = 0 \/ x = 1) by lia. destruct X as [->| ->]; cbn; eauto.
  - change (zrange 0 2) with [0; 1]. cbn [map qsum]. rewrite E0, E1, <- S. ring.
Qed.
Lemma given_ok : scen_ok (given K prs).
Proof.
  split.
  - unfold given, keys. rewrite map_map. cbn [fst]. rewrite map_id. auto.
  - intros k l Hl. unfold given in Hl. apply in_map_iff in Hl as (k' & X & Hk). injection X as <- <-. destruct (Hpr k' Hk) as (p & E & P0 & P1 & S). rewrite E.
    split; auto. split; [intros q [<-|[<-|[]]]; auto|]. cbn [qsum]. rewrite <- S. ring.
Qed.
Lemma given_keys : keys (given K prs) = K.
Proof. unfold given, keys. rewrite map_map. cbn [fst]. apply map_id. Qed.
Lemma given_pr k x : In k K -> 0 <= x < 2 -> pr (probs_of (given K prs)) k x = pr pair_probs k x.
Proof.
  intros Hk Hx. destruct (Hpr k Hk) as (p & E & _). destruct (pairs_pr k p E) as [E0 E1].
  assert (F : dfind (probs_of (given K prs)) k = Some (PList [fst p; snd p])).
  { apply In_dfind.
    - unfold probs_of, keys. rewrite map_map. cbn [fst]. change (NoDup (keys (given K prs))). rewrite given_keys. auto.
    - unfold probs_of, given. rewrite map_map. apply in_map_iff. exists k. cbn [fst snd]. rewrite E. auto. }
  unfold pr at 1. rewrite F. assert (X : x = 0 \/ x = 1) by lia. destruct X as [->| ->]; [rewrite E0|rewrite E1]; reflexivity.
Qed.
Lemma given_event E : prob_event V pair_probs E = event_prob K (given K prs) E.
Proof.
  rewrite <- (event_eq (given K prs) given_ok fs2 eq_refl K E) by (rewrite given_keys; intros k; auto).
  unfold prob_event. apply qsum_map_ext. intros x Hx. apply filter_In in Hx as [Hx _]. unfold prob_of. f_equal. apply map_ext_in. intros [k z] Hk. cbn [fst snd].
  assert (Kx : keys x = K) by (rewrite (sp_keys V x Hx); apply V_keys).
  assert (Ik : In k K) by (rewrite <- Kx; apply (in_map fst) in Hk; exact Hk).
  assert (R := sp_coord V (V_wf K NK) x k (tv k) Hx ltac:(apply arc_in; auto)). unfold coord in R. rewrite (In_dfind x k z) in R; auto.
  2:{ rewrite Kx. auto. }
  change (nvals (tv k)) with 2 in R. symmetry. apply given_pr; auto.
Qed.
Lemma pair_cpm k p : In k K -> dfind prs k = Some p -> mk_cpm [two_state k] 1 [[0]; [1]] [fst p; snd p] = Ok (comp_M pair_probs (k, tv k)).
Proof.
  intros Hk E. destruct (pairs_pr k p E) as [E0 E1].
  assert (W := comp_M_wf V pair_probs (V_wf K NK) (fun k v H => V_stored K k v H) (k, tv k)).
  assert (Ek : comp_M pair_probs (k, tv k) = mkCpm [two_state k] 1 [[0]; [1]] [fst p; snd p]).
  { unfold comp_M. cbn [fst snd]. change (nvals (tv k)) with 2. change (zrange 0 2) with [0; 1]. cbn [map]. rewrite E0, E1. reflexivity. }
  rewrite Ek in *. destruct W as (W1 & W2 & W3 & W4 & W5); [apply arc_in; auto|]. cbn [c_vars c_nch c_C c_p] in *. apply CpmCond.mk_cpm_ok; auto.
Qed.
Lemma pair_cpms : mapM (fun k => p <- dget prs k ;; M <- mk_cpm [two_state k] 1 [[0]; [1]] [fst p; snd p] ;; Ok (k, M)) K =
  Ok (map (fun kv => (fst kv, comp_M pair_probs kv)) V).
Proof.
  unfold arc_vars. rewrite map_map. cbn [fst]. apply mapM_ok. intros k Hk. destruct (Hpr k Hk) as (p & E & _). unfold dget. rewrite E. cbn [bind].
  rewrite pair_cpm by auto. reflexivity.
Qed.

Lemma comp_two k : In k K -> comp_ok (comp_M pair_probs (k, tv k)) /\ basic_child (comp_M pair_probs (k, tv k)).
Proof.
  intros Hk. assert (W := comp_M_wf V pair_probs (V_wf K NK) (fun k v H => V_stored K k v H) (k, tv k) ltac:(apply arc_in; auto)).
  split.
  - split; auto. split; [reflexivity|]. split; [reflexivity|]. exists (tv k). split; [reflexivity|]. change (c_C (comp_M pair_probs (k, tv k))) with [[0]; [1]].
    split; [discriminate|]. cbn [map hd]. split; [repeat constructor; cbn; intuition lia|]. split.
    + intros z. change (nvals (tv k)) with 2. cbn. lia.
    + intros c. change (nvals (tv k)) with 2. unfold states_of. rewrite arc_B by reflexivity. destruct (c <? 0); [split; [constructor|intros x []]|].
      destruct (Z.to_nat c) as [|[|[|[|n]]]]; cbn [nth]; (split; [repeat constructor; cbn; intuition lia|cbn; intros x Hx; lia]).
  - intros v row x Hv Hr. change (c_C (comp_M pair_probs (k, tv k))) with [[0]; [1]] in Hr. change (children (comp_M pair_probs (k, tv k))) with [tv k] in Hv.
    destruct Hv as [<-|[]]. destruct Hr as [<-|[<-|[]]]; cbn [hd]; rewrite <- mem_Z_In, one_state, Z.eqb_eq by auto; reflexivity.
Qed.
End Pairs.

(** * The product of the system CPM with the component CPMs *)
Definition sys3 : variable := mk_variable "sys" [VStr "f"; VStr "s"; VStr "u"] None.
Lemma sys3_stored : stored sys3.
Proof. reflexivity. Qed.
Lemma sys3_ok : var_ok sys3.
Proof. apply stored_ok; [cbn; lia|apply sys3_stored]. Qed.
Lemma sys3_basic : basic_table sys3.
Proof. apply stored_basic, sys3_stored. Qed.
Lemma conv3_range l : 0 <= conv3 l < nvals sys3.
Proof. change (nvals sys3) with 3. destruct l; cbn; lia. Qed.
Lemma conv3_inj s t : conv3 s = conv3 t -> s = t.
Proof. destruct s, t; cbn; congruence. Qed.

Section Prod.
Context (K : list string) (NK : NoDup K) (NE : K <> []) (Hsys : ~ In "sys" K) (prs : dict (Qc * Qc)) (Hpr : pairs_ok K prs).
Notation V := (arc_vars K fs2).
Notation probs := (pair_probs prs).
Context (brs : list branch) (rows : list (list Z)) (Hbx : boxes V brs) (Hrow : Forall2 (row_ok V conv3 V) brs rows) (Hex : exact_probs V probs brs) (Nb : brs <> []).
Notation sysM := (sys_M V sys3 rows).
Notation comps := (map (comp_M probs) V).

Lemma sys3_name : ~ In (v_name sys3) (keys V).
Proof. rewrite V_keys. auto. Qed.
Lemma pr_code row : In row rows -> Forall2 code_ok (sys3 :: map snd V) row.
Proof.
  intros Hr. destruct (Forall2_in_r _ _ _ _ Hrow Hr) as (b & Hb & R). apply (row_codes V (V_wf K NK) sys3 conv3 sys3_basic conv3_range b row R).
Qed.
Lemma find_comp v : In v (map snd V) -> comp_for comps v = Some (comp_M probs (v_name v, v)).
Proof.
  intros Hv. apply in_map_iff in Hv as ((k & v') & <- & Hv). apply arc_in in Hv as [Hk ->]. cbn [snd]. change (v_name (tv k)) with k.
  unfold comp_for, arc_vars. change (v_name (tv k)) with k. clear - Hk. induction K as [|k' l IH]; [destruct Hk|]. cbn [map find].
  change (names (children (comp_M probs (k', tv k')))) with [k']. unfold mem_str. cbn [existsb]. rewrite orb_false_r.
  destruct (String.eqb_spec k k') as [->|N]; auto. apply IH. destruct Hk; [congruence|auto].
Qed.
Lemma pr_mult : mult_of sysM comps = map snd V /\ rest_of sysM comps = [] /\ comps_for comps (map snd V) = comps.
Proof.
  assert (P : parents sysM = map snd V) by reflexivity. unfold mult_of, rest_of. rewrite P.
  assert (H : forall l, incl l (map snd V) -> filter (in_comps comps) l = l /\ filter (fun v => negb (in_comps comps v)) l = [] /\
    comps_for comps l = map (fun v => comp_M probs (v_name v, v)) l).
  { induction l as [|v l IH]; intros Hl; auto. destruct IH as (I1 & I2 & I3); [intros w Hw; apply Hl; right; auto|].
    assert (F := find_comp v (Hl v (or_introl eq_refl))). assert (F' : in_comps comps v = true) by (unfold in_comps; rewrite F; auto).
    unfold comps_for in *. cbn [filter flat_map map]. rewrite F', F. cbn [negb]. rewrite I1, I2, I3. auto. }
  destruct (H (map snd V) (fun _ h => h)) as (H1 & H2 & H3). split; auto. split; auto. rewrite H3. unfold arc_vars. rewrite !map_map. reflexivity.
Qed.
Lemma pr_ok : prod_ok sysM comps [].
Proof.
  assert (Wv := se_wf V (V_wf K NK) (fun k v H => V_stored K k v H) sys3 sys3_name sys3_ok rows pr_code).
  split; auto. split; [unfold has_p; cbn [sys_M c_p c_C]; rewrite map_length; auto|]. split.
  { cbn [sys_M c_C]. intros X. rewrite X in Hrow. inversion Hrow; congruence. }
  split; [intros X; unfold arc_vars in X; destruct K; [congruence|discriminate]|]. split; [|split].
  - apply Forall_forall. intros m Hm. apply in_map_iff in Hm as ((k & v) & <- & Hv). apply arc_in in Hv as [Hk ->]. pose proof (comp_two K NK prs k Hk) as X2. apply X2.
  - left. split; auto. intros m Hm. apply in_map_iff in Hm as (kv & <- & _). reflexivity.
  - intros m Hm. apply in_map_iff in Hm as ((k & v) & <- & Hv). cbn [sys_M c_vars comp_M snd]. intros v1 v2 H1 [<-|[]] En. destruct H1 as [<-|H1].
    + exfalso. apply arc_in in Hv as [Hk ->]. change ("sys" = k) in En. congruence.
    + apply in_map_iff in H1 as ((k1 & w) & <- & H1). apply arc_in in Hv as [Hk ->]. apply arc_in in H1 as [Hk1 ->]. cbn [snd] in *. change (k1 = k) in En. congruence.
Qed.

Lemma pr_result : exists R, prod_sys sysM comps = Ok R /\
  forall l, get_prob R (Names ["sys"]) [SI (conv3 l)] true = Ok (qsum (map b_p (filter (fun b => st_eqb (br_label b) l) brs))).
Proof.
  pose proof pr_ok as OK. destruct pr_mult as (M1 & M2 & M3). destruct (C41_rows sysM comps [] OK) as (R & ER & Ch & Pa & _ & HP & _).
  assert (WR : wf_cpm R) by (apply (C41_wf sysM comps [] R OK); [intros y s v []|auto]).
  assert (Ev : c_vars R = sys3 :: map snd V).
  { assert (E : c_vars R = children R ++ parents R) by (unfold children, parents; rewrite firstn_skipn; auto). rewrite E, Ch, Pa, M1, M2. cbn [new_conds filter map app].
    rewrite app_nil_r. reflexivity. }
  exists R. split; auto. intros l.
  assert (MP : mass_on [sys3] R (fun _ => conv3 l) = qsum (map b_p (filter (fun b => st_eqb (br_label b) l) brs))).
  { assert (X := C41_product sysM comps [] R (fun _ => conv3 l) OK). rewrite M1, M2, M3 in X. cbn [map app] in X. change (children sysM ++ []) with [sys3] in X.
    rewrite X; auto.
    - rewrite <- (elim_mass V probs (V_wf K NK) (fun k v H => V_stored K k v H) sys3 conv3 sys3_name sys3_basic conv3_range conv3_inj brs rows Hbx Hrow Hex l (fun _ => conv3 l)) by auto.
      apply marg_ext. intros b. unfold all_M. unfold pmass. rewrite map_app. cbn [map]. rewrite qprod_app. cbn [qprod]. ring.
    - apply Forall_forall. intros m Hm. apply in_map_iff in Hm as ((k & v) & <- & Hv). apply arc_in in Hv as [Hk ->]. pose proof (comp_two K NK prs k Hk) as X2. apply X2.
    - intros y s []. }
  rewrite <- MP. destruct (basic_code sys3 (conv3 l) sys3_basic (conv3_range l)) as [Hc Hs].
  assert (E : get_prob R (Vars [sys3]) (map SI [conv3 l]) true = Ok (total (fun row => Bool.eqb (hits (c_vars R) row [sys3] [conv3 l]) true) R)).
  { apply get_prob_spec; auto; try congruence.
    - rewrite Ev. split; auto. split; [cbn; constructor; [intros []|constructor]|]. split.
      + intros v2 v1 [<-|[]] H1 En. destruct H1 as [<-|H1]; auto. exfalso. apply in_map_iff in H1 as ((k & w) & <- & H1). apply arc_in in H1 as [Hk ->].
        cbn [snd] in En. change ("sys" = k) in En. congruence.
      + intros v c [H|[]] _. injection H as <- <-. auto.
    - intros v c [H|[]]. injection H as <- <-. destruct sys3_ok as (B & HB & Hlen & _). destruct Hc as (B' & HB' & Hc).
      rewrite HB in HB'. injection HB' as <-. lia. }
  assert (EN : get_prob R (Names ["sys"]) [SI (conv3 l)] true = get_prob R (Vars [sys3]) [SI (conv3 l)] true).
  { unfold get_prob. cbn [resolve mapM]. unfold get_variable. rewrite Ev. cbn [find]. change (String.eqb (v_name sys3) "sys") with true. reflexivity. }
  cbn [map] in E. rewrite EN, E. apply (f_equal Ok). unfold mass_on, total. clear E EN MP.
  apply (f_equal qsum). apply (f_equal (map snd)). apply filter_ext_in. intros [r p] Hr. apply in_combine_l in Hr. cbn [fst].
  destruct WR as (_ & _ & _ & W4 & _). specialize (W4 r Hr). rewrite Ev in *. destruct r as [|c r]; [inversion W4|].
  unfold hits. cbn [combine forallb fst snd]. rewrite String.eqb_refl. cbn [negb orb]. change (mem_str (v_name sys3) (names [sys3])) with true. cbn [negb orb].
  assert (Rest : forall vs (cs : list Z), (forall v, In v vs -> In v (map snd V)) -> 
    forallb (fun wr => negb (String.eqb (v_name (fst wr)) (v_name sys3)) || existsb (fun x => mem_Z x (states_of sys3 (conv3 l))) (states_of (fst wr) (snd wr))) (combine vs cs) = true /\
    forallb (fun vc => negb (mem_str (v_name (fst vc)) (names [sys3])) || mem_Z (conv3 l) (states_of (fst vc) (snd vc))) (combine vs cs) = true).
  { intros vs cs Hv. assert (Y : forall vc, In vc (combine vs cs) -> String.eqb (v_name (fst vc)) "sys" = false).
    { intros [v c'] Hvc. apply in_combine_l in Hvc. apply Hv in Hvc. apply in_map_iff in Hvc as ((k & w) & <- & Hw). apply arc_in in Hw as [Hk ->].
      cbn [fst snd]. change (v_name (tv k)) with k. apply String.eqb_neq. intros ->. auto. }
    split; apply forallb_forall; intros vc Hvc; specialize (Y vc Hvc).
    - change (v_name sys3) with "sys". rewrite Y. reflexivity.
    - unfold mem_str, names. cbn [map existsb]. change (v_name sys3) with "sys". rewrite Y. reflexivity. }
  destruct (Rest (map snd V) r (fun _ h => h)) as [R1 R2]. rewrite R1, R2, !andb_true_r.
  match goal with |- Bool.eqb ?x true = ?y => replace (Bool.eqb x true) with x by (destruct x; auto); apply eq_true_iff_eq end.
  rewrite existsb_exists, mem_Z_In. split.
  - intros (x & Hx & Hm). apply mem_Z_In, Hs in Hm. subst x. auto.
  - intros Hx. exists (conv3 l). split; auto. apply mem_Z_In, Hs. auto.
Qed.
End Prod.

(** * The demos *)
Section Demos.
Context (nx_path : graph -> string -> string -> option (list string)) (nx_wpath : graph -> string -> string -> res (list string))
  (nx_wlen : graph -> string -> string -> res value) (Hn : nx_path_ok nx_path).
Context (f : netfile) (dir multi : bool) (Hk : kind_of (graph_type f) dir multi) (NL : NoDup (keys (node_conn_df f)))
  (Np : multi = false -> no_parallel dir (node_conn_df f)).
Notation K := (keys (node_conn_df f)).
Notation V := (arc_vars K fs2).
Context (prs : dict (Qc * Qc)) (Hpr : pairs_ok K prs) (max_sf max_nb : Z) (Hm : 1 <= max_sf).
Context (o d : string) (Io : In o (component_list f)).
Notation G := (file_graph f dir multi).

Lemma file_conn x : conn G x o d <-> joined dir (node_conn_df f) x o d.
Proof. apply conn_joined; auto. apply file_nodes. auto. Qed.

Lemma rou_run key : dfind (sysout_setup f) key = Some (o, d) -> ~ In "sys" K -> K <> [] -> exists out,
  routine_main nx_path nx_wpath nx_wlen f key prs max_sf max_nb = Ok out /\
  ro_pf out = last (m_pf_low (ro_mon out)) 0%Qc /\ ro_ps out = (1 - last (m_pf_up (ro_mon out)) 0)%Qc /\
  forall jb, (forall x, In x (arc_states K) -> (jb x = true <-> joined dir (node_conn_df f) x o d)) ->
    (ro_pf out <= event_prob K (given K prs) (fun x => negb (jb x)))%Qc /\
    (event_prob K (given K prs) (fun x => negb (jb x)) <= 1 - ro_ps out)%Qc /\
    (2 * 2 ^ Z.of_nat (List.length K) <= max_nb -> 2 ^ Z.of_nat (List.length K) < max_sf ->
       ro_pf out = event_prob K (given K prs) (fun x => negb (jb x)) /\ (ro_pf out + ro_ps out = 1)%Qc).
Proof.
  intros Ek Hsys NE. destruct (file_wf f dir multi NL) as (Wg & Lk & _).
  destruct (two_run nx_path nx_wpath nx_wlen Hn G Wg Lk o d K NL (pair_probs prs) (pairs_wf K prs Hpr) max_sf max_nb Hm)
    as (s & brs & rows & Er & Eb & Nb & Bx & Exb & Pt & Pl & Ec & Fr & Lab & El & Eu & Bd & _).
  destruct (pr_result K NL NE Hsys prs Hpr brs rows Bx Fr Exb Nb) as (R & ER & HR).
  exists (mkRou brs (s_mon s) R (qsum (map b_p (filter (fun b => st_eqb (br_label b) F_) brs))) (qsum (map b_p (filter (fun b => st_eqb (br_label b) S_) brs)))).
  cbn [ro_pf ro_ps ro_mon]. split; [|split; [auto|split; [rewrite Eu; ring|]]].
  - unfold routine_main. rewrite (read_ok f dir multi Hk). cbn [bind fst snd]. unfold dget at 1. rewrite Ek. cbn [bind].
    rewrite pair_cpms by auto. cbn [bind]. cbv zeta. rewrite two_arcs. cbn [fst snd].
    change (as_sysfun _) with (net_sys nx_path nx_wpath nx_wlen G o d K). change (map _ prs) with (pair_probs prs). rewrite Er. cbn [bind]. rewrite Eb, Ec. cbn [bind fst snd].
    change (mk_variable "sys" [VStr "f"; VStr "s"; VStr "u"] None) with sys3.
    destruct (dset_names K NL Hsys V sys3 (V_keys K)) as (_ & D2 & _). rewrite D2. cbn [bind].
    rewrite (se_make V (V_wf K NL) (fun k v H => V_stored K k v H) sys3 (sys3_name K Hsys) sys3_ok rows (pr_code K NL brs rows Fr)). cbn [bind].
    set (D := map _ V). assert (ED : keys D = K). { unfold D, keys. rewrite map_map. cbn [fst]. apply V_keys. }
    destruct (dset_names K NL Hsys D (sys_M V sys3 rows) ED) as (_ & _ & D3). rewrite D3 by (intros k; auto). assert (ES : mapM (dget D) K = Ok (map snd D)) by (rewrite <- ED; apply mapM_snd; rewrite ED; auto). rewrite ES.
    cbn [bind]. unfold D. rewrite map_map. cbn [snd]. change (map (fun x => comp_M (pair_probs prs) x) V) with (map (comp_M (pair_probs prs)) V). rewrite ER. cbn [bind].
    assert (HF := HR F_). assert (HS := HR S_). cbn [conv3] in HF, HS. rewrite HF, HS. reflexivity.
  - intros jb Hj. destruct (Bd jb) as (B1 & B2 & B3).
    { intros x Hx. rewrite file_conn. auto. }
    unfold p_fail in *. rewrite (given_event K NL prs Hpr) in *. rewrite El in *. rewrite Eu in B2. split; auto. split; auto.
    intros Z1 Z2. destruct (B3 Z1 Z2) as [B4 B5]. split; auto. rewrite Eu in B5. rewrite <- B4 in B5. rewrite <- B5 at 1. ring.
Qed.

Lemma n3_row b row x : In x (arc_states K) -> row_ok V conv3 V b row -> wf_br V b -> row_has K row x = in_branch b x /\ nth_error row 0 = Some (conv3 (br_label b)).
Proof.
  intros Hx R Wb. split.
  2:{ destruct R as (cs & -> & _). auto. }
  destruct (row_ok_in_branch V (V_wf K NL) conv3 V b row x Wb ltac:(change (sp V) with (space (comps_of V)); rewrite V_space; auto) R) as (c & cs & -> & -> & Hl & I).
  assert (Cd := st_code K NL [b] [conv3 (br_label b) :: cs] ltac:(constructor; auto) _ (or_introl eq_refl)).
  inversion_clear Cd as [|? ? ? ? _ Cd']. rewrite V_keys in *. apply eq_true_iff_eq. rewrite I. unfold row_has. cbn [List.length tl].
  rewrite andb_true_iff, Nat.eqb_eq, forallb_forall.
  assert (Cx : forall k, In k K -> coord x k = 0 \/ coord x k = 1).
  { intros k Hk'. rewrite <- V_space in Hx. assert (Y := sp_coord V (V_wf K NL) x k (tv k) Hx ltac:(apply arc_in; auto)). change (nvals (tv k)) with 2 in Y. lia. }
  assert (H : forall l cs, (forall k, In k l -> In k K) -> List.length cs = List.length l -> Forall2 code_ok (map (fun k => tv k) l) cs ->
    ((forall kc, In kc (combine l cs) -> (snd kc =? 2) || (snd kc =? coord x (fst kc)) = true) <-> Forall2 (fun k c => coded V k c (coord x k)) l cs)).
  { induction l as [|k l IH]; intros cs' Hin Hl' C; destruct cs' as [|c cs']; try discriminate.
    - split; [constructor|intros _ ? []].
    - inversion_clear C as [|? ? ? ? C1 C2]. specialize (IH cs' (fun k' h => Hin k' (or_intror h)) ltac:(cbn in Hl'; lia) C2).
      assert (Fk : dfind V k = Some (tv k)) by (apply In_dfind; [rewrite V_keys; auto|apply arc_in; auto; split; auto; apply Hin; left; auto]).
      assert (E : (c =? 2) || (c =? coord x k) = true <-> coded V k c (coord x k)).
      { destruct C1 as (B & EB & RB). rewrite arc_B in EB by reflexivity. injection EB as <-. cbn in RB. destruct (Cx k (Hin k (or_introl eq_refl))) as [E|E]; rewrite E; split.
        all: intros H; try (assert (Hc : c = 0 \/ c = 1 \/ c = 2) by lia).
        - exists (tv k), [[0]; [1]; [0; 1]]. destruct Hc as [->|[->| ->]]; try discriminate; eexists; (split; [auto|]); (split; [apply arc_B; reflexivity|]); (split; [lia|]); (split; [reflexivity|]); cbn; auto.
        - destruct H as (v & B & e & F & EB & _ & En & Ie). rewrite Fk in F. injection F as <-. rewrite arc_B in EB by reflexivity. injection EB as <-.
          destruct Hc as [->|[->| ->]]; auto; injection En as <-; destruct Ie as [X|[]]; discriminate.
        - exists (tv k), [[0]; [1]; [0; 1]]. destruct Hc as [->|[->| ->]]; try discriminate; eexists; (split; [auto|]); (split; [apply arc_B; reflexivity|]); (split; [lia|]); (split; [reflexivity|]); cbn; auto.
        - destruct H as (v & B & e & F & EB & _ & En & Ie). rewrite Fk in F. injection F as <-. rewrite arc_B in EB by reflexivity. injection EB as <-.
          destruct Hc as [->|[->| ->]]; auto; injection En as <-; destruct Ie as [X|[]]; discriminate. }
      split.
      + intros H. constructor; [apply E, (H (k, c)); left; auto|]. apply IH. intros kc X. apply H. right; auto.
      + intros H. inversion_clear H as [|? ? ? ? H1 H2]. intros kc [<-|X]; [apply E; auto|]. apply IH; auto. }
  rewrite <- (H K cs); auto.
  - split; [intros [_ Y]; auto|intros Y; split; auto].
  - unfold arc_vars in Cd'. rewrite map_map in Cd'. exact Cd'.
Qed.

Lemma n3_run : exists rows, n3e3_main nx_path nx_wpath nx_wlen f o d prs max_sf max_nb = Ok rows /\
  (forall x, In x (arc_states K) -> List.length (filter (fun r => row_has K r x) rows) = 1%nat) /\
  (forall r, In r rows -> nth_error r 0 = Some 0 \/ nth_error r 0 = Some 1 \/ nth_error r 0 = Some 2) /\
  (forall r x, In r rows -> In x (arc_states K) -> row_has K r x = true ->
     (nth_error r 0 = Some 1 -> joined dir (node_conn_df f) x o d) /\ (nth_error r 0 = Some 0 -> ~ joined dir (node_conn_df f) x o d)) /\
  (2 * 2 ^ Z.of_nat (List.length K) <= max_nb -> 2 ^ Z.of_nat (List.length K) < max_sf ->
   (forall k p, In k K -> dfind prs k = Some p -> 0 < fst p /\ 0 < snd p)%Qc -> forall r, In r rows -> nth_error r 0 <> Some 2).
Proof.
  destruct (file_wf f dir multi NL) as (Wg & Lk & _).
  destruct (two_run nx_path nx_wpath nx_wlen Hn G Wg Lk o d K NL (pair_probs prs) (pairs_wf K prs Hpr) max_sf max_nb Hm)
    as (s & brs & rows & Er & Eb & Nb & Bx & Exb & Pt & Pl & Ec & Fr & Lab & _ & _ & _ & Sz).
  exists rows. split; [|split; [|split; [|split]]].
  - unfold n3e3_main. rewrite (read_ok f dir multi Hk). cbn [bind fst snd]. cbv zeta. rewrite two_arcs.
    change (as_sysfun _) with (net_sys nx_path nx_wpath nx_wlen G o d K). change (map _ prs) with (pair_probs prs). rewrite Er. cbn [bind]. rewrite Eb, Ec. reflexivity.
  - intros x Hx. rewrite <- (Pt x) by (rewrite V_space; auto).
    assert (H : forall bs rs, (forall b, In b bs -> wf_br V b) -> Forall2 (row_ok V conv3 V) bs rs ->
      List.length (filter (fun r => row_has K r x) rs) = List.length (filter (fun b => in_branch b x) bs)).
    { intros bs rs Hb F. induction F as [|b r bs rs R F IH]; auto. cbn [filter]. rewrite (proj1 (n3_row b r x Hx R (Hb b (or_introl eq_refl)))).
      destruct (in_branch b x); cbn [List.length]; rewrite IH by (intros; apply Hb; right; auto); auto. }
    apply H; auto.
  - intros r Hr. destruct (Forall2_in_r _ _ _ _ Fr Hr) as (b & Hb & (cs & -> & _)). cbn. destruct (br_label b); cbn; auto.
  - intros r x Hr Hx Rh. destruct (Forall2_in_r _ _ _ _ Fr Hr) as (b & Hb & R). destruct (n3_row b r x Hx R (Bx b Hb)) as [Y1 Y2].
    rewrite Y1 in Rh. destruct (Lab b x Hb Hx Rh) as [L1 L2]. rewrite file_conn in L1, L2. rewrite Y2. split; intros X; injection X as X; [apply L1|apply L2]; apply conv3_inj; exact X.
  - intros Z1 Z2 Ps r Hr. destruct (Forall2_in_r _ _ _ _ Fr Hr) as (b & Hb & (cs & -> & _)). cbn. intros X. injection X as X.
    apply (Sz Z1 Z2) with (b := b); auto.
    + intros k z Hk' Hz. destruct (Hpr k Hk') as (p & E & _). destruct (pairs_pr prs k p E) as [E0 E1]. destruct (Ps k p Hk' E). destruct Hz as [->| ->]; [rewrite E0|rewrite E1]; auto.
    + apply conv3_inj. exact X.
Qed.
End Demos.
