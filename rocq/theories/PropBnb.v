(** C42-C45: the path-based branch and bound. *)
From Coq Require Import ZArith List String Bool Arith QArith Qcanon Lia Permutation Sorting.
From Verif Require Import Py PyFacts Num Vari VariFacts Brc SpecBrc BrcFacts Model Bnb SpecBnb BnbFacts BnbDir PathModel PathFacts.
Import ListNotations.
Open Scope string_scope.
Open Scope Z_scope.
Open Scope list_scope.

(** ** C42: the system state *)
Theorem C42_first_path :
  forall cond pti x, pti <> [] -> (forall e, In e pti -> incl (pe_path e) (keys x)) ->
    exists s, eval_sys_state pti x cond = Ok s /\ forall t, sys_state_of cond pti x t <-> t = s.
Proof.
  intros cond pti x N H. exists (ev cond pti x). split; [apply eval_ok; auto|].
  intros t. split; [apply ev_unique|intros ->; apply ev_state; auto].
Qed.
Print Assumptions C42_first_path.

(** otherwise: an empty list, or an arc without a state *)
Lemma eval_loop_err cond x s l er : eval_loop l x cond s = Err er ->
  er = KeyError /\ exists e k, In e l /\ In k (pe_path e) /\ ~ In k (keys x).
Proof.
  induction l as [|e l IH]; cbn [eval_loop]; [discriminate|].
  destruct (surv_list x cond (pe_path e)) as [bs|er'] eqn:E; cbn [bind].
  - destruct (path_surv bs); [discriminate|]. intros H. destruct (IH H) as (H1 & e' & k & H2 & H3). split; auto. exists e', k. split; [right|]; auto.
  - intros [= <-]. assert (G : forall p, surv_list x cond p = Err er' -> er' = KeyError /\ exists k, In k p /\ ~ In k (keys x)).
    { clear. unfold surv_list. induction p as [|k p IH]; cbn [mapM]; [discriminate|]. unfold dget. destruct (dfind x k) as [v|] eqn:E; cbn [bind].
      - destruct (mapM _ p) as [r|er]; cbn [bind]; [discriminate|]. intros [= <-]. destruct (IH eq_refl) as (H1 & k' & H2 & H3). split; auto. exists k'. split; [right|]; auto.
      - intros [= <-]. split; auto. exists k. split; [left; auto|]. apply dfind_none; auto. }
    destruct (G _ E) as (-> & k & H1 & H2). split; auto. exists e, k. split; [left|]; auto.
Qed.
Theorem C42_errors :
  forall cond pti x er, eval_sys_state pti x cond = Err er ->
    (pti = [] /\ er = IndexError) \/ (er = KeyError /\ exists e k, In e pti /\ In k (pe_path e) /\ ~ In k (keys x)).
Proof.
  intros cond pti x er. unfold eval_sys_state. destruct pti as [|e l]; [intros [= <-]; auto|]. intros H. right. eapply eval_loop_err; eauto.
Qed.
Print Assumptions C42_errors.

(** more surviving arcs never lead to a later path *)
Theorem C42_improve :
  forall cond pti x y pre e,
    (forall k, dfind x k = Some cond -> dfind y k = Some cond) -> first_surviving cond x pti pre e ->
    exists pre' e', first_surviving cond y pti pre' e' /\ (List.length pre' <= List.length pre)%nat.
Proof. intros cond pti x y pre e H F. destruct (first_more _ _ _ _ _ _ H F) as (pre' & e' & F' & L & _). eauto. Qed.
Print Assumptions C42_improve.

(** and with the best path first never to a lower state *)
Theorem C42_monotone :
  forall names pti x y s t, NoDup names -> paths_ok names pti -> In x (arc_states names) -> In y (arc_states names) ->
    (forall k, In k names -> coord x k <= coord y k) -> eval_sys_state pti x 1 = Ok s -> eval_sys_state pti y 1 = Ok t -> s <= t.
Proof.
  intros names pti x y s t Nn PO Hx Hy L Es Et.
  assert (Hp : pti <> []) by (destruct PO as (? & ? & -> & _); discriminate).
  assert (Hin : forall e, In e pti -> incl (pe_path e) names).
  { destruct PO as (e0 & l & -> & E0 & P & _). intros e [<-|He]; [rewrite E0; intros k []|]. apply P; auto. }
  rewrite (eval_as names pti Hp Hin) in Es, Et by auto. injection Es as <-. injection Et as <-. apply (ev_mono names); auto.
Qed.
Print Assumptions C42_monotone.

(** The list made from the paths of an OD and their (finite) times: state 0 exactly
    without a surviving path; otherwise the state of a surviving path such that every
    surviving path is not shorter or has the same state, and a state's value is close
    to the time of the path. *)
Definition surviving (x : dict Z) (p : list string) : Prop := p <> [] /\ forall k, In k p -> dfind x k = Some 1.
Definition close_to (t v : Qc) : Prop :=
  (t - v <= Q2Qc (1 # 100000000) + Q2Qc (1 # 100000) * v /\ v - t <= Q2Qc (1 # 100000000) + Q2Qc (1 # 100000) * v)%Qc.
Theorem C42_shortest_partial :
  forall name edges (pt : od_paths) x,
    NoDup edges -> (forall p t, In (p, t) pt -> p <> [] /\ NoDup p /\ incl p edges /\ (0 <= t)%Qc) -> In x (arc_states edges) ->
    exists pti s, od_idx name pt = Ok pti /\ eval_sys_state pti x 1 = Ok s /\
      (s = 0 <-> forall p t, In (p, t) pt -> ~ surviving x p) /\
      (s <> 0 -> exists p t v, In (p, t) pt /\ surviving x p /\ nth_error (od_values pt) (Z.to_nat s) = Some (VNum v) /\ close_to t v /\
         forall p' t', In (p', t') pt -> surviving x p' -> (t <= t')%Qc \/ close_to t' v).
Proof.
  intros name edges pt x Nn H Hx. exists (od_list pt).
  assert (PO : paths_ok edges (od_list pt)) by (apply od_paths_ok; intros p t Hp; destruct (H p t Hp) as (? & ? & ? & _); auto).
  assert (Hp : od_list pt <> []) by discriminate.
  assert (Hin : forall e, In e (od_list pt) -> incl (pe_path e) edges).
  { intros e [<-|He]; [intros k []|]. apply (od_tail_In pt) in He as (p & t & Hi & ->). apply (H p t Hi). }
  assert (Cl : forall p t v, In (p, t) pt -> In v (times pt) -> closeb (VNum t) (VNum v) = true -> close_to t v).
  { intros p t v Hi Hv C. apply times_In in Hv as (p' & Hv). destruct (H p' v Hv) as (_ & _ & _ & Hv0).
    unfold closeb, isclose in C. apply qc_leb_le in C. destruct (qabs_ge (t - v)) as [A1 A2].
    replace (- (t - v))%Qc with (v - t)%Qc in A2 by ring.
    assert (E : qabs v = v) by (unfold qabs; rewrite (proj2 (qc_leb_le 0 v) Hv0); auto). rewrite E in C.
    split; eapply Qcle_trans; eauto. }
  exists (ev 1 (od_list pt) x). split; [apply od_idx_ok|]. split; [apply (eval_as edges); auto|].
  destruct (ev_cases edges (od_list pt) PO x) as [(e & He & Hs & Ev)|(e & He & Ev)]; rewrite Ev.
  - apply od_tail_In in He as (p & t & Hi & ->). unfold pe_state, pe_path in *. cbn [fst snd] in *.
    destruct (code_spec pt p t Hi) as (n & v & E1 & E2 & N1 & V1 & T1 & C1 & _). split.
    + split; [rewrite E2; lia|]. intros F. exfalso. apply (F p t Hi). exact Hs.
    + intros _. exists p, t, v. split; auto. split; [exact Hs|]. split; [rewrite E2, Nat2Z.id; auto|]. split; [eapply Cl; eauto|].
      intros p' t' Hi' Hs'. destruct (qc_leb t t') eqn:L; [left; apply qc_leb_le; auto|]. right.
      apply qc_leb_gt in L. assert (L' : (t' <= t)%Qc) by (apply Qclt_le_weak; auto).
      pose proof (code_mono pt p' t' p t Hi' Hi L') as M1.
      assert (M2 : code pt t' <= code pt t).
      { rewrite <- Ev. apply (ev_ge edges (od_list pt) PO x (p', VNum t', code pt t')); [apply od_tail_In; eauto|exact Hs']. }
      destruct (code_spec pt p' t' Hi') as (n' & v' & E1' & E2' & _ & V1' & T1' & C1' & _).
      assert (n' = n) by lia. subst n'. rewrite V1 in V1'. injection V1' as V1'. rewrite <- V1' in *. eapply Cl; eauto.
  - injection He as <-. unfold pe_state. cbn [snd]. split; [|congruence]. split; auto. intros _ p t Hi Hs.
    pose proof (ev_ge edges (od_list pt) PO x (p, VNum t, code pt t)) as G. rewrite Ev in G.
    destruct (code_spec pt p t Hi) as (n & v & _ & E2 & N1 & _). unfold pe_state in G. cbn [snd] in G. rewrite E2 in G.
    assert (Z.of_nat n <= 0); [|lia]. apply G; [rewrite <- E2; apply od_tail_In; eauto|exact Hs].
Qed.
Print Assumptions C42_shortest_partial.

(** *** examples *)
Definition q1 (n : Z) (d : positive) : Qc := Q2Qc (n # d).
Definition ex_edges := ["e1"; "e2"; "e3"].
Definition ex_pt : od_paths := [(["e1"], q1 1 1); (["e2"; "e3"], q1 2 1)].
Definition ex_pti : list path_entry := od_list ex_pt.
Definition arcs3 (a b c : Z) : dict Z := [("e1", a); ("e2", b); ("e3", c)].
Definition ok_val {A} (r : res A) : option A := match r with Ok a => Some a | Err _ => None end.

Lemma ex_edges_nodup : NoDup ex_edges.
Proof. repeat constructor; cbn; intuition congruence. Qed.
Lemma ex_pt_ok : forall p t, In (p, t) ex_pt -> p <> [] /\ NoDup p /\ incl p ex_edges /\ (0 <= t)%Qc.
Proof.
  intros p t [H|[H|[]]]; injection H as <- <-; (split; [discriminate|]); (split; [repeat constructor; cbn; intuition congruence|]);
    (split; [intros k Hk; cbn in *; intuition|vm_compute; congruence]).
Qed.
Lemma ex_paths_ok : paths_ok ex_edges ex_pti.
Proof. apply od_paths_ok. intros p t H. destruct (ex_pt_ok p t H) as (? & ? & ? & _). auto. Qed.
Lemma arcs3_in a b c : 0 <= a <= 1 -> 0 <= b <= 1 -> 0 <= c <= 1 -> In (arcs3 a b c) (arc_states ex_edges).
Proof. intros. apply as_intro; [apply ex_edges_nodup|reflexivity|]. intros k [<-|[<-|[<-|[]]]]; cbn; lia. Qed.

Example C42_ex :
  map (fun e => (pe_path e, pe_state e)) ex_pti = [([], 0); (["e1"], 2); (["e2"; "e3"], 1)] /\
  (forall e, In e ex_pti -> incl (pe_path e) (keys (arcs3 0 1 1))) /\
  map (fun x => ok_val (eval_sys_state ex_pti x 1)) [arcs3 0 0 0; arcs3 0 1 1; arcs3 0 1 0; arcs3 1 1 1; arcs3 1 0 0]
    = [Some 0; Some 1; Some 0; Some 2; Some 2] /\
  first_surviving 1 (arcs3 0 1 1) ex_pti [([], VInf, 0); (["e1"], VNum (q1 1 1), 2)] (["e2"; "e3"], VNum (q1 2 1), 1) /\
  eval_sys_state ex_pti [("e2", 1)] 1 = Err KeyError.
Proof.
  split; [reflexivity|]. split.
  { intros e [<-|[<-|[<-|[]]]] k Hk; cbn in *; intuition. }
  split; [reflexivity|]. split; [|reflexivity]. split; [exists []; reflexivity|]. split.
  - split; [discriminate|]. intros k [<-|[<-|[]]]; reflexivity.
  - intros e [<-|[<-|[]]] [N S]; [apply N; reflexivity|]. specialize (S "e1" (or_introl eq_refl)). discriminate S.
Qed.

Example C42_shortest_partial_ex :
  NoDup ex_edges /\ (forall p t, In (p, t) ex_pt -> p <> [] /\ NoDup p /\ incl p ex_edges /\ (0 <= t)%Qc) /\
  In (arcs3 0 1 1) (arc_states ex_edges) /\ surviving (arcs3 0 1 1) ["e2"; "e3"] /\ paths_ok ex_edges ex_pti.
Proof.
  split; [apply ex_edges_nodup|]. split; [exact ex_pt_ok|]. split; [apply arcs3_in; lia|]. split; [|apply ex_paths_ok].
  split; [discriminate|]. intros k [<-|[<-|[]]]; reflexivity.
Qed.

(** A path list with an infinite time gets no entry for the disconnected state: its
    first entry is then the best path, whose state is returned when no path survives. *)
Theorem C42_inf_refuted :
  exists path_time vari pti x s, get_path_time_idx path_time vari = Ok pti /\ In ([], VInf) path_time /\
    (forall p t, In (p, t) path_time -> p <> [] -> ~ survives 1 x p) /\
    eval_sys_state pti x 1 = Ok s /\ exists p, In (p, VNum (q1 1 1)) path_time /\ nth_error (v_values vari) (Z.to_nat s) = Some (VNum (q1 1 1)).
Proof.
  exists [(["e1"], VNum (q1 1 1)); ([], VInf)], (mk_variable "od" [VInf; VNum (q1 1 1)] None).
  eexists. exists [("e1", 0)]. eexists. split; [vm_compute; reflexivity|]. split; [right; left; auto|]. split.
  - intros p t [H|[H|[]]]; injection H as <- <-; [|congruence]. intros _ [_ S]. specialize (S "e1" (or_introl eq_refl)). discriminate S.
  - split; [reflexivity|]. exists ["e1"]. split; [left; auto|]. reflexivity.
Qed.
Print Assumptions C42_inf_refuted.

(** Times that are close but different share a state, so the value of the state need not
    be the time of the path: here the only surviving path takes 1, the state says 1.000005. *)
Theorem C42_time_refuted :
  exists (pt : od_paths) pti x s v, od_idx "od" pt = Ok pti /\ In (["e1"], q1 1 1) pt /\
    (forall p t, In (p, t) pt -> surviving x p -> t = q1 1 1) /\ surviving x ["e1"] /\
    eval_sys_state pti x 1 = Ok s /\ nth_error (od_values pt) (Z.to_nat s) = Some (VNum v) /\ v <> q1 1 1.
Proof.
  exists [(["e1"], q1 1 1); (["e2"], q1 1000005 1000000)]. eexists. exists [("e1", 1); ("e2", 0)]. eexists. exists (q1 1000005 1000000).
  split; [apply od_idx_ok|]. split; [left; auto|]. split.
  - intros p t [H|[H|[]]]; injection H as <- <-; auto. intros [_ S]. specialize (S "e2" (or_introl eq_refl)). discriminate S.
  - split; [split; [discriminate|]; intros k [<-|[]]; reflexivity|]. split; [vm_compute; reflexivity|]. split; [vm_compute; reflexivity|].
    intros E. apply (f_equal (fun x => Qnum (this x))) in E. vm_compute in E. discriminate.
Qed.
Print Assumptions C42_time_refuted.

(** ** C43: branching *)
Theorem C43_partition :
  forall names pti b, NoDup names -> paths_ok names pti -> In (lower b) (arc_states names) -> In (upper b) (arc_states names) ->
    exists arcs l, get_arcs_given_bstar b pti 1 = Ok arcs /\
      ((arcs = [] /\ forall e, In e pti -> ~ survives 1 (upper b) (pe_path e)) \/
       (exists pre e, first_surviving 1 (upper b) pti pre e /\
          forall k, In k arcs <-> In k (pe_path e) /\ coord (lower b) k < coord (upper b) k)) /\
      get_set_of_branches b arcs pti 1 = Ok l /\
      (forall b', In b' l -> In (lower b') (arc_states names) /\ In (upper b') (arc_states names)) /\
      forall x, In x (arc_states names) -> covered l x = if in_bb b x then 1%nat else 0%nat.
Proof.
  intros names pti b Nn PO Hl Hu.
  assert (Hp : pti <> []) by (destruct PO as (? & ? & -> & _); discriminate).
  assert (Hin : forall e, In e pti -> incl (pe_path e) names).
  { destruct PO as (e0 & l & -> & E0 & P & _). intros e [<-|He]; [rewrite E0; intros k []|]. apply P; auto. }
  destruct (arcs_of_facts names Nn pti PO b Hl Hu) as (N & I & V).
  destruct (branches_ok names Nn pti Hp Hin b (arcs_of pti b) Hl Hu N I V) as (l & El & Cl & Bl).
  exists (arcs_of pti b), l. split; [apply (arcs_ok names); auto|]. split; [|split; [auto|split; auto]].
  unfold arcs_of. destruct PO as (e0 & lp & -> & E0 & P & _). cbn [tl].
  pose proof (find_first (fun e => survb 1 (upper b) (pe_path e)) lp) as F. destruct (find _ lp) as [e|].
  - right. destruct F as (pre & post & -> & F1 & F2). exists (e0 :: pre), e. split.
    + split; [exists post; auto|]. split; [apply survb_spec; auto|]. intros e' [<-|He'] X.
      * destruct X as [X _]. congruence.
      * apply survb_spec in X. rewrite (F2 e' He') in X. discriminate.
    + intros k. rewrite filter_In, Z.ltb_lt. tauto.
  - left. split; auto. intros e [<-|He] X.
    + destruct X as [X _]. congruence.
    + apply survb_spec in X. rewrite (F e He) in X. discriminate.
Qed.
Print Assumptions C43_partition.
Definition show_bb (b : bb) : list Z * list Z * Z * Z := (map snd (lower b), map snd (upper b), fl b, fu b).
Definition ex_star : bb := (arcs3 0 0 0, arcs3 1 1 1, 0, 2).
Example C43_partition_ex :
  NoDup ex_edges /\ paths_ok ex_edges ex_pti /\ In (lower ex_star) (arc_states ex_edges) /\ In (upper ex_star) (arc_states ex_edges) /\
  get_arcs_given_bstar ex_star ex_pti 1 = Ok ["e1"] /\
  ok_val (l <- get_set_of_branches ex_star ["e1"] ex_pti 1 ;; Ok (map show_bb l)) = 
    Some [([0; 0; 0], [0; 1; 1], 0, 1); ([1; 0; 0], [1; 1; 1], 2, 2)] /\
  get_arcs_given_bstar (arcs3 0 0 0, arcs3 0 1 1, 0, 1) ex_pti 1 = Ok ["e2"; "e3"] /\
  ok_val (l <- get_set_of_branches (arcs3 0 0 0, arcs3 0 1 1, 0, 1) ["e2"; "e3"] ex_pti 1 ;; Ok (map show_bb l)) = 
    Some [([0; 0; 0], [0; 0; 1], 0, 0); ([0; 1; 0], [0; 1; 0], 0, 0); ([0; 1; 1], [0; 1; 1], 1, 1)].
Proof.
  split; [apply ex_edges_nodup|]. split; [apply ex_paths_ok|]. split; [apply arcs3_in; lia|]. split; [apply arcs3_in; lia|].
  repeat (split; [reflexivity|]). reflexivity.
Qed.

(** with three states per arc the best state is lost *)
Theorem C43_three_states_refuted :
  exists pti b x arcs l, get_arcs_given_bstar b pti 2 = Ok arcs /\ get_set_of_branches b arcs pti 2 = Ok l /\
    In (lower b) (space [("e1", 3)]) /\ In (upper b) (space [("e1", 3)]) /\ In x (space [("e1", 3)]) /\
    in_bb b x = true /\ covered l x = 0%nat.
Proof.
  exists [([], VInf, 0); (["e1"], VNum (q1 1 1), 1)], ([("e1", 0)], [("e1", 2)], 0, 1), [("e1", 2)]. eexists. eexists.
  split; [vm_compute; reflexivity|]. split; [vm_compute; reflexivity|].
  split; [vm_compute; auto|]. split; [vm_compute; auto|]. split; [vm_compute; auto|]. split; reflexivity.
Qed.
Print Assumptions C43_three_states_refuted.

(** ** C44: the run *)
Theorem C44_exact :
  forall names pti bstars key d fuel,
    NoDup names -> paths_ok names pti -> (forall b, In b bstars -> bb_ok names pti b /\ fl b <> fu b) ->
    (forall x, In x (arc_states names) -> (covered bstars x <= 1)%nat) ->
    NoDup (keys d) -> (forall f, In f d -> glob_match key (fst f) = false) -> (List.length names < fuel)%nat ->
    exists d', branch_and_bound fuel bstars pti 1 key d = Ok d' /\
      (forall x, In x (arc_states names) -> covered (get_sb_saved d' key) x = covered bstars x) /\
      forall b, In b (get_sb_saved d' key) -> bb_ok names pti b /\ fl b = fu b /\
        (forall x, In x (arc_states names) -> in_bb b x = true -> eval_sys_state pti x 1 = Ok (fl b)) /\
        exists x, In x (arc_states names) /\ in_bb b x = true.
Proof.
  intros names pti bstars key d fuel Nn PO HB H1 Nd Hd Hf.
  assert (Hp : pti <> []) by (destruct PO as (? & ? & -> & _); discriminate).
  assert (Hin : forall e, In e pti -> incl (pe_path e) names).
  { destruct PO as (e0 & l & -> & E0 & P & _). intros e [<-|He]; [rewrite E0; intros k []|]. apply P; auto. }
  assert (HB' : forall b, In b bstars -> bbok names pti b) by (intros b Hb; apply (bbok_spec names pti Hp), HB, Hb).
  destruct (run_ok names pti Nn PO fuel bstars) as (cs & E & Cov & Bc); auto.
  - intros b Hb. apply Z.eqb_neq, HB, Hb.
  - intros b Hb. eapply Nat.le_lt_trans; [|exact Hf]. unfold undec. clear. induction names as [|k l IH]; cbn; auto. destruct (_ <? _); cbn; lia.
  - exists (write key 0 cs d). split; [unfold branch_and_bound; rewrite loop_run, E; auto|].
    pose proof (saved_write key cs d Nd) as P.
    assert (S0 : get_sb_saved (unwritten key 0 (List.length cs) d) key = []).
    { apply saved_none. intros f F. apply filter_In in F as [F _]. auto. }
    rewrite S0, app_nil_r in P. split.
    + intros x Hx. rewrite (covered_perm _ _ x P). auto.
    + intros b Hb. apply (Permutation_in _ P) in Hb. destruct (Bc b Hb) as [B C]. split; [apply (bbok_spec names pti Hp); auto|]. split; [apply Z.eqb_eq; auto|]. split.
      * intros x Hx I. rewrite (eval_as names pti Hp Hin x Hx). f_equal. symmetry. apply ev_unique. apply (saved_state names); auto.
      * exists (lower b). split; [apply B|]. apply (in_bb_lower names Nn pti); auto.
Qed.
Print Assumptions C44_exact.
Lemma ex_star_ok : bb_ok ex_edges ex_pti ex_star /\ fl ex_star <> fu ex_star.
Proof.
  assert (Hp : ex_pti <> []) by discriminate.
  split; [|cbn; lia]. apply (bbok_spec ex_edges ex_pti Hp). split; [apply arcs3_in; lia|]. split; [apply arcs3_in; lia|].
  split; [intros k [<-|[<-|[<-|[]]]]; cbn; lia|]. split; vm_compute; congruence.
Qed.
Example C44_exact_ex :
  (forall b, In b [ex_star] -> bb_ok ex_edges ex_pti b /\ fl b <> fu b) /\
  (forall x, In x (arc_states ex_edges) -> covered [ex_star] x = 1%nat) /\
  (forall f, In f [("sb_dump_b_0.json", [ex_star])] -> glob_match "a" (fst f) = false) /\
  ok_val (d <- branch_and_bound 4 [ex_star] ex_pti 1 "a" [("sb_dump_b_0.json", [ex_star])] ;; Ok (keys d, map show_bb (get_sb_saved d "a")))
   = Some (["sb_dump_b_0.json"; "sb_dump_a_0.json"; "sb_dump_a_1.json"],
       [([1; 0; 0], [1; 1; 1], 2, 2); ([0; 0; 0], [0; 0; 1], 0, 0); ([0; 1; 0], [0; 1; 0], 0, 0); ([0; 1; 1], [0; 1; 1], 1, 1)]).
Proof.
  split; [intros b [<-|[]]; apply ex_star_ok|]. split.
  { intros x Hx. cbn in Hx. repeat (destruct Hx as [<-|Hx]; [reflexivity|]). destruct Hx. }
  split; [intros f [<-|[]]; reflexivity|]. vm_compute. reflexivity.
Qed.

(** a branch whose states are already equal is not saved: without paths nothing is *)
Theorem C44_complete_start_refuted :
  exists names pti b d', NoDup names /\ paths_ok names pti /\ bb_ok names pti b /\
    branch_and_bound 10 [b] pti 1 "a" [] = Ok d' /\ get_sb_saved d' "a" = [] /\
    exists x, In x (arc_states names) /\ in_bb b x = true.
Proof.
  exists ["e1"], [([], VInf, 0)], ([("e1", 0)], [("e1", 1)], 0, 0). eexists.
  split; [repeat constructor; cbn; tauto|]. split.
  { exists ([], VInf, 0), []. split; auto. split; auto. split; [intros e []|constructor]. }
  split.
  { assert (Hp : [([], VInf, 0)] <> ([] : list path_entry)) by discriminate. apply (bbok_spec _ _ Hp).
    split; [vm_compute; auto|]. split; [vm_compute; auto|]. split; [intros k [<-|[]]; cbn; lia|]. split; vm_compute; congruence. }
  split; [vm_compute; reflexivity|]. split; [reflexivity|]. exists [("e1", 0)]. split; [vm_compute; auto|reflexivity].
Qed.
Print Assumptions C44_complete_start_refuted.

(** [get_branches] for one OD in a directory without files of the key *)
Lemma all_arcs_as v edges : NoDup edges -> v = 0 \/ v = 1 -> In (all_arcs v edges) (arc_states edges) /\ forall k, In k edges -> coord (all_arcs v edges) k = v.
Proof.
  intros N Hv. assert (K : keys (all_arcs v edges) = edges) by (unfold keys, all_arcs; rewrite map_map; apply map_id).
  assert (C : forall k, In k edges -> coord (all_arcs v edges) k = v).
  { intros k Hk. apply coord_In; [rewrite K; auto|]. apply in_map_iff. eauto. }
  split; auto. apply as_intro; auto. intros k Hk. rewrite C; auto.
Qed.
Lemma start_ok_od edges pt : NoDup edges -> pt <> [] -> (forall p t, In (p, t) pt -> p <> [] /\ NoDup p /\ incl p edges) ->
  exists fl0 fu0, eval_sys_state (od_list pt) (all_arcs 0 edges) 1 = Ok fl0 /\ eval_sys_state (od_list pt) (all_arcs 1 edges) 1 = Ok fu0 /\
    fl0 <> fu0 /\ bb_ok edges (od_list pt) (all_arcs 0 edges, all_arcs 1 edges, fl0, fu0) /\
    forall x, In x (arc_states edges) -> covered [(all_arcs 0 edges, all_arcs 1 edges, fl0, fu0)] x = 1%nat.
Proof.
  intros Nn Np H. assert (PO := od_paths_ok edges pt H). assert (Hp : od_list pt <> []) by discriminate.
  assert (Hin : forall e, In e (od_list pt) -> incl (pe_path e) edges).
  { intros e [<-|He]; [intros k []|]. apply (od_tail_In pt) in He as (p & t & Hi & ->). apply (H p t Hi). }
  destruct (all_arcs_as 0 edges Nn) as [L0 C0]; auto. destruct (all_arcs_as 1 edges Nn) as [L1 C1]; auto.
  exists (ev 1 (od_list pt) (all_arcs 0 edges)), (ev 1 (od_list pt) (all_arcs 1 edges)).
  split; [apply (eval_as edges); auto|]. split; [apply (eval_as edges); auto|].
  assert (E0 : ev 1 (od_list pt) (all_arcs 0 edges) = 0).
  { destruct (ev_cases edges (od_list pt) PO (all_arcs 0 edges)) as [(e & He & [S1 S2] & _)|(e & He & ->)].
    - exfalso. destruct (pe_path e) as [|k p] eqn:Ep; [congruence|]. assert (Hk : In k edges).
      { apply (Hin e); [right; exact He|]. rewrite Ep. left; auto. }
      specialize (S2 k (or_introl eq_refl)). rewrite (as_find edges) in S2 by auto. rewrite C0 in S2 by auto. discriminate.
    - injection He as <-. auto. }
  assert (E1 : 1 <= ev 1 (od_list pt) (all_arcs 1 edges)).
  { destruct pt as [|[p t] l] eqn:Ept; [congruence|]. rewrite <- Ept in *. assert (Hi : In (p, t) pt) by (rewrite Ept; left; auto).
    destruct (code_spec pt p t Hi) as (n & v & _ & E2 & N1 & _).
    eapply Z.le_trans; [|apply (ev_ge edges (od_list pt) PO _ (p, VNum t, code pt t))].
    - unfold pe_state. cbn [snd]. lia.
    - apply od_tail_In. eauto.
    - destruct (H p t Hi) as (P1 & _ & P3). split; auto. intros k Hk. rewrite (as_find edges) by (auto; apply P3; auto). rewrite C1; auto. }
  split; [lia|]. split.
  - apply (bbok_spec edges (od_list pt) Hp). split; [exact L0|]. split; [exact L1|]. split; [|split; [cbn; lia|reflexivity]].
    intros k Hk. cbn [lower upper fst snd]. rewrite C0, C1 by auto. lia.
  - intros x Hx. rewrite covered_cons. unfold in_bb. cbn [lower upper fst snd].
    assert (I : in_box (all_arcs 0 edges) (all_arcs 1 edges) x = true); [|rewrite I; auto].
    apply (in_box_spec edges); auto. intros k Hk. rewrite C0, C1 by auto. destruct (as_coord edges Nn x k Hx Hk); lia.
Qed.
Theorem C44_get_branches_partial :
  forall edges od (path_times : dict od_paths) (pt : od_paths) key d fuel,
    NoDup edges -> dfind path_times od = Some pt -> pt <> [] ->
    (forall p t, In (p, t) pt -> p <> [] /\ NoDup p /\ incl p edges) ->
    NoDup (keys d) -> (forall f, In f d -> glob_match key (fst f) = false) -> (List.length edges < fuel)%nat ->
    exists pti brs d', od_idx od pt = Ok pti /\ get_branches fuel edges [od] path_times key d = Ok ([(od, brs)], d') /\
      (forall b, In b brs -> bb_ok edges pti b /\ fl b = fu b) /\
      forall x, In x (arc_states edges) -> covered brs x = 1%nat /\
        forall b, In b brs -> in_bb b x = true -> eval_sys_state pti x 1 = Ok (fl b).
Proof.
  intros edges od path_times pt key d fuel Nn Ed Np H Nd Hd Hf. exists (od_list pt).
  assert (PO := od_paths_ok edges pt H).
  destruct (start_ok_od edges pt Nn Np H) as (f0 & f1 & E0 & E1 & D & B & C).
  destruct (C44_exact edges (od_list pt) [(all_arcs 0 edges, all_arcs 1 edges, f0, f1)] key d fuel) as (d' & E & Cov & Bs); auto.
  - intros b [<-|[]]. split; auto.
  - intros x Hx. rewrite C; auto.
  - exists (get_sb_saved d' key), d'. split; [apply od_idx_ok|]. split.
    + cbn [get_branches]. unfold dget. rewrite Ed. cbn [bind]. rewrite od_idx_ok. cbn [bind]. rewrite E0. cbn [bind]. rewrite E1. cbn [bind].
      rewrite E. reflexivity.
    + split; [intros b Hb; destruct (Bs b Hb) as (F & S & _); auto|].
      intros x Hx. split; [rewrite Cov, C; auto|]. intros b Hb I. destruct (Bs b Hb) as (_ & _ & S & _). auto.
Qed.
Print Assumptions C44_get_branches_partial.
Example C44_get_branches_partial_ex :
  NoDup ex_edges /\ dfind [("od1", ex_pt)] "od1" = Some ex_pt /\ ex_pt <> [] /\
  (forall p t, In (p, t) ex_pt -> p <> [] /\ NoDup p /\ incl p ex_edges) /\
  ok_val (r <- get_branches 4 ex_edges ["od1"] [("od1", ex_pt)] "a" [] ;; Ok (map (fun kv => (fst kv, map show_bb (snd kv))) (fst r)))
   = Some [("od1", [([1; 0; 0], [1; 1; 1], 2, 2); ([0; 0; 0], [0; 0; 1], 0, 0); ([0; 1; 0], [0; 1; 0], 0, 0); ([0; 1; 1], [0; 1; 1], 1, 1)])].
Proof.
  split; [apply ex_edges_nodup|]. split; [reflexivity|]. split; [discriminate|]. split; [|vm_compute; reflexivity].
  intros p t H. destruct (ex_pt_ok p t H) as (? & ? & ? & _). auto.
Qed.

(** ** C45: reading the files back *)
(** what is read: the complete branches of the run, and those of earlier files of the
    key that the run has not overwritten *)
Theorem C45_read_partial :
  forall fuel bstars pti cond key d d', NoDup (keys d) ->
    branch_and_bound fuel bstars pti cond key d = Ok d' ->
    exists d0 n, branch_and_bound fuel bstars pti cond key [] = Ok d0 /\ keys d0 = map (dump_name key) (seq 0 n) /\
      Permutation (get_sb_saved d' key)
        (get_sb_saved d0 key ++
         get_sb_saved (filter (fun f => negb (existsb (String.eqb (fst f)) (keys d0))) d) key).
Proof.
  intros fuel bstars pti cond key d d' Nd E. unfold branch_and_bound in *. rewrite loop_run in E. rewrite loop_run.
  destruct (bnb_run fuel bstars pti cond) as [cs|]; cbn [bind] in *; [|discriminate]. injection E as <-.
  assert (W : forall cs i d, (forall j, (i <= j)%nat -> ~ In (dump_name key j) (keys d)) ->
    keys (write key i cs d) = keys d ++ map (dump_name key) (seq i (List.length cs))).
  { clear. induction cs as [|c cs IH]; intros i d H; cbn [write List.length seq map]; [rewrite app_nil_r; auto|].
    assert (K : keys (dset d (dump_name key i) c) = keys d ++ [dump_name key i]).
    { specialize (H i (le_n i)). revert H. generalize (dump_name key i) as k. clear. intros k H. induction d as [|[k' w] d IH]; auto.
      cbn [dset]. destruct (String.eqb_spec k k') as [->|]; [exfalso; apply H; left; auto|]. cbn [keys map fst app]. f_equal.
      apply IH. intros X; apply H; right; auto. }
    rewrite IH; rewrite K.
    - rewrite <- app_assoc. auto.
    - intros j Hj X. apply in_app_or in X as [X|[X|[]]]; [apply (H j); [lia|auto]|]. apply dump_inj in X. lia. }
  exists (write key 0 cs []), (List.length cs). split; auto.
  assert (K := W cs 0%nat [] (fun j _ X => X)). cbn [app keys map] in K. split; [exact K|].
  rewrite (saved_write key cs d Nd). rewrite (saved_write key cs [] (NoDup_nil _)).
  cbn [unwritten filter get_sb_saved flat_map]. rewrite app_nil_r. apply Permutation_app_head. apply Permutation_refl'. f_equal.
  unfold unwritten. apply filter_ext. intros f. f_equal. fold (keys (write key 0 cs [])). rewrite K.
  generalize (seq 0 (List.length cs)). intros l. induction l as [|i l IH]; auto. cbn [existsb map]. rewrite IH. auto.
Qed.
Print Assumptions C45_read_partial.
(** in a directory without files that match the key: exactly those of the run *)
Theorem C45_fresh_partial :
  forall fuel bstars pti cond key d d', NoDup (keys d) -> (forall f, In f d -> glob_match key (fst f) = false) ->
    branch_and_bound fuel bstars pti cond key d = Ok d' ->
    exists d0, branch_and_bound fuel bstars pti cond key [] = Ok d0 /\ Permutation (get_sb_saved d' key) (get_sb_saved d0 key).
Proof.
  intros fuel bstars pti cond key d d' Nd Hd E. destruct (C45_read_partial _ _ _ _ _ _ _ Nd E) as (d0 & n & E0 & _ & P).
  exists d0. split; auto. rewrite P. rewrite (saved_none (filter _ d)), app_nil_r; auto.
  intros f F. apply filter_In in F as [F _]. auto.
Qed.
Print Assumptions C45_fresh_partial.
Definition ex_old : dir := [("sb_dump_a_7.json", [(arcs3 0 0 0, arcs3 1 1 1, 1, 1)])].
Example C45_read_partial_ex :
  NoDup (keys ex_old) /\
  ok_val (d <- branch_and_bound 4 [ex_star] ex_pti 1 "a" ex_old ;; Ok (keys d, map show_bb (get_sb_saved d "a")))
   = Some (["sb_dump_a_7.json"; "sb_dump_a_0.json"; "sb_dump_a_1.json"],
       [([0; 0; 0], [1; 1; 1], 1, 1);
        ([1; 0; 0], [1; 1; 1], 2, 2); ([0; 0; 0], [0; 0; 1], 0, 0); ([0; 1; 0], [0; 1; 0], 0, 0); ([0; 1; 1], [0; 1; 1], 1, 1)]) /\
  ok_val (d <- branch_and_bound 4 [ex_star] ex_pti 1 "b" ex_old ;; Ok (map show_bb (get_sb_saved d "b")))
   = ok_val (d <- branch_and_bound 4 [ex_star] ex_pti 1 "b" [] ;; Ok (map show_bb (get_sb_saved d "b"))) /\
  (forall f, In f ex_old -> glob_match "b" (fst f) = false).
Proof.
  split; [repeat constructor; cbn; tauto|]. split; [vm_compute; reflexivity|]. split; [vm_compute; reflexivity|].
  intros f [<-|[]]; reflexivity.
Qed.

(** Exactly the branches of this run are read if and only if no file of an
    earlier run that matches the key and is not overwritten has a complete branch. *)
Theorem C45_exact :
  forall fuel bstars pti cond key d d', NoDup (keys d) ->
    branch_and_bound fuel bstars pti cond key d = Ok d' ->
    exists d0, branch_and_bound fuel bstars pti cond key [] = Ok d0 /\
      (Permutation (get_sb_saved d' key) (get_sb_saved d0 key) <->
       get_sb_saved (filter (fun f => negb (existsb (String.eqb (fst f)) (keys d0))) d) key = []).
Proof.
  intros fuel bstars pti cond key d d' Nd E. destruct (C45_read_partial _ _ _ _ _ _ _ Nd E) as (d0 & n & E0 & _ & P).
  exists d0. split; auto. split.
  - intros Q. rewrite Q in P. apply Permutation_length in P. rewrite app_length in P. apply length_zero_iff_nil. lia.
  - intros Z. rewrite Z, app_nil_r in P. exact P.
Qed.
Print Assumptions C45_exact.
(** a file of the key that the run overwrites does no harm *)
Example C45_exact_ex :
  let old : dir := [("sb_dump_a_1.json", [(arcs3 0 0 0, arcs3 1 1 1, 1, 1)])] in
  NoDup (keys old) /\ (exists f, In f old /\ glob_match "a" (fst f) = true) /\
  ok_val (d <- branch_and_bound 4 [ex_star] ex_pti 1 "a" old ;; Ok (map show_bb (get_sb_saved d "a")))
   = Some [([0; 0; 0], [0; 0; 1], 0, 0); ([0; 1; 0], [0; 1; 0], 0, 0); ([0; 1; 1], [0; 1; 1], 1, 1); ([1; 0; 0], [1; 1; 1], 2, 2)] /\
  ok_val (d <- branch_and_bound 4 [ex_star] ex_pti 1 "a" [] ;; Ok (map show_bb (get_sb_saved d "a")))
   = Some [([1; 0; 0], [1; 1; 1], 2, 2); ([0; 0; 0], [0; 0; 1], 0, 0); ([0; 1; 0], [0; 1; 0], 0, 0); ([0; 1; 1], [0; 1; 1], 1, 1)] /\
  (exists d0, branch_and_bound 4 [ex_star] ex_pti 1 "a" [] = Ok d0 /\
     get_sb_saved (filter (fun f => negb (existsb (String.eqb (fst f)) (keys d0))) old) "a" = []).
Proof.
  split; [repeat constructor; cbn; tauto|]. split; [eexists; split; [left; reflexivity|reflexivity]|].
  split; [vm_compute; reflexivity|]. split; [vm_compute; reflexivity|]. eexists. split; vm_compute; reflexivity.
Qed.

(** An earlier run with more rounds, or a run with a key that continues this key,
    leaves files that are read as well; the boxes then overlap. *)
Definition short_pti : list path_entry := [([], VInf, 0); (["e1"], VNum (q1 1 1), 1)].
Definition short_star : bb := (arcs3 0 0 0, arcs3 1 1 1, 0, 1).
Theorem C45_stale_refuted :
  exists d d0 d1, branch_and_bound 4 [ex_star] ex_pti 1 "a" [] = Ok d /\
    branch_and_bound 4 [short_star] short_pti 1 "a" [] = Ok d0 /\ branch_and_bound 4 [short_star] short_pti 1 "a" d = Ok d1 /\
    (forall x, In x (arc_states ex_edges) -> covered (get_sb_saved d0 "a") x = 1%nat) /\
    exists x, In x (arc_states ex_edges) /\ covered (get_sb_saved d1 "a") x = 2%nat.
Proof.
  eexists. eexists. eexists. split; [vm_compute; reflexivity|]. split; [vm_compute; reflexivity|]. split; [vm_compute; reflexivity|]. split.
  - intros x Hx. cbn in Hx. repeat (destruct Hx as [<-|Hx]; [reflexivity|]). destruct Hx.
  - exists (arcs3 0 0 0). split; [apply arcs3_in; lia|reflexivity].
Qed.
Print Assumptions C45_stale_refuted.
Theorem C45_key_refuted :
  exists d d0 d1, branch_and_bound 4 [ex_star] ex_pti 1 "a_b" [] = Ok d /\
    branch_and_bound 4 [short_star] short_pti 1 "a" [] = Ok d0 /\ branch_and_bound 4 [short_star] short_pti 1 "a" d = Ok d1 /\
    (forall x, In x (arc_states ex_edges) -> covered (get_sb_saved d0 "a") x = 1%nat) /\
    forall x, In x (arc_states ex_edges) -> covered (get_sb_saved d1 "a") x = 2%nat.
Proof.
  eexists. eexists. eexists. split; [vm_compute; reflexivity|]. split; [vm_compute; reflexivity|]. split; [vm_compute; reflexivity|]. split.
  - intros x Hx. cbn in Hx. repeat (destruct Hx as [<-|Hx]; [reflexivity|]). destruct Hx.
  - intros x Hx. cbn in Hx. repeat (destruct Hx as [<-|Hx]; [reflexivity|]). destruct Hx.
Qed.
Print Assumptions C45_key_refuted.
(** [get_branches] uses one key for all ODs: the second OD reads files of the first *)
Theorem C45_two_ods_refuted :
  exists r, get_branches 4 ex_edges ["od1"; "od2"] [("od1", ex_pt); ("od2", [(["e1"], q1 1 1)])] "a" [] = Ok r /\
    exists l1 l2 x, fst r = [("od1", l1); ("od2", l2)] /\
      (forall y, In y (arc_states ex_edges) -> covered l1 y = 1%nat) /\
      In x (arc_states ex_edges) /\ exists b b', In b l2 /\ In b' l2 /\ in_bb b x = true /\ in_bb b' x = true /\ fl b <> fl b'.
Proof.
  eexists. split; [vm_compute; reflexivity|]. eexists. eexists. exists (arcs3 0 1 1). split; [reflexivity|]. split.
  { intros x Hx. cbn in Hx. repeat (destruct Hx as [<-|Hx]; [reflexivity|]). destruct Hx. }
  split; [apply arcs3_in; lia|].
  exists (arcs3 0 0 0, arcs3 0 1 1, 0, 0), (arcs3 0 1 1, arcs3 0 1 1, 1, 1).
  split; [cbn; auto 10|]. split; [cbn; auto 10|]. split; [reflexivity|]. split; [reflexivity|]. cbn. lia.
Qed.
Print Assumptions C45_two_ods_refuted.
