(** Final theorems C96, C97: the outcome of a search of brc.py that runs to the
    end.  The vocabulary is in SpecBrc.v and SpecExact.v. *)
From Coq Require Import ZArith List String Bool Arith Lia QArith Qcanon Permutation.
From Verif Require Import Py Num Vari Brc SpecBrc VariFacts BrcFacts BrcRules BrcMain BrcRun BrcStop PropBrc PropBrc2 SpecExact ExactFacts.
Import ListNotations.
Open Scope string_scope.
Open Scope Z_scope.
Open Scope list_scope.

(** the rules that [run] starts with *)
Definition given (rules : option ruleset) : ruleset := match rules with Some r => r | None => mkRules [] [] end.

(** * C96 *)
(** Without limits the search ends with 'complete' after at most as many calls
    of the system function as there are vectors; both bounds are the failure
    probability and the rules decide every vector. *)
Theorem C96_total :
  forall varis probs phi sys_fun g rules brs,
    wf_varis varis -> wf_probs varis probs -> sys_ok varis phi sys_fun -> start_ok varis probs phi rules brs ->
    no_limits varis g ->
    exists s, run varis probs sys_fun g rules brs = Ok s /\ m_out_flag (s_mon s) = Some O_complete /\
      last (m_pf_low (s_mon s)) 0%Qc = p_fail varis probs phi /\
      last (m_pf_up (s_mon s)) 0%Qc = p_fail varis probs phi /\
      (forall x, In x (space (comps_of varis)) -> match_s (s_rules s) x = phi x /\ match_f (s_rules s) x = negb (phi x)) /\
      (List.length (s_sys s) <= List.length (space (comps_of varis)))%nat.
Proof.
  intros varis probs phi sys_fun g rules brs H1 H2 H3 H4 (L1 & L2 & L3 & L4).
  destruct (C16_run_total varis probs phi sys_fun g rules brs H1 H2 H3 H4 (or_intror L2)) as (s & Run). exists s. split; [exact Run|].
  destruct (C20_calls_distinct varis probs phi sys_fun g rules brs s H1 H2 H3 H4 (or_intror L2) Run) as (_ & _ & Len & _).
  assert (Hm : 0 < g_max_sf g) by lia.
  assert (Fl : m_out_flag (s_mon s) = Some O_complete).
  { destruct (C52_stop_reason _ _ _ _ _ _ _ Hm Run) as (bs & f & _ & Ef & Hf). rewrite Ef. f_equal.
    destruct f; auto; exfalso.
    - rewrite L2 in Hf. destruct Hf as (m & X & _). discriminate.
    - pose proof (C16_bounds varis probs phi sys_fun g rules brs s H1 H2 H3 H4 Run) as B.
      destruct H4 as (S1 & S2 & S3).
      pose proof (run_final varis probs phi sys_fun g rules brs H1 H2 H3 S1 S2 S3 Hm) as R. rewrite Run in R.
      destruct R as (h0 & b & u0 & R). cbv zeta in R. destruct R as (_ & _ & _ & _ & _ & _ & (M1 & M2 & M3 & _) & _).
      rewrite M1, M3 in Hf. rewrite M1, M2, M3 in B. rewrite !map_app in *. cbn [map] in *. rewrite !removelast_snoc in Hf.
      destruct h0 as [|e0 h0] using rev_ind.
      + cbn [map last] in Hf. replace (0 * g_pf_bnd_wr g)%Qc with 0%Qc in Hf by ring. discriminate.
      + clear IHh0. rewrite !map_app in *. cbn [map] in *. rewrite !last_last in Hf.
        destruct (B (List.length h0) _ _ _ (nth_mid _ _ _ _) (nth_mid _ _ _ _) (nth_mid _ _ _ _)) as (B1 & _ & _ & _ & _ & B2).
        apply (Qclt_not_le _ _ Hf). apply Qcle_trans with 0%Qc; [|exact B2].
        replace 0%Qc with (0 * g_pf_bnd_wr g)%Qc by ring.
        rewrite (Qcmult_comm _ (g_pf_bnd_wr g)), (Qcmult_comm 0 (g_pf_bnd_wr g)).
        assert (X : (0 <= - g_pf_bnd_wr g)%Qc) by qc_lra.
        pose proof (Qcmult_le_compat_r 0 (- g_pf_bnd_wr g) _ X B1) as Y.
        replace (- g_pf_bnd_wr g * pr_bf (e_brs e0))%Qc with (- (g_pf_bnd_wr g * pr_bf (e_brs e0)))%Qc in Y by ring.
        qc_lra.
    - rewrite L3 in Hf. destruct Hf as (m & X & _). discriminate.
    - lia. }
  split; [exact Fl|].
  destruct (C18_complete_exact_partial varis probs phi sys_fun g rules brs s H1 H2 H3 H4 (or_introl L2) Run Fl) as (A & B & C).
  auto.
Qed.
Print Assumptions C96_total.

(** The rules are made from the rules of the start by one update for every
    call, in the order of the calls; nothing else changes them. *)
Theorem C96_calls :
  forall varis probs sys_fun g rules brs s,
    run varis probs sys_fun g rules brs = Ok s ->
    exists ns, foldM (fun rs n => update_rule_set rs (fst n) (snd n)) ns (given rules) = Ok (s_rules s) /\
      Forall2 (fun (r : sysres) n => run_sys_fn (snd (fst r)) sys_fun varis = Ok (fst n, snd n, r)) (s_sys s) ns.
Proof. intros varis probs sys_fun g rules brs s. apply run_calls. Qed.
Print Assumptions C96_calls.

(** so there are never more rules than calls and given rules together *)
Theorem C96_number :
  forall varis probs sys_fun g rules brs s,
    run varis probs sys_fun g rules brs = Ok s ->
    (List.length (r_s (s_rules s)) + List.length (r_f (s_rules s)) <=
     List.length (r_s (given rules)) + List.length (r_f (given rules)) + List.length (s_sys s))%nat.
Proof. intros varis probs sys_fun g rules brs s H. apply (run_n_rules _ _ _ _ _ _ _ H). Qed.
Print Assumptions C96_number.

(** no rule of any run makes another one redundant, if this holds at the start *)
Theorem C96_irredundant :
  forall varis probs phi sys_fun g rules brs s,
    wf_varis varis -> wf_probs varis probs -> sys_ok varis phi sys_fun -> start_ok varis probs phi rules brs ->
    run varis probs sys_fun g rules brs = Ok s -> irredundant (given rules) -> irredundant (s_rules s).
Proof.
  intros varis probs phi sys_fun g rules brs s H1 H2 H3 (S1 & S2 & S3) Run I.
  exact (run_irredundant varis probs phi sys_fun g rules brs s H1 H2 H3 S1 S2 S3 Run I).
Qed.
Print Assumptions C96_irredundant.

(** The survival rules of a complete search are, one by one, the minimal
    surviving vectors, and the failure rules the maximal failing vectors. *)
Theorem C96_extreme :
  forall varis probs phi sys_fun g rules brs s,
    wf_varis varis -> wf_probs varis probs -> sys_ok varis phi sys_fun -> sys_tidy varis phi sys_fun ->
    start_ok varis probs phi rules brs -> tidy_rules varis (given rules) -> irredundant (given rules) ->
    unlimited varis (g_max_nb g) ->
    run varis probs sys_fun g rules brs = Ok s -> m_out_flag (s_mon s) = Some O_complete ->
    NoDup (map (low_corner varis) (r_s (s_rules s))) /\
    (forall x, In x (map (low_corner varis) (r_s (s_rules s))) <-> min_survivor varis phi x) /\
    NoDup (map (high_corner varis) (r_f (s_rules s))) /\
    (forall x, In x (map (high_corner varis) (r_f (s_rules s))) <-> max_failure varis phi x).
Proof.
  intros varis probs phi sys_fun g rules brs s H1 H2 H3 H4 H5 H6 H7 H8 Run Fl.
  destruct (C18_complete_exact_partial varis probs phi sys_fun g rules brs s H1 H2 H3 H5 H8 Run Fl) as (_ & _ & C).
  destruct H5 as (S1 & S2 & S3).
  destruct (run_rules_good varis probs phi sys_fun g rules brs s H1 H2 H3 S1 S2 S3 Run) as [W S].
  pose proof (run_irredundant varis probs phi sys_fun g rules brs s H1 H2 H3 S1 S2 S3 Run H7) as I.
  pose proof (run_tidy varis probs phi sys_fun g rules brs s H1 H2 H3 S1 S2 S3 Run H6 H4) as T.
  split; [apply nodup_low; auto|]. split; [intros x; apply corners_s; auto|].
  split; [apply nodup_high; auto|]. intros x. apply corners_f; auto.
Qed.
Print Assumptions C96_extreme.

(** hence a search from scratch needs at least one call for each of them *)
Theorem C96_least_calls :
  forall varis probs phi sys_fun g s ms fs,
    wf_varis varis -> wf_probs varis probs -> sys_ok varis phi sys_fun -> sys_tidy varis phi sys_fun ->
    unlimited varis (g_max_nb g) ->
    run varis probs sys_fun g None None = Ok s -> m_out_flag (s_mon s) = Some O_complete ->
    NoDup ms -> (forall x, In x ms <-> min_survivor varis phi x) ->
    NoDup fs -> (forall x, In x fs <-> max_failure varis phi x) ->
    List.length (r_s (s_rules s)) = List.length ms /\ List.length (r_f (s_rules s)) = List.length fs /\
    (List.length ms + List.length fs <= List.length (s_sys s))%nat.
Proof.
  intros varis probs phi sys_fun g s ms fs H1 H2 H3 H4 H5 Run Fl N1 M1 N2 M2.
  assert (A0 : forall (R : dict Z -> dict Z -> Prop), antichain R (@nil (dict Z))) by (intros R i j a b Hi; destruct i; discriminate).
  assert (St : start_ok varis probs phi None None).
  { split; [split; intros r []|]. split; [split; intros r x []|]. congruence. }
  destruct (C96_extreme varis probs phi sys_fun g None None s H1 H2 H3 H4 St ltac:(split; intros r []) (conj (A0 _) (A0 _)) H5 Run Fl)
    as (E1 & E2 & E3 & E4).
  assert (P1 : Permutation (map (low_corner varis) (r_s (s_rules s))) ms).
  { apply NoDup_Permutation; auto. intros x. rewrite E2, M1. tauto. }
  assert (P2 : Permutation (map (high_corner varis) (r_f (s_rules s))) fs).
  { apply NoDup_Permutation; auto. intros x. rewrite E4, M2. tauto. }
  apply Permutation_length in P1, P2. rewrite map_length in P1, P2.
  pose proof (C96_number _ _ _ _ _ _ _ Run) as L. cbn [given r_s r_f List.length] in L. lia.
Qed.
Print Assumptions C96_least_calls.

(** * C97 *)
(** Two complete searches for the same system find the same rules, whatever
    their limits, probabilities, order of the search, start and minimal vectors. *)
Theorem C97_same_rules :
  forall varis phi probs sys_fun g rules brs s probs' sys_fun' g' rules' brs' s',
    wf_varis varis -> wf_probs varis probs -> sys_ok varis phi sys_fun -> sys_tidy varis phi sys_fun ->
    start_ok varis probs phi rules brs -> tidy_rules varis (given rules) -> irredundant (given rules) ->
    unlimited varis (g_max_nb g) ->
    run varis probs sys_fun g rules brs = Ok s -> m_out_flag (s_mon s) = Some O_complete ->
    wf_probs varis probs' -> sys_ok varis phi sys_fun' -> sys_tidy varis phi sys_fun' ->
    start_ok varis probs' phi rules' brs' -> tidy_rules varis (given rules') -> irredundant (given rules') ->
    unlimited varis (g_max_nb g') ->
    run varis probs' sys_fun' g' rules' brs' = Ok s' -> m_out_flag (s_mon s') = Some O_complete ->
    let R := s_rules s in let R' := s_rules s' in
    List.length (r_s R) = List.length (r_s R') /\ List.length (r_f R) = List.length (r_f R') /\
    (forall r, In r (r_s R) -> exists r', In r' (r_s R') /\ forall k, dfind r k = dfind r' k) /\
    (forall r, In r (r_f R) -> exists r', In r' (r_f R') /\ forall k, dfind r k = dfind r' k).
Proof.
  intros varis phi probs sys_fun g rules brs s probs' sys_fun' g' rules' brs' s'
    H1 H2 H3 H4 H5 H6 H7 H8 Run Fl K2 K3 K4 K5 K6 K7 K8 Run' Fl'. cbv zeta.
  destruct (C96_extreme varis probs phi sys_fun g rules brs s H1 H2 H3 H4 H5 H6 H7 H8 Run Fl) as (E1 & E2 & E3 & E4).
  destruct (C96_extreme varis probs' phi sys_fun' g' rules' brs' s' H1 K2 K3 K4 K5 K6 K7 K8 Run' Fl') as (F1 & F2 & F3 & F4).
  destruct H5 as (S1 & S2 & S3). destruct K5 as (T1 & T2 & T3).
  destruct (run_rules_good varis probs phi sys_fun g rules brs s H1 H2 H3 S1 S2 S3 Run) as [W _].
  destruct (run_rules_good varis probs' phi sys_fun' g' rules' brs' s' H1 K2 K3 T1 T2 T3 Run') as [W' _].
  pose proof (run_tidy varis probs phi sys_fun g rules brs s H1 H2 H3 S1 S2 S3 Run H6 H4) as T.
  pose proof (run_tidy varis probs' phi sys_fun' g' rules' brs' s' H1 K2 K3 T1 T2 T3 Run' K6 K4) as T'.
  split; [|split; [|split]].
  - rewrite <- (map_length (low_corner varis)), <- (map_length (low_corner varis) (r_s (s_rules s'))).
    apply Permutation_length, NoDup_Permutation; auto. intros x. rewrite E2, F2. tauto.
  - rewrite <- (map_length (high_corner varis)), <- (map_length (high_corner varis) (r_f (s_rules s'))).
    apply Permutation_length, NoDup_Permutation; auto. intros x. rewrite E4, F4. tauto.
  - intros r Hr. assert (X : In (low_corner varis r) (map (low_corner varis) (r_s (s_rules s')))).
    { apply F2, E2. apply in_map. auto. }
    apply in_map_iff in X as (r' & X & Hr'). exists r'. split; [exact Hr'|].
    apply (low_same varis); auto; [apply (proj1 W); auto|apply (proj1 W'); auto|apply (proj1 T); auto|apply (proj1 T'); auto].
  - intros r Hr. assert (X : In (high_corner varis r) (map (high_corner varis) (r_f (s_rules s')))).
    { apply F4, E4. apply in_map. auto. }
    apply in_map_iff in X as (r' & X & Hr'). exists r'. split; [exact Hr'|].
    apply (high_same varis); auto; [apply (proj2 W); auto|apply (proj2 W'); auto|apply (proj2 T); auto|apply (proj2 T'); auto].
Qed.
Print Assumptions C97_same_rules.

(** * Examples *)
Lemma ex_sys_tidy : sys_tidy ex_varis ex_phi ex_sys.
Proof.
  intros x val sst r _ E k z v Hz Hv. unfold ex_sys in E. destruct (2 <=? coord x "x1") eqn:Ex; [|discriminate].
  injection E as _ _ <-. destruct Hz as [Hz|[]]. injection Hz as <- <-. unfold ex_phi. rewrite Ex. cbn [orb]. lia.
Qed.

Example C96_total_ex :
  start_ok ex_varis ex_probs ex_phi None None /\ no_limits ex_varis ex_cfg /\
  List.length (s_sys (ex_run ex_cfg)) = 6%nat /\ List.length (space (comps_of ex_varis)) = 12%nat /\
  m_out_flag (s_mon (ex_run ex_cfg)) = Some O_complete.
Proof.
  split; [exact ex_start|]. split; [unfold no_limits; cbn; repeat split; try lia; discriminate|]. vm_compute. auto.
Qed.

(** five extreme vectors, found with six calls *)
Example C96_extreme_ex :
  sys_tidy ex_varis ex_phi ex_sys /\
  map (low_corner ex_varis) (r_s (s_rules (ex_run ex_cfg))) =
    [[("x1", 2); ("x2", 0); ("x3", 0)]; [("x1", 0); ("x2", 1); ("x3", 1)]; [("x1", 1); ("x2", 1); ("x3", 0)]] /\
  map (high_corner ex_varis) (r_f (s_rules (ex_run ex_cfg))) =
    [[("x1", 1); ("x2", 0); ("x3", 1)]; [("x1", 0); ("x2", 1); ("x3", 0)]].
Proof. split; [exact ex_sys_tidy|]. vm_compute. auto. Qed.

(** the same system without minimal vectors and with other probabilities,
    searched from the failure side in the old branches *)
Definition ex_sys2 : sysfun := fun x => (1%Qc, if ex_phi x then S_ else F_, None).
Definition ex_probs2 : prob_dict :=
  [("x1", PDict [(0, Q2Qc (5#10)); (1, Q2Qc (4#10)); (2, Q2Qc (1#10))]);
   ("x2", PDict [(0, Q2Qc (7#10)); (1, Q2Qc (3#10))]);
   ("x3", PDict [(0, Q2Qc (1#2)); (1, Q2Qc (1#2))])].
Definition ex_cfg2 : config := mkCfg 100 (Some 24) 0%Qc None false false.
Definition ex_run2 : rstate :=
  match run ex_varis ex_probs2 ex_sys2 ex_cfg2 None None with Ok s => s | Err _ => ex_run ex_cfg end.
Lemma ex_wf_probs2 : wf_probs ex_varis ex_probs2.
Proof.
  intros k v [H|[H|[H|[]]]]; injection H as <- <-;
    (split; [eexists; split; [reflexivity|]; intros x Hx; change (nvals _) with 3 in Hx || change (nvals _) with 2 in Hx|apply Qc_is_canon; vm_compute; reflexivity]).
  - assert (x = 0 \/ x = 1 \/ x = 2) as [->|[->| ->]] by lia; eexists; (split; [reflexivity|vm_compute; congruence]).
  - assert (x = 0 \/ x = 1) as [->| ->] by lia; eexists; (split; [reflexivity|vm_compute; congruence]).
  - assert (x = 0 \/ x = 1) as [->| ->] by lia; eexists; (split; [reflexivity|vm_compute; congruence]).
Qed.

Example C97_same_rules_ex :
  (wf_probs ex_varis ex_probs2 /\ sys_ok ex_varis ex_phi ex_sys2 /\ sys_tidy ex_varis ex_phi ex_sys2 /\
   unlimited ex_varis (g_max_nb ex_cfg2)) /\
  run ex_varis ex_probs2 ex_sys2 ex_cfg2 None None = Ok ex_run2 /\
  m_out_flag (s_mon ex_run2) = Some O_complete /\ List.length (s_sys ex_run2) = 8%nat /\
  s_rules (ex_run ex_cfg) =
    mkRules [[("x1", 2)]; [("x2", 1); ("x3", 1)]; [("x1", 1); ("x2", 1)]] [[("x1", 1); ("x2", 0)]; [("x1", 0); ("x3", 0)]] /\
  s_rules ex_run2 =
    mkRules [[("x2", 1); ("x3", 1)]; [("x1", 1); ("x2", 1)]; [("x1", 2)]] [[("x1", 1); ("x2", 0)]; [("x1", 0); ("x3", 0)]].
Proof.
  split.
  { split; [exact ex_wf_probs2|]. split.
    - split; [exact ex_coherent|]. intros x Hx. eexists _, _. split; [reflexivity|]. discriminate.
    - split; [intros x val sst r _ E; discriminate|]. right. exists 24. split; [reflexivity|]. vm_compute. discriminate. }
  vm_compute. auto 10.
Qed.

(** Without [sys_tidy] a complete search may keep rules that others make
    superfluous: the system depends on x1 alone, and the second minimal vector
    mentions that x2 is at least 0.  The rule {x1: 1, x3: 1} stays. *)
Definition idle_varis : dict variable := [("x1", exv "x1" 2); ("x2", exv "x2" 2); ("x3", exv "x3" 2)].
Definition idle_probs : prob_dict :=
  [("x1", PDict [(0, Q2Qc (1#2)); (1, Q2Qc (1#2))]); ("x2", PDict [(0, Q2Qc (2#10)); (1, Q2Qc (8#10))]);
   ("x3", PDict [(0, Q2Qc (1#4)); (1, Q2Qc (3#4))])].
Definition idle_phi (x : dict Z) : bool := 1 <=? coord x "x1".
Definition idle_sys : sysfun := fun x =>
  (0%Qc, if idle_phi x then S_ else F_,
   if idle_phi x then Some (if 1 <=? coord x "x3" then [("x1", 1); ("x3", 1)] else [("x1", 1); ("x2", 0)]) else None).
Definition idle_run : rstate :=
  match run idle_varis idle_probs idle_sys ex_cfg None None with Ok s => s | Err _ => ex_run ex_cfg end.

Lemma idle_wf : wf_varis idle_varis /\ wf_probs idle_varis idle_probs.
Proof.
  split.
  - split; [repeat (constructor; [cbn; intuition congruence|]); constructor|].
    intros k v [H|[H|[H|[]]]]; injection H as <- <-; vm_compute; congruence.
  - intros k v [H|[H|[H|[]]]]; injection H as <- <-;
      (split; [eexists; split; [reflexivity|]; intros x Hx; change (nvals _) with 2 in Hx|apply Qc_is_canon; vm_compute; reflexivity]);
      assert (x = 0 \/ x = 1) as [->| ->] by lia; eexists; (split; [reflexivity|vm_compute; congruence]).
Qed.
Lemma idle_sys_ok : sys_ok idle_varis idle_phi idle_sys.
Proof.
  split.
  - intros x y _ _ L P. unfold idle_phi in *. specialize (L "x1" (or_introl eq_refl)). lia.
  - intros x Hx. eexists _, _. split; [reflexivity|]. intros r Hr _. destruct (idle_phi x) eqn:P; [|discriminate].
    assert (X2 : 0 <= coord x "x2") by (apply (sp_coord idle_varis (proj1 idle_wf) x "x2" (exv "x2" 2)); auto; right; left; auto).
    unfold idle_phi in P. destruct (1 <=? coord x "x3") eqn:E; injection Hr as <-; (split; [split; [repeat (constructor; [cbn; intuition congruence|]); constructor|
      intros k Hk; cbn in *; intuition]|split; [|discriminate]]); intros _; (split; [cbn [sat_s forallb fst snd]; rewrite P|]).
    + rewrite E. reflexivity.
    + intros y _ S. rewrite sat_s_spec in S. apply Z.leb_le. apply S. left; auto.
    + apply Z.leb_le in X2. rewrite X2. reflexivity.
    + intros y _ S. rewrite sat_s_spec in S. apply Z.leb_le. apply S. left; auto.
Qed.

Theorem C96_idle_refuted :
  exists varis probs phi sys_fun g s x,
    wf_varis varis /\ wf_probs varis probs /\ sys_ok varis phi sys_fun /\ start_ok varis probs phi None None /\
    unlimited varis (g_max_nb g) /\ run varis probs sys_fun g None None = Ok s /\
    m_out_flag (s_mon s) = Some O_complete /\
    In x (map (low_corner varis) (r_s (s_rules s))) /\ ~ min_survivor varis phi x.
Proof.
  exists idle_varis, idle_probs, idle_phi, idle_sys, ex_cfg, idle_run, [("x1", 1); ("x2", 0); ("x3", 1)].
  split; [apply idle_wf|]. split; [apply idle_wf|]. split; [exact idle_sys_ok|].
  split; [split; [split; intros r []|]; split; [split; intros r x []|]; congruence|].
  split; [left; reflexivity|]. split; [vm_compute; reflexivity|]. split; [vm_compute; reflexivity|].
  split; [vm_compute; auto|]. intros (_ & _ & M).
  specialize (M [("x1", 1); ("x2", 0); ("x3", 0)]). assert (X : [("x1", 1); ("x2", 0); ("x3", 0)] = [("x1", 1); ("x2", 0); ("x3", 1)] :> dict Z).
  { apply M; [vm_compute; tauto| |reflexivity]. intros k Hk. cbn in Hk. intuition subst; vm_compute; discriminate. }
  discriminate X.
Qed.
Print Assumptions C96_idle_refuted.
