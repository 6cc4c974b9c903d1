(** C104: what a search shares with its caller and with the system function. *)
From Coq Require Import ZArith List String Bool Arith Lia QArith Qcanon.
From Verif Require Import Py Num Vari Brc BrcHeap SpecBrcHeap PyFacts VariFacts BrcFacts CtorFacts BrcHeapFacts BrcHeapRun SpecBrc PropBrc.
Import ListNotations.
Open Scope string_scope.
Open Scope Z_scope.
Open Scope list_scope.

(** the first state *)
Definition first_h (h : heap) (rules : option nat) : heap * nat := match rules with Some r => (h, r) | None => new_rules h (mkRules [] []) end.
Lemma first_ready h rules brs m c : wf_call h rules brs -> ready (fst (first_h h rules)) (mkHs brs (snd (first_h h rules)) [] m c).
Proof.
  intros (S & Hr & Hb).
  assert (Gv : NoDup (given (mkHs brs (snd (first_h h rules)) [] m c)) /\ forall r, In r (given (mkHs brs (snd (first_h h rules)) [] m c)) -> live h r).
  { unfold given. cbn [hs_brs]. destruct brs as [b|]; [apply Hb; auto|]. split; [constructor|intros r []]. }
  destruct Gv as [Gn Gl]. destruct rules as [r|]; cbn [first_h new_rules fst snd] in *.
  - split; [auto|]. split; [auto|]. split; [auto|]. cbn. apply Hr. auto.
  - split; [exact S|]. split; [exact Gn|]. split; [exact Gl|]. cbn. rewrite app_length. cbn. lia.
Qed.
Lemma first_dict h rules r : hdict (fst (first_h h rules)) r = hdict h r.
Proof. destruct rules; auto. Qed.
Lemma first_obj h rules r : hobj (fst (first_h h rules)) r = hobj h r.
Proof. destruct rules; auto. Qed.
Lemma first_view h rules r : view (fst (first_h h rules)) r = view h r.
Proof. destruct rules; auto. Qed.
Definition rules_at (h : heap) (rules : option nat) : ruleset := match rules with Some r => hrules h r | None => mkRules [] [] end.
Lemma first_rules h rules : hrules (fst (first_h h rules)) (snd (first_h h rules)) = rules_at h rules.
Proof. destruct rules; cbn; [auto|]. unfold hrules. cbn. apply nth_last. Qed.
Lemma first_other h rules q : (q < List.length (h_rs h))%nat -> hrules (fst (first_h h rules)) q = hrules h q.
Proof. intros L. destruct rules; cbn; [auto|]. unfold hrules. cbn. apply nth_app1. auto. Qed.
Lemma run_h_eq h varis probs F g rules brs : run_h h varis probs F g rules brs =
  match run_loop_h (S (Z.to_nat (g_max_sf g))) (fst (first_h h rules)) varis probs F g (mkHs brs (snd (first_h h rules)) [] (fst init_monitor) (snd init_monitor)) with
  | (h1, Err e) => (h1, Err e)
  | (h1, Ok s) =>
      if 0 <? g_max_sf g then
        match hs_brs s with
        | None => (h1, Err TypeError)
        | Some b => let '(m, c) := update_monitor (hs_mon s) (map (view h1) b) (hrules h1 (hs_rules s)) in
                    (h1, Ok (mkHs (Some b) (hs_rules s) (hs_sys s) m c))
        end
      else (h1, Ok s)
  end.
Proof. unfold run_h. fold (first_h h rules). destruct (first_h h rules). reflexivity. Qed.

(** * What the caller sees afterwards *)
(** Whatever the system function does to the vectors it is given and however the search
    ends: the dictionaries of the caller keep their contents, and so do rule sets other
    than the one passed.  A branch of the caller keeps its box and its probability; only
    a branch that was passed, to a search that decomposes further, can get labels, and
    only those of the rules passed.  The branches returned are new objects with new
    dictionaries.  The rule set passed is the one returned. *)
Theorem C104_caller h varis probs F g rules brs : wf_call h rules brs ->
  let o := run_h h varis probs F g rules brs in
  (forall r, (r < List.length (h_ds h))%nat -> hdict (fst o) r = hdict h r) /\
  (forall q, (q < List.length (h_rs h))%nat -> rules <> Some q -> hrules (fst o) q = hrules h q) /\
  (forall r, live h r -> relabelled (rules_at h rules) (view h r) (view (fst o) r)) /\
  (forall r, live h r -> g_active g = true \/ (forall b, brs = Some b -> ~ In r b) -> view (fst o) r = view h r) /\
  (forall s, snd o = Ok s ->
     (forall r, rules = Some r -> hs_rules s = r) /\
     (rules = None -> hs_rules s = List.length (h_rs h)) /\
     (0 < g_max_sf g -> exists b, hs_brs s = Some b /\ NoDup b /\ forall r, In r b ->
        live (fst o) r /\ ~ live h r /\ (List.length (h_ds h) <= o_down (hobj (fst o) r))%nat /\ (List.length (h_ds h) <= o_up (hobj (fst o) r))%nat)).
Proof.
  intros W. cbv zeta. rewrite run_h_eq. set (s0 := mkHs brs (snd (first_h h rules)) [] (fst init_monitor) (snd init_monitor)).
  assert (Rd : ready (fst (first_h h rules)) s0) by (apply first_ready; auto).
  assert (K := loop_first varis probs F g (S (Z.to_nat (g_max_sf g))) (fst (first_h h rules)) s0 Rd). cbv zeta in K.
  set (o := run_loop_h _ _ _ _ _ _ _) in *. clearbody o. destruct o as [h1 r1]. cbn [fst snd] in K. destruct K as (K & S1 & Ks).
  assert (Sn := proj1 W). change (hs_rules s0) with (snd (first_h h rules)) in K, Ks. rewrite first_rules in K.
  assert (Ld : List.length (h_ds (fst (first_h h rules))) = List.length (h_ds h)) by (destruct rules; auto).
  assert (Lb : List.length (h_bs (fst (first_h h rules))) = List.length (h_bs h)) by (destruct rules; auto).
  destruct K as (_ & _ & _ & K4 & K5 & K6). rewrite Ld in K4.
  assert (Lf : forall r, live h r -> live (fst (first_h h rules)) r) by (unfold live; rewrite Lb; auto).
  assert (P1 : forall r, (r < List.length (h_ds h))%nat -> hdict h1 r = hdict h r) by (intros r Hr; rewrite K4 by auto; apply first_dict).
  assert (P2 : forall q, (q < List.length (h_rs h))%nat -> rules <> Some q -> hrules h1 q = hrules h q).
  { intros q Hq Nq. rewrite K5; [apply first_other; auto|]. destruct rules as [r|]; cbn; [congruence|lia]. }
  assert (P3 : forall r, live h r -> relabelled (rules_at h rules) (view h r) (view h1 r)).
  { intros r L. destruct (K6 r (Lf r L)) as (O1 & O2 & O3 & O4 & O5 & O6). rewrite !first_obj, ?first_dict in *.
    destruct (sane_obj h r Sn L) as [D1 D2]. unfold relabelled, view. cbn [b_down b_up b_p b_down_state b_up_state]. rewrite O1, O2, !P1 by auto. auto. }
  assert (P4 : forall r, live h r -> g_active g = true \/ (forall b, brs = Some b -> ~ In r b) -> view h1 r = view h r).
  { intros r L N. destruct (K6 r (Lf r L)) as (_ & _ & _ & O4 & _). rewrite first_obj in O4.
    destruct (sane_obj h r Sn L) as [D1 D2]. unfold view. rewrite O4; [rewrite !P1 by auto; reflexivity|].
    unfold start, given, s0. cbn [hs_brs]. destruct N as [->|N]; [intros []|]. destruct (g_active g); [intros []|]. destruct brs as [b|]; [apply N; auto|intros []]. }
  assert (P5 : forall s, r1 = Ok s ->
     (forall r, rules = Some r -> hs_rules s = r) /\ (rules = None -> hs_rules s = List.length (h_rs h)) /\
     (0 < g_max_sf g -> exists b, hs_brs s = Some b /\ NoDup b /\ forall r, In r b ->
        live h1 r /\ ~ live h r /\ (List.length (h_ds h) <= o_down (hobj h1 r))%nat /\ (List.length (h_ds h) <= o_up (hobj h1 r))%nat)).
  { intros s ->. destruct Ks as [E1 E2]. split; [intros r ->; exact E1|]. split; [intros ->; exact E1|].
    intros Hp. destruct E2 as (refs & E2 & E3 & E4); [apply Z.ltb_lt; exact Hp|]. exists refs. split; [auto|]. split; [auto|].
    intros r Hr. destruct (E4 r Hr) as (J1 & J2 & J3 & J4). rewrite Lb in J2. rewrite Ld in J3, J4. split; [auto|]. split; [unfold live; lia|]. auto. }
  destruct r1 as [s|e].
  2:{ cbn [fst snd]. split; [auto|]. split; [auto|]. split; [auto|]. split; [auto|]. discriminate. }
  destruct (0 <? g_max_sf g) eqn:Ep.
  - destruct (hs_brs s) as [b|] eqn:Eb.
    + destruct (update_monitor _ _ _) as [m c]. cbn [fst snd]. split; [auto|]. split; [auto|]. split; [auto|]. split; [auto|].
      intros s' X. injection X as <-. cbn [hs_rules hs_brs]. rewrite <- Eb. apply P5. auto.
    + cbn [fst snd]. split; [auto|]. split; [auto|]. split; [auto|]. split; [auto|]. discriminate.
  - cbn [fst snd]. split; [auto|]. split; [auto|]. split; [auto|]. split; [auto|]. intros s' X. injection X as <-. apply P5. auto.
Qed.

(** * Sharing does not matter if the system function leaves its argument alone *)
Lemma first_rel full h rules brs : wf_call h rules brs ->
  rel full (fst (first_h h rules)) (mkHs brs (snd (first_h h rules)) [] (fst init_monitor) (snd init_monitor))
    (mkSt (option_map (map (view h)) brs) (match option_map (hrules h) rules with Some r => r | None => mkRules [] [] end) [] (fst init_monitor) (snd init_monitor)).
Proof.
  intros W. unfold rel. cbn [hs_rules hs_brs hs_sys hs_mon hs_ctrl s_brs s_rules s_sys s_mon s_ctrl].
  split; [rewrite first_rules; destruct rules; auto|]. split; [auto|]. split; [auto|]. split; [auto|].
  assert (V : forall b, map (view (fst (first_h h rules))) b = map (view h) b) by (intros b; apply map_ext; intros r; apply first_view).
  split; [destruct brs; cbn; [rewrite V|]; auto|]. split; [|intros e []]. intros _. split; [destruct brs; cbn; [rewrite V|]; auto|auto].
Qed.
Lemma run_sim (full : Prop) h varis probs F g rules brs : wf_call h rules brs -> full \/ g_active g = true -> (full -> leaves_alone F) -> safe_values F ->
  let o := run_h h varis probs F g rules brs in
  match run varis probs (values_of F) g (option_map (hrules h) rules) (option_map (map (view h)) brs) with
  | Err e => snd o = Err e
  | Ok t => exists s, snd o = Ok s /\ rel full (fst o) s t
  end.
Proof.
  intros W Fa Le Sf. cbv zeta. rewrite run_h_eq. unfold run.
  set (s0 := mkHs brs (snd (first_h h rules)) [] (fst init_monitor) (snd init_monitor)).
  assert (L := loop_sim full varis probs F g Fa Le Sf (S (Z.to_nat (g_max_sf g))) (fst (first_h h rules)) s0 _ (first_ready h rules brs _ _ W) (first_rel full h rules brs W)).
  cbv zeta in L. cbn [init_monitor fst snd] in L |- *.
  set (o := run_loop_h _ _ _ _ _ _ _) in *. clearbody o. destruct o as [h1 r1]. cbn [fst snd] in L.
  destruct (run_loop _ _ _ _ _ _) as [t|e]; cbn [bind]; [|subst r1; auto]. destruct L as (s & -> & R).
  destruct (0 <? g_max_sf g); [|cbn [fst snd]; eauto]. destruct R as (R1 & R2 & R3 & R4 & R5 & R6 & R7).
  destruct (hs_brs s) as [b|] eqn:Eb, (s_brs t) as [l|] eqn:El; cbn [option_map] in R5; try discriminate; [|auto].
  injection R5 as R5. rewrite (update_monitor_tags _ _ l _ R5), R1, R2. destruct (update_monitor (s_mon t) l (s_rules t)) as [m c]. cbn [fst snd].
  eexists. split; [reflexivity|]. unfold rel. cbn [hs_rules hs_brs hs_sys hs_mon hs_ctrl s_brs s_rules s_sys s_mon s_ctrl option_map].
  do 4 (split; [auto|]). split; [rewrite R5; auto|]. split; auto.
Qed.
Theorem C104_same h varis probs F g rules brs : wf_call h rules brs -> leaves_alone F ->
  let o := run_h h varis probs F g rules brs in
  run varis probs (values_of F) g (option_map (hrules h) rules) (option_map (map (view h)) brs) = (s <- snd o ;; Ok (as_seen (fst o) s)).
Proof.
  intros W Le. assert (Sf : safe_values F) by (intros x; left; apply Le). assert (R := run_sim True h varis probs F g rules brs W (or_introl I) (fun _ => Le) Sf).
  cbv zeta in *. destruct (run _ _ _ _ _ _) as [t|e]; [|rewrite R; auto]. destruct R as (s & -> & R1 & R2 & R3 & _ & _ & R6 & _). destruct (R6 I) as [A B].
  cbn [bind]. unfold as_seen. rewrite R1, R2, R3, A. change (map (seen_sys (fst (run_h h varis probs F g rules brs))) (hs_sys s)) with (map (sysv (fst (run_h h varis probs F g rules brs))) (hs_sys s)).
  rewrite B. destruct t; auto.
Qed.

(** * A function that writes to its argument *)
(** With [active_decomp] and minimum states, what the function writes does not matter for
    the rules, the record of the search, the values and minimum states in the results
    table, and the labels and probabilities of the branches. *)
Theorem C104_active h varis probs F g rules brs : wf_call h rules brs -> g_active g = true -> safe_values F ->
  let o := run_h h varis probs F g rules brs in
  match run varis probs (values_of F) g (option_map (hrules h) rules) (option_map (map (view h)) brs) with
  | Err e => snd o = Err e
  | Ok t => exists s, snd o = Ok s /\ hrules (fst o) (hs_rules s) = s_rules t /\ hs_mon s = s_mon t /\ hs_ctrl s = s_ctrl t /\
      map (fun e => (fst (fst e), snd e)) (hs_sys s) = map (fun e => (fst (fst e), snd e)) (s_sys t) /\
      option_map (fun b => map tag (map (view (fst o)) b)) (hs_brs s) = option_map (map tag) (s_brs t)
  end.
Proof.
  intros W Ac Sf. assert (R := run_sim False h varis probs F g rules brs W (or_intror Ac) ltac:(intros []) Sf). cbv zeta in *.
  destruct (run _ _ _ _ _ _) as [t|e]; [|auto]. destruct R as (s & -> & R1 & R2 & R3 & R4 & R5 & _). exists s. auto 10.
Qed.

(** * Examples *)
(** a caller with one branch, the whole space, that keeps its two vectors, and two rule sets *)
Definition hp_heap : heap :=
  mkHeap [worst_of ex_varis; best_of ex_varis] [mkO 0 1 U_ U_ 1%Qc] [mkRules [[("x1", 2)]] []; mkRules [] []].
Definition hp_cfg (active : bool) : config := mkCfg 50 None 0%Qc None true active.
(** minimum states of the system of the examples of C06 *)
Definition hp_min (x : dict Z) : dict Z :=
  if ex_phi x then
    (if 2 <=? coord x "x1" then [("x1", 2)] else if 1 <=? coord x "x1" then [("x1", 1); ("x2", 1)] else [("x2", 1); ("x3", 1)])
  else (if 1 <=? coord x "x2" then [("x1", 0); ("x3", 0)] else [("x1", 1); ("x2", 0)]).
Definition hp_zeros (x : dict Z) : dict Z := map (fun kv => (fst kv, 0)) x.
(** three functions with the same values: one only reads; one gives minimum states and
    then clears its argument; one clears it and gives none *)
Definition hp_reads : sysfun_h := fun x => (0%Qc, if ex_phi x then S_ else F_, Some (hp_min x), x).
Definition hp_clears : sysfun_h := fun x => (0%Qc, if ex_phi x then S_ else F_, Some (hp_min x), hp_zeros x).
Definition hp_spoils : sysfun_h := fun x => (0%Qc, if ex_phi x then S_ else F_, None, hp_zeros x).
Lemma hp_wf rules brs : rules = Some 0%nat \/ rules = Some 1%nat \/ rules = None -> brs = None \/ brs = Some [0%nat] -> wf_call hp_heap rules brs.
Proof.
  intros Hr Hb. split; [intros o [<-|[]]; cbn; lia|]. split.
  - intros r ->. destruct Hr as [Hr|[Hr|Hr]]; [injection Hr as ->; cbn; lia|injection Hr as ->; cbn; lia|discriminate].
  - intros b ->. destruct Hb as [Hb|Hb]; [discriminate|]. injection Hb as ->. split; [constructor; [intros []|constructor]|].
    intros r [<-|[]]. unfold live. cbn. lia.
Qed.
Lemma hp_safe : safe_values hp_clears.
Proof.
  intros x. right. unfold hp_clears, hp_min. cbn [fst snd]. destruct (ex_phi x).
  - destruct (2 <=? coord x "x1"); [eauto|]. destruct (1 <=? coord x "x1"); eauto.
  - destruct (1 <=? coord x "x2"); eauto.
Qed.
Definition is_ok {A} (r : res A) : bool := match r with Ok _ => true | Err _ => false end.
Lemma is_ok_ex {A} (r : res A) : is_ok r = true -> exists x, r = Ok x.
Proof. destruct r; [eauto|discriminate]. Qed.
Definition hp_dummy : heap * hstate := (hp_heap, mkHs None 0 [] (fst init_monitor) (snd init_monitor)).
Definition hp_run (F : sysfun_h) (active : bool) (rules : option nat) (brs : option (list nat)) : heap * hstate :=
  match run_h hp_heap ex_varis ex_probs F (hp_cfg active) rules brs with (h, Ok s) => (h, s) | _ => hp_dummy end.
Lemma hp_run_ok F active rules brs : is_ok (snd (run_h hp_heap ex_varis ex_probs F (hp_cfg active) rules brs)) = true ->
  run_h hp_heap ex_varis ex_probs F (hp_cfg active) rules brs = (fst (hp_run F active rules brs), Ok (snd (hp_run F active rules brs))).
Proof. intros X. apply is_ok_ex in X as [s E]. unfold hp_run. destruct (run_h _ _ _ _ _ _ _) as [h r]. cbn in E. subst r. auto. Qed.

(** a branch and a rule set are passed: the branch gets the label of its upper end, the
    rule set gets the new rules, the vectors and the other rule set stay *)
Example C104_caller_ex :
  wf_call hp_heap (Some 0%nat) (Some [0%nat]) /\
  let h := fst (hp_run hp_clears false (Some 0%nat) (Some [0%nat])) in
  firstn 2 (h_ds h) = h_ds hp_heap /\ map (fun o => (o_down o, o_up o, o_ds o, o_us o)) (firstn 1 (h_bs h)) = [(0%nat, 1%nat, U_, S_)] /\
  h_rs h = [mkRules [[("x1", 2)]; [("x1", 1); ("x2", 1)]] [[("x1", 1); ("x2", 0)]]; mkRules [] []] /\
  (5 < List.length (h_bs h))%nat.
Proof.
  split; [apply hp_wf; auto|]. cbv zeta. split; [vm_compute; reflexivity|]. split; [vm_compute; reflexivity|]. split; [vm_compute; reflexivity|].
  vm_compute. lia.
Qed.
Lemma hp_reads_ok : run_h hp_heap ex_varis ex_probs hp_reads (hp_cfg false) (Some 1%nat) None =
  (fst (hp_run hp_reads false (Some 1%nat) None), Ok (snd (hp_run hp_reads false (Some 1%nat) None))).
Proof. apply hp_run_ok. vm_compute. reflexivity. Qed.
Lemma same_at h varis probs F g rules brs h' s : wf_call h rules brs -> leaves_alone F -> run_h h varis probs F g rules brs = (h', Ok s) ->
  run varis probs (values_of F) g (option_map (hrules h) rules) (option_map (map (view h)) brs) = Ok (as_seen h' s).
Proof. intros W Le E. rewrite (C104_same h varis probs F g rules brs W Le), E. reflexivity. Qed.
Lemma hp_reads_same :
  run ex_varis ex_probs (values_of hp_reads) (hp_cfg false) (option_map (hrules hp_heap) (Some 1%nat)) (option_map (map (view hp_heap)) None) =
  Ok (as_seen (fst (hp_run hp_reads false (Some 1%nat) None)) (snd (hp_run hp_reads false (Some 1%nat) None))).
Proof. exact (same_at hp_heap ex_varis ex_probs hp_reads (hp_cfg false) (Some 1%nat) None _ _ (hp_wf (Some 1%nat) None (or_intror (or_introl eq_refl)) (or_introl eq_refl)) (fun x => eq_refl) hp_reads_ok). Qed.
Example C104_same_ex :
  wf_call hp_heap (Some 1%nat) None /\ leaves_alone hp_reads /\
  let h := fst (hp_run hp_reads false (Some 1%nat) None) in let s := snd (hp_run hp_reads false (Some 1%nat) None) in
  run ex_varis ex_probs (values_of hp_reads) (hp_cfg false) (Some (mkRules [] [])) None = Ok (as_seen h s) /\
  option_map (@List.length nat) (hs_brs s) = Some 6%nat /\ List.length (hs_sys s) = 5%nat /\
  last (map (fun e => hdict h (snd (fst e))) (hs_sys s)) [] = [("x1", 0); ("x2", 1); ("x3", 0)].
Proof.
  split; [apply hp_wf; auto|]. split; [intros x; reflexivity|]. cbv zeta. split.
  - exact hp_reads_same.
  - split; [vm_compute; reflexivity|]. split; vm_compute; reflexivity.
Qed.
Example C104_active_ex :
  wf_call hp_heap (Some 1%nat) None /\ g_active (hp_cfg true) = true /\ safe_values hp_clears /\
  let h := fst (hp_run hp_clears true (Some 1%nat) None) in let s := snd (hp_run hp_clears true (Some 1%nat) None) in
  hrules h 1 = mkRules [[("x1", 2)]; [("x1", 1); ("x2", 1)]; [("x2", 1); ("x3", 1)]] [[("x1", 1); ("x2", 0)]; [("x1", 0); ("x3", 0)]] /\
  m_out_flag (hs_mon s) = Some O_complete /\ last (map this (m_pf_low (hs_mon s))) 0%Q = (1#10)%Q /\
  (* the vectors in the results table are cleared *)
  map (fun e => hdict h (snd (fst e))) (hs_sys s) = repeat [("x1", 0); ("x2", 0); ("x3", 0)] 5.
Proof.
  split; [apply hp_wf; auto|]. split; [reflexivity|]. split; [exact hp_safe|]. cbv zeta. do 3 (split; [vm_compute; reflexivity|]). vm_compute. reflexivity.
Qed.

(** * Both conditions are needed *)
(** Without [active_decomp] the function of the last example clears the upper ends of
    branches that are decomposed further: one state is left, and the failure probability
    is said to be exactly 1 instead of 1/10. *)
Theorem C104_without_active_refuted :
  ~ (forall h varis probs F g rules brs s t, wf_call h rules brs -> safe_values F ->
     snd (run_h h varis probs F g rules brs) = Ok s ->
     run varis probs (values_of F) g (option_map (hrules h) rules) (option_map (map (view h)) brs) = Ok t ->
     last (m_pf_low (hs_mon s)) 0%Qc = last (m_pf_low (s_mon t)) 0%Qc).
Proof.
  intros H.
  assert (Q : match run_h hp_heap ex_varis ex_probs hp_clears (hp_cfg false) (Some 1%nat) None with (_, Ok s) => this (last (m_pf_low (hs_mon s)) 0%Qc) = 1%Q | _ => False end) by (vm_compute; reflexivity).
  assert (T : match run ex_varis ex_probs (values_of hp_clears) (hp_cfg false) (Some (mkRules [] [])) None with Ok t => this (last (m_pf_low (s_mon t)) 0%Qc) = (1#10)%Q | Err _ => False end) by (vm_compute; reflexivity).
  specialize (H hp_heap ex_varis ex_probs hp_clears (hp_cfg false) (Some 1%nat) None).
  change (option_map (hrules hp_heap) (Some 1%nat)) with (Some (mkRules [] [])) in H. cbn [option_map] in H.
  revert H Q T. generalize (run ex_varis ex_probs (values_of hp_clears) (hp_cfg false) (Some (mkRules [] [])) None).
  generalize (run_h hp_heap ex_varis ex_probs hp_clears (hp_cfg false) (Some 1%nat) None). intros [h [s|e]] [t|e'] H Q T; try contradiction.
  rewrite (H s t (hp_wf (Some 1%nat) None (or_intror (or_introl eq_refl)) (or_introl eq_refl)) hp_safe eq_refl eq_refl), T in Q. discriminate.
Qed.
(** Without minimum states the rule is what is left of the vector: here nothing, so that
    every state counts as survival. *)
Theorem C104_without_minimum_refuted :
  ~ (forall h varis probs F g rules brs s t, wf_call h rules brs -> g_active g = true ->
     snd (run_h h varis probs F g rules brs) = Ok s ->
     run varis probs (values_of F) g (option_map (hrules h) rules) (option_map (map (view h)) brs) = Ok t ->
     hrules (fst (run_h h varis probs F g rules brs)) (hs_rules s) = s_rules t).
Proof.
  intros H.
  assert (Q : match run_h hp_heap ex_varis ex_probs hp_spoils (hp_cfg true) (Some 1%nat) None with (h, Ok s) => r_s (hrules h (hs_rules s)) = [[]] | _ => False end) by (vm_compute; reflexivity).
  assert (T : match run ex_varis ex_probs (values_of hp_spoils) (hp_cfg true) (Some (mkRules [] [])) None with Ok t => List.length (r_s (s_rules t)) = 3%nat | Err _ => False end) by (vm_compute; reflexivity).
  specialize (H hp_heap ex_varis ex_probs hp_spoils (hp_cfg true) (Some 1%nat) None).
  change (option_map (hrules hp_heap) (Some 1%nat)) with (Some (mkRules [] [])) in H. cbn [option_map] in H.
  revert H Q T. generalize (run ex_varis ex_probs (values_of hp_spoils) (hp_cfg true) (Some (mkRules [] [])) None).
  generalize (run_h hp_heap ex_varis ex_probs hp_spoils (hp_cfg true) (Some 1%nat) None). intros [h [s|e]] [t|e'] H Q T; try contradiction.
  cbn [fst snd] in H. rewrite (H s t (hp_wf (Some 1%nat) None (or_intror (or_introl eq_refl)) (or_introl eq_refl)) eq_refl eq_refl eq_refl) in Q. rewrite Q in T. discriminate.
Qed.

(** * Who shares what *)
(** A new branch has one dictionary of its own; the other is the dictionary of the branch it
    was cut from.  (So a function that changes the vector it is given can change several
    branches.) *)
Theorem C104_child_shares h r rules probs xd v up h' c :
  live h r -> new_branch_h h r rules probs xd v up = (h', Ok c) ->
  (live h' c /\ ~ live h c) /\ hobj h' r = hobj h r /\
  (if up then o_down (hobj h' c) = o_down (hobj h r) /\ (List.length (h_ds h) <= o_up (hobj h' c) < List.length (h_ds h'))%nat
   else o_up (hobj h' c) = o_up (hobj h r) /\ (List.length (h_ds h) <= o_down (hobj h' c) < List.length (h_ds h'))%nat).
Proof.
  intros L. unfold new_branch_h. destruct (get_new_branch _ _ _ _ _ _) as [b|e]; [|discriminate].
  destruct up; cbn [new_dict new_obj]; intros E; injection E as <- <-; unfold hobj, live in *; cbn [h_bs h_ds];
    rewrite nth_last, (app_nth1 _ _ _ L), !app_length; cbn [List.length o_down o_up]; repeat split; auto; lia.
Qed.

(** A deep copy of a list of branches shares nothing with the originals, and its branches
    share a dictionary exactly where the originals do. *)
Theorem C104_copies_share h refs : NoDup refs -> (forall r, In r refs -> live h r) ->
  let h' := fst (copy_h h refs) in let cs := snd (copy_h h refs) in
  List.length cs = List.length refs /\
  forall r c r' c', In (r, c) (combine refs cs) -> In (r', c') (combine refs cs) ->
    hobj h' r = hobj h r /\
    (List.length (h_ds h) <= o_down (hobj h' c))%nat /\ (List.length (h_ds h) <= o_up (hobj h' c))%nat /\
    (o_down (hobj h' c) = o_down (hobj h' c') <-> o_down (hobj h r) = o_down (hobj h r')) /\
    (o_up (hobj h' c) = o_up (hobj h' c') <-> o_up (hobj h r) = o_up (hobj h r')) /\
    (o_down (hobj h' c) = o_up (hobj h' c') <-> o_down (hobj h r) = o_up (hobj h r')).
Proof.
  intros N Lv h' cs. unfold cs. cbn [copy_h snd]. rewrite map_length. split; [reflexivity|].
  set (R := flat_map (fun r => [o_down (hobj h r); o_up (hobj h r)]) refs).
  assert (InR : forall r, In r refs -> In (o_down (hobj h r)) R /\ In (o_up (hobj h r)) R).
  { intros r Hr. split; apply in_flat_map; exists r; cbn; auto. }
  assert (P : forall r c, In (r, c) (combine refs (map (fun r => (List.length (h_bs h) + pos r refs)%nat) refs)) ->
    In r refs /\ hobj h' r = hobj h r /\ hobj h' c = mkO (List.length (h_ds h) + pos (o_down (hobj h r)) R) (List.length (h_ds h) + pos (o_up (hobj h r)) R) (o_ds (hobj h r)) (o_us (hobj h r)) (o_p (hobj h r))).
  { intros r c Hc.
    assert (G : forall f l, In (r, c) (combine l (map f l)) -> In r l /\ c = f r).
    { clear. intros f. induction l as [|a l IH]; cbn; [intros []|]. intros [X|X]; [injection X as -> <-; auto|]. destruct (IH X). auto. }
    apply G in Hc as [Hr ->]. split; [exact Hr|]. destruct (pos_spec r refs 0%nat Hr) as [P1 P2]. split.
    - unfold hobj, h'. cbn [copy_h fst h_bs]. apply app_nth1. apply (Lv r Hr).
    - unfold hobj at 1. unfold h'. cbn [copy_h fst h_bs]. rewrite app_nth2 by lia.
      replace (List.length (h_bs h) + pos r refs - List.length (h_bs h))%nat with (pos r refs) by lia.
      rewrite (nth_map_in _ refs _ 0%nat) by auto. rewrite P2. reflexivity. }
  assert (I : forall a b, In a R -> In b R -> ((List.length (h_ds h) + pos a R)%nat = (List.length (h_ds h) + pos b R)%nat <-> a = b)).
  { intros a b Ha Hb. split; [|intros ->; auto]. intros X. assert (Y : pos a R = pos b R) by lia.
    destruct (pos_spec a R 0%nat Ha) as [_ A], (pos_spec b R 0%nat Hb) as [_ B]. congruence. }
  intros r c r' c' H1 H2. apply P in H1 as (Hr & E1 & ->). apply P in H2 as (Hr' & _ & ->). cbn [o_down o_up].
  destruct (InR r Hr), (InR r' Hr'). split; [exact E1|]. split; [lia|]. split; [lia|]. split; [auto|]. split; auto.
Qed.

(** the branch of the examples cut at state 1 of x1, twice, and the two halves copied: the
    upper half has the upper end of the whole, the lower half the lower end *)
Example C104_sharing_ex :
  live hp_heap 0 /\
  let o1 := new_branch_h hp_heap 0 (mkRules [] []) ex_probs "x1" 1 true in
  let o2 := new_branch_h (fst o1) 0 (mkRules [] []) ex_probs "x1" 1 false in
  let o3 := copy_h (fst o2) [0%nat; 1%nat; 2%nat] in
  snd o1 = Ok 1%nat /\ snd o2 = Ok 2%nat /\ snd o3 = [3%nat; 4%nat; 5%nat] /\
  map (fun r => (o_down (hobj (fst o2) r), o_up (hobj (fst o2) r))) [0%nat; 1%nat; 2%nat] = [(0, 1); (0, 2); (3, 1)]%nat /\
  map (fun r => (o_down (hobj (fst o3) r), o_up (hobj (fst o3) r))) [3%nat; 4%nat; 5%nat] = [(4, 5); (4, 7); (8, 5)]%nat.
Proof.
  split; [unfold live; cbn; lia|]. cbv zeta. do 4 (split; [vm_compute; reflexivity|]). vm_compute. reflexivity.
Qed.
