(** Final theorems C06-C24: branch-and-reliability-bound search of brc.py.
    The vocabulary is in SpecBrc.v; [run] is [brc.run], [decomp_depth_first]
    the function of the same name, and so on (Brc.v). *)
From Coq Require Import ZArith List String Bool Lia QArith Qcanon.
From Verif Require Import Py Num Vari Brc SpecBrc VariFacts BrcMain BrcRules BrcMisc PyFacts.
Import ListNotations.
Open Scope string_scope.
Open Scope Z_scope.
Open Scope list_scope.

(** * Example system: a three-state and two two-state components.
    It survives if x1 is perfect, or x1 at least degraded and x2 works,
    or x2 and x3 both work. *)
Definition exv (name : string) (n : nat) : variable :=
  mk_variable name (map (fun i => VNum (qz (Z.of_nat i))) (seq 0 n)) None.
Definition ex_varis : dict variable := [("x1", exv "x1" 3); ("x2", exv "x2" 2); ("x3", exv "x3" 2)].
Definition ex_probs : prob_dict :=
  [("x1", PDict [(0, Q2Qc (1#10)); (1, Q2Qc (3#10)); (2, Q2Qc (6#10))]);
   ("x2", PDict [(0, Q2Qc (2#10)); (1, Q2Qc (8#10))]);
   ("x3", PDict [(0, Q2Qc (1#4)); (1, Q2Qc (3#4))])].
Definition ex_phi (x : dict Z) : bool :=
  (2 <=? coord x "x1") || ((1 <=? coord x "x1") && (1 <=? coord x "x2")) ||
  ((1 <=? coord x "x2") && (1 <=? coord x "x3")).
(** returns a minimal rule for one vector, nothing for the others *)
Definition ex_sys : sysfun := fun x =>
  (0%Qc, if ex_phi x then S_ else F_, if 2 <=? coord x "x1" then Some [("x1", 2)] else None).
Definition ex_rules : ruleset := mkRules [[("x1", 2)]; [("x2", 1); ("x3", 1)]] [[("x1", 1); ("x2", 0)]].

Lemma ex_wf_varis : wf_varis ex_varis.
Proof.
  split.
  - repeat (constructor; [cbn; intuition congruence|]). constructor.
  - intros k v [H|[H|[H|[]]]]; injection H as <- <-; vm_compute; congruence.
Qed.
Lemma ex_wf_probs : wf_probs ex_varis ex_probs.
Proof.
  intros k v [H|[H|[H|[]]]]; injection H as <- <-;
    (split; [eexists; split; [reflexivity|]; intros x Hx; change (nvals _) with 3 in Hx || change (nvals _) with 2 in Hx|apply Qc_is_canon; vm_compute; reflexivity]).
  - assert (x = 0 \/ x = 1 \/ x = 2) as [->|[->| ->]] by lia; eexists; (split; [reflexivity|vm_compute; congruence]).
  - assert (x = 0 \/ x = 1) as [->| ->] by lia; eexists; (split; [reflexivity|vm_compute; congruence]).
  - assert (x = 0 \/ x = 1) as [->| ->] by lia; eexists; (split; [reflexivity|vm_compute; congruence]).
Qed.
Lemma all_space (P : dict Z -> bool) :
  forallb P (space (comps_of ex_varis)) = true -> forall x, In x (space (comps_of ex_varis)) -> P x = true.
Proof. intros H. apply forallb_forall. auto. Qed.
Definition ex_leb (x y : dict Z) : bool := forallb (fun k => coord x k <=? coord y k) (keys ex_varis).
Lemma ex_coherent : coherent ex_varis ex_phi.
Proof.
  intros x y Hx Hy Hl. assert (Hb : ex_leb x y = true).
  { apply forallb_forall. intros k Hk. apply Z.leb_le. apply Hl. auto. }
  pose proof (all_space (fun x => forallb (fun y => implb (ex_leb x y) (implb (ex_phi x) (ex_phi y))) (space (comps_of ex_varis)))
                eq_refl x Hx) as H.
  rewrite forallb_forall in H. specialize (H y Hy). rewrite Hb in H. destruct (ex_phi x), (ex_phi y); cbn in H; congruence.
Qed.
Lemma ex_wf_rules : wf_rules ex_varis ex_rules.
Proof.
  split; intros r Hr; cbn in Hr; intuition subst; (split; [repeat (constructor; [cbn; intuition congruence|]); constructor|
    intros k Hk; cbn in *; intuition]).
Qed.
Lemma ex_sound : sound_rules ex_varis ex_phi ex_rules.
Proof.
  split; intros r x Hr Hx; cbn in Hr.
  - intuition subst.
    + pose proof (all_space (fun x => implb (sat_s [("x1", 2)] x) (ex_phi x)) eq_refl x Hx) as X. cbv beta in X.
      rewrite H in X. exact X.
    + pose proof (all_space (fun x => implb (sat_s [("x2", 1); ("x3", 1)] x) (ex_phi x)) eq_refl x Hx) as X. cbv beta in X.
      rewrite H in X. exact X.
  - intuition subst. pose proof (all_space (fun x => implb (sat_f [("x1", 1); ("x2", 0)] x) (negb (ex_phi x))) eq_refl x Hx) as X.
    cbv beta in X. rewrite H in X. cbn in X. destruct (ex_phi x); cbn in X; congruence.
Qed.
Lemma ex_sys_ok : sys_ok ex_varis ex_phi ex_sys.
Proof.
  split; [exact ex_coherent|]. intros x Hx. eexists _, _. split; [reflexivity|]. intros r Hr _.
  destruct (2 <=? coord x "x1") eqn:E; [injection Hr as <-|congruence].
  split; [apply (proj1 ex_wf_rules); left; auto|]. split.
  - intros _. split; [cbn; rewrite E; auto|]. intros y Hy. apply (proj1 ex_sound [("x1", 2)] y); auto. left; auto.
  - unfold ex_phi. rewrite E. cbn. congruence.
Qed.

(** * C06 *)
Theorem C06_get_state :
  forall varis phi rs x,
    wf_rules varis rs -> sound_rules varis phi rs -> In x (space (comps_of varis)) ->
    exists s, get_state x rs = Ok s /\
      (s = U_ <-> (match_s rs x = false /\ match_f rs x = false)) /\
      (s = S_ -> phi x = true) /\ (s = F_ -> phi x = false).
Proof. exact main_get_state. Qed.
Print Assumptions C06_get_state.

Example C06_get_state_ex :
  (wf_rules ex_varis ex_rules /\ sound_rules ex_varis ex_phi ex_rules) /\
  get_state [("x1", 1); ("x2", 1); ("x3", 1)] ex_rules = Ok S_ /\
  get_state [("x1", 1); ("x2", 0); ("x3", 1)] ex_rules = Ok F_ /\
  get_state [("x1", 1); ("x2", 1); ("x3", 0)] ex_rules = Ok U_.
Proof. split; [exact (conj ex_wf_rules ex_sound)|]. vm_compute. auto. Qed.

(** * C07 *)
Theorem C07_update_coverage :
  forall rs n s, s <> U_ ->
    exists rs', update_rule_set rs n s = Ok rs' /\
      (forall x, match_s rs' x = match_s rs x || (st_eqb s S_ && sat_s n x)) /\
      (forall x, match_f rs' x = match_f rs x || (st_eqb s F_ && sat_f n x)) /\
      (forall r, In r (r_s rs') -> In r (r_s rs) \/ (s = S_ /\ r = n)) /\
      (forall r, In r (r_f rs') -> In r (r_f rs) \/ (s = F_ /\ r = n)).
Proof. exact update_spec. Qed.
Print Assumptions C07_update_coverage.

(** one rule is dropped, one is ignored *)
Example C07_update_coverage_ex :
  update_rule_set (mkRules [[("x1", 2); ("x2", 1)]; [("x3", 1)]] []) [("x1", 1)] S_
    = Ok (mkRules [[("x3", 1)]; [("x1", 1)]] []) /\
  update_rule_set (mkRules [[("x1", 1)]] []) [("x1", 2); ("x3", 1)] S_ = Ok (mkRules [[("x1", 1)]] []) /\
  update_rule_set (mkRules [] [[("x1", 0); ("x2", 0)]]) [("x1", 1); ("x2", 0)] F_
    = Ok (mkRules [] [[("x1", 1); ("x2", 0)]]).
Proof. vm_compute. auto. Qed.

(** * C08 *)
Theorem C08_non_dominated :
  forall rs ns rs',
    foldM (fun rs n => update_rule_set rs (fst n) (snd n)) ns rs = Ok rs' ->
    (forall r, In r (r_s rs ++ r_f rs) -> NoDup (keys r)) ->
    (forall n, In n ns -> NoDup (keys (fst n))) ->
    antichain covers_s (r_s rs) -> antichain covers_f (r_f rs) ->
    antichain covers_s (r_s rs') /\ antichain covers_f (r_f rs').
Proof. exact main_updates. Qed.
Print Assumptions C08_non_dominated.

Example C08_non_dominated_ex :
  foldM (fun rs n => update_rule_set rs (fst n) (snd n))
    [([("x1", 2); ("x2", 1)], S_); ([("x1", 0)], F_); ([("x1", 2)], S_); ([("x3", 1); ("x2", 1)], S_);
     ([("x1", 1); ("x2", 0)], F_); ([("x1", 2); ("x3", 1)], S_)] (mkRules [] [])
  = Ok (mkRules [[("x1", 2)]; [("x3", 1); ("x2", 1)]] [[("x1", 0)]; [("x1", 1); ("x2", 0)]]).
Proof. reflexivity. Qed.

(** * C09 *)
Theorem C09_sound_rule :
  forall varis phi sys_fun x,
    wf_varis varis -> sys_ok varis phi sys_fun -> In x (space (comps_of varis)) ->
    exists rule s r, run_sys_fn x sys_fun varis = Ok (rule, s, r) /\
      s = (if phi x then S_ else F_) /\ wf_rule varis rule /\
      (phi x = true -> sat_s rule x = true /\
         forall y, In y (space (comps_of varis)) -> sat_s rule y = true -> phi y = true) /\
      (phi x = false -> sat_f rule x = true /\
         forall y, In y (space (comps_of varis)) -> sat_f rule y = true -> phi y = false).
Proof. exact main_run_sys_fn. Qed.
Print Assumptions C09_sound_rule.

Example C09_sound_rule_ex :
  (wf_varis ex_varis /\ sys_ok ex_varis ex_phi ex_sys) /\
  run_sys_fn [("x1", 1); ("x2", 1); ("x3", 0)] ex_sys ex_varis
    = Ok ([("x1", 1); ("x2", 1)], S_, (0%Qc, [("x1", 1); ("x2", 1); ("x3", 0)], None)) /\
  run_sys_fn [("x1", 1); ("x2", 0); ("x3", 1)] ex_sys ex_varis
    = Ok ([("x1", 1); ("x2", 0)], F_, (0%Qc, [("x1", 1); ("x2", 0); ("x3", 1)], None)) /\
  run_sys_fn [("x1", 2); ("x2", 1); ("x3", 0)] ex_sys ex_varis
    = Ok ([("x1", 2)], S_, (0%Qc, [("x1", 2); ("x2", 1); ("x3", 0)], Some [("x1", 2)])).
Proof. split; [exact (conj ex_wf_varis ex_sys_ok)|]. vm_compute. auto. Qed.

(** * C10 *)
Theorem C10_split :
  forall varis probs rs b xd s,
    wf_varis varis -> wf_probs varis probs -> wf_rules varis rs -> boxes varis [b] ->
    In xd (keys varis) -> coord (b_down b) xd < s <= coord (b_up b) xd ->
    exists b1 b2, get_new_branch b rs probs xd s true = Ok b1 /\ get_new_branch b rs probs xd s false = Ok b2 /\
      boxes varis [b1; b2] /\ exact_probs varis probs [b1; b2] /\
      (forall x, In x (space (comps_of varis)) ->
         (in_branch b x = false -> in_branch b1 x = false /\ in_branch b2 x = false) /\
         (in_branch b x = true -> in_branch b1 x = negb (in_branch b2 x))) /\
      (b_p b1 + b_p b2 = prob_event varis probs (in_branch b))%Qc.
Proof. exact main_split. Qed.
Print Assumptions C10_split.

Definition show (b : branch) := (map snd (b_down b), map snd (b_up b), b_down_state b, b_up_state b, this (b_p b)).
Definition show_res (r : res branch) := match r with Ok b => Some (show b) | Err _ => None end.
Definition ex_box : branch :=
  mkBr [("x1", 0); ("x2", 0); ("x3", 0)] [("x1", 2); ("x2", 1); ("x3", 1)] F_ S_ 1%Qc.
Example C10_split_ex :
  show_res (get_new_branch ex_box ex_rules ex_probs "x1" 2 true)
    = Some ([0; 0; 0], [1; 1; 1], F_, S_, (2#5)%Q) /\
  show_res (get_new_branch ex_box ex_rules ex_probs "x1" 2 false)
    = Some ([2; 0; 0], [2; 1; 1], S_, S_, (3#5)%Q).
Proof. vm_compute. auto. Qed.

(** * C11 *)
Theorem C11_choice :
  forall varis probs rs b c,
    wf_varis varis -> wf_probs varis probs -> wf_rules varis rs -> boxes varis [b] ->
    get_compat_rules b rs = Ok c -> r_s c <> [] \/ r_f c <> [] ->
    exists xd s, get_decomp_comp b c probs = Ok (Some (xd, s)) /\
      In xd (keys varis) /\ coord (b_down b) xd < s <= coord (b_up b) xd.
Proof. exact main_choice. Qed.
Print Assumptions C11_choice.
Theorem C11_compat_total :
  forall varis rs b, wf_rules varis rs -> boxes varis [b] -> exists c, get_compat_rules b rs = Ok c.
Proof. exact main_compat_total. Qed.
Print Assumptions C11_compat_total.

Example C11_choice_ex :
  get_compat_rules ex_box ex_rules = Ok ex_rules /\
  get_decomp_comp ex_box ex_rules ex_probs = Ok (Some ("x1", 2)).
Proof. vm_compute. auto. Qed.

(** * C12, C13, C14, C15: [decomp_depth_first] on fresh or resumed branches *)
Theorem C12_decomp_total :
  forall varis probs phi rs max_nb brs,
    wf_varis varis -> wf_probs varis probs -> wf_rules varis rs -> sound_rules varis phi rs ->
    valid_brs varis probs rs brs ->
    exists out, decomp_depth_first varis rs probs max_nb brs = Ok out.
Proof. intros. edestruct main_decomp as (out & E & _); eauto. Qed.
Print Assumptions C12_decomp_total.

Theorem C13_partition :
  forall varis probs phi rs max_nb brs out,
    wf_varis varis -> wf_probs varis probs -> wf_rules varis rs -> sound_rules varis phi rs ->
    valid_brs varis probs rs brs ->
    decomp_depth_first varis rs probs max_nb brs = Ok out -> partition varis out /\ boxes varis out.
Proof.
  intros varis probs phi rs max_nb brs out H1 H2 H3 H4 H5 H6.
  destruct (main_decomp varis probs phi rs max_nb brs H1 H2 H3 H4 H5) as (o & E & V & P & _).
  rewrite H6 in E. injection E as <-. split; [auto|apply V].
Qed.
Print Assumptions C13_partition.

Theorem C14_probabilities :
  forall varis probs phi rs max_nb brs out,
    wf_varis varis -> wf_probs varis probs -> wf_rules varis rs -> sound_rules varis phi rs ->
    valid_brs varis probs rs brs ->
    decomp_depth_first varis rs probs max_nb brs = Ok out ->
    exact_probs varis probs out /\ qsum (map b_p out) = 1%Qc.
Proof.
  intros varis probs phi rs max_nb brs out H1 H2 H3 H4 H5 H6.
  destruct (main_decomp varis probs phi rs max_nb brs H1 H2 H3 H4 H5) as (o & E & V & _ & Q & _).
  rewrite H6 in E. injection E as <-. split; [apply V|auto].
Qed.
Print Assumptions C14_probabilities.

Theorem C15_labels :
  forall varis probs phi rs max_nb brs out,
    wf_varis varis -> wf_probs varis probs -> wf_rules varis rs -> sound_rules varis phi rs ->
    valid_brs varis probs rs brs ->
    decomp_depth_first varis rs probs max_nb brs = Ok out ->
    sound_labels varis phi out /\ labels_by_rules rs out.
Proof.
  intros varis probs phi rs max_nb brs out H1 H2 H3 H4 H5 H6.
  destruct (main_decomp varis probs phi rs max_nb brs H1 H2 H3 H4 H5) as (o & E & V & _ & _ & Q & _).
  rewrite H6 in E. injection E as <-. split; [auto|apply V].
Qed.
Print Assumptions C15_labels.

(** a fresh start is valid *)
Lemma fresh_valid varis probs rs : valid_brs varis probs rs [].
Proof. split; [intros b []|]. split; [intros b []|]. split; [intros b []|congruence]. Qed.

Definition ex_out : list branch :=
  match decomp_depth_first ex_varis ex_rules ex_probs None [] with Ok o => o | Err _ => [] end.
Example C12_decomp_ex :
  valid_brs ex_varis ex_probs ex_rules [] /\
  decomp_depth_first ex_varis ex_rules ex_probs None [] = Ok ex_out /\
  map show ex_out =
    [ ([2; 0; 0], [2; 1; 1], S_, S_, (3 # 5)%Q); ([0; 1; 0], [1; 1; 0], U_, U_, (2 # 25)%Q);
      ([0; 1; 1], [1; 1; 1], S_, S_, (6 # 25)%Q); ([0; 0; 0], [1; 0; 1], F_, F_, (2 # 25)%Q)] /\
  map show (match decomp_depth_first ex_varis ex_rules ex_probs (Some 2) [] with Ok o => o | Err _ => [] end) =
    [ ([0; 0; 0], [1; 1; 1], F_, S_, (2 # 5)%Q); ([2; 0; 0], [2; 1; 1], S_, S_, (3 # 5)%Q)].
Proof. split; [apply fresh_valid|]. vm_compute. auto. Qed.
Example C13_partition_ex :
  List.length (space (comps_of ex_varis)) = 12%nat /\
  forallb (fun x => Nat.eqb (List.length (filter (fun b => in_branch b x) ex_out)) 1) (space (comps_of ex_varis)) = true.
Proof. vm_compute. auto. Qed.
Example C14_probabilities_ex :
  map (fun b => this (b_p b)) ex_out = [(3#5); (2#25); (6#25); (2#25)]%Q /\ this (qsum (map b_p ex_out)) = 1%Q.
Proof. vm_compute. auto. Qed.
Example C15_labels_ex :
  map (fun b => (b_down_state b, b_up_state b)) ex_out = [(S_, S_); (U_, U_); (S_, S_); (F_, F_)] /\
  sound_rules ex_varis ex_phi ex_rules.
Proof. split; [vm_compute; auto|exact ex_sound]. Qed.

(** * C16 *)
(** a run may start from rules (and branches) of an earlier run *)
Definition start_ok (varis : dict variable) (probs : prob_dict) (phi : dict Z -> bool)
    (rules : option ruleset) (brs : option (list branch)) : Prop :=
  let rs := match rules with Some r => r | None => mkRules [] [] end in
  wf_rules varis rs /\ sound_rules varis phi rs /\ forall b, brs = Some b -> valid_brs varis probs rs b.

Theorem C16_bounds :
  forall varis probs phi sys_fun g rules brs s,
    wf_varis varis -> wf_probs varis probs -> sys_ok varis phi sys_fun -> start_ok varis probs phi rules brs ->
    run varis probs sys_fun g rules brs = Ok s ->
    forall i low up bu, nth_error (m_pf_low (s_mon s)) i = Some low -> nth_error (m_pf_up (s_mon s)) i = Some up ->
      nth_error (m_pr_bu (s_mon s)) i = Some bu ->
      (0 <= low)%Qc /\ (low <= p_fail varis probs phi)%Qc /\ (p_fail varis probs phi <= up)%Qc /\ (up <= 1)%Qc /\
      bu = (up - low)%Qc /\ (0 <= bu)%Qc.
Proof. intros varis probs phi sys_fun g rules brs s H1 H2 H3 (H4 & H5 & H6). apply main_bounds; auto. Qed.
Print Assumptions C16_bounds.

(** the run itself terminates without error *)
Theorem C16_run_total :
  forall varis probs phi sys_fun g rules brs,
    wf_varis varis -> wf_probs varis probs -> sys_ok varis phi sys_fun -> start_ok varis probs phi rules brs ->
    g_surv_first g = true \/ g_max_nb g = None ->
    exists s, run varis probs sys_fun g rules brs = Ok s.
Proof. intros varis probs phi sys_fun g rules brs H1 H2 H3 (H4 & H5 & H6). apply (main_total varis probs phi); auto. Qed.
Print Assumptions C16_run_total.

(** what it returns can be passed to another run; the last bounds are those
    of the returned branches *)
Theorem C16_resume :
  forall varis probs phi sys_fun g rules brs s,
    wf_varis varis -> wf_probs varis probs -> sys_ok varis phi sys_fun -> start_ok varis probs phi rules brs ->
    0 < g_max_sf g -> run varis probs sys_fun g rules brs = Ok s ->
    exists b, s_brs s = Some b /\ start_ok varis probs phi (Some (s_rules s)) (Some b) /\ partition varis b /\
      m_pf_low (s_mon s) <> [] /\
      last (m_pf_low (s_mon s)) 0%Qc = qsum (map b_p (filter (fun b => st_eqb (b_up_state b) F_) b)) /\
      last (m_pf_up (s_mon s)) 0%Qc = (1 - qsum (map b_p (filter (fun b => st_eqb (b_down_state b) S_) b)))%Qc.
Proof.
  intros varis probs phi sys_fun g rules brs s H1 H2 H3 (H4 & H5 & H6) H7 H8.
  destruct (main_resume varis probs phi sys_fun g rules brs H1 H2 H3 H4 H5 H6 s H7 H8) as (A & B & b & C & D & E & F & G & H).
  exists b. split; auto. split. { split; [exact A|]. split; [exact B|]. intros b' X. injection X as <-. auto. }
  split; auto. split; auto.
  destruct (main_aligned varis probs phi sys_fun g rules brs H1 H2 H3 H4 H5 H6 s H7 H8) as (_ & _ & L & _).
  intros X. rewrite X in L. cbn in L. congruence.
Qed.
Print Assumptions C16_resume.

Lemma ex_start : start_ok ex_varis ex_probs ex_phi None None.
Proof.
  split; [split; intros r []|]. split; [split; intros r x []|]. congruence.
Qed.
Definition ex_cfg : config := mkCfg 100 None 0%Qc None true true.
Definition ex_run (g : config) : rstate :=
  match run ex_varis ex_probs ex_sys g None None with Ok s => s
  | Err _ => mkSt None (mkRules [] []) [] (fst init_monitor) (snd init_monitor) end.
Example C16_bounds_ex :
  start_ok ex_varis ex_probs ex_phi None None /\
  run ex_varis ex_probs ex_sys ex_cfg None None = Ok (ex_run ex_cfg) /\
  map this (m_pf_low (s_mon (ex_run ex_cfg))) = [0; 0; 0; 0; 0; (2#25); (1#10)]%Q /\
  map this (m_pf_up (s_mon (ex_run ex_cfg))) = [1; (2#5); (11#50); (4#25); (1#10); (1#10); (1#10)]%Q /\
  this (p_fail ex_varis ex_probs ex_phi) = (1#10)%Q.
Proof. split; [exact ex_start|]. vm_compute. auto. Qed.

(** * C17 *)
(** no truncation: no limit, or one that the number of vectors rules out *)
Definition unlimited (varis : dict variable) (max_nb : option Z) : Prop :=
  max_nb = None \/ (exists m, max_nb = Some m /\ 2 * Z.of_nat (List.length (space (comps_of varis))) <= m).

Theorem C17_exact_cover :
  forall varis probs phi rs max_nb brs out,
    wf_varis varis -> wf_probs varis probs -> wf_rules varis rs -> sound_rules varis phi rs ->
    valid_brs varis probs rs brs -> unlimited varis max_nb ->
    decomp_depth_first varis rs probs max_nb brs = Ok out ->
    (forall x, In x (space (comps_of varis)) ->
       ((exists b, In b out /\ b_up_state b = F_ /\ in_branch b x = true) <-> match_f rs x = true) /\
       ((exists b, In b out /\ b_down_state b = S_ /\ in_branch b x = true) <-> match_s rs x = true)) /\
    qsum (map b_p (filter (fun b => st_eqb (b_up_state b) F_) out)) = prob_event varis probs (match_f rs) /\
    qsum (map b_p (filter (fun b => st_eqb (b_down_state b) S_) out)) = prob_event varis probs (match_s rs).
Proof.
  intros varis probs phi rs max_nb brs out H1 H2 H3 H4 H5 Hu H6.
  destruct (main_decomp varis probs phi rs max_nb brs H1 H2 H3 H4 H5) as (o & E & _ & _ & _ & _ & F & _).
  rewrite H6 in E. injection E as <-. auto.
Qed.
Print Assumptions C17_exact_cover.

Theorem C17_bounds_monotone :
  forall varis probs phi sys_fun g rules brs s,
    wf_varis varis -> wf_probs varis probs -> sys_ok varis phi sys_fun -> start_ok varis probs phi rules brs ->
    unlimited varis (g_max_nb g) -> run varis probs sys_fun g rules brs = Ok s ->
    forall i j l l' u u', (i <= j)%nat ->
      nth_error (m_pf_low (s_mon s)) i = Some l -> nth_error (m_pf_low (s_mon s)) j = Some l' ->
      nth_error (m_pf_up (s_mon s)) i = Some u -> nth_error (m_pf_up (s_mon s)) j = Some u' ->
      (l <= l')%Qc /\ (u' <= u)%Qc.
Proof. intros varis probs phi sys_fun g rules brs s H1 H2 H3 (H4 & H5 & H6). apply (main_monotone varis probs phi); auto. Qed.
Print Assumptions C17_bounds_monotone.

Example C17_exact_cover_ex :
  unlimited ex_varis None /\ unlimited ex_varis (Some 24) /\
  this (prob_event ex_varis ex_probs (match_f ex_rules)) = (2#25)%Q /\
  this (prob_event ex_varis ex_probs (match_s ex_rules)) = (21#25)%Q.
Proof.
  split; [left; auto|]. split; [right; eexists; split; [reflexivity|]; vm_compute; congruence|]. vm_compute. auto.
Qed.

(** * C18 *)
(** Proved for runs whose decomposition is never truncated.  Missing: other
    values of max_nb, for which the claim is false (below). *)
Theorem C18_complete_exact_partial :
  forall varis probs phi sys_fun g rules brs s,
    wf_varis varis -> wf_probs varis probs -> sys_ok varis phi sys_fun -> start_ok varis probs phi rules brs ->
    unlimited varis (g_max_nb g) ->
    run varis probs sys_fun g rules brs = Ok s -> m_out_flag (s_mon s) = Some O_complete ->
    last (m_pf_low (s_mon s)) 0%Qc = p_fail varis probs phi /\
    last (m_pf_up (s_mon s)) 0%Qc = p_fail varis probs phi /\
    (forall x, In x (space (comps_of varis)) -> match_s (s_rules s) x = phi x /\ match_f (s_rules s) x = negb (phi x)).
Proof. intros varis probs phi sys_fun g rules brs s H1 H2 H3 (H4 & H5 & H6). apply (main_complete varis probs phi); auto. Qed.
Print Assumptions C18_complete_exact_partial.

Example C18_complete_exact_partial_ex :
  unlimited ex_varis (g_max_nb ex_cfg) /\
  m_out_flag (s_mon (ex_run ex_cfg)) = Some O_complete /\
  s_rules (ex_run ex_cfg) =
    mkRules [[("x1", 2)]; [("x2", 1); ("x3", 1)]; [("x1", 1); ("x2", 1)]] [[("x1", 1); ("x2", 0)]; [("x1", 0); ("x3", 0)]].
Proof. split; [left; auto|]. vm_compute. auto. Qed.

(** Three two-state components in series with survival probability 1/2 each. *)
Definition ser_varis : dict variable := [("x1", exv "x1" 2); ("x2", exv "x2" 2); ("x3", exv "x3" 2)].
Definition half : pdist := PDict [(0, Q2Qc (1#2)); (1, Q2Qc (1#2))].
Definition ser_probs : prob_dict := [("x1", half); ("x2", half); ("x3", half)].
Definition ser_phi (x : dict Z) : bool := (1 <=? coord x "x1") && (1 <=? coord x "x2") && (1 <=? coord x "x3").
Definition ser_sys : sysfun := fun x => (0%Qc, if ser_phi x then S_ else F_, None).

Lemma ser_wf_varis : wf_varis ser_varis.
Proof.
  split.
  - repeat (constructor; [cbn; intuition congruence|]). constructor.
  - intros k v [H|[H|[H|[]]]]; injection H as <- <-; vm_compute; congruence.
Qed.
Lemma ser_wf_probs : wf_probs ser_varis ser_probs.
Proof.
  intros k v [H|[H|[H|[]]]]; injection H as <- <-;
    (split; [eexists; split; [reflexivity|]; intros x Hx; change (nvals _) with 2 in Hx|apply Qc_is_canon; vm_compute; reflexivity]);
    (assert (x = 0 \/ x = 1) as [->| ->] by lia; eexists; (split; [reflexivity|vm_compute; congruence])).
Qed.
Lemma ser_sys_ok : sys_ok ser_varis ser_phi ser_sys.
Proof.
  split.
  - intros x y _ _ Hl. unfold ser_phi. rewrite !andb_true_iff, !Z.leb_le.
    assert (A := Hl "x1"); assert (B := Hl "x2"); assert (C := Hl "x3"). cbn in A, B, C.
    intros [[H1 H2] H3]. repeat split; [assert (X := A (or_introl eq_refl))|
      assert (X := B (or_intror (or_introl eq_refl)))|assert (X := C (or_intror (or_intror (or_introl eq_refl))))]; lia.
  - intros x Hx. eexists _, _. split; [reflexivity|]. congruence.
Qed.
Lemma none_start varis probs phi : start_ok varis probs phi None None.
Proof. split; [split; intros r []|]. split; [split; intros r x []|]. congruence. Qed.

Theorem C18_complete_exact_refuted :
  ~ (forall varis probs phi sys_fun g rules brs s,
      wf_varis varis -> wf_probs varis probs -> sys_ok varis phi sys_fun -> start_ok varis probs phi rules brs ->
      run varis probs sys_fun g rules brs = Ok s -> m_out_flag (s_mon s) = Some O_complete ->
      last (m_pf_up (s_mon s)) 0%Qc = p_fail varis probs phi).
Proof.
  intros H.
  set (g := mkCfg 100 (Some 4) 0%Qc None true true).
  destruct (run ser_varis ser_probs ser_sys g None None) as [s|e] eqn:E; [|vm_compute in E; congruence].
  specialize (H ser_varis ser_probs ser_phi ser_sys g None None s ser_wf_varis ser_wf_probs ser_sys_ok
                (none_start _ _ _) E).
  assert (X : this (last (m_pf_up (match run ser_varis ser_probs ser_sys g None None with Ok s => s_mon s | Err _ => fst init_monitor end)) 0%Qc) = 1%Q)
    by (vm_compute; reflexivity).
  assert (Y : m_out_flag (match run ser_varis ser_probs ser_sys g None None with Ok s => s_mon s | Err _ => fst init_monitor end) = Some O_complete)
    by (vm_compute; reflexivity).
  rewrite E in X, Y. specialize (H Y). rewrite H in X. vm_compute in X. discriminate.
Qed.
Print Assumptions C18_complete_exact_refuted.

(** the run of the refutation: flag 'complete', bounds [3/4, 1], truth 7/8 *)
Example C18_complete_exact_refuted_ex :
  match run ser_varis ser_probs ser_sys (mkCfg 100 (Some 4) 0%Qc None true true) None None with
  | Ok s => m_out_flag (s_mon s) = Some O_complete /\
      map this (m_pf_low (s_mon s)) = [0; 0; (1#2); (3#4); (3#4)]%Q /\
      map this (m_pf_up (s_mon s)) = [1; 1; 1; 1; 1]%Q
  | Err _ => False
  end /\ this (p_fail ser_varis ser_probs ser_phi) = (7#8)%Q.
Proof. vm_compute. auto. Qed.

(** * C19 *)
Theorem C19_budget :
  forall varis probs phi rs m brs out,
    wf_varis varis -> wf_probs varis probs -> wf_rules varis rs -> sound_rules varis phi rs ->
    valid_brs varis probs rs brs ->
    decomp_depth_first varis rs probs (Some m) brs = Ok out ->
    2 <= m -> Z.of_nat (List.length brs) <= m - 1 -> Z.of_nat (List.length out) <= m.
Proof.
  intros varis probs phi rs m brs out H1 H2 H3 H4 H5 H6.
  destruct (main_decomp varis probs phi rs (Some m) brs H1 H2 H3 H4 H5) as (o & E & _ & _ & _ & _ & _ & B).
  rewrite H6 in E. injection E as <-. auto.
Qed.
Print Assumptions C19_budget.

(** the budget is used up, and max_nb = 1 is exceeded *)
Example C19_budget_ex :
  map (fun m => match decomp_depth_first ex_varis ex_rules ex_probs (Some m) [] with
                | Ok o => List.length o | Err _ => O end) [1; 2; 3; 4; 5] = [2; 2; 3; 3; 4]%nat.
Proof. vm_compute. auto. Qed.

(** * C20 *)
Theorem C20_calls_distinct :
  forall varis probs phi sys_fun g rules brs s,
    wf_varis varis -> wf_probs varis probs -> sys_ok varis phi sys_fun -> start_ok varis probs phi rules brs ->
    g_active g = true \/ g_max_nb g = None ->
    run varis probs sys_fun g rules brs = Ok s ->
    let vs := map (fun r : sysres => snd (fst r)) (s_sys s) in
    NoDup vs /\ (forall x, In x vs -> In x (space (comps_of varis))) /\
    (List.length (s_sys s) <= List.length (space (comps_of varis)))%nat /\
    Z.of_nat (List.length (s_sys s)) <= Z.max 0 (g_max_sf g) /\
    (forall r, In r (s_sys s) -> exists st, sys_fun (snd (fst r)) = (fst (fst r), st, snd r)) /\
    (forall x, In x vs -> match_s (s_rules s) x = true \/ match_f (s_rules s) x = true).
Proof. intros varis probs phi sys_fun g rules brs s H1 H2 H3 (H4 & H5 & H6). apply (main_calls varis probs phi); auto. Qed.
Print Assumptions C20_calls_distinct.

(** one iteration of the loop: the vector evaluated is not yet classified *)
Theorem C20_call_unclassified :
  forall varis probs phi sys_fun g s s',
    wf_varis varis -> wf_probs varis probs -> wf_rules varis (s_rules s) -> sound_rules varis phi (s_rules s) ->
    g_active g = true -> run_body varis probs sys_fun g s = Ok (inr s') ->
    exists r, s_sys s' = s_sys s ++ [r] /\ In (snd (fst r)) (space (comps_of varis)) /\
      match_s (s_rules s) (snd (fst r)) = false /\ match_f (s_rules s) (snd (fst r)) = false.
Proof. exact main_fresh. Qed.
Print Assumptions C20_call_unclassified.

Example C20_calls_distinct_ex :
  map (fun r : sysres => map snd (snd (fst r))) (s_sys (ex_run ex_cfg)) =
    [[2; 1; 1]; [1; 1; 1]; [0; 1; 1]; [1; 1; 0]; [1; 0; 1]; [0; 1; 0]] /\
  List.length (s_sys (ex_run (mkCfg 3 None 0%Qc None true true))) = 3%nat.
Proof. vm_compute. auto. Qed.

(** * C21 *)
Theorem C21_aligned :
  forall varis probs phi sys_fun g rules brs s,
    wf_varis varis -> wf_probs varis probs -> sys_ok varis phi sys_fun -> start_ok varis probs phi rules brs ->
    0 < g_max_sf g -> run varis probs sys_fun g rules brs = Ok s ->
    let m := s_mon s in let n := List.length (s_sys s) in
    m_no_sf m = zrange 0 (Z.of_nat n + 1) /\ last (m_no_sf m) 0 = Z.of_nat n /\
    map (@List.length _) [m_pf_low m; m_pf_up m; m_pr_bu m; m_avg_len_rf m] = [S n; S n; S n; S n] /\
    map (@List.length _) [m_no_br m; m_no_bs m; m_no_bf m; m_no_bu m; m_no_rs m; m_no_rf m; m_no_ra m; m_no_sf m; m_min_len_rf m]
      = [S n; S n; S n; S n; S n; S n; S n; S n; S n] /\
    last (m_no_br m) 0 = match s_brs s with Some b => len b | None => 0 end /\
    last (m_no_rs m) 0 = len (r_s (s_rules s)) /\ last (m_no_rf m) 0 = len (r_f (s_rules s)).
Proof. intros varis probs phi sys_fun g rules brs s H1 H2 H3 (H4 & H5 & H6). apply (main_aligned varis probs phi); auto. Qed.
Print Assumptions C21_aligned.

Example C21_aligned_ex :
  (m_no_br (s_mon (ex_run ex_cfg)), m_no_sf (s_mon (ex_run ex_cfg)), m_no_rs (s_mon (ex_run ex_cfg))) =
    ([1; 2; 5; 4; 6; 6; 6], [0; 1; 2; 3; 4; 5; 6], [1; 2; 2; 3; 3; 3; 3]) /\
  m_no_sf (s_mon (ex_run (mkCfg 2 None 0%Qc None true true))) = [0; 1; 2].
Proof. vm_compute. auto. Qed.

(** * C22 *)
Theorem C22_next_vector :
  forall varis probs brs,
    (get_comp_st brs true varis probs = Ok None <-> (forall b, In b brs -> b_up_state b <> U_ /\ b_down_state b <> U_)) /\
    exists o, get_comp_st brs true varis probs = Ok o /\
      forall x, o = Some x -> exists b, In b brs /\
         ((b_up_state b = U_ /\ x = b_up b) \/ (b_down_state b = U_ /\ x = b_down b)).
Proof. exact main_next_surv. Qed.
Print Assumptions C22_next_vector.

(** surv_first=False, proved if no branch has an unknown lower and a known
    upper end.  Missing: such branches, for which the claim is false (below). *)
Theorem C22_next_vector_fail_first_partial :
  forall varis probs brs,
    wf_varis varis -> wf_probs varis probs -> boxes varis brs ->
    (forall b, In b brs -> b_down_state b = U_ -> b_up_state b = U_) ->
    exists o, get_comp_st brs false varis probs = Ok o /\
      (o = None <-> (forall b, In b brs -> b_up_state b <> U_ /\ b_down_state b <> U_)) /\
      forall x, o = Some x -> exists b, In b brs /\ b_up_state b = U_ /\ x = b_up b.
Proof. exact main_next_fail. Qed.
Print Assumptions C22_next_vector_fail_first_partial.

Example C22_next_vector_ex :
  get_comp_st ex_out true ex_varis ex_probs = Ok (Some [("x1", 1); ("x2", 1); ("x3", 0)]) /\
  get_comp_st ex_out false ex_varis ex_probs = Ok (Some [("x1", 1); ("x2", 1); ("x3", 0)]) /\
  get_comp_st [ex_box] true ex_varis ex_probs = Ok None.
Proof. vm_compute. auto. Qed.

(** A branch with unknown lower and known upper end makes surv_first=False
    crash, and such branches do occur in a run of the series system. *)
Theorem C22_next_vector_fail_first_refuted :
  (exists b, boxes ser_varis [b] /\ get_comp_st [b] false ser_varis ser_probs = Err UnboundLocalError) /\
  run ser_varis ser_probs ser_sys (mkCfg 100 (Some 4) 0%Qc None false true) None None = Err UnboundLocalError.
Proof.
  split; [|vm_compute; reflexivity].
  exists (mkBr [("x1", 0); ("x2", 0); ("x3", 0)] [("x1", 1); ("x2", 1); ("x3", 1)] U_ S_ 1%Qc).
  split; [|vm_compute; reflexivity]. intros b [<-|[]]. split; [|split].
  - left; reflexivity.
  - do 7 right. left; reflexivity.
  - intros k Hk. cbn in Hk. intuition subst; cbn; lia.
Qed.
Print Assumptions C22_next_vector_fail_first_refuted.

(** * C23 *)
(** the code reads the number of states from the probability dictionaries *)
Definition state_dicts (varis : dict variable) (probs : prob_dict) : Prop :=
  forall k d, In (k, d) probs -> exists v l, In (k, v) varis /\ d = PDict l /\
    forall x, In x (map fst l) <-> 0 <= x < nvals v.

Theorem C23_survival_rules :
  forall varis probs rules,
    wf_varis varis -> wf_probs varis probs -> state_dicts varis probs ->
    (forall r, In r rules -> wf_rule varis r /\ forall k s, In (k, s) r -> 0 <= s) ->
    eval_rules_prob rules S_ probs = Ok (map (fun r => prob_event varis probs (sat_s r)) rules).
Proof. intros varis probs rules H1 H2 H3 H4. apply (eval_rules_s varis probs H1 H2 rules H3 H4). Qed.
Print Assumptions C23_survival_rules.

(** what the failure branch computes: all entries strictly below the rule *)
Theorem C23_failure_rules_strict :
  forall varis probs rules,
    wf_varis varis -> wf_probs varis probs ->
    (forall r, In r rules -> wf_rule varis r /\ forall k s v, In (k, s) r -> In (k, v) varis -> 0 <= s < nvals v) ->
    eval_rules_prob rules F_ probs =
      Ok (map (fun r => prob_event varis probs (fun x => forallb (fun kv => coord x (fst kv) <? snd kv) r)) rules).
Proof. intros varis probs rules H1 H2 H3. apply (eval_rules_f varis probs H1 H2 rules H3). Qed.
Print Assumptions C23_failure_rules_strict.

Example C23_survival_rules_ex :
  state_dicts ex_varis ex_probs /\
  match eval_rules_prob (r_s ex_rules) S_ ex_probs with Ok l => map this l | Err _ => [] end = [(3#5); (3#5)]%Q.
Proof.
  split; [|vm_compute; auto]. intros k d [H|[H|[H|[]]]]; injection H as <- <-; eexists _, _;
    (split; [cbn; tauto || (left; reflexivity)|split; [reflexivity|]]); intros x; change (nvals _) with 3 || change (nvals _) with 2; cbn; lia.
Qed.

Theorem C23_failure_rules_refuted :
  ~ (forall varis probs rules,
      wf_varis varis -> wf_probs varis probs -> state_dicts varis probs ->
      (forall r, In r rules -> wf_rule varis r /\ forall k s v, In (k, s) r -> In (k, v) varis -> 0 <= s < nvals v) ->
      eval_rules_prob rules F_ probs = Ok (map (fun r => prob_event varis probs (sat_f r)) rules)).
Proof.
  intros H. specialize (H ex_varis ex_probs (r_f ex_rules) ex_wf_varis ex_wf_probs (proj1 C23_survival_rules_ex)).
  assert (X : match eval_rules_prob (r_f ex_rules) F_ ex_probs with Ok l => map this l | Err _ => [] end = [0%Q])
    by (vm_compute; reflexivity).
  rewrite H in X.
  - vm_compute in X. discriminate.
  - intros r Hr. split; [apply (proj2 ex_wf_rules); auto|]. cbn in Hr. destruct Hr as [<-|[]].
    intros k s v [Hk|[Hk|[]]] [Hv|[Hv|[Hv|[]]]]; injection Hk as <- <-; try discriminate Hv; injection Hv as <-;
      change (nvals _) with 3 || change (nvals _) with 2; lia.
Qed.
Print Assumptions C23_failure_rules_refuted.

(** * C24 *)
Theorem C24_event_matrix :
  forall varis conv brs,
    wf_varis varis -> (forall k v, In (k, v) varis -> basic_table v) -> brs <> [] -> boxes varis brs ->
    exists rows varis', get_csys brs varis (fun s => Ok (conv s)) = Ok (rows, varis') /\ tables_extend varis varis' /\
      Forall2 (fun b row => exists cs,
          row = conv (if st_eqb (b_down_state b) (b_up_state b) then b_down_state b else U_) :: cs /\
          List.length cs = List.length varis /\
          forall x, In x (space (comps_of varis)) ->
            (in_branch b x = true <-> Forall2 (fun k c => coded varis' k c (coord x k)) (keys varis) cs)) brs rows.
Proof. exact main_csys. Qed.
Print Assumptions C24_event_matrix.

Definition ex_conv (s : st) : Z := match s with S_ => 1 | F_ => 0 | U_ => 2 end.
Example C24_event_matrix_ex :
  match get_csys ex_out ex_varis (fun s => Ok (ex_conv s)) with Ok (rows, _) => rows | Err _ => [] end =
    [[1; 2; 2; 2]; [2; 3; 1; 0]; [1; 3; 1; 1]; [0; 3; 0; 2]] /\
  v_get_set (exv "x1" 3) 3 = Ok [0; 1] /\ v_get_set (exv "x2" 2) 2 = Ok [0; 1].
Proof. vm_compute. auto. Qed.
