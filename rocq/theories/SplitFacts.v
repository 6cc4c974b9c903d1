(** Runs of brc.py with a larger limit on the calls: facts for C101. *)
From Coq Require Import ZArith List String Bool Arith Lia QArith Qcanon.
From Verif Require Import Py Num Vari Brc SpecBrc BrcStop SpecSplit.
Import ListNotations.
Open Scope string_scope.
Open Scope Z_scope.
Open Scope list_scope.

Section Split.
Variables (varis : dict variable) (probs : prob_dict) (sf : sysfun) (g : config).

Notation body n := (run_body varis probs sf (with_calls g n)).
Notation loop fuel n := (run_loop fuel varis probs sf (with_calls g n)).

(** one more call *)
Lemma body_no_sf n s s' : body n s = Ok (inr s') -> c_no_sf (s_ctrl s') = c_no_sf (s_ctrl s) + 1.
Proof.
  unfold run_body. cbn [with_calls g_max_sf g_max_nb g_pf_bnd_wr g_max_rules g_surv_first g_active].
  destruct (if g_active g then _ else _) as [brs|]; cbn [bind]; [|discriminate].
  destruct (get_comp_st _ _ _ _) as [[x|]|]; cbn [bind]; try discriminate.
  destruct (ge_bound _ _); [discriminate|]. destruct (qc_ltb _ _); [discriminate|].
  destruct (ge_bound _ _); [discriminate|].
  destruct (run_sys_fn x sf varis) as [[[rule sst] sres]|]; cbn [bind]; [|discriminate].
  destruct (update_rule_set _ _ _) as [rs'|]; cbn [bind]; [|discriminate].
  unfold update_monitor. cbn [push_no_sf m_no_sf c_no_sf]. rewrite last_last.
  destruct (_ =? n); intros H; injection H as <-; reflexivity.
Qed.

(** enough fuel is as good as any more *)
Lemma loop_fuel n : forall f1 f2 s, (Z.to_nat (n - c_no_sf (s_ctrl s)) < f1)%nat -> (Z.to_nat (n - c_no_sf (s_ctrl s)) < f2)%nat ->
  loop f1 n s = loop f2 n s.
Proof.
  induction f1 as [|f1 IH]; intros [|f2] s H1 H2; try lia. cbn [run_loop]. cbn [with_calls g_max_sf].
  destruct (Z.ltb_spec (c_no_sf (s_ctrl s)) n) as [L|L]; [|reflexivity].
  destruct (body n s) as [[s'|s']|] eqn:B; cbn [bind]; auto.
  apply body_no_sf in B. apply IH; lia.
Qed.

Definition unflag (s : rstate) : rstate :=
  let m := s_mon s in
  mkSt (s_brs s) (s_rules s) (s_sys s)
    (mkMon (m_pf_up m) (m_pf_low m) (m_pr_bu m) (m_no_br m) (m_no_bs m) (m_no_bf m) (m_no_bu m)
        (m_no_rs m) (m_no_rf m) (m_no_ra m) (m_no_sf m) (m_min_len_rf m) (m_avg_len_rf m) None)
    (s_ctrl s).

(** ** First part: up to the smaller limit *)
Lemma body_more a c s : a < c -> c_no_sf (s_ctrl s) < a -> m_out_flag (s_mon s) = None ->
  match body a s with
  | Err e => body c s = Err e
  | Ok (inl s') => body c s = Ok (inl s') /\ m_out_flag (s_mon s') <> Some O_max_sf /\ s_sys s' = s_sys s /\
                   s_rules s' = s_rules s
  | Ok (inr s') =>
      body c s = Ok (inr (unflag s')) /\
      m_out_flag (s_mon s') = (if c_no_sf (s_ctrl s') =? a then Some O_max_sf else None)
  end.
Proof.
  intros Hac Hlt Fl. unfold run_body.
  cbn [with_calls g_max_sf g_max_nb g_pf_bnd_wr g_max_rules g_surv_first g_active].
  destruct (if g_active g then _ else _) as [brs|]; cbn [bind]; auto.
  destruct (get_comp_st _ _ _ _) as [[x|]|]; cbn [bind]; auto.
  2:{ cbn. repeat split; auto; congruence. }
  destruct (ge_bound _ _). { cbn. repeat split; auto; congruence. }
  destruct (qc_ltb _ _). { cbn. repeat split; auto; congruence. }
  destruct (ge_bound _ _). { cbn. repeat split; auto; congruence. }
  destruct (run_sys_fn x sf varis) as [[[rule sst] sres]|]; cbn [bind]; auto.
  destruct (update_rule_set _ _ _) as [rs'|]; cbn [bind]; auto.
  unfold update_monitor. cbn [push_no_sf m_no_sf c_no_sf]. rewrite last_last.
  destruct (Z.eqb_spec (c_no_sf (s_ctrl s) + 1) c) as [E|E]; [lia|].
  destruct (Z.eqb_spec (c_no_sf (s_ctrl s) + 1) a) as [E2|E2];
    cbn [unflag s_mon s_brs s_rules s_sys s_ctrl set_flag m_out_flag m_pf_up m_pf_low m_pr_bu m_no_br m_no_bs m_no_bf m_no_bu
         m_no_rs m_no_rf m_no_ra m_no_sf m_min_len_rf m_avg_len_rf c_no_sf].
  - split; [cbn; rewrite ?Fl; reflexivity|]. rewrite E2, Z.eqb_refl. auto.
  - split; [cbn; rewrite ?Fl; reflexivity|]. rewrite (proj2 (Z.eqb_neq _ _) E2). auto.
Qed.

Lemma unflag_id s : m_out_flag (s_mon s) = None -> unflag s = s.
Proof. destruct s as [? ? ? [] ?]. cbn. intros ->. reflexivity. Qed.

(** a run with limit [a], seen from a run with limit [c] *)
Lemma loop_more a c : a < c -> forall f1 f2 s,
  c_no_sf (s_ctrl s) < a -> m_out_flag (s_mon s) = None ->
  (Z.to_nat (a - c_no_sf (s_ctrl s)) < f1)%nat -> (Z.to_nat (c - c_no_sf (s_ctrl s)) < f2)%nat ->
  match loop f1 a s with
  | Err e => loop f2 c s = Err e
  | Ok s' =>
      (m_out_flag (s_mon s') <> Some O_max_sf /\ loop f2 c s = Ok s') \/
      (m_out_flag (s_mon s') = Some O_max_sf /\ c_no_sf (s_ctrl s') = a /\
       forall f, (Z.to_nat (c - a) < f)%nat -> loop f2 c s = loop f c (unflag s'))
  end.
Proof.
  intros Hac. induction f1 as [|f1 IH]; intros [|f2] s Hlt Fl H1 H2; try lia.
  cbn [run_loop]. cbn [with_calls g_max_sf].
  rewrite (proj2 (Z.ltb_lt _ a)) by lia. rewrite (proj2 (Z.ltb_lt _ c)) by lia.
  pose proof (body_more a c s Hac Hlt Fl) as B.
  destruct (body a s) as [[s'|s']|e] eqn:Ea; cbn [bind].
  - destruct B as (-> & B & _). cbn [bind]. left. auto.
  - destruct B as (-> & B). cbn [bind]. pose proof (body_no_sf _ _ _ Ea) as N.
    destruct (Z.eqb_spec (c_no_sf (s_ctrl s')) a) as [E|E].
    + destruct f1 as [|f1]; [lia|]. cbn [run_loop]. cbn [with_calls g_max_sf].
      rewrite (proj2 (Z.ltb_ge _ a)) by lia. right. repeat split; auto. intros f Hf.
      apply loop_fuel; cbn [unflag s_ctrl]; lia.
    + rewrite (unflag_id s' B). apply IH; auto; lia.
  - rewrite B. reflexivity.
Qed.

(** ** Second part: the rest of the large run is the second run *)
Variable u : rstate.   (* the state of the large run at the seam *)

Definition jmon (m : monitor) : monitor :=
  let m1 := s_mon u in
  mkMon (m_pf_up m1 ++ m_pf_up m) (m_pf_low m1 ++ m_pf_low m) (m_pr_bu m1 ++ m_pr_bu m)
        (m_no_br m1 ++ m_no_br m) (m_no_bs m1 ++ m_no_bs m) (m_no_bf m1 ++ m_no_bf m) (m_no_bu m1 ++ m_no_bu m)
        (m_no_rs m1 ++ m_no_rs m) (m_no_rf m1 ++ m_no_rf m) (m_no_ra m1 ++ m_no_ra m)
        (m_no_sf m1 ++ map (Z.add (c_no_sf (s_ctrl u))) (tl (m_no_sf m)))
        (m_min_len_rf m1 ++ m_min_len_rf m) (m_avg_len_rf m1 ++ m_avg_len_rf m) (m_out_flag m).

Definition rel0 (w t : rstate) : Prop :=
  s_rules w = s_rules t /\ s_sys w = s_sys u ++ s_sys t /\ s_mon w = jmon (s_mon t) /\
  m_no_sf (s_mon t) <> [] /\ c_no_sf (s_ctrl w) = c_no_sf (s_ctrl u) + c_no_sf (s_ctrl t).

Definition tol (s : rstate) : bool := qc_ltb (c_pr_bu (s_ctrl s)) (c_pf_low (s_ctrl s) * g_pf_bnd_wr g)%Qc.

Definition rel (w t : rstate) : Prop :=
  rel0 w t /\ (g_active g = true \/ s_brs w = s_brs t) /\ tol w = tol t.

Lemma jmon_flag m f : jmon (set_flag m f) = set_flag (jmon m) f.
Proof. reflexivity. Qed.

Lemma jmon_push m n : m_no_sf m <> [] -> jmon (push_no_sf m n) = push_no_sf (jmon m) (c_no_sf (s_ctrl u) + n).
Proof.
  intros H. unfold jmon, push_no_sf. cbn.
  destruct (m_no_sf m) as [|z l]; [congruence|]. cbn [tl app]. rewrite map_app. cbn [map]. rewrite app_assoc. reflexivity.
Qed.

Lemma jmon_update m brs rs : fst (update_monitor (jmon m) brs rs) = jmon (fst (update_monitor m brs rs)).
Proof. unfold jmon, update_monitor. cbn. rewrite !app_assoc. reflexivity. Qed.

Lemma body_rel b w t : rel w t ->
  match body b t with
  | Err e => body (c_no_sf (s_ctrl u) + b) w = Err e
  | Ok (inl t') => exists w', body (c_no_sf (s_ctrl u) + b) w = Ok (inl w') /\ rel0 w' t' /\ s_brs w' = s_brs t' /\ s_brs t' <> None
  | Ok (inr t') => exists w', body (c_no_sf (s_ctrl u) + b) w = Ok (inr w') /\ rel w' t' /\ s_brs w' = s_brs t' /\ s_brs t' <> None
  end.
Proof.
  intros ((R1 & R2 & R3 & R4 & R5) & R6 & R7). unfold run_body.
  cbn [with_calls g_max_sf g_max_nb g_pf_bnd_wr g_max_rules g_surv_first g_active].
  replace (if g_active g then decomp_depth_first varis (s_rules w) probs (g_max_nb g) []
           else decomp_depth_first varis (s_rules w) probs (g_max_nb g) match s_brs w with Some b0 => b0 | None => [] end)
    with (if g_active g then decomp_depth_first varis (s_rules t) probs (g_max_nb g) []
           else decomp_depth_first varis (s_rules t) probs (g_max_nb g) match s_brs t with Some b0 => b0 | None => [] end)
    by (rewrite R1; destruct R6 as [-> | ->]; reflexivity).
  unfold tol in R7. rewrite R1.
  destruct (if g_active g then _ else _) as [brs|]; cbn [bind]; auto.
  assert (STOP : forall f, exists w',
    Ok (inl (mkSt (Some brs) (s_rules t) (s_sys w) (set_flag (s_mon w) f) (s_ctrl w)) : rstate + rstate) = Ok (inl w') /\
    rel0 w' (mkSt (Some brs) (s_rules t) (s_sys t) (set_flag (s_mon t) f) (s_ctrl t)) /\
    s_brs w' = Some brs /\ Some brs <> None).
  { intros f. eexists. split; [reflexivity|]. repeat split; cbn [s_rules s_sys s_mon s_ctrl s_brs]; auto; try discriminate.
    rewrite R3. reflexivity. }
  destruct (get_comp_st _ _ _ _) as [[x|]|]; cbn [bind]; [|apply STOP|reflexivity].
  destruct (ge_bound _ _). { apply STOP. }
  rewrite R7. clear R7. destruct (qc_ltb _ _). { apply STOP. }
  destruct (ge_bound _ _). { apply STOP. }
  destruct (run_sys_fn x sf varis) as [[[rule sst] sres]|]; cbn [bind]; auto.
  destruct (update_rule_set _ _ _) as [rs'|]; cbn [bind]; auto.
  pose proof (jmon_push (s_mon t) (c_no_sf (s_ctrl t) + 1) R4) as J.
  replace (c_no_sf (s_ctrl w) + 1) with (c_no_sf (s_ctrl u) + (c_no_sf (s_ctrl t) + 1)) by lia.
  rewrite R3, <- J. pose proof (jmon_update (push_no_sf (s_mon t) (c_no_sf (s_ctrl t) + 1)) brs rs') as JU.
  assert (Cw : snd (update_monitor (jmon (push_no_sf (s_mon t) (c_no_sf (s_ctrl t) + 1))) brs rs') =
               mkCtrl (c_no_sf (s_ctrl u) + (c_no_sf (s_ctrl t) + 1)) (1 - pr_bf brs - pr_bs brs) (pr_bf brs)).
  { rewrite J. unfold update_monitor. cbn [snd push_no_sf m_no_sf]. rewrite last_last. reflexivity. }
  assert (Ct : snd (update_monitor (push_no_sf (s_mon t) (c_no_sf (s_ctrl t) + 1)) brs rs') =
               mkCtrl (c_no_sf (s_ctrl t) + 1) (1 - pr_bf brs - pr_bs brs) (pr_bf brs)).
  { unfold update_monitor. cbn [snd push_no_sf m_no_sf]. rewrite last_last. reflexivity. }
  assert (NE : m_no_sf (fst (update_monitor (push_no_sf (s_mon t) (c_no_sf (s_ctrl t) + 1)) brs rs')) <> []).
  { unfold update_monitor. cbn [fst m_no_sf push_no_sf]. destruct (m_no_sf (s_mon t)); discriminate. }
  destruct (update_monitor (jmon _) brs rs') as [mw cw]. destruct (update_monitor (push_no_sf (s_mon t) _) brs rs') as [mt ct].
  cbn [fst snd] in *. subst mw cw ct. cbn [c_no_sf].
  replace (c_no_sf (s_ctrl u) + (c_no_sf (s_ctrl t) + 1) =? c_no_sf (s_ctrl u) + b) with (c_no_sf (s_ctrl t) + 1 =? b)
    by (destruct (Z.eqb_spec (c_no_sf (s_ctrl t) + 1) b), (Z.eqb_spec (c_no_sf (s_ctrl u) + (c_no_sf (s_ctrl t) + 1)) (c_no_sf (s_ctrl u) + b)); auto; lia).
  eexists. split; [reflexivity|]. split; [split; [|split]|split].
  - repeat split; cbn [s_rules s_sys s_mon s_ctrl s_brs c_no_sf].
    + rewrite R2, app_assoc. reflexivity.
    + destruct (_ =? b); reflexivity.
    + destruct (_ =? b); auto.
  - right. reflexivity.
  - reflexivity.
  - reflexivity.
  - discriminate.
Qed.

Lemma loop_rel b : forall f1 f2 w t, rel w t -> s_brs w = s_brs t /\ s_brs t <> None \/ c_no_sf (s_ctrl t) < b ->
  (Z.to_nat (b - c_no_sf (s_ctrl t)) < f1)%nat -> (Z.to_nat (b - c_no_sf (s_ctrl t)) < f2)%nat ->
  match loop f1 b t with
  | Err e => loop f2 (c_no_sf (s_ctrl u) + b) w = Err e
  | Ok t' => exists w', loop f2 (c_no_sf (s_ctrl u) + b) w = Ok w' /\ rel0 w' t' /\ s_brs w' = s_brs t' /\ s_brs t' <> None
  end.
Proof.
  induction f1 as [|f1 IH]; intros [|f2] w t R Hb H1 H2; try lia.
  cbn [run_loop]. cbn [with_calls g_max_sf].
  assert (N : c_no_sf (s_ctrl w) = c_no_sf (s_ctrl u) + c_no_sf (s_ctrl t)) by (apply R).
  destruct (Z.ltb_spec (c_no_sf (s_ctrl t)) b) as [L|L].
  - rewrite (proj2 (Z.ltb_lt _ _)) by lia. pose proof (body_rel b w t R) as B.
    destruct (body b t) as [[t'|t']|e] eqn:Et; cbn [bind].
    + destruct B as (w' & -> & B). cbn [bind]. exists w'. auto.
    + destruct B as (w' & -> & B & B2). cbn [bind]. pose proof (body_no_sf _ _ _ Et) as Nt.
      apply IH; auto; lia.
    + rewrite B. reflexivity.
  - rewrite (proj2 (Z.ltb_ge _ _)) by lia. exists w. split; auto. split; [apply R|].
    destruct Hb as [Hb|Hb]; [auto|lia].
Qed.

End Split.

(** ** the counter is the last entry of [no_sf] *)
Lemma loop_counter varis probs sf g fuel : forall s s', c_no_sf (s_ctrl s) = last (m_no_sf (s_mon s)) 0 ->
  run_loop fuel varis probs sf g s = Ok s' -> c_no_sf (s_ctrl s') = last (m_no_sf (s_mon s')) 0.
Proof.
  induction fuel as [|fuel IH]; intros s s' C H; cbn [run_loop] in H; [discriminate|].
  destruct (_ <? _); [|injection H as <-; exact C].
  destruct (run_body varis probs sf g s) as [[s1|s1]|] eqn:B; cbn [bind] in H; [| |discriminate].
  - injection H as <-. revert B. unfold run_body.
    destruct (if g_active _ then _ else _) as [bs|]; cbn [bind]; [|discriminate].
    destruct (get_comp_st _ _ _ _) as [[x|]|]; cbn [bind]; try discriminate.
    2:{ intros Y. injection Y as <-. exact C. }
    destruct (ge_bound _ _). { intros Y. injection Y as <-. exact C. }
    destruct (qc_ltb _ _). { intros Y. injection Y as <-. exact C. }
    destruct (ge_bound _ _). { intros Y. injection Y as <-. exact C. }
    destruct (run_sys_fn _ _ _) as [[[? ?] ?]|]; cbn [bind]; [|discriminate].
    destruct (update_rule_set _ _ _); cbn [bind]; [|discriminate].
    destruct (update_monitor _ _ _). discriminate.
  - apply (IH s1); auto. clear H. revert B. unfold run_body.
    destruct (if g_active _ then _ else _) as [bs|]; cbn [bind]; [|discriminate].
    destruct (get_comp_st _ _ _ _) as [[x|]|]; cbn [bind]; try discriminate.
    destruct (ge_bound _ _); [discriminate|]. destruct (qc_ltb _ _); [discriminate|].
    destruct (ge_bound _ _); [discriminate|].
    destruct (run_sys_fn _ _ _) as [[[? ?] ?]|]; cbn [bind]; [|discriminate].
    destruct (update_rule_set _ _ _); cbn [bind]; [|discriminate].
    unfold update_monitor. cbn [push_no_sf m_no_sf c_no_sf].
    destruct (_ =? _); intros H; injection H as <-; reflexivity.
Qed.

(** ** the bounds in [ctrl] are those of the branches *)
Definition fresh_ctrl (s : rstate) : Prop :=
  exists b, s_brs s = Some b /\ c_pr_bu (s_ctrl s) = (1 - pr_bf b - pr_bs b)%Qc /\ c_pf_low (s_ctrl s) = pr_bf b.

Lemma loop_ctrl varis probs sf g fuel : forall s s', s_sys s = [] \/ fresh_ctrl s ->
  run_loop fuel varis probs sf g s = Ok s' -> m_out_flag (s_mon s') = Some O_max_sf -> s_sys s' = [] \/ fresh_ctrl s'.
Proof.
  induction fuel as [|fuel IH]; intros s s' C H Fl; cbn [run_loop] in H; [discriminate|].
  destruct (_ <? _); [|injection H as <-; exact C].
  destruct (run_body varis probs sf g s) as [[s1|s1]|] eqn:B; cbn [bind] in H; [| |discriminate].
  - exfalso. injection H as <-. revert B Fl. unfold run_body.
    destruct (if g_active _ then _ else _) as [bs|]; cbn [bind]; [|discriminate].
    destruct (get_comp_st _ _ _ _) as [[x|]|]; cbn [bind]; try discriminate.
    2:{ intros Y. injection Y as <-. discriminate. }
    destruct (ge_bound _ _). { intros Y. injection Y as <-. discriminate. }
    destruct (qc_ltb _ _). { intros Y. injection Y as <-. discriminate. }
    destruct (ge_bound _ _). { intros Y. injection Y as <-. discriminate. }
    destruct (run_sys_fn _ _ _) as [[[? ?] ?]|]; cbn [bind]; [|discriminate].
    destruct (update_rule_set _ _ _); cbn [bind]; [|discriminate].
    destruct (update_monitor _ _ _). discriminate.
  - apply (IH s1); auto. right. clear H. revert B. unfold run_body.
    destruct (if g_active _ then _ else _) as [bs|]; cbn [bind]; [|discriminate].
    destruct (get_comp_st _ _ _ _) as [[x|]|]; cbn [bind]; try discriminate.
    destruct (ge_bound _ _); [discriminate|]. destruct (qc_ltb _ _); [discriminate|].
    destruct (ge_bound _ _); [discriminate|].
    destruct (run_sys_fn _ _ _) as [[[? ?] ?]|]; cbn [bind]; [|discriminate].
    destruct (update_rule_set _ _ _); cbn [bind]; [|discriminate].
    unfold update_monitor. intros H; injection H as <-. exists bs. cbn. auto.
Qed.

(** ** The complete runs *)
Section Runs.
Variables (varis : dict variable) (probs : prob_dict) (sf : sysfun) (g : config).
Variables (rules : option ruleset) (brs : option (list branch)).

Definition finish (s : rstate) : res rstate :=
  match s_brs s with
  | None => Err TypeError
  | Some b => Ok (mkSt (Some b) (s_rules s) (s_sys s) (fst (update_monitor (s_mon s) b (s_rules s)))
                       (snd (update_monitor (s_mon s) b (s_rules s))))
  end.

Definition start0 (rs : option ruleset) (bs : option (list branch)) : rstate :=
  mkSt bs (match rs with Some r => r | None => mkRules [] [] end) [] (fst init_monitor) (snd init_monitor).

Lemma run_finish n rs bs : 0 < n ->
  run varis probs sf (with_calls g n) rs bs =
  (s <- run_loop (S (Z.to_nat n)) varis probs sf (with_calls g n) (start0 rs bs) ;; finish s).
Proof.
  intros Hn. unfold run. cbn [init_monitor]. cbn [with_calls g_max_sf].
  unfold start0. cbn [init_monitor fst snd].
  destruct (run_loop _ _ _ _ _ _) as [s|]; cbn [bind]; auto.
  rewrite (proj2 (Z.ltb_lt 0 n)) by lia. unfold finish. destruct (s_brs s); auto.
Qed.

Lemma finish_flag s s' : finish s = Ok s' -> m_out_flag (s_mon s') = m_out_flag (s_mon s).
Proof. unfold finish. destruct (s_brs s); [|discriminate]. intros H. injection H as <-. reflexivity. Qed.

(** the smaller run fails or stops for another reason: so does the larger *)
Lemma run_more_err a c e : 0 < a -> a < c ->
  run varis probs sf (with_calls g a) rules brs = Err e -> run varis probs sf (with_calls g c) rules brs = Err e.
Proof.
  intros Ha Hc. rewrite !run_finish by lia.
  pose proof (loop_more varis probs sf g a c Hc (S (Z.to_nat a)) (S (Z.to_nat c)) (start0 rules brs)) as L.
  cbn [start0 s_ctrl s_mon init_monitor fst snd c_no_sf m_out_flag] in L.
  specialize (L ltac:(lia) eq_refl ltac:(lia) ltac:(lia)).
  pose proof (loop_stop varis probs sf (with_calls g a) (S (Z.to_nat a)) (start0 rules brs)) as St.
  destruct (run_loop (S (Z.to_nat a)) _ _ _ _ _) as [s|e'] eqn:E; cbn [bind].
  - intros F. exfalso. specialize (St ltac:(unfold linv; cbn; repeat (split; auto; try lia)) Ha s eq_refl).
    destruct St as (b & f & Eb & _). unfold finish in F. rewrite Eb in F. discriminate.
  - intros H. injection H as ->. rewrite L. reflexivity.
Qed.

Lemma run_more_stop a c s : 0 < a -> a < c ->
  run varis probs sf (with_calls g a) rules brs = Ok s -> m_out_flag (s_mon s) <> Some O_max_sf ->
  run varis probs sf (with_calls g c) rules brs = Ok s.
Proof.
  intros Ha Hc. rewrite !run_finish by lia.
  pose proof (loop_more varis probs sf g a c Hc (S (Z.to_nat a)) (S (Z.to_nat c)) (start0 rules brs)) as L.
  cbn [start0 s_ctrl s_mon init_monitor fst snd c_no_sf m_out_flag] in L.
  specialize (L ltac:(lia) eq_refl ltac:(lia) ltac:(lia)).
  destruct (run_loop (S (Z.to_nat a)) _ _ _ _ _) as [s'|e'] eqn:E; cbn [bind]; [|discriminate].
  intros F Fl. rewrite (finish_flag _ _ F) in Fl. destruct L as [(_ & ->)|(L & _)]; [exact F|congruence].
Qed.

(** the state at the seam *)
Lemma run_seam a c s1 : 0 < a -> a < c ->
  run varis probs sf (with_calls g a) rules brs = Ok s1 -> m_out_flag (s_mon s1) = Some O_max_sf ->
  exists s, finish s = Ok s1 /\ c_no_sf (s_ctrl s) = a /\ m_out_flag (s_mon s) = Some O_max_sf /\
    linv (with_calls g a) s /\ c_no_sf (s_ctrl s) = last (m_no_sf (s_mon s)) 0 /\ (s_sys s = [] \/ fresh_ctrl s) /\
    forall f, (Z.to_nat (c - a) < f)%nat ->
      run varis probs sf (with_calls g c) rules brs =
      (w <- run_loop f varis probs sf (with_calls g c) (unflag s) ;; finish w).
Proof.
  intros Ha Hc. rewrite !run_finish by lia.
  pose proof (loop_more varis probs sf g a c Hc (S (Z.to_nat a)) (S (Z.to_nat c)) (start0 rules brs)) as L.
  cbn [start0 s_ctrl s_mon init_monitor fst snd c_no_sf m_out_flag] in L.
  specialize (L ltac:(lia) eq_refl ltac:(lia) ltac:(lia)).
  destruct (run_loop (S (Z.to_nat a)) _ _ _ _ _) as [s'|e'] eqn:E; cbn [bind]; [|discriminate].
  intros F Fl. rewrite (finish_flag _ _ F) in Fl. destruct L as [(L & _)|(L1 & L2 & L3)]; [congruence|].
  exists s'. repeat (split; [solve [auto]|]). split.
  - clear -E Ha L1 L2. revert E. generalize (S (Z.to_nat a)).
    assert (X : linv (with_calls g a) (start0 rules brs)) by (unfold linv; cbn; repeat (split; auto; try lia)).
    revert X. generalize (start0 rules brs). intros s X n. revert s X.
    induction n as [|n IH]; intros s X H; cbn [run_loop] in H; [discriminate|].
    destruct (c_no_sf (s_ctrl s) <? g_max_sf (with_calls g a)) eqn:El.
    + apply Z.ltb_lt in El. pose proof (body_stop varis probs sf (with_calls g a) s X El) as B.
      destruct (run_body _ _ _ _ _) as [[s2|s2]|] eqn:Eb; cbn [bind] in H; [| |discriminate].
      * exfalso. injection H as ->. revert Eb L1. unfold run_body.
        destruct X as (_ & _ & _ & X4 & _).
        destruct (if g_active _ then _ else _) as [bs|]; cbn [bind]; [|discriminate].
        destruct (get_comp_st _ _ _ _) as [[x|]|]; cbn [bind]; try discriminate.
        2:{ intros Y. injection Y as <-. cbn. discriminate. }
        destruct (ge_bound _ _). { intros Y. injection Y as <-. cbn. discriminate. }
        destruct (qc_ltb _ _). { intros Y. injection Y as <-. cbn. discriminate. }
        destruct (ge_bound _ _). { intros Y. injection Y as <-. cbn. discriminate. }
        destruct (run_sys_fn _ _ _) as [[[? ?] ?]|]; cbn [bind]; [|discriminate].
        destruct (update_rule_set _ _ _); cbn [bind]; [|discriminate].
        destruct (update_monitor _ _ _). discriminate.
      * apply (IH s2); auto.
    + injection H as ->. exact X.
  - split.
    + apply (loop_counter _ _ _ _ _ (start0 rules brs) _ eq_refl E).
    + split; [apply (loop_ctrl _ _ _ _ _ (start0 rules brs) _ (or_introl eq_refl) E L1)|].
      intros f Hf. rewrite (L3 f Hf). reflexivity.
Qed.

Lemma finish_monitor u s1 s2 w t : finish u = Ok s1 -> c_no_sf (s_ctrl u) = c_no_sf (s_ctrl s1) ->
  rel0 (unflag u) w t -> s_brs w = s_brs t -> finish t = Ok s2 ->
  c_no_sf (s_ctrl t) = last (m_no_sf (s_mon t)) 0 -> c_no_sf (s_ctrl w) = last (m_no_sf (s_mon w)) 0 ->
  finish w = Ok (joined (c_no_sf (s_ctrl s1)) s1 s2).
Proof.
  intros F1 N (R1 & R2 & R3 & R4 & R5) Rb F2 Lt Lw. unfold finish in *. rewrite Rb.
  destruct (s_brs t) as [bt|]; [|discriminate]. injection F2 as <-.
  destruct (s_brs u) as [bu|]; [|discriminate]. injection F1 as <-.
  unfold joined. cbn [s_brs s_rules s_sys s_mon s_ctrl]. f_equal.
  cbn [s_ctrl] in N. unfold unflag in R2, R3, R5. cbn [s_sys s_mon s_ctrl] in R2, R3, R5.
  rewrite R2, R1. f_equal.
  - rewrite R3, jmon_update. cbn [update_monitor fst snd s_ctrl] in *. rewrite <- N.
    unfold joined_monitor, jmon. cbn [s_mon s_ctrl unflag update_monitor fst m_pf_up m_pf_low m_pr_bu m_no_br m_no_bs m_no_bf m_no_bu
         m_no_rs m_no_rf m_no_ra m_no_sf m_min_len_rf m_avg_len_rf m_out_flag].
    rewrite !removelast_snoc. reflexivity.
  - cbn [update_monitor snd c_no_sf c_pr_bu c_pf_low] in *. rewrite <- Lw, <- Lt, <- N, R5. reflexivity.
Qed.

(** the large run is the first and the second one *)
Lemma run_split a b s1 bs : 0 < a -> 0 < b ->
  run varis probs sf (with_calls g a) rules brs = Ok s1 -> m_out_flag (s_mon s1) = Some O_max_sf ->
  ~ close_enough (g_pf_bnd_wr g) s1 -> g_active g = true \/ bs = s_brs s1 ->
  run varis probs sf (with_calls g (a + b)) rules brs =
  match run varis probs sf (with_calls g b) (Some (s_rules s1)) bs with
  | Ok s2 => Ok (joined a s1 s2)
  | Err e => Err e
  end.
Proof.
  intros Ha Hb H1 Fl Tol Hbs.
  destruct (run_seam a (a + b) s1 Ha ltac:(lia) H1 Fl) as (u & Fu & Nu & Flu & (V1 & _) & Cu & Fr & X).
  rewrite (X (S (Z.to_nat b)) ltac:(lia)). clear X. rewrite run_finish by lia.
  assert (E1 : s_rules s1 = s_rules u /\ s_brs s1 = s_brs u /\ c_no_sf (s_ctrl u) = c_no_sf (s_ctrl s1) /\
               tol g (unflag u) = false).
  { unfold finish in Fu. destruct (s_brs u) as [bu|] eqn:Eb; [|discriminate]. injection Fu as <-.
    cbn [s_rules s_brs s_ctrl update_monitor snd c_no_sf]. rewrite <- Cu. repeat (split; [reflexivity|]).
    destruct Fr as [Fr|(b' & Y1 & Y2 & Y3)]; [rewrite Fr in V1; cbn in V1; lia|].
    rewrite Eb in Y1. injection Y1 as <-.
    unfold close_enough in Tol. cbn [s_mon update_monitor fst m_pr_bu m_pf_low] in Tol. rewrite !last_last in Tol.
    unfold tol, unflag. cbn [s_ctrl]. rewrite Y2, Y3. destruct (qc_ltb _ _) eqn:Q; auto.
    exfalso. apply Tol. apply qc_ltb_lt. exact Q. }
  destruct E1 as (E1 & E2 & E3 & E4).
  pose proof (loop_rel varis probs sf g (unflag u) b (S (Z.to_nat b)) (S (Z.to_nat b)) (unflag u) (start0 (Some (s_rules s1)) bs)) as L.
  assert (T0 : tol g (start0 (Some (s_rules s1)) bs) = false).
  { unfold tol. cbn [start0 s_ctrl init_monitor snd c_pr_bu c_pf_low]. replace (0 * g_pf_bnd_wr g)%Qc with 0%Qc by ring. reflexivity. }
  cbn [unflag s_ctrl] in L. cbn [start0 s_ctrl init_monitor snd c_no_sf] in L. rewrite Nu in L.
  specialize (L) with (2 := or_intror Hb).
  assert (R : rel g (unflag u) (unflag u) (start0 (Some (s_rules s1)) bs)).
  { split; [|split].
    - unfold rel0, start0, unflag. cbn [s_rules s_sys s_mon s_ctrl init_monitor fst snd m_no_sf c_no_sf].
      split; [symmetry; exact E1|]. split; [symmetry; apply app_nil_r|]. split.
      + unfold jmon. cbn [s_mon s_ctrl m_pf_up m_pf_low m_pr_bu m_no_br m_no_bs m_no_bf m_no_bu
         m_no_rs m_no_rf m_no_ra m_no_sf m_min_len_rf m_avg_len_rf m_out_flag tl map]. rewrite !app_nil_r. reflexivity.
      + split; [discriminate|lia].
    - destruct Hbs as [Hbs|Hbs]; auto. right. cbn [unflag start0 s_brs]. congruence.
    - congruence. }
  specialize (L R ltac:(lia) ltac:(lia)).
  change (mkSt bs (s_rules s1) [] (fst init_monitor) {| c_no_sf := 0; c_pr_bu := 1; c_pf_low := 0 |}) with (start0 (Some (s_rules s1)) bs) in *.
  destruct (run_loop (S (Z.to_nat b)) varis probs sf (with_calls g b) (start0 (Some (s_rules s1)) bs)) as [t|e] eqn:Et; cbn [bind].
  2:{ unfold unflag in *. rewrite L. reflexivity. }
  destruct L as (w & Lw & R0 & Rb & Rn). rewrite Lw. cbn [bind].
  assert (F2 : exists s2, finish t = Ok s2) by (unfold finish; destruct (s_brs t); [eauto|congruence]).
  destruct F2 as (s2 & F2). rewrite F2.
  rewrite <- Nu, E3.
  apply (finish_monitor u s1 s2 w t); auto.
  - apply (loop_counter _ _ _ _ _ (start0 (Some (s_rules s1)) bs) _ eq_refl Et).
  - apply (loop_counter _ _ _ _ _ (unflag u) _ Cu Lw).
Qed.

End Runs.

(** ** Runs again after the end *)
(** what a stop in the body means *)
Lemma body_inl varis probs sf g s s' : run_body varis probs sf g s = Ok (inl s') ->
  exists brs f, 
    (if g_active g then decomp_depth_first varis (s_rules s) probs (g_max_nb g) []
     else decomp_depth_first varis (s_rules s) probs (g_max_nb g) (match s_brs s with None => [] | Some b => b end)) = Ok brs /\
    s' = mkSt (Some brs) (s_rules s) (s_sys s) (set_flag (s_mon s) f) (s_ctrl s) /\
    match f with
    | O_complete => get_comp_st brs (g_surv_first g) varis probs = Ok None
    | O_max_nb => (exists x, get_comp_st brs (g_surv_first g) varis probs = Ok (Some x)) /\ ge_bound (len brs) (g_max_nb g) = true
    | O_pf_bnd => (exists x, get_comp_st brs (g_surv_first g) varis probs = Ok (Some x)) /\ ge_bound (len brs) (g_max_nb g) = false /\
                  tol g s = true
    | O_max_rules => (exists x, get_comp_st brs (g_surv_first g) varis probs = Ok (Some x)) /\ ge_bound (len brs) (g_max_nb g) = false /\
                  tol g s = false /\ ge_bound (len (r_s (s_rules s) ++ r_f (s_rules s))) (g_max_rules g) = true
    | O_max_sf => False
    end.
Proof.
  unfold run_body, tol.
  destruct (if g_active _ then _ else _) as [bs|]; cbn [bind]; [|discriminate].
  destruct (get_comp_st _ _ _ _) as [[x|]|] eqn:G; cbn [bind]; try discriminate.
  2:{ intros Y. injection Y as <-. exists bs, O_complete. auto. }
  destruct (ge_bound (len bs) _) eqn:B1. { intros Y. injection Y as <-. exists bs, O_max_nb. eauto 12. }
  destruct (qc_ltb _ _) eqn:B2. { intros Y. injection Y as <-. exists bs, O_pf_bnd. eauto 12. }
  destruct (ge_bound _ (g_max_rules g)) eqn:B3. { intros Y. injection Y as <-. exists bs, O_max_rules. eauto 12. }
  destruct (run_sys_fn _ _ _) as [[[? ?] ?]|]; cbn [bind]; [|discriminate].
  destruct (update_rule_set _ _ _); cbn [bind]; [|discriminate].
  destruct (update_monitor _ _ _). discriminate.
Qed.

(** a run that did not use up its calls ended with a stop of the body *)
Lemma loop_inl varis probs sf g fuel : forall s s', linv g s -> 0 < g_max_sf g ->
  run_loop fuel varis probs sf g s = Ok s' ->
  m_out_flag (s_mon s') <> Some O_max_sf -> exists u, run_body varis probs sf g u = Ok (inl s').
Proof.
  induction fuel as [|fuel IH]; intros s s' L Hp H Fl; cbn [run_loop] in H; [discriminate|].
  destruct (Z.ltb_spec (c_no_sf (s_ctrl s)) (g_max_sf g)) as [Hlt|Hge].
  - pose proof (body_stop varis probs sf g s L Hlt) as B.
    destruct (run_body varis probs sf g s) as [[s1|s1]|] eqn:E; cbn [bind] in H; [| |discriminate].
    + injection H as <-. eauto.
    + eapply IH; eauto.
  - injection H as <-. exfalso. apply Fl. destruct L as (L1 & _ & _ & _ & L5 & L6 & _). apply L5; lia.
Qed.

(** the table of results only grows *)
Lemma body_sys varis probs sf g s s' : run_body varis probs sf g s = Ok (inr s') -> s_sys s' <> [].
Proof.
  unfold run_body.
  destruct (if g_active _ then _ else _) as [bs|]; cbn [bind]; [|discriminate].
  destruct (get_comp_st _ _ _ _) as [[x|]|]; cbn [bind]; try discriminate.
  destruct (ge_bound _ _); [discriminate|]. destruct (qc_ltb _ _); [discriminate|].
  destruct (ge_bound _ _); [discriminate|].
  destruct (run_sys_fn _ _ _) as [[[? ?] ?]|]; cbn [bind]; [|discriminate].
  destruct (update_rule_set _ _ _); cbn [bind]; [|discriminate].
  destruct (update_monitor _ _ _). intros H. injection H as <-. cbn. destruct (s_sys s); discriminate.
Qed.

Lemma loop_sys varis probs sf g fuel : forall s s', s_sys s <> [] -> run_loop fuel varis probs sf g s = Ok s' -> s_sys s' <> [].
Proof.
  induction fuel as [|fuel IH]; intros s s' N H; cbn [run_loop] in H; [discriminate|].
  destruct (_ <? _); [|injection H as <-; exact N].
  destruct (run_body varis probs sf g s) as [[s1|s1]|] eqn:B; cbn [bind] in H; [| |discriminate].
  - injection H as <-. apply body_inl in B. destruct B as (b & f & _ & -> & _). exact N.
  - apply (IH s1); auto. eapply body_sys; eauto.
Qed.

Lemma start_tol g rs bs : tol g (start0 (Some rs) bs) = false.
Proof. unfold tol. cbn [start0 s_ctrl init_monitor snd c_pr_bu c_pf_low]. replace (0 * g_pf_bnd_wr g)%Qc with 0%Qc by ring. reflexivity. Qed.

Lemma start_linv g rules brs : 0 < g_max_sf g -> linv g (start0 rules brs).
Proof. intros H. unfold linv. cbn. repeat (split; auto; try lia). Qed.

Lemma calls_same g : with_calls g (g_max_sf g) = g.
Proof. destruct g; reflexivity. Qed.

(** the stop of a finished run *)
Lemma run_inl varis probs sf g rules brs s : 0 < g_max_sf g ->
  run varis probs sf g rules brs = Ok s -> m_out_flag (s_mon s) <> Some O_max_sf ->
  exists u s', run_body varis probs sf g u = Ok (inl s') /\ finish s' = Ok s.
Proof.
  intros Hp. rewrite <- (calls_same g) at 1. rewrite run_finish by lia. rewrite calls_same.
  destruct (run_loop _ _ _ _ _ _) as [s'|] eqn:E; cbn [bind]; [|discriminate].
  intros F Fl. rewrite (finish_flag _ _ F) in Fl.
  destruct (loop_inl _ _ _ _ _ _ _ (start_linv g rules brs Hp) Hp E Fl) as (u & U). eauto.
Qed.

Lemma run_first varis probs sf g n rs bs : 0 < n ->
  run varis probs sf (with_calls g n) (Some rs) bs =
  (o <- run_body varis probs sf (with_calls g n) (start0 (Some rs) bs) ;;
   match o with
   | inl s => finish s
   | inr s => w <- run_loop (Z.to_nat n) varis probs sf (with_calls g n) s ;; finish w
   end).
Proof.
  intros Hn. rewrite run_finish by lia. cbn [run_loop]. cbn [with_calls g_max_sf start0 s_ctrl init_monitor snd c_no_sf].
  rewrite (proj2 (Z.ltb_lt 0 n)) by lia.
  change (mkSt bs rs [] (fst init_monitor) {| c_no_sf := 0; c_pr_bu := 1; c_pf_low := 0 |}) with (start0 (Some rs) bs).
  destruct (run_body _ _ _ _ _) as [[s|s]|]; reflexivity.
Qed.
