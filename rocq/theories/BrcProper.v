(** Labels of the two ends of a branch are compatible in every result of [run]. *)
From Coq Require Import ZArith List String Bool QArith Qcanon Lia.
From Verif Require Import Py PyFacts Num Vari Brc SpecBrc BrcFacts BrcProb BrcDecomp BrcRules BrcRun BrcMain.
Import ListNotations.
Open Scope string_scope.
Open Scope Z_scope.
Open Scope list_scope.

Definition proper_b (b : branch) : Prop :=
  (b_up_state b = F_ -> b_down_state b = F_) /\ (b_down_state b = S_ -> b_up_state b = S_).

Section Proper.
Context (varis : dict variable) (probs : prob_dict) (Hw : wf_varis varis) (Hp : wf_probs varis probs).

Lemma lab_full_proper rs b : wf_rules varis rs -> consistent varis rs -> wf_br varis b -> lab_full rs b -> proper_b b.
Proof.
  intros Hr Hc (D & U & L) ([[D1 D2] D3] & [[U1 U2] U3]). split; intros E.
  - specialize (U2 E). assert (X := match_f_anti varis rs _ _ Hr L U2). destruct (b_down_state b); auto; exfalso.
    + apply (Hc (b_down b)); auto.
    + destruct (D3 eq_refl). congruence.
  - specialize (D1 E). assert (X := match_s_mono varis rs _ _ Hr L D1). destruct (b_up_state b); auto; exfalso.
    + apply (Hc (b_up b)); auto.
    + destruct (U3 eq_refl). congruence.
Qed.

Lemma decomp_proper rs max_nb brs out : wf_rules varis rs -> consistent varis rs ->
  Forall (br_ok varis probs rs) brs -> (forall x, In x (sp varis) -> brs <> [] -> bcover x brs = 1%nat) ->
  Forall proper_b brs -> decomp_depth_first varis rs probs max_nb brs = Ok out -> Forall proper_b out.
Proof.
  intros Hr Hc H1 H2 H3 E. destruct (decomp_spec varis probs rs Hw Hp Hr Hc max_nb brs H1 H2) as (out' & E' & _ & _ & _ & O4 & _).
  rewrite E in E'. injection E' as <-. apply O4; auto. intros b Wb Lb. apply (lab_full_proper rs); auto.
Qed.

Context (phi : dict Z -> bool) (sys_fun : sysfun) (Hsys : sys_ok varis phi sys_fun) (g : config).

Definition proper_o (o : option (list branch)) : Prop := forall b, o = Some b -> Forall proper_b b.

Lemma body_brs s r : run_body varis probs sys_fun g s = Ok r ->
  exists brs, (if g_active g then decomp_depth_first varis (s_rules s) probs (g_max_nb g) []
          else decomp_depth_first varis (s_rules s) probs (g_max_nb g)
                 (match s_brs s with None => [] | Some b => b end)) = Ok brs /\
    match r with inl s' | inr s' => s_brs s' = Some brs end.
Proof.
  unfold run_body. destruct (if g_active g then _ else _) as [brs|]; cbn [bind]; [|congruence].
  intros H. exists brs. split; auto.
  destruct (get_comp_st brs _ varis probs) as [[x|]|]; cbn [bind] in H; [| |congruence].
  2:{ injection H as <-. auto. }
  destruct (ge_bound (len brs) _); [injection H as <-; auto|].
  destruct (qc_ltb _ _); [injection H as <-; auto|].
  destruct (ge_bound _ (g_max_rules g)); [injection H as <-; auto|].
  destruct (run_sys_fn x sys_fun varis) as [[[rule sst] r0]|]; cbn [bind] in H; [|congruence].
  destruct (update_rule_set (s_rules s) rule sst) as [rs'|]; cbn [bind] in H; [|congruence].
  destruct (update_monitor _ brs rs') as [mon ctl]. injection H as <-. auto.
Qed.

Lemma body_proper rs0 s h r : inv varis probs phi sys_fun g rs0 s h -> proper_o (s_brs s) ->
  run_body varis probs sys_fun g s = Ok r -> match r with inl s' | inr s' => proper_o (s_brs s') end.
Proof.
  intros (Iw & Is & Ib & _) Hpr H. assert (Hc := sound_consistent varis phi _ Is).
  destruct (body_brs s r H) as (brs & E & Er).
  assert (G : Forall proper_b brs).
  { destruct (g_active g).
    - eapply (decomp_proper (s_rules s)); [exact Iw|exact Hc| | | |exact E]; [constructor|congruence|constructor].
    - eapply (decomp_proper (s_rules s)); [exact Iw|exact Hc| | | |exact E].
      + destruct (s_brs s) as [b|]; [apply (Ib b); auto|constructor].
      + intros x Hx. destruct (s_brs s) as [b|]; [apply (Ib b); auto|congruence].
      + destruct (s_brs s) as [b|]; [apply (Hpr b); auto|constructor]. }
  destruct r as [s'|s']; intros b Eb; rewrite Er in Eb; injection Eb as <-; auto.
Qed.

Lemma loop_proper rs0 : forall fuel s h s', inv varis probs phi sys_fun g rs0 s h -> proper_o (s_brs s) ->
  run_loop fuel varis probs sys_fun g s = Ok s' -> proper_o (s_brs s').
Proof.
  induction fuel as [|fuel IH]; intros s h s' I Hpr H; cbn [run_loop] in H.
  { congruence. }
  assert (Ic : c_no_sf (s_ctrl s) = len h) by apply I. rewrite Ic in H.
  destruct (len h <? g_max_sf g) eqn:El.
  - apply Z.ltb_lt in El. pose proof (run_body_spec varis probs Hw Hp phi sys_fun Hsys g rs0 s h I El) as B.
    destruct (run_body varis probs sys_fun g s) as [r|e] eqn:Eb; cbn [bind] in H; [|congruence].
    pose proof (body_proper rs0 s h r I Hpr Eb) as P.
    destruct r as [s1|s1]; [injection H as <-; auto|].
    destruct B as (e & I'). eapply IH; eauto.
  - injection H as <-. auto.
Qed.

Context (rules : option ruleset) (brs : option (list branch)).
Context (Hr : wf_rules varis (rules_arg rules)) (Hsr : sound_rules varis phi (rules_arg rules)).
Context (Hb : forall b, brs = Some b -> valid_brs varis probs (rules_arg rules) b).

Lemma run_proper s : proper_o brs -> run varis probs sys_fun g rules brs = Ok s -> proper_o (s_brs s).
Proof.
  intros Hpr H. destruct (Z_lt_le_dec 0 (g_max_sf g)) as [L|L].
  2:{ rewrite (run_zero varis probs sys_fun g rules brs) in H by auto. injection H as <-. auto. }
  unfold run in H. cbn [init_monitor] in H. fold (rules_arg rules) in H.
  assert (E : (0 <? g_max_sf g) = true) by (apply Z.ltb_lt; auto). rewrite E in H. clear E.
  set (s0 := mkSt brs (rules_arg rules) [] _ _) in H.
  assert (I : inv varis probs phi sys_fun g (rules_arg rules) s0 []).
  { unfold inv. cbn [s0 s_rules s_brs s_mon s_sys s_ctrl m_out_flag m_no_sf c_no_sf].
    split; auto. split; auto. split; [intros b Eb; apply valid_br_ok; auto|]. split; auto. split; [constructor|].
    split; [intros i j a b _ Ha; destruct i; cbn in Ha; congruence|]. split; [intros e []|].
    split; [repeat split|]. split; [reflexivity|]. split; auto. split; auto.
    split; [split; [intros r []|intros; constructor]|]. split; [apply grows_refl|]. exact L. }
  destruct (run_loop _ varis probs sys_fun g s0) as [s1|] eqn:E1; cbn [bind] in H; [|congruence].
  pose proof (loop_proper _ _ _ _ _ I Hpr E1) as P.
  destruct (s_brs s1) as [b|] eqn:Eb; [|congruence]. destruct (update_monitor _ b _) as [m c]. injection H as <-. exact P.
Qed.
End Proper.
