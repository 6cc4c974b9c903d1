(** Final theorems about pipe networks (C73). *)
From Coq Require Import ZArith List String Bool Arith Lia QArith Qcanon.
From Verif Require Import Py PyFacts Num Vari VariFacts Brc SpecBrc BrcFacts NetSys Flow SpecFlow FlowFacts Pipe SpecPipe Lp PipeFacts PipeRef PipeRoute PropTrans PropFlow.
Import ListNotations.
Open Scope string_scope.
Open Scope Z_scope.
Open Scope list_scope.

(** The value that is returned is the greatest value of an integral plan; the state is survival if and only if it
    reaches the threshold.  The rule names the component and the end nodes of every edge that an optimal plan uses. *)
Theorem C73_pipes :
  forall milp edges es_idx e2c depots varis sub_nodes sub_edges thres x, milp_ok milp -> wf_pipes edges es_idx e2c depots varis sub_nodes sub_edges ->
    caps_ok varis -> wf_varis varis -> In x (space (comps_of varis)) ->
    exists val s m w u, sys_fun_pipes milp x thres edges es_idx e2c depots varis sub_nodes sub_edges = Ok (val, s, m) /\
      plan edges depots sub_nodes sub_edges (pipe_cap edges e2c varis x) w u /\ integral edges w /\ plan_value depots u = val /\
      (forall w' u', plan edges depots sub_nodes sub_edges (pipe_cap edges e2c varis x) w' u' -> integral edges w' -> (plan_value depots u' <= val)%Qc) /\
      ((s = F_ /\ (val < thres)%Qc /\ m = None) \/ (s = S_ /\ (thres <= val)%Qc /\ exists r, m = Some r /\ names_used edges e2c x w r)).
Proof. intros milp edges es_idx e2c depots varis sub_nodes sub_edges thres x Hm W Hc Hv Hx. apply pipes_ok; auto. Qed.
Print Assumptions C73_pipes.

(** every vector at or above the rule has the same plan *)
Theorem C73_rule :
  forall edges es_idx e2c depots varis sub_nodes sub_edges x y w u r, wf_pipes edges es_idx e2c depots varis sub_nodes sub_edges ->
    caps_ok varis -> wf_varis varis -> In x (space (comps_of varis)) -> In y (space (comps_of varis)) ->
    plan edges depots sub_nodes sub_edges (pipe_cap edges e2c varis x) w u -> names_used edges e2c x w r ->
    (forall k z, dfind r k = Some z -> exists z', dfind y k = Some z' /\ z <= z') ->
    plan edges depots sub_nodes sub_edges (pipe_cap edges e2c varis y) w u.
Proof.
  intros edges es_idx e2c depots varis sub_nodes sub_edges x y w u r W Hc Hv Hx Hy P R L.
  apply (plan_sound edges es_idx e2c depots varis sub_nodes sub_edges W Hc Hv x y w u r Hx Hy P R). intros k z E. destruct (L k z E) as (z' & E' & Le). unfold coord. rewrite E'. auto.
Qed.
Print Assumptions C73_rule.

(** The search with this system function encloses the probability that no plan reaches the threshold;
    a complete search returns it. *)
Theorem C73_bounds :
  forall milp edges es_idx e2c depots varis sub_nodes sub_edges thres probs (phi : dict Z -> bool) g, milp_ok milp ->
    wf_pipes edges es_idx e2c depots varis sub_nodes sub_edges -> caps_ok varis -> wf_varis varis -> wf_probs varis probs ->
    (forall x, In x (space (comps_of varis)) -> (phi x = true <->
       exists w u, plan edges depots sub_nodes sub_edges (pipe_cap edges e2c varis x) w u /\ integral edges w /\ (thres <= plan_value depots u)%Qc)) ->
    g_surv_first g = true -> 1 <= g_max_sf g ->
    exists s, run varis probs (pipes_sysfun milp thres edges es_idx e2c depots varis sub_nodes sub_edges) g None None = Ok s /\
      (last (m_pf_low (s_mon s)) 0 <= p_fail varis probs phi)%Qc /\ (p_fail varis probs phi <= last (m_pf_up (s_mon s)) 0)%Qc /\
      (g_max_nb g = None -> m_out_flag (s_mon s) = Some O_complete ->
         last (m_pf_low (s_mon s)) 0%Qc = p_fail varis probs phi /\ last (m_pf_up (s_mon s)) 0%Qc = p_fail varis probs phi).
Proof.
  intros milp edges es_idx e2c depots varis sub_nodes sub_edges thres probs phi g Hm W Hc Hv Wp Hp Sf Mx. apply (net_bounds varis probs phi _ g Hv Wp); auto.
  apply pipes_sys_ok; auto.
Qed.
Print Assumptions C73_bounds.

(** With stages in order, a plan of positive value follows a route from an origin through depots of all stages to a final
    depot. *)
Theorem C73_route :
  forall edges es_idx e2c depots varis sub_nodes sub_edges c w u, wf_pipes edges es_idx e2c depots varis sub_nodes sub_edges ->
    staged edges depots sub_nodes sub_edges -> plan edges depots sub_nodes sub_edges c w u -> (0 < plan_value depots u)%Qc ->
    exists d, route edges w depots sub_edges (List.length sub_nodes) d.
Proof. exact plan_route. Qed.
Print Assumptions C73_route.

(** two stages: o to m through a, m to d through a; the pipe between a and m is used in both directions *)
Definition pedges : dict (string * string) := [("e1", ("o", "a")); ("e2", ("a", "m")); ("e3", ("m", "a")); ("e4", ("a", "d"))].
Definition pidx : dict Z := [("e1", 2); ("e2", 0); ("e3", 3); ("e4", 1)].
Definition pe2c : dict string := [("e1", "x1"); ("e2", "x2"); ("e3", "x2"); ("e4", "x3")].
Definition pdepots : list (list string) := [["o"]; ["m"]; ["d"]].
Definition pnodes : list (list string) := [["o"; "a"; "m"]; ["m"; "a"; "d"]].
Definition psubs : list (list string) := [["e1"; "e2"]; ["e3"; "e4"]].
Definition pcaps : dict (list Qc) := [("x1", [0%Qc; Q2Qc 1; Q2Qc 2]); ("x2", [0%Qc; Q2Qc 2]); ("x3", [0%Qc; Q2Qc 1]);
  ("o", [0%Qc; Q2Qc 2]); ("a", [0%Qc; Q2Qc 2]); ("m", [0%Qc; Q2Qc 2]); ("d", [0%Qc; Q2Qc 2])].
Definition pvaris : dict variable := map (fun kc => (fst kc, mk_variable (fst kc) (map VNum (snd kc)) None)) pcaps.
Definition px (x1 x2 x3 o a m d : Z) : dict Z := [("x1", x1); ("x2", x2); ("x3", x3); ("o", o); ("a", a); ("m", m); ("d", d)].
Definition prun (x : dict Z) (t : Qc) : option (Q * st * option (dict Z)) := fshow (sys_fun_pipes milp_ref x t pedges pidx pe2c pdepots pvaris pnodes psubs).
Ltac pin H := cbn in H; repeat match type of H with _ \/ _ => destruct H as [H|H] | False => destruct H end.
Lemma pipes_wf : wf_pipes pedges pidx pe2c pdepots pvaris pnodes psubs /\ caps_ok pvaris /\ wf_varis pvaris /\ staged pedges pdepots pnodes psubs.
Proof.
  split; [|split; [|split]].
  - split; [repeat constructor; cbn; intuition discriminate|]. split; [|split; [|split; [reflexivity|split; [reflexivity|split]]]].
    + intros e u v H. pin H; injection H as <- <- <-; (split; [discriminate|]); (split; [cbn; tauto|]); (split; [cbn; tauto|]);
        (split; [eexists; split; [reflexivity|cbn; tauto]|eexists; split; [reflexivity|cbn; lia]]).
    + intros e e' i H H' E E'. pin H; pin H'; subst e e'; try reflexivity; vm_compute in E, E'; congruence.
    + intros ns H. pin H; subst ns; repeat constructor; cbn; intuition discriminate.
    + intros es H. pin H; subst es; (split; [repeat constructor; cbn; intuition discriminate|]); intros z Hz; cbn in *; tauto.
  - apply (caps_b_ok _ (map snd pcaps)); [reflexivity|vm_compute; reflexivity].
  - split; [repeat constructor; cbn; intuition discriminate|]. intros k v H. pin H; injection H as <- <-; cbn; lia.
  - intros m Lm. assert (m = 0 \/ m = 1)%nat as [-> | ->] by (cbn in Lm; lia); (split; [intros e H; pin H; subst e; vm_compute; intuition congruence|]);
      intros e H; pin H; subst e; vm_compute; intuition congruence.
Qed.
Example C73_pipes_ex :
  milp_ok milp_ref /\ wf_pipes pedges pidx pe2c pdepots pvaris pnodes psubs /\ caps_ok pvaris /\ wf_varis pvaris /\ In (px 2 1 1 1 1 1 1) (space (comps_of pvaris)) /\
  prun (px 2 1 1 1 1 1 1) 1%Qc = Some (1%Q, S_, Some [("x1", 2); ("o", 1); ("a", 1); ("x2", 1); ("m", 1); ("x3", 1); ("d", 1)]) /\
  prun (px 2 1 1 1 0 1 1) 1%Qc = Some (0%Q, F_, None) /\ prun (px 2 1 1 1 1 1 1) (Q2Qc 2) = Some (1%Q, F_, None).
Proof.
  destruct pipes_wf as (A & B & C & _). split; [exact milp_ref_ok|]. repeat (split; [assumption|]). split; [apply (nth_error_In _ 191); vm_compute; reflexivity|]. split; [|split]; vm_compute; reflexivity.
Qed.
Definition one : string -> Qc := fun _ => 1%Qc.
Lemma one_plan : plan pedges pdepots pnodes psubs (pipe_cap pedges pe2c pvaris (px 2 1 1 1 1 1 1)) one one.
Proof.
  split; [|split; [|split]].
  - intros e H. pin H; subst e; split; vm_compute; congruence.
  - intros o H. pin H; subst o; apply Qc_is_canon; vm_compute; reflexivity.
  - intros m Lm. assert (m = 0 \/ m = 1)%nat as [-> | ->] by (cbn in Lm; lia); (split; [intros n H N1 N2|apply Qc_is_canon; vm_compute; reflexivity]);
      pin H; subst n; try (exfalso; cbn in N1, N2; tauto); apply Qc_is_canon; vm_compute; reflexivity.
  - intros m n Lm H. assert (m = 1)%nat as -> by (cbn in Lm; lia). pin H; subst n. apply Qc_is_canon; vm_compute; reflexivity.
Qed.
Example C73_rule_ex :
  plan pedges pdepots pnodes psubs (pipe_cap pedges pe2c pvaris (px 1 1 1 1 1 1 1)) one one /\
  names_used pedges pe2c (px 1 1 1 1 1 1 1) one [("x1", 1); ("o", 1); ("a", 1); ("x2", 1); ("m", 1); ("x3", 1); ("d", 1)] /\
  (forall k z, dfind [("x1", 1); ("o", 1); ("a", 1); ("x2", 1); ("m", 1); ("x3", 1); ("d", 1)] k = Some z -> exists z', dfind (px 2 1 1 1 1 1 1) k = Some z' /\ z <= z') /\
  In (px 1 1 1 1 1 1 1) (space (comps_of pvaris)) /\ In (px 2 1 1 1 1 1 1) (space (comps_of pvaris)).
Proof.
  split; [|split; [|split]].
  - destruct one_plan as [_ R]. split; [|exact R]. intros e H. pin H; subst e; split; vm_compute; congruence.
  - split; [repeat constructor; cbn; intuition discriminate|]. intros k z. split.
    + intros H. cbn [dfind] in H.
      repeat match type of H with (if String.eqb k ?c then _ else _) = _ => destruct (String.eqb_spec k c) as [->|];
        [injection H as <-; split; [reflexivity|];
         first [exists "e1"; split; [cbn; tauto|split; [vm_compute; reflexivity|vm_compute; tauto]]
               |exists "e2"; split; [cbn; tauto|split; [vm_compute; reflexivity|vm_compute; tauto]]
               |exists "e4"; split; [cbn; tauto|split; [vm_compute; reflexivity|vm_compute; tauto]]]|] end. discriminate H.
    + intros (E & e & H & _ & K). pin H; subst e; vm_compute in K; destruct K as [->|[->| ->]]; exact E.
  - intros k z E. cbn [dfind] in E.
    repeat match type of E with (if String.eqb k ?c then _ else _) = _ => destruct (String.eqb_spec k c) as [->|]; [injection E as <-; eexists; split; [reflexivity|lia]|] end. discriminate E.
  - split; [apply (nth_error_In _ 127)|apply (nth_error_In _ 191)]; vm_compute; reflexivity.
Qed.
Example C73_route_ex :
  wf_pipes pedges pidx pe2c pdepots pvaris pnodes psubs /\ staged pedges pdepots pnodes psubs /\
  plan pedges pdepots pnodes psubs (pipe_cap pedges pe2c pvaris (px 2 1 1 1 1 1 1)) one one /\ this (plan_value pdepots one) = 1%Q /\
  route pedges one pdepots psubs 2 "d" /\ ~ route pedges one pdepots psubs 2 "m".
Proof.
  destruct pipes_wf as (A & B & C & D). split; auto. split; auto. split; [exact one_plan|]. split; [vm_compute; reflexivity|]. split.
  - split; [cbn; auto|]. exists "m". split.
    + split; [cbn; auto|]. exists "o". split; [cbn; auto|].
      change (walk pedges one ["e1"; "e2"] "o" (snd (ends pedges "e2"))). apply walk_on; [|cbn; auto|vm_compute; reflexivity].
      change (walk pedges one ["e1"; "e2"] "o" (snd (ends pedges "e1"))). apply walk_on; [|cbn; auto|vm_compute; reflexivity]. apply walk_here.
    + change (walk pedges one ["e3"; "e4"] "m" (snd (ends pedges "e4"))). apply walk_on; [|cbn; auto|vm_compute; reflexivity].
      change (walk pedges one ["e3"; "e4"] "m" (snd (ends pedges "e3"))). apply walk_on; [|cbn; auto|vm_compute; reflexivity]. apply walk_here.
  - intros [H _]. cbn in H. intuition discriminate.
Qed.
Definition pprobs : prob_dict := map (fun kc => (fst kc, PList (if (List.length (snd kc) =? 3)%nat then [Q2Qc (1#10); Q2Qc (3#10); Q2Qc (6#10)] else [Q2Qc (1#10); Q2Qc (9#10)]))) pcaps.
Lemma pprobs_wf : wf_probs pvaris pprobs.
Proof.
  intros k v H. pin H; injection H as <- <-; (split; [eexists; split; [reflexivity|]; intros x Hx|apply Qc_is_canon; vm_compute; reflexivity]).
  { change (nvals _) with 3 in Hx. assert (x = 0 \/ x = 1 \/ x = 2) as [->| [->| ->]] by lia; eexists; (split; [reflexivity|vm_compute; congruence]). }
  all: change (nvals _) with 2 in Hx; assert (x = 0 \/ x = 1) as [->| ->] by lia; eexists; (split; [reflexivity|vm_compute; congruence]).
Qed.
Definition psys : sysfun := pipes_sysfun milp_ref 1%Qc pedges pidx pe2c pdepots pvaris pnodes psubs.
(** all parts are needed: the series system *)
Definition pphi (x : dict Z) : bool := forallb (fun kv => 1 <=? snd kv) x.
Lemma pphi_sys : forallb (fun x => match psys x with (_, S_, _) => pphi x | (_, F_, _) => negb (pphi x) | _ => false end) (space (comps_of pvaris)) = true.
Proof. vm_compute. reflexivity. Qed.
Lemma pphi_ok x : In x (space (comps_of pvaris)) -> (pphi x = true <->
  exists w u, plan pedges pdepots pnodes psubs (pipe_cap pedges pe2c pvaris x) w u /\ integral pedges w /\ (1 <= plan_value pdepots u)%Qc).
Proof.
  intros Hx. destruct pipes_wf as (A & B & C & D). assert (Q := pphi_sys). rewrite forallb_forall in Q. specialize (Q x Hx). unfold psys, pipes_sysfun in Q.
  destruct (C73_pipes milp_ref pedges pidx pe2c pdepots pvaris pnodes psubs 1%Qc x milp_ref_ok A B C Hx) as (val & s & m & w & u & E & P & I & V & M & R). rewrite E in Q.
  destruct R as [(-> & L & _)|(-> & L & _)].
  - apply negb_true_iff in Q. rewrite Q. split; [discriminate|]. intros (w' & u' & P' & I' & L'). specialize (M w' u' P' I'). exfalso. qc_lra.
  - split; auto. intros _. exists w, u. rewrite V. auto.
Qed.
Example C73_bounds_ex :
  milp_ok milp_ref /\ wf_pipes pedges pidx pe2c pdepots pvaris pnodes psubs /\ caps_ok pvaris /\ wf_varis pvaris /\ wf_probs pvaris pprobs /\
  (forall x, In x (space (comps_of pvaris)) -> (pphi x = true <->
     exists w u, plan pedges pdepots pnodes psubs (pipe_cap pedges pe2c pvaris x) w u /\ integral pedges w /\ (1 <= plan_value pdepots u)%Qc)) /\
  match run pvaris pprobs psys (mkCfg 100 None 0%Qc None true true) None None with
  | Ok s => m_out_flag (s_mon s) = Some O_complete /\ this (last (m_pf_low (s_mon s)) 0%Qc) = this (p_fail pvaris pprobs pphi) /\
            this (p_fail pvaris pprobs pphi) = (5217031 # 10000000)%Q /\ List.length (r_s (s_rules s)) = 1%nat
  | Err _ => False
  end.
Proof.
  destruct pipes_wf as (A & B & C & _). split; [exact milp_ref_ok|]. repeat (split; [assumption|]). split; [exact pprobs_wf|]. split; [exact pphi_ok|]. vm_compute. auto 8.
Qed.

(** With edges in both directions the stages are not in order: what leaves the origin may come back, and what arrives at the
    last depot may have started there.  Then the system survives although no path joins origin and destination. *)
Definition qedges : dict (string * string) := [("e1", ("o", "a")); ("e2", ("a", "o")); ("e3", ("d", "b")); ("e4", ("b", "d"))].
Definition qidx : dict Z := [("e1", 0); ("e2", 1); ("e3", 2); ("e4", 3)].
Definition qe2c : dict string := [("e1", "x1"); ("e2", "x1"); ("e3", "x2"); ("e4", "x2")].
Definition qvaris : dict variable := map (fun k => (k, mk_variable k [VNum 0%Qc; VNum 1%Qc] None)) ["x1"; "x2"; "o"; "a"; "b"; "d"].
Definition qx : dict Z := [("x1", 1); ("x2", 1); ("o", 1); ("a", 1); ("b", 1); ("d", 1)].
Definition q_all : list string := ["e1"; "e2"; "e3"; "e4"].
Theorem C73_disconnected_refuted :
  exists milp edges es_idx e2c depots varis sub_nodes sub_edges x r, milp_ok milp /\ wf_pipes edges es_idx e2c depots varis sub_nodes sub_edges /\
    caps_ok varis /\ wf_varis varis /\ In x (space (comps_of varis)) /\
    fshow (sys_fun_pipes milp x 1%Qc edges es_idx e2c depots varis sub_nodes sub_edges) = Some (1%Q, S_, Some r) /\
    forall w a b, In a (nth 0 depots []) -> In b (last depots []) -> ~ walk edges w (keys edges) a b.
Proof.
  exists milp_ref, qedges, qidx, qe2c, [["o"]; ["d"]], qvaris, [["o"; "a"; "b"; "d"]], [q_all], qx, [("x1", 1); ("o", 1); ("a", 1); ("x2", 1); ("d", 1); ("b", 1)].
  split; [exact milp_ref_ok|]. split; [|split; [|split; [|split; [|split]]]].
  - split; [repeat constructor; cbn; intuition discriminate|]. split; [|split; [|split; [reflexivity|split; [reflexivity|split]]]].
    + intros e u v H. pin H; injection H as <- <- <-; (split; [discriminate|]); (split; [cbn; tauto|]); (split; [cbn; tauto|]);
        (split; [eexists; split; [reflexivity|cbn; tauto]|eexists; split; [reflexivity|cbn; lia]]).
    + intros e e' i H H' E E'. pin H; pin H'; subst e e'; try reflexivity; vm_compute in E, E'; congruence.
    + intros ns H. pin H; subst ns; repeat constructor; cbn; intuition discriminate.
    + intros es H. pin H; subst es; (split; [repeat constructor; cbn; intuition discriminate|]); intros z Hz; cbn in *; tauto.
  - apply (caps_b_ok _ (repeat [0%Qc; 1%Qc] 6)); [reflexivity|vm_compute; reflexivity].
  - split; [repeat constructor; cbn; intuition discriminate|]. intros k v H. pin H; injection H as <- <-; cbn; lia.
  - vm_compute. tauto.
  - vm_compute. reflexivity.
  - intros w a b [<-|[]] [<-|[]] H.
    assert (X : forall b, walk qedges w (keys qedges) "o" b -> b = "o" \/ b = "a").
    { intros b K. remember "o" as o eqn:Eo. induction K as [a|a e K IH I _]; [left; auto|]. specialize (IH Eo). pin I; subst e; vm_compute in IH |- *; intuition congruence. }
    destruct (X _ H) as [E|E]; discriminate E.
Qed.
Print Assumptions C73_disconnected_refuted.
