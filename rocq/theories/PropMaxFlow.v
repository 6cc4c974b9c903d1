(** Final theorems about the flow networks of the demo, with and without directions (C79). *)
From Coq Require Import ZArith List String Bool Arith Lia QArith Qcanon.
From Verif Require Import Py PyFacts Num Vari VariFacts Brc SpecBrc BrcFacts NetSys Flow SpecFlow Lp FlowFacts FlowRef MaxFlow SpecMaxFlow MaxFlowFacts MaxFlowRef PropTrans PropFlow.
Import ListNotations.
Open Scope string_scope.
Open Scope Z_scope.
Open Scope list_scope.

(** The value that is returned is the greatest flow from [o] to [d], along the directions of the edges when
    [bi = false], cut off at the target; the state is survival if and only if the target is reached.  The rule keeps for every
    component the least state that carries its part of one flow that meets the target. *)
Theorem C79_max_flow :
  forall nx_flow bi edges varis o d target x, nx_flow2_ok nx_flow -> edges2_ok bi edges varis -> caps_ok varis -> wf_varis varis ->
    (exists k u v, In (k, (u, v)) edges /\ (u = o \/ v = o)) -> o <> d -> d <> "t_new" -> (0 <= target)%Qc ->
    In x (space (comps_of varis)) ->
    exists val s m, max_flow_fun nx_flow x o d edges varis target bi = Ok (val, s, Some m) /\
      (val <= target)%Qc /\ (exists phi, sends2 bi (network2 edges varis x) phi o d val) /\
      (forall phi v, sends2 bi (network2 edges varis x) phi o d v -> (v <= val)%Qc \/ val = target) /\
      (s = S_ <-> exists phi v, sends2 bi (network2 edges varis x) phi o d v /\ (target <= v)%Qc) /\
      ((s = S_ /\ exists phi, sends2 bi (network2 edges varis x) phi o d target /\ carries2 bi varis edges x phi m) \/ (s = F_ /\ m = [])).
Proof.
  intros nx_flow bi edges varis o d target x Hn He Hc Hv Ho Hod Hd Ht Hx.
  destruct (max_flow_fun_ok bi edges varis o d target nx_flow He Hc Hv Hn Ho Hod Hd Ht x Hx) as (val & s & m & E & L & W & M & C).
  exists val, s, m. split; auto. split; auto. split; auto. split; auto. split.
  - split.
    + intros ->. destruct C as [(_ & -> & _)|(X & _)]; [|discriminate X]. destruct W as [phi W]. exists phi, target. split; [auto|apply Qcle_refl].
    + intros (phi & v & S & T). destruct C as [(-> & _)|(_ & Lt & _)]; auto. exfalso. destruct (M phi v S) as [X|X]; [|rewrite X in Lt]; qc_lra.
  - destruct C as [(-> & _ & C)|(-> & _ & C)]; auto.
Qed.
Print Assumptions C79_max_flow.

(** every vector at or above the rule meets the target *)
Theorem C79_rule :
  forall bi edges varis o d target x y phi r, edges2_ok bi edges varis -> caps_ok varis -> wf_varis varis ->
    In x (space (comps_of varis)) -> In y (space (comps_of varis)) -> sends2 bi (network2 edges varis x) phi o d target -> carries2 bi varis edges x phi r ->
    (forall k z, dfind r k = Some z -> exists z', dfind y k = Some z' /\ z <= z') -> sends2 bi (network2 edges varis y) phi o d target.
Proof.
  intros bi edges varis o d target x y phi r He Hc Hv Hx Hy S C L. apply (carries2_sound bi edges varis o d He Hc Hv x y phi r target Hx Hy S C).
  intros k z E. destruct (L k z E) as (z' & E' & Le). unfold coord. rewrite E'. auto.
Qed.
Print Assumptions C79_rule.

(** The demo: the bounds that the search of [main] ends with enclose the probability that the network of the
    input file cannot carry the target; a complete search returns it. *)
Theorem C79_main :
  forall nx_flow bi ls o d target (meets : dict Z -> bool) g, nx_flow2_ok nx_flow -> links_ok bi ls ->
    (exists k l, In (k, l) ls /\ (l_from l = o \/ l_to l = o)) -> o <> d -> d <> "t_new" -> (0 <= target)%Qc ->
    (forall x, In x (link_space ls) -> (meets x = true <-> exists phi v, sends2 bi (link_net ls x) phi o d v /\ (target <= v)%Qc)) ->
    g_surv_first g = true -> 1 <= g_max_sf g ->
    exists s, mf_main nx_flow ls o d target bi g = Ok s /\
      (last (m_pf_low (s_mon s)) 0 <= p_short ls meets)%Qc /\ (p_short ls meets <= last (m_pf_up (s_mon s)) 0)%Qc /\
      (g_max_nb g = None -> m_out_flag (s_mon s) = Some O_complete ->
         last (m_pf_low (s_mon s)) 0%Qc = p_short ls meets /\ last (m_pf_up (s_mon s)) 0%Qc = p_short ls meets).
Proof.
  intros nx_flow bi ls o d target meets g Hn Hl Ho Hod Hd Ht Hm Sf Mx. rewrite <- (init_fail bi ls Hl).
  apply (net_bounds _ _ meets _ g (init_wf bi ls Hl) (init_wf_probs bi ls Hl)); auto.
  apply (mf_sys_ok bi (init_edges ls) (init_varis ls) o d target nx_flow (init_edges_ok bi ls Hl) (init_caps_ok bi ls Hl) (init_wf bi ls Hl) Hn); auto.
  - destruct Ho as (k & l & I & E). exists k, (l_from l), (l_to l). split; auto. apply in_map_iff. exists (k, l). auto.
  - intros x Hx. rewrite init_comps in Hx. rewrite (init_net bi ls Hl) by exact Hx. apply Hm. exact Hx.
Qed.
Print Assumptions C79_main.

(** edges from n2 to n3 and from n3 to n2 *)
Definition dls : dict link :=
  [("e1", mk_link "n1" "n2" [0%Qc; Q2Qc 1; Q2Qc 2] [Q2Qc (1#10); Q2Qc (3#10); Q2Qc (6#10)]);
   ("e2", mk_link "n2" "n3" [0%Qc; Q2Qc 1] [Q2Qc (1#5); Q2Qc (4#5)]);
   ("e3", mk_link "n3" "n2" [0%Qc; Q2Qc 1] [Q2Qc (1#4); Q2Qc (3#4)]);
   ("e4", mk_link "n1" "n3" [0%Qc; Q2Qc 1; Q2Qc 2] [Q2Qc (1#10); Q2Qc (1#2); Q2Qc (2#5)])].
(** the same without the third *)
Definition uls : dict link := filter (fun kl => negb (String.eqb (fst kl) "e3")) dls.
Definition link_b (l : link) : bool :=
  negb (String.eqb (l_from l) (l_to l)) && negb (String.eqb (l_from l) "t_new") && negb (String.eqb (l_to l) "t_new") &&
  (List.length (l_caps l) =? List.length (l_prob l))%nat && caps_b (l_caps l) && forallb (fun q => qc_leb 0 q) (l_prob l).
Lemma link_b_ok l : link_b l = true -> l_from l <> l_to l /\ l_from l <> "t_new" /\ l_to l <> "t_new" /\
     List.length (l_caps l) = List.length (l_prob l) /\ (forall c, In c (l_caps l) -> (0 <= c)%Qc) /\
     (forall i j c c', (i <= j)%nat -> nth_error (l_caps l) i = Some c -> nth_error (l_caps l) j = Some c' -> (c <= c')%Qc) /\
     (forall q, In q (l_prob l) -> (0 <= q)%Qc).
Proof.
  unfold link_b. intros H. repeat (apply andb_true_iff in H as [H ?]). apply Nat.eqb_eq in H2. rewrite forallb_forall in H0.
  destruct (String.eqb_spec (l_from l) (l_to l)), (String.eqb_spec (l_from l) "t_new"), (String.eqb_spec (l_to l) "t_new"); try discriminate.
  repeat (split; [assumption|]).
  destruct (caps_b_ok [("k", mk_variable "k" (map VNum (l_caps l)) None)] [l_caps l] eq_refl) with (k := "k") (v := mk_variable "k" (map VNum (l_caps l)) None) as (cs & E & A & B).
  - cbn [forallb]. rewrite H1. auto.
  - left. auto.
  - cbn [v_values mk_variable] in E. assert (INJ : forall a b, map VNum a = map VNum b -> a = b) by (induction a as [|c a IH]; intros [|c' b] X; try discriminate X; auto; injection X as -> X; f_equal; auto).
    apply INJ in E. subst cs. split; [auto|]. split; [auto|]. intros q I. apply qc_leb_le. auto.
Qed.
Ltac links_tac := split; [repeat constructor; cbn; intuition discriminate|split;
  [intros k l I; cbn in I; repeat (destruct I as [I|I]; [injection I as <- <-; match goal with |- context [qsum (l_prob ?l)] => destruct (link_b_ok l) as (? & ? & ? & ? & ? & ? & ?); [vm_compute; reflexivity|];
     repeat (split; [assumption|]); apply Qc_is_canon; vm_compute; reflexivity end|]); destruct I
  |intros k l k' l' I J; cbn in I, J; repeat (destruct I as [I|I]; [injection I as <- <-; repeat (destruct J as [J|J]; [injection J as <- <-; cbn [l_from l_to]; intros K; intuition congruence|]); destruct J|]); destruct I]].
Lemma dls_ok : links_ok false dls.
Proof. links_tac. Qed.
Lemma uls_ok : links_ok true uls.
Proof. links_tac. Qed.
Definition dst (a b c d : Z) : dict Z := [("e1", a); ("e2", b); ("e3", c); ("e4", d)].
Definition dflow (bi : bool) (o d : string) (t : Q) (x : dict Z) := fshow (max_flow_fun nx_lp2 x o d (init_edges dls) (init_varis dls) (Q2Qc t) bi).
(** from n1 to n3 and against the edges; the one from n3 to n2 does not count *)
Example C79_max_flow_ex :
  nx_flow2_ok nx_lp2 /\ edges2_ok false (init_edges dls) (init_varis dls) /\ caps_ok (init_varis dls) /\ wf_varis (init_varis dls) /\
  In (dst 2 1 1 1) (space (comps_of (init_varis dls))) /\
  dflow false "n1" "n3" 2 (dst 2 1 1 1) = Some (2%Q, S_, Some [("e1", 1); ("e2", 1); ("e4", 1)]) /\
  dflow false "n1" "n3" 2 (dst 2 0 1 1) = Some (1%Q, F_, Some []) /\
  dflow false "n3" "n1" 1 (dst 2 1 1 2) = Some (0%Q, F_, Some []) /\
  dflow false "n3" "n2" 1 (dst 2 1 1 2) = Some (1%Q, S_, Some [("e3", 1)]).
Proof.
  split; [exact nx_lp2_ok|]. split; [exact (init_edges_ok _ _ dls_ok)|]. split; [exact (init_caps_ok _ _ dls_ok)|]. split; [exact (init_wf _ _ dls_ok)|].
  split; [vm_compute; tauto|]. repeat split; vm_compute; reflexivity.
Qed.
(** without directions *)
Definition ust (a b d : Z) : dict Z := [("e1", a); ("e2", b); ("e4", d)].
Definition uflow (o d : string) (t : Q) (x : dict Z) := fshow (max_flow_fun nx_lp2 x o d (init_edges uls) (init_varis uls) (Q2Qc t) true).
Example C79_max_flow_both_ex :
  edges2_ok true (init_edges uls) (init_varis uls) /\ caps_ok (init_varis uls) /\ wf_varis (init_varis uls) /\
  uflow "n3" "n1" 2 (ust 1 1 2) = Some (2%Q, S_, Some [("e1", 1); ("e2", 1); ("e4", 1)]) /\
  uflow "n3" "n2" 2 (ust 2 1 1) = Some (2%Q, S_, Some [("e1", 1); ("e2", 1); ("e4", 1)]) /\
  uflow "n3" "n2" 2 (ust 2 1 0) = Some (1%Q, F_, Some []).
Proof.
  split; [exact (init_edges_ok _ _ uls_ok)|]. split; [exact (init_caps_ok _ _ uls_ok)|]. split; [exact (init_wf _ _ uls_ok)|].
  repeat split; vm_compute; reflexivity.
Qed.
Example C79_rule_ex :
  sends2 false (network2 (init_edges dls) (init_varis dls) (dst 2 1 1 1)) (map Q2Qc [1; 1; 0; 1]%Q) "n1" "n3" (Q2Qc 2) /\
  carries2 false (init_varis dls) (init_edges dls) (dst 2 1 1 1) (map Q2Qc [1; 1; 0; 1]%Q) [("e1", 1); ("e2", 1); ("e4", 1)] /\
  (forall k z, dfind [("e1", 1); ("e2", 1); ("e4", 1)] k = Some z -> exists z', dfind (dst 1 1 0 2) k = Some z' /\ z <= z').
Proof.
  split; [split; [|split]|split].
  - repeat constructor; vm_compute; congruence.
  - intros n N1 N2. unfold net. cbn -[Qcplus Qcminus String.eqb].
    destruct (String.eqb_spec "n1" n); [congruence|]. destruct (String.eqb_spec "n3" n); [congruence|].
    destruct (String.eqb_spec "n2" n); subst; apply Qc_is_canon; reflexivity.
  - apply Qc_is_canon. vm_compute. reflexivity.
  - split; [repeat constructor; cbn; intuition discriminate|]. split; [intros k [<-|[<-|[<-|[]]]]; cbn; tauto|].
    intros [|[|[|[|i]]]] k s w E1 E2; try (destruct i; discriminate E1); injection E1 as <- <-; injection E2 as <-; cbn [dfind String.eqb Ascii.eqb Bool.eqb].
    all: try (apply Qc_is_canon; vm_compute; reflexivity).
    all: split; [discriminate|]; split; [cbn; lia|]; split; [split; vm_compute; congruence|].
    all: intros z' Hz [F1 F2].
    all: assert (z' = 0) as -> by lia; vm_compute in F2; congruence.
  - intros k z E. cbn [dfind] in E.
    repeat match type of E with (if String.eqb k ?c then _ else _) = _ => destruct (String.eqb_spec k c) as [->|]; [injection E as <-; eexists; split; [reflexivity|lia]|] end. discriminate E.
Qed.

Definition dmeets (x : dict Z) : bool := match max_flow_fun nx_lp2 x "n1" "n3" (init_edges dls) (init_varis dls) (Q2Qc 2) false with Ok (_, S_, _) => true | _ => false end.
Lemma dmeets_ok x : In x (link_space dls) -> (dmeets x = true <-> exists phi v, sends2 false (link_net dls x) phi "n1" "n3" v /\ (Q2Qc 2 <= v)%Qc).
Proof.
  intros Hx. unfold dmeets. rewrite <- (init_net false dls dls_ok x Hx).
  destruct (C79_max_flow nx_lp2 false (init_edges dls) (init_varis dls) "n1" "n3" (Q2Qc 2) x nx_lp2_ok (init_edges_ok _ _ dls_ok) (init_caps_ok _ _ dls_ok) (init_wf _ _ dls_ok))
    as (val & s & m & E & _ & _ & _ & S & _); try discriminate.
  - exists "e1", "n1", "n2". split; [left; reflexivity|auto].
  - rewrite init_comps. exact Hx.
  - rewrite E, <- S. destruct s; split; intros; congruence.
Qed.
(** two units with e4 in its best state, otherwise one unit along each way *)
Example C79_main_ex :
  nx_flow2_ok nx_lp2 /\ links_ok false dls /\
  (forall x, In x (link_space dls) -> (dmeets x = true <-> exists phi v, sends2 false (link_net dls x) phi "n1" "n3" v /\ (Q2Qc 2 <= v)%Qc)) /\
  match mf_main nx_lp2 dls "n1" "n3" (Q2Qc 2) false (mkCfg 100 None 0%Qc None true true) with
  | Ok s => m_out_flag (s_mon s) = Some O_complete /\ this (last (m_pf_low (s_mon s)) 0%Qc) = this (p_short dls dmeets) /\
            this (p_short dls dmeets) = (6 # 25)%Q /\ r_s (s_rules s) = [[("e1", 1); ("e2", 1); ("e4", 1)]; [("e4", 2)]]
  | Err _ => False
  end.
Proof. split; [exact nx_lp2_ok|]. split; [exact dls_ok|]. split; [exact dmeets_ok|]. vm_compute. auto 8. Qed.

(** Two components from the same to the same node: the second takes the place of the first, with and without
    directions, so that a flow that exists is not found. *)
Theorem C79_parallel_refuted :
  forall bi, exists nx_flow edges varis x o d target w, nx_flow2_ok nx_flow /\ keys edges = keys varis /\ caps_ok varis /\ wf_varis varis /\ In x (space (comps_of varis)) /\
    sends2 bi (network2 edges varis x) w o d target /\ fshow (max_flow_fun nx_flow x o d edges varis target bi) = Some (0%Q, F_, Some []).
Proof.
  intros bi. exists nx_lp2, par, par_v, [("e1", 1); ("e2", 0)], "n1", "n2", (Q2Qc 1), [Q2Qc 1; 0%Qc]. split; [exact nx_lp2_ok|]. split; [reflexivity|].
  split; [apply (caps_b_ok _ (repeat [0%Qc; Q2Qc 1] 2)); [reflexivity|vm_compute; reflexivity]|].
  split; [split; [repeat constructor; cbn; intuition discriminate|]; intros k v [H|[H|[]]]; injection H as <- <-; cbn; lia|].
  split; [vm_compute; tauto|]. split; [|destruct bi; vm_compute; reflexivity]. split; [|split].
  - destruct bi; repeat constructor; vm_compute; congruence.
  - intros n N1 N2. unfold net. cbn -[Qcplus Qcminus String.eqb].
    destruct (String.eqb_spec "n1" n); [congruence|]. destruct (String.eqb_spec "n2" n); [congruence|]. apply Qc_is_canon. reflexivity.
  - apply Qc_is_canon. vm_compute. reflexivity.
Qed.
Print Assumptions C79_parallel_refuted.

(** Two edges with opposite directions are kept apart in a network with directions (example above); without
    directions the second takes the place of the first. *)
Theorem C79_opposite_refuted :
  exists nx_flow edges varis x o d target w, nx_flow2_ok nx_flow /\ edges2_ok false edges varis /\ caps_ok varis /\ wf_varis varis /\ In x (space (comps_of varis)) /\
    sends2 true (network2 edges varis x) w o d target /\ fshow (max_flow_fun nx_flow x o d edges varis target true) = Some (1%Q, F_, Some []).
Proof.
  exists nx_lp2, anti, par_v, [("e1", 1); ("e2", 1)], "n1", "n2", (Q2Qc 2), [Q2Qc 1; Q2Qc (-1)]. split; [exact nx_lp2_ok|]. split.
  { split; [reflexivity|]. split.
    - intros k u v [E|[E|[]]]; injection E as <- <- <-; repeat split; discriminate.
    - intros k k' u v [E|[E|[]]] [J|[X _]]; try discriminate X; injection E as <- <- <-; destruct J as [J|[J|[]]]; injection J; intros; congruence. }
  split; [apply (caps_b_ok _ (repeat [0%Qc; Q2Qc 1] 2)); [reflexivity|vm_compute; reflexivity]|].
  split; [split; [repeat constructor; cbn; intuition discriminate|]; intros k v [H|[H|[]]]; injection H as <- <-; cbn; lia|].
  split; [vm_compute; tauto|]. split; [|vm_compute; reflexivity]. split; [|split].
  - repeat constructor; vm_compute; congruence.
  - intros n N1 N2. unfold net. cbn -[Qcplus Qcminus String.eqb].
    destruct (String.eqb_spec "n1" n); [congruence|]. destruct (String.eqb_spec "n2" n); [congruence|]. apply Qc_is_canon. reflexivity.
  - apply Qc_is_canon. vm_compute. reflexivity.
Qed.
Print Assumptions C79_opposite_refuted.

(** A capacity that decreases with the state: the rule of a vector that meets the target holds for a vector
    that does not. *)
Theorem C79_decreasing_refuted :
  forall bi, exists nx_flow edges varis x y o d target r, nx_flow2_ok nx_flow /\ edges2_ok bi edges varis /\ wf_varis varis /\
    In x (space (comps_of varis)) /\ In y (space (comps_of varis)) /\
    fshow (max_flow_fun nx_flow x o d edges varis target bi) = Some (1%Q, S_, Some r) /\
    (forall k z, dfind r k = Some z -> exists z', dfind y k = Some z' /\ z <= z') /\
    fshow (max_flow_fun nx_flow y o d edges varis target bi) = Some (0%Q, F_, Some []).
Proof.
  intros bi. exists nx_lp2, [("e1", ("n1", "n2"))], dec_v, [("e1", 0)], [("e1", 1)], "n1", "n2", (Q2Qc 1), [("e1", 0)]. split; [exact nx_lp2_ok|]. split.
  { split; [reflexivity|]. split.
    - intros k u v [E|[]]; injection E as <- <- <-; repeat split; discriminate.
    - intros k k' u v [E|[]] J; injection E as <- <- <-; destruct J as [[J|[]]|[_ [J|[]]]]; injection J; intros; congruence. }
  split; [split; [repeat constructor; cbn; intuition discriminate|]; intros k v [H|[]]; injection H as <- <-; cbn; lia|].
  split; [vm_compute; tauto|]. split; [vm_compute; tauto|]. split; [destruct bi; vm_compute; reflexivity|]. split; [|destruct bi; vm_compute; reflexivity].
  intros k z E. cbn in E. destruct (String.eqb_spec k "e1") as [->|]; [|discriminate E]. injection E as <-. exists 1. split; [reflexivity|lia].
Qed.
Print Assumptions C79_decreasing_refuted.
