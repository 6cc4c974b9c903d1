(** Final theorems about maximum flow (C72). *)
From Coq Require Import ZArith List String Bool Arith Lia QArith Qcanon.
From Verif Require Import Py PyFacts Num Vari VariFacts Brc SpecBrc BrcFacts NetSys Flow SpecFlow Lp FlowFacts FlowRef PropTrans.
Import ListNotations.
Open Scope string_scope.
Open Scope Z_scope.
Open Scope list_scope.

(** The value that is returned is the greatest flow between the nodes of the pair, cut off at the target; the state
    is survival if and only if the target is reached.  The rule keeps for every component the least
    state that carries its part of one flow that meets the target. *)
Theorem C72_max_flow :
  forall nx_flow edges varis o d target x, nx_flow_ok nx_flow -> edges_ok edges varis -> caps_ok varis -> wf_varis varis ->
    (exists k, In k (keys varis) /\ (fst (ends edges k) = o \/ snd (ends edges k) = o)) -> o <> d -> d <> "new_t" -> (0 <= target)%Qc ->
    In x (space (comps_of varis)) ->
    exists val s m, max_flow nx_flow x target o d edges varis = Ok (val, s, m) /\
      (val <= target)%Qc /\ (exists phi, sends (network edges varis x) phi o d val) /\
      (forall phi v, sends (network edges varis x) phi o d v -> (v <= val)%Qc \/ val = target) /\
      (s = S_ <-> exists phi v, sends (network edges varis x) phi o d v /\ (target <= v)%Qc) /\
      ((s = S_ /\ exists r phi, m = Some r /\ sends (network edges varis x) phi o d target /\ carries varis x phi r) \/ (s = F_ /\ m = None)).
Proof.
  intros nx_flow edges varis o d target x Hn He Hc Hv Ho Hod Hd Ht Hx.
  destruct (max_flow_ok edges varis o d target nx_flow He Hc Hv Hn Ho Hod Hd Ht x Hx) as (val & s & m & E & L & W & M & C).
  exists val, s, m. split; auto. split; auto. split; auto. split; auto. split.
  - split.
    + intros ->. destruct C as [(_ & -> & _)|(X & _)]; [|discriminate X]. destruct W as [phi W]. exists phi, target. split; [auto|apply Qcle_refl].
    + intros (phi & v & S & T). destruct C as [(-> & _)|(_ & Lt & _)]; auto. exfalso. destruct (M phi v S) as [X|X]; [|rewrite X in Lt]; qc_lra.
  - destruct C as [(-> & _ & C)|(-> & _ & C)]; auto.
Qed.
Print Assumptions C72_max_flow.

(** every vector at or above the rule meets the target *)
Theorem C72_rule :
  forall edges varis o d target x y phi r, edges_ok edges varis -> caps_ok varis -> wf_varis varis ->
    In x (space (comps_of varis)) -> In y (space (comps_of varis)) -> sends (network edges varis x) phi o d target -> carries varis x phi r ->
    (forall k z, dfind r k = Some z -> exists z', dfind y k = Some z' /\ z <= z') -> sends (network edges varis y) phi o d target.
Proof.
  intros edges varis o d target x y phi r He Hc Hv Hx Hy S C L. apply (carries_sound edges varis o d Hc Hv x y phi r target Hx Hy S C).
  intros k z E. destruct (L k z E) as (z' & E' & Le). unfold coord. rewrite E'. auto.
Qed.
Print Assumptions C72_rule.

(** The search with this system function encloses the probability that the target cannot be met;
    a complete search returns it. *)
Theorem C72_bounds :
  forall nx_flow edges varis o d target probs (phi : dict Z -> bool) g, nx_flow_ok nx_flow -> edges_ok edges varis -> caps_ok varis -> wf_varis varis ->
    wf_probs varis probs ->
    (exists k, In k (keys varis) /\ (fst (ends edges k) = o \/ snd (ends edges k) = o)) -> o <> d -> d <> "new_t" -> (0 <= target)%Qc ->
    (forall x, In x (space (comps_of varis)) -> (phi x = true <-> exists w v, sends (network edges varis x) w o d v /\ (target <= v)%Qc)) ->
    g_surv_first g = true -> 1 <= g_max_sf g ->
    exists s, run varis probs (flow_sysfun nx_flow target o d edges varis) g None None = Ok s /\
      (last (m_pf_low (s_mon s)) 0 <= p_fail varis probs phi)%Qc /\ (p_fail varis probs phi <= last (m_pf_up (s_mon s)) 0)%Qc /\
      (g_max_nb g = None -> m_out_flag (s_mon s) = Some O_complete ->
         last (m_pf_low (s_mon s)) 0%Qc = p_fail varis probs phi /\ last (m_pf_up (s_mon s)) 0%Qc = p_fail varis probs phi).
Proof.
  intros nx_flow edges varis o d target probs phi g Hn He Hc Hv Wp Ho Hod Hd Ht Hp Sf Mx. apply (net_bounds varis probs phi _ g Hv Wp); auto.
  apply flow_sys_ok; auto.
Qed.
Print Assumptions C72_bounds.

(** the network of the docstring, capacities 0, 1 and 2 *)
Definition fedges : dict (string * string) := [("e1", ("n1", "n2")); ("e2", ("n1", "n3")); ("e3", ("n2", "n3")); ("e4", ("n2", "n4")); ("e5", ("n3", "n4"))].
Definition fvaris : dict variable := map (fun k => (k, mk_variable k [VNum 0%Qc; VNum (Q2Qc 1); VNum (Q2Qc 2)] None)) (keys fedges).
Definition fshow (r : res (Qc * st * option (dict Z))) : option (Q * st * option (dict Z)) :=
  match r with Ok (v, s, m) => Some (this v, s, m) | Err _ => None end.
Definition edges_b (edges : dict (string * string)) (ks : list string) : bool :=
  forallb (fun k => match dfind edges k with Some (u, v) => negb (String.eqb u v) && negb (String.eqb u "new_t") && negb (String.eqb v "new_t") | None => false end) ks &&
  forallb (fun k => forallb (fun k' => String.eqb k k' || match dfind edges k, dfind edges k' with
     | Some (u, v), Some (u', v') => negb ((String.eqb u' u && String.eqb v' v) || (String.eqb u' v && String.eqb v' u)) | _, _ => false end) ks) ks.
Lemma edges_b_ok edges varis : edges_b edges (keys varis) = true -> edges_ok edges varis.
Proof.
  unfold edges_b. intros H. apply andb_true_iff in H as [H1 H2]. rewrite forallb_forall in H1, H2. split.
  - intros k I. specialize (H1 k I). destruct (dfind edges k) as [[u v]|]; [|discriminate H1]. exists u, v.
    apply andb_true_iff in H1 as [H1 H3]. apply andb_true_iff in H1 as [H1 H4].
    destruct (String.eqb_spec u v), (String.eqb_spec u "new_t"), (String.eqb_spec v "new_t"); try discriminate; auto.
  - intros k k' u v I I' E E'. specialize (H2 k I). rewrite forallb_forall in H2. specialize (H2 k' I'). destruct (String.eqb_spec k k'); auto.
    cbn [orb] in H2. rewrite E in H2. destruct E' as [E'|E']; rewrite E' in H2; rewrite !String.eqb_refl in H2; rewrite ?orb_true_r in H2; discriminate H2.
Qed.
Definition caps_b (l : list Qc) : bool :=
  forallb (fun c => qc_leb 0 c) l && forallb (fun i => forallb (fun j => (j <? i)%nat || qc_leb (nth i l 0%Qc) (nth j l 0%Qc)) (seq 0 (List.length l))) (seq 0 (List.length l)).
Lemma caps_b_ok varis css : map (fun kv => v_values (snd kv)) varis = map (map VNum) css -> forallb caps_b css = true -> caps_ok varis.
Proof.
  intros E H k v I. assert (X : In (v_values v) (map (map VNum) css)) by (rewrite <- E; apply in_map_iff; exists (k, v); auto).
  apply in_map_iff in X as (cs & Ec & Ic). exists cs. split; auto. rewrite forallb_forall in H. specialize (H cs Ic).
  apply andb_true_iff in H as [H1 H2]. rewrite forallb_forall in H1, H2. split; [intros c Hc; apply qc_leb_le; auto|].
  intros i j c c' L E1 E2. assert (Li : (i < List.length cs)%nat) by (apply nth_error_Some; congruence). assert (Lj : (j < List.length cs)%nat) by (apply nth_error_Some; congruence).
  specialize (H2 i). rewrite forallb_forall in H2. assert (Y := H2 ltac:(apply in_seq; lia) j ltac:(apply in_seq; lia)).
  destruct (Nat.ltb_spec j i); [lia|]. cbn [orb] in Y. apply qc_leb_le in Y.
  rewrite (nth_error_nth cs i 0%Qc E1), (nth_error_nth cs j 0%Qc E2) in Y. auto.
Qed.
Definition fx (a b c d e : Z) : dict Z := [("e1", a); ("e2", b); ("e3", c); ("e4", d); ("e5", e)].
Lemma fvaris_wf : wf_varis fvaris.
Proof. split; [repeat constructor; cbn; intuition discriminate|]. intros k v [H|[H|[H|[H|[H|[]]]]]]; injection H as <- <-; cbn; lia. Qed.
Example C72_max_flow_ex :
  nx_flow_ok nx_lp /\ edges_ok fedges fvaris /\ caps_ok fvaris /\ wf_varis fvaris /\ In (fx 1 2 1 2 2) (space (comps_of fvaris)) /\
  fshow (max_flow nx_lp (fx 1 2 1 2 2) (Q2Qc 3) "n1" "n4" fedges fvaris) = Some (3%Q, S_, Some [("e1", 1); ("e2", 2); ("e4", 1); ("e5", 2)]) /\
  fshow (max_flow nx_lp (fx 2 0 1 1 2) (Q2Qc 2) "n1" "n4" fedges fvaris) = Some (2%Q, S_, Some [("e1", 2); ("e3", 1); ("e4", 1); ("e5", 1)]) /\
  fshow (max_flow nx_lp (fx 2 0 1 1 0) (Q2Qc 2) "n1" "n4" fedges fvaris) = Some (1%Q, F_, None).
Proof.
  split; [exact nx_lp_ok|]. split; [apply edges_b_ok; vm_compute; reflexivity|].
  split; [apply (caps_b_ok _ (repeat [0%Qc; Q2Qc 1; Q2Qc 2] 5)); [reflexivity|vm_compute; reflexivity]|]. split; [exact fvaris_wf|].
  split; [vm_compute; tauto|]. split; [|split]; vm_compute; reflexivity.
Qed.

Example C72_rule_ex :
  sends (network fedges fvaris (fx 2 0 1 1 2)) (map Q2Qc [2; 0; 1; 1; 1]%Q) "n1" "n4" (Q2Qc 2) /\
  carries fvaris (fx 2 0 1 1 2) (map Q2Qc [2; 0; 1; 1; 1]%Q) [("e1", 2); ("e3", 1); ("e4", 1); ("e5", 1)] /\
  (forall k z, dfind [("e1", 2); ("e3", 1); ("e4", 1); ("e5", 1)] k = Some z -> exists z', dfind (fx 2 1 2 1 1) k = Some z' /\ z <= z').
Proof.
  split; [split; [|split]|split].
  - repeat constructor; vm_compute; congruence.
  - intros n N1 N2. unfold net. cbn -[Qcplus Qcminus String.eqb].
    repeat match goal with |- context [ends fedges ?k] => let r := eval vm_compute in (ends fedges k) in change (ends fedges k) with r end. cbn [fst snd].
    destruct (String.eqb_spec "n1" n); [congruence|]. destruct (String.eqb_spec "n4" n); [congruence|].
    destruct (String.eqb_spec "n2" n); destruct (String.eqb_spec "n3" n); subst; try discriminate; apply Qc_is_canon; reflexivity.
  - apply Qc_is_canon. vm_compute. reflexivity.
  - split; [repeat constructor; cbn; intuition discriminate|]. split; [intros k [<-|[<-|[<-|[<-|[]]]]]; cbn; tauto|].
    intros [|[|[|[|[|i]]]]] k s w E1 E2; try (destruct i; discriminate E1); injection E1 as <- <-; injection E2 as <-; cbn [dfind String.eqb Ascii.eqb Bool.eqb].
    all: try (apply Qc_is_canon; vm_compute; reflexivity).
    all: split; [discriminate|]; split; [lia|]; split; [split; vm_compute; congruence|].
    all: intros z' Hz [F1 F2].
    { assert (z' = 0 \/ z' = 1) as [-> | ->] by lia; vm_compute in F2; congruence. }
    all: assert (z' = 0) as -> by lia; vm_compute in F2; congruence.
  - intros k z E. cbn [dfind] in E.
    repeat match type of E with (if String.eqb k ?c then _ else _) = _ => destruct (String.eqb_spec k c) as [->|]; [injection E as <-; eexists; split; [reflexivity|lia]|] end. discriminate E.
Qed.

(** a triangle: one unit along each side of n1 to n3, or two directly *)
Definition tri : dict (string * string) := [("e1", ("n1", "n2")); ("e2", ("n2", "n3")); ("e3", ("n1", "n3"))].
Definition tri_v : dict variable := map (fun k => (k, mk_variable k [VNum 0%Qc; VNum (Q2Qc 1); VNum (Q2Qc 2)] None)) (keys tri).
Definition tri_p : prob_dict := map (fun kv => (fst kv, PList [Q2Qc (1#10); Q2Qc (3#10); Q2Qc (6#10)])) tri_v.
Definition tri_sys : sysfun := flow_sysfun nx_lp (Q2Qc 2) "n1" "n3" tri tri_v.
Definition tri_phi (x : dict Z) : bool := match max_flow nx_lp x (Q2Qc 2) "n1" "n3" tri tri_v with Ok (_, S_, _) => true | _ => false end.
Lemma tri_wf : edges_ok tri tri_v /\ caps_ok tri_v /\ wf_varis tri_v /\ wf_probs tri_v tri_p /\
  (exists k, In k (keys tri_v) /\ (fst (ends tri k) = "n1" \/ snd (ends tri k) = "n1")).
Proof.
  split; [apply edges_b_ok; vm_compute; reflexivity|].
  split; [apply (caps_b_ok _ (repeat [0%Qc; Q2Qc 1; Q2Qc 2] 3)); [reflexivity|vm_compute; reflexivity]|]. split; [|split].
  - split; [repeat constructor; cbn; intuition discriminate|]. intros k v [H|[H|[H|[]]]]; injection H as <- <-; cbn; lia.
  - intros k v [H|[H|[H|[]]]]; injection H as <- <-;
      (split; [eexists; split; [reflexivity|]; intros x Hx; change (nvals _) with 3 in Hx|apply Qc_is_canon; vm_compute; reflexivity]);
      (assert (x = 0 \/ x = 1 \/ x = 2) as [->| [->| ->]] by lia; eexists; (split; [reflexivity|vm_compute; congruence])).
  - exists "e1". cbn. auto.
Qed.
Lemma tri_phi_ok x : In x (space (comps_of tri_v)) -> (tri_phi x = true <-> exists w v, sends (network tri tri_v x) w "n1" "n3" v /\ (Q2Qc 2 <= v)%Qc).
Proof.
  intros Hx. destruct tri_wf as (A & B & C & _ & D). unfold tri_phi.
  destruct (C72_max_flow nx_lp tri tri_v "n1" "n3" (Q2Qc 2) x nx_lp_ok A B C D) as (val & s & m & E & _ & _ & _ & S & _); auto; try discriminate.
  rewrite E, <- S. destruct s; split; intros; congruence.
Qed.
Example C72_bounds_ex :
  nx_flow_ok nx_lp /\ edges_ok tri tri_v /\ caps_ok tri_v /\ wf_varis tri_v /\ wf_probs tri_v tri_p /\
  (forall x, In x (space (comps_of tri_v)) -> (tri_phi x = true <-> exists w v, sends (network tri tri_v x) w "n1" "n3" v /\ (Q2Qc 2 <= v)%Qc)) /\
  match run tri_v tri_p tri_sys (mkCfg 100 None 0%Qc None true true) None None with
  | Ok s => m_out_flag (s_mon s) = Some O_complete /\ this (last (m_pf_low (s_mon s)) 0%Qc) = this (p_fail tri_v tri_p tri_phi) /\
            this (p_fail tri_v tri_p tri_phi) = (121 # 1000)%Q /\ r_s (s_rules s) = [[("e3", 2)]; [("e1", 1); ("e2", 1); ("e3", 1)]; [("e1", 2); ("e2", 2)]]
  | Err _ => False
  end.
Proof.
  destruct tri_wf as (A & B & C & D & _). split; [exact nx_lp_ok|]. repeat (split; [assumption|]). split; [exact tri_phi_ok|]. vm_compute. auto 8.
Qed.

(** Two components between the same nodes: the second takes the place of the first, so that a flow that
    exists is not found, although both components are there. *)
Definition par : dict (string * string) := [("e1", ("n1", "n2")); ("e2", ("n1", "n2"))].
Definition par_v : dict variable := map (fun k => (k, mk_variable k [VNum 0%Qc; VNum (Q2Qc 1)] None)) (keys par).
Theorem C72_parallel_refuted :
  exists nx_flow edges varis x o d target w, nx_flow_ok nx_flow /\ caps_ok varis /\ wf_varis varis /\ In x (space (comps_of varis)) /\
    sends (network edges varis x) w o d target /\ fshow (max_flow nx_flow x target o d edges varis) = Some (1%Q, F_, None).
Proof.
  exists nx_lp, par, par_v, [("e1", 1); ("e2", 1)], "n1", "n2", (Q2Qc 2), [Q2Qc 1; Q2Qc 1]. split; [exact nx_lp_ok|].
  split; [apply (caps_b_ok _ (repeat [0%Qc; Q2Qc 1] 2)); [reflexivity|vm_compute; reflexivity]|].
  split; [split; [repeat constructor; cbn; intuition discriminate|]; intros k v [H|[H|[]]]; injection H as <- <-; cbn; lia|].
  split; [vm_compute; tauto|]. split; [|vm_compute; reflexivity]. split; [|split].
  - repeat constructor; vm_compute; congruence.
  - intros n N1 N2. unfold net. cbn [network map combine par_v par keys fst snd]. cbn -[Qcplus Qcminus String.eqb].
    repeat match goal with |- context [ends par ?k] => let r := eval vm_compute in (ends par k) in change (ends par k) with r end. cbn [fst snd].
    destruct (String.eqb_spec "n1" n); [congruence|]. destruct (String.eqb_spec "n2" n); [congruence|]. apply Qc_is_canon. reflexivity.
  - apply Qc_is_canon. vm_compute. reflexivity.
Qed.
Print Assumptions C72_parallel_refuted.

(** the same for two components with opposite directions, which is all the same to the flow *)
Definition anti : dict (string * string) := [("e1", ("n1", "n2")); ("e2", ("n2", "n1"))].
Theorem C72_antiparallel_refuted :
  exists nx_flow edges varis x o d target w, nx_flow_ok nx_flow /\ caps_ok varis /\ wf_varis varis /\ In x (space (comps_of varis)) /\
    (forall k u v k', dfind edges k = Some (u, v) -> dfind edges k' = Some (u, v) -> k = k') /\
    sends (network edges varis x) w o d target /\ fshow (max_flow nx_flow x target o d edges varis) = Some (1%Q, F_, None).
Proof.
  exists nx_lp, anti, par_v, [("e1", 1); ("e2", 1)], "n1", "n2", (Q2Qc 2), [Q2Qc 1; Q2Qc (-1)]. split; [exact nx_lp_ok|].
  split; [apply (caps_b_ok _ (repeat [0%Qc; Q2Qc 1] 2)); [reflexivity|vm_compute; reflexivity]|].
  split; [split; [repeat constructor; cbn; intuition discriminate|]; intros k v [H|[H|[]]]; injection H as <- <-; cbn; lia|].
  split; [vm_compute; tauto|]. split.
  { intros k u v k'. cbn [anti dfind]. destruct (String.eqb_spec k "e1") as [->|]; [|destruct (String.eqb_spec k "e2") as [->|]; [|discriminate]];
    (destruct (String.eqb_spec k' "e1") as [->|]; [|destruct (String.eqb_spec k' "e2") as [->|]; [|discriminate]]); intros; congruence. }
  split; [|vm_compute; reflexivity]. split; [|split].
  - repeat constructor; vm_compute; congruence.
  - intros n N1 N2. unfold net. cbn [network map combine par_v par keys fst snd]. cbn -[Qcplus Qcminus String.eqb].
    repeat match goal with |- context [ends anti ?k] => let r := eval vm_compute in (ends anti k) in change (ends anti k) with r end. cbn [fst snd].
    destruct (String.eqb_spec "n1" n); [congruence|]. destruct (String.eqb_spec "n2" n); [congruence|]. apply Qc_is_canon. reflexivity.
  - apply Qc_is_canon. vm_compute. reflexivity.
Qed.
Print Assumptions C72_antiparallel_refuted.

(** With capacities that decrease with the state the rule is wrong. *)
Definition dec_v : dict variable := [("e1", mk_variable "e1" [VNum (Q2Qc 1); VNum 0%Qc] None)].
Theorem C72_decreasing_refuted :
  exists nx_flow edges varis x y o d target r, nx_flow_ok nx_flow /\ edges_ok edges varis /\ wf_varis varis /\
    In x (space (comps_of varis)) /\ In y (space (comps_of varis)) /\
    fshow (max_flow nx_flow x target o d edges varis) = Some (1%Q, S_, Some r) /\
    (forall k z, dfind r k = Some z -> exists z', dfind y k = Some z' /\ z <= z') /\
    fshow (max_flow nx_flow y target o d edges varis) = Some (0%Q, F_, None).
Proof.
  exists nx_lp, par, dec_v, [("e1", 0)], [("e1", 1)], "n1", "n2", (Q2Qc 1), [("e1", 0)]. split; [exact nx_lp_ok|].
  split; [apply edges_b_ok; vm_compute; reflexivity|].
  split; [split; [repeat constructor; cbn; intuition discriminate|]; intros k v [H|[]]; injection H as <- <-; cbn; lia|].
  split; [vm_compute; tauto|]. split; [vm_compute; tauto|]. split; [vm_compute; reflexivity|]. split; [|vm_compute; reflexivity].
  intros k z E. cbn in E. destruct (String.eqb_spec k "e1") as [->|]; [|discriminate E]. injection E as <-. exists 1. split; [reflexivity|lia].
Qed.
Print Assumptions C72_decreasing_refuted.
