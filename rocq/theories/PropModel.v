(** Final theorem C25: the branch search and the inference engine give the same
    probabilities of the system event (Model.v). *)
From Coq Require Import ZArith List String Bool QArith Qcanon Lia.
From Verif Require Import Py Num Vari VariFacts Brc SpecBrc BrcRun BrcMain BrcProper Cpm SpecCpm CpmProb Model ModelFacts PropBrc.
Import ListNotations.
Open Scope string_scope.
Open Scope Z_scope.
Open Scope list_scope.

(** * C25 *)

(** The components are made by [Variable(name, values)] with a stored table of
    composite states (up to six values, or B_flag 'store'), under their own
    names; the system variable has a further name, and [conv] numbers three of
    its states.  The search may have been resumed from branches with compatible
    labels.  Then the system CPM exists, elimination succeeds, and the three
    states of the system get exactly pf_low, 1 - pf_up and the width of the
    bounds.  Missing: components without a stored table (next theorem). *)
Theorem C25_system_event_partial :
  forall varis probs phi sys_fun g rules brs s vsys conv,
    wf_varis varis -> wf_probs varis probs -> sys_ok varis phi sys_fun -> start_ok varis probs phi rules brs ->
    (forall b, brs = Some b -> proper_labels b) ->
    0 < g_max_sf g -> run varis probs sys_fun g rules brs = Ok s ->
    (forall k v, In (k, v) varis -> exists values flag, v = mk_variable k values flag /\ v_B v <> None) ->
    ~ In (v_name vsys) (keys varis) -> basic_table vsys -> var_ok vsys ->
    (forall l, 0 <= conv l < nvals vsys) -> (forall l m, conv l = conv m -> l = m) ->
    exists b rows cpms M,
      s_brs s = Some b /\ proper_labels b /\
      get_csys b varis (fun l => Ok (conv l)) = Ok (rows, varis) /\
      build_cpms vsys varis probs rows = Ok cpms /\
      let q l := compute_prob cpms (varis ++ [(v_name vsys, vsys)]) (keys varis) (v_name vsys) (SI (conv l)) true in
      let low := last (m_pf_low (s_mon s)) 0%Qc in
      let up := last (m_pf_up (s_mon s)) 0%Qc in
      q F_ = Ok (low, M) /\ q S_ = Ok ((1 - up)%Qc, M) /\ q U_ = Ok ((up - low)%Qc, M).
Proof.
  intros varis probs phi sys_fun g rules brs s vsys conv Hw Hp Hs (Hr & Hsr & Hb) Hpr Hm H Hv Hsn Hsb Hsv Hcr Hci.
  destruct (main_resume varis probs phi sys_fun g rules brs Hw Hp Hs Hr Hsr Hb s Hm H) as (_ & _ & b & Eb & Vb & Pb & _ & L & U).
  assert (Pr : proper_labels b).
  { assert (P := run_proper varis probs Hw Hp phi sys_fun Hs g rules brs Hr Hsr Hb s).
    assert (P0 : proper_o brs) by (intros b0 E0; apply Forall_forall; intros b1; apply (Hpr b0 E0)).
    specialize (P P0 H b Eb). rewrite Forall_forall in P. exact P. }
  assert (Hst : forall k v, In (k, v) varis -> v_name v = k /\ stored v).
  { intros k v Hin. destruct (Hv k v Hin) as (values & flag & -> & HB). split; auto. unfold stored.
    destruct (mk_variable_B k values flag) as [E|E]; [rewrite E; auto|congruence]. }
  destruct Vb as (V1 & V2 & V3 & V4).
  destruct (system_event varis probs vsys conv b Hw Hp Hst Hsn Hsb Hsv Hcr Hci V1 V2 Pb Pr) as (rows & cpms & M & E1 & E2 & Q).
  exists b, rows, cpms, M. split; auto. split; auto. split; auto. split; auto. cbv zeta in *. rewrite L, U.
  destruct Q as (QF & QS & QU). split; auto. split; [rewrite QS|rewrite QU]; f_equal; f_equal; ring.
Qed.
Print Assumptions C25_system_event_partial.

(** The example system of PropBrc.v, searched with at most five calls of the
    system function (so that the bounds do not meet) and completely. *)
Definition ex_vsys : variable := mk_variable "sys" [VStr "f"; VStr "s"; VStr "u"] None.
Definition ex_event (g : config) : list (res Qc) :=
  match run ex_varis ex_probs ex_sys g None None with
  | Ok s =>
      match s_brs s with
      | Some b =>
          match get_csys b ex_varis (fun l => Ok (ex_conv l)) with
          | Ok (rows, varis') =>
              match build_cpms ex_vsys varis' ex_probs rows with
              | Ok cpms => map (fun l => match compute_prob cpms (varis' ++ [("sys", ex_vsys)]) (keys varis') "sys" (SI (ex_conv l)) true with
                                         | Ok (q, _) => Ok q | Err e => Err e end) [F_; S_; U_]
              | Err e => [Err e] end
          | Err e => [Err e] end
      | None => [] end
  | Err e => [Err e] end.
Definition ex_bounds (g : config) : list Q :=
  match run ex_varis ex_probs ex_sys g None None with
  | Ok s => [this (last (m_pf_low (s_mon s)) 0%Qc); this (last (m_pf_up (s_mon s)) 0%Qc)]
  | Err _ => [] end.
Definition shown (r : res Qc) : option Q := match r with Ok q => Some (this q) | Err _ => None end.

Example C25_system_event_partial_ex :
  (forall k v, In (k, v) ex_varis -> exists values flag, v = mk_variable k values flag /\ v_B v <> None) /\
  ~ In (v_name ex_vsys) (keys ex_varis) /\ basic_table ex_vsys /\ var_ok ex_vsys /\
  (forall l, 0 <= ex_conv l < nvals ex_vsys) /\ (forall l m, ex_conv l = ex_conv m -> l = m) /\
  ex_bounds (mkCfg 5 None 0%Qc None false true) = [2 # 25; 4 # 25]%Q /\
  map shown (ex_event (mkCfg 5 None 0%Qc None false true)) = [Some (2 # 25); Some (21 # 25); Some (2 # 25)]%Q /\
  ex_bounds (mkCfg 100 None 0%Qc None true true) = [1 # 10; 1 # 10]%Q /\
  map shown (ex_event (mkCfg 100 None 0%Qc None true true)) = [Some (1 # 10); Some (9 # 10); Some (0 # 1)]%Q.
Proof.
  split; [|split; [|split; [|split; [|split; [|split; [|split; [|split; [|split]]]]]]]].
  - intros k v [H|[H|[H|[]]]]; injection H as <- <-; eexists; eexists; (split; [reflexivity|vm_compute; congruence]).
  - cbn. intuition congruence.
  - eexists. split; [reflexivity|]. intros x Hx. assert (Hx' : x = 0 \/ x = 1 \/ x = 2) by (change (nvals ex_vsys) with 3 in Hx; lia).
    destruct Hx' as [->|[->| ->]]; eexists; (split; [reflexivity|intros y; cbn; intuition]).
  - apply (mk_variable_ok _ _ _ (gen_B 3)). reflexivity.
  - intros []; vm_compute; intuition congruence.
  - intros [] []; cbn; congruence.
  - vm_compute. reflexivity.
  - vm_compute. reflexivity.
  - vm_compute. reflexivity.
  - vm_compute. reflexivity.
Qed.

(** A component with seven states has no stored table; [get_csys] raises a
    TypeError on the first branch that spans two of its states. *)
Theorem C25_no_table_refuted :
  exists varis probs phi sys_fun g s b,
    wf_varis varis /\ wf_probs varis probs /\ sys_ok varis phi sys_fun /\
    (forall k v, In (k, v) varis -> exists values, v = mk_variable k values None) /\
    run varis probs sys_fun g None None = Ok s /\ s_brs s = Some b /\
    forall conv, get_csys b varis (fun l => Ok (conv l)) = Err TypeError.
Proof.
  set (v7 := exv "x" 7).
  set (phi := fun x : dict Z => 3 <=? coord x "x").
  set (sf := fun x : dict Z => (0%Qc, (if phi x then S_ else F_), Some [("x", if phi x then 3 else 2)]) : Qc * st * option (dict Z)).
  exists [("x", v7)], [("x", PList (repeat (Q2Qc (1 # 7)) 7))], phi, sf, (mkCfg 100 None 0%Qc None true true).
  eexists. eexists.
  split.
  { split; [repeat (constructor; [cbn; tauto|]); constructor|]. intros k v [H|[]]. injection H as <- <-. vm_compute. congruence. }
  split.
  { intros k v [H|[]]. injection H as <- <-. split; [|apply Qc_is_canon; vm_compute; reflexivity].
    eexists. split; [reflexivity|]. intros x Hx. change (nvals v7) with 7 in Hx.
    assert (C : x = 0 \/ x = 1 \/ x = 2 \/ x = 3 \/ x = 4 \/ x = 5 \/ x = 6) by lia.
    destruct C as [->|[->|[->|[->|[->|[->| ->]]]]]]; eexists; (split; [reflexivity|vm_compute; congruence]). }
  split.
  { split.
    - intros x y _ _ L H. unfold phi in *. specialize (L "x" (or_introl eq_refl)). apply Z.leb_le in H. apply Z.leb_le. lia.
    - intros x Hx. unfold sf. eexists; eexists; split; [reflexivity|]. intros r Hr _. injection Hr as <-.
      split; [split; [repeat (constructor; [cbn; tauto|]); constructor|intros k Hk; exact Hk]|]. unfold phi in *.
      split; intros E; rewrite E; (split; [cbn [sat_s sat_f forallb fst snd]; rewrite andb_true_r; lia|]);
        intros y _ Hy; cbn [sat_s sat_f forallb fst snd] in Hy; rewrite andb_true_r in Hy; lia. }
  split. { intros k v [H|[]]. injection H as <- <-. eexists. reflexivity. }
  split; [vm_compute; reflexivity|]. split; [reflexivity|]. intros conv. reflexivity.
Qed.
Print Assumptions C25_no_table_refuted.
