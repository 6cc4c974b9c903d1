(** Final theorems about connection by maximum flow (C92) and about cuts of flow networks (C93). *)
From Coq Require Import ZArith List String Bool Arith Lia QArith Qcanon.
From Verif Require Import Py PyFacts Num Vari VariFacts Brc SpecBrc BrcFacts NetSys Flow SpecFlow FlowFacts FlowRef MaxFlow SpecMaxFlow MaxFlowFacts MaxFlowRef.
From Verif Require Import Trans SpecTrans TransFacts NxPaths SpecCut MinCut RouConn SpecConn RouConnFacts PropTrans PropFlow PropMaxFlow.
Import ListNotations.
Open Scope string_scope.
Open Scope Z_scope.
Open Scope list_scope.

(** ** C92: [conn] of the routine demo *)
(** The state is survival if and only if working arcs lead from [o] to [d].  The rule then asks for state 1 of the arcs of
    one chain that is not longer than any chain of working arcs; if no two arcs have the same ends, these arcs work. *)
Theorem C92_conn :
  forall nx_flow nx_path arcs x o d, nx_flow_ok nx_flow -> nx_path_ok nx_path -> arcs_ok arcs -> states_of arcs x -> o <> d ->
    exists val s m, rou_conn nx_flow nx_path x o d arcs = Ok (val, s, m) /\
      (s = S_ <-> linked arcs x o d) /\ (s = S_ \/ s = F_) /\
      (s = F_ -> val = 0%Qc /\ m = None) /\
      (s = S_ -> (1 <= val)%Qc /\ exists r ks, m = Some r /\ NoDup (keys r) /\ chain arcs o ks d /\
         (forall k z, dfind r k = Some z <-> z = 1 /\ In k ks) /\
         (forall ks', chain arcs o ks' d -> (forall k, In k ks' -> works x k) -> (List.length ks <= List.length ks')%nat) /\
         (single arcs -> forall k, In k ks -> works x k)).
Proof.
  intros nf np arcs x o d Hf Hp Ha Hx Hod. destruct (rou_conn_ok nf np arcs x o d Hf Hp Ha Hx Hod) as (val & s & m & E & C). exists val, s, m. split; auto.
  destruct C as [(-> & L & V & R)|(-> & L & -> & ->)].
  - split; [split; auto|]. split; auto. split; [discriminate|]. auto.
  - split; [split; [discriminate|contradiction]|]. split; auto. split; auto. discriminate.
Qed.
Print Assumptions C92_conn.

(** The value is the least number of arcs that, failing together, separate [d] from [o]. *)
Theorem C92_value :
  forall nx_flow nx_path arcs x o d val s m, nx_flow_ok nx_flow -> nx_path_ok nx_path -> arcs_ok arcs -> states_of arcs x -> o <> d -> single arcs ->
    rou_conn nx_flow nx_path x o d arcs = Ok (val, s, m) ->
    (exists K, NoDup K /\ (forall k, In k K -> works x k) /\ val = qz (Z.of_nat (List.length K)) /\ ~ linked_without arcs x K o d) /\
    forall K, ~ linked_without arcs x K o d -> (val <= qz (Z.of_nat (List.length K)))%Qc.
Proof. intros nf np arcs x o d val s m. apply rou_value. Qed.
Print Assumptions C92_value.

Lemma rou_sys_ok nf np arcs varis o d phi : nx_flow_ok nf -> nx_path_ok np -> arcs_ok arcs -> single arcs -> o <> d -> wf_varis varis -> incl (keys varis) (keys arcs) ->
  (forall x, In x (space (comps_of varis)) -> (phi x = true <-> linked arcs x o d)) -> sys_ok varis phi (rou_sysfun nf np o d arcs).
Proof.
  intros Hf Hp Ha Sa Hod Wv Hi H.
  assert (St : forall x, In x (space (comps_of varis)) -> states_of arcs x /\ keys x = keys varis).
  { intros x Hx. destruct (space_states varis x Wv Hx) as [_ K]. split; auto. unfold states_of. rewrite K. split; auto. apply Wv. }
  split.
  - intros x y Hx Hy L Px. apply H in Px; auto. apply H; auto. destruct Px as (ks & C & W). exists ks. split; auto. intros k Hk. destruct (W k Hk) as (s & F & P).
    destruct (St x Hx) as [_ Kx]. destruct (St y Hy) as [_ Ky]. assert (I : In k (keys x)) by (apply dfind_keys; eauto). rewrite Kx in I. specialize (L k I). rewrite <- Ky in I.
    apply dfind_keys in I as [s' F']. exists s'. split; auto. unfold coord in L. rewrite F, F' in L. lia.
  - intros x Hx. destruct (St x Hx) as [Sx Kx]. destruct (rou_conn_ok nf np arcs x o d Hf Hp Ha Sx Hod) as (val & s & m & E & C). exists val, m. unfold rou_sysfun. rewrite E.
    destruct C as [(-> & L & V & r & ks & -> & N & Ck & R & _ & W)|(-> & L & -> & ->)].
    + assert (P := L). apply H in P; auto. rewrite P. split; auto. intros r' [= <-] _. split; [|split; [|discriminate]].
      * split; auto. intros k Hk. apply dfind_keys in Hk as [z F]. apply R in F as [_ F]. destruct (W Sa k F) as (s & F' & _). rewrite <- Kx. apply dfind_keys. eauto.
      * intros _. split.
        -- unfold sat_s. apply forallb_forall. intros [k z] I. apply In_dfind in I; auto. apply R in I as [-> I]. destruct (W Sa k I) as (s & F & Z). cbn [fst snd]. unfold coord. rewrite F. apply Z.leb_le. lia.
        -- intros y Hy Sy. apply H; auto. exists ks. split; auto. intros k Hk. destruct (St y Hy) as [_ Ky].
           assert (F : dfind r k = Some 1) by (apply R; auto). apply dfind_In in F. unfold sat_s in Sy. rewrite forallb_forall in Sy. specialize (Sy _ F). apply Z.leb_le in Sy. cbn [fst snd] in Sy.
           destruct (W Sa k Hk) as (s & F' & _). assert (I : In k (keys x)) by (apply dfind_keys; eauto). rewrite Kx, <- Ky in I. apply dfind_keys in I as [s' I]. exists s'. split; auto.
           unfold coord in Sy. rewrite I in Sy. lia.
    + destruct (phi x) eqn:P; [apply H in P; auto; contradiction|]. split; auto. discriminate.
Qed.

(** The search with [conn] as system function (line 101, commented out) encloses the probability that [d] is separated
    from [o]; a complete search returns it. *)
Theorem C92_bounds :
  forall nx_flow nx_path arcs varis o d probs (phi : dict Z -> bool) g, nx_flow_ok nx_flow -> nx_path_ok nx_path -> arcs_ok arcs -> single arcs -> o <> d ->
    wf_varis varis -> wf_probs varis probs -> incl (keys varis) (keys arcs) ->
    (forall x, In x (space (comps_of varis)) -> (phi x = true <-> linked arcs x o d)) -> g_surv_first g = true -> 1 <= g_max_sf g ->
    exists s, run varis probs (rou_sysfun nx_flow nx_path o d arcs) g None None = Ok s /\
      (last (m_pf_low (s_mon s)) 0 <= p_fail varis probs phi)%Qc /\ (p_fail varis probs phi <= last (m_pf_up (s_mon s)) 0)%Qc /\
      (g_max_nb g = None -> m_out_flag (s_mon s) = Some O_complete ->
         last (m_pf_low (s_mon s)) 0%Qc = p_fail varis probs phi /\ last (m_pf_up (s_mon s)) 0%Qc = p_fail varis probs phi).
Proof.
  intros nf np arcs varis o d probs phi g Hf Hp Ha Sa Hod Wv Wp Hi H Sf Mx. apply (net_bounds varis probs phi _ g Wv Wp); auto. apply rou_sys_ok; auto.
Qed.
Print Assumptions C92_bounds.

(** an arc that works and is not known raises KeyError *)
Theorem C92_missing :
  forall nx_flow nx_path arcs x o d k, NoDup (keys x) -> (forall k', works x k' -> In k' (keys arcs) \/ k' = k) -> works x k -> ~ In k (keys arcs) ->
    rou_conn nx_flow nx_path x o d arcs = Err KeyError.
Proof.
  intros nf np arcs x o d k N W (s & F & P) Nk. unfold rou_conn, arc_graph.
  assert (X : forall xs g, NoDup (keys xs) -> incl xs x -> In (k, s) xs ->
    foldM (fun g kx => if 0 <? snd kx then uv <- dget arcs (fst kx) ;; Ok (add_edge g (fst uv) (snd uv) 1%Qc) else Ok g) xs g = Err KeyError).
  { induction xs as [|[k' s'] xs IH]; intros g Nx Hi I; [destruct I|]. inversion Nx as [|? ? N1 N2]; subst. cbn [foldM fst snd]. destruct I as [I|I].
    - injection I as -> ->. apply Z.ltb_lt in P. rewrite P. unfold dget. apply dfind_none in Nk. rewrite Nk. reflexivity.
    - assert (Hi' : incl xs x) by (intros z Hz; apply Hi; right; auto). destruct (0 <? s') eqn:P'; [|apply IH; auto]. apply Z.ltb_lt in P'.
      assert (Wk : works x k') by (exists s'; split; auto; apply In_dfind; auto; apply Hi; left; auto). destruct (W k' Wk) as [Hk| ->].
      + apply dfind_keys in Hk as [uv Hk]. apply dget_ok in Hk. rewrite Hk. cbn [bind]. apply IH; auto.
      + exfalso. apply N1. apply in_map_iff. exists (k, s). auto. }
  rewrite X; auto; [intros z; auto|]. apply dfind_In; auto.
Qed.
Print Assumptions C92_missing.

(** the network of the demo *)
Definition rou_arcs : dict (string * string) := fedges.
Definition rshow (r : res (Qc * st * option (dict Z))) : res (Q * st * option (dict Z)) := match r with Ok (v, s, m) => Ok (this v, s, m) | Err e => Err e end.
Lemma rou_arcs_ok : arcs_ok rou_arcs /\ single rou_arcs.
Proof.
  assert (B := edges_b_ok rou_arcs fvaris ltac:(vm_compute; reflexivity)). split; [split|].
  - repeat constructor; cbn; intuition discriminate.
  - intros k u v [E|[E|[E|[E|[E|[]]]]]]; injection E as <- <- <-; discriminate.
  - intros k k' u v [E|[E|[E|[E|[E|[]]]]]]; injection E as <- <- <-; intros [[E|[E|[E|[E|[E|[]]]]]]|[E|[E|[E|[E|[E|[]]]]]]]; congruence.
Qed.
Definition rou_varis : dict variable := map (fun k => (k, mk_variable k [VStr "f"; VStr "s"] None)) ["e1"; "e2"; "e3"].
Definition rou_arcs3 : dict (string * string) := [("e1", ("n1", "n2")); ("e2", ("n2", "n3")); ("e3", ("n1", "n3"))].
Definition rou_prob3 : prob_dict := map (fun k => (k, PList [Q2Qc (1 # 10); Q2Qc (9 # 10)])) ["e1"; "e2"; "e3"].
Example C92_ex :
  nx_flow_ok nx_lp /\ nx_path_ok bf_path /\ arcs_ok rou_arcs /\ single rou_arcs /\ states_of rou_arcs (fx 1 0 1 0 2) /\
  linked rou_arcs (fx 1 0 1 0 2) "n1" "n4" /\
  rshow (rou_conn nx_lp bf_path (fx 1 0 1 0 2) "n1" "n4" rou_arcs) = Ok (1%Q, S_, Some [("e1", 1); ("e3", 1); ("e5", 1)]) /\
  rshow (rou_conn nx_lp bf_path (fx 1 1 1 1 1) "n1" "n4" rou_arcs) = Ok (2%Q, S_, Some [("e1", 1); ("e4", 1)]) /\
  rshow (rou_conn nx_lp bf_path (fx 1 1 1 0 0) "n1" "n4" rou_arcs) = Ok (0%Q, F_, None) /\
  rshow (rou_conn nx_lp bf_path (fx 1 0 0 0 1) "n1" "n4" rou_arcs) = Ok (0%Q, F_, None) /\
  (** the pair of nodes is entered the other way round *)
  rshow (rou_conn nx_lp bf_path (fx 1 1 1 1 1) "n4" "n1" rou_arcs) = Ok (2%Q, S_, Some [("e4", 1); ("e1", 1)]) /\
  rshow (rou_conn nx_lp bf_path [("e1", 1); ("e9", 1)] "n1" "n4" rou_arcs) = Err KeyError /\
  option_map (fun s => (this (last (m_pf_low (s_mon s)) 0%Qc), this (last (m_pf_up (s_mon s)) 0%Qc), m_out_flag (s_mon s)))
    (match run rou_varis rou_prob3 (rou_sysfun nx_lp bf_path "n1" "n3" rou_arcs3) (mkCfg 100 None 0%Qc None true true) None None with Ok s => Some s | Err _ => None end) =
    Some ((19 # 1000)%Q, (19 # 1000)%Q, Some O_complete).
Proof.
  split; [exact nx_lp_ok|]. split; [exact bf_path_ok|]. split; [apply rou_arcs_ok|]. split; [apply rou_arcs_ok|].
  split; [split; [repeat constructor; cbn; intuition discriminate|intros k H; exact H]|].
  split.
  { exists ["e1"; "e3"; "e5"]. split; [|intros k [<-|[<-|[<-|[]]]]; eexists; (split; [reflexivity|lia])].
    apply (chain_arc _ "n1" "n2"); [cbn; tauto|]. apply (chain_arc _ "n2" "n3"); [cbn; tauto|]. apply (chain_arc _ "n3" "n4"); [cbn; tauto|]. constructor. }
  repeat split; vm_compute; reflexivity.
Qed.

(** Parallel arcs: the rule names the first of them, even if it does not work, and the value counts both as one. *)
Theorem C92_parallel_refuted :
  exists arcs x, nx_flow_ok nx_lp /\ nx_path_ok bf_path /\ arcs_ok arcs /\ states_of arcs x /\
    rshow (rou_conn nx_lp bf_path x "n1" "n2" arcs) = Ok (1%Q, S_, Some [("e1", 1)]) /\ ~ works x "e1" /\
    (exists y, states_of arcs y /\ rshow (rou_conn nx_lp bf_path y "n1" "n2" arcs) = Ok (1%Q, S_, Some [("e1", 1)]) /\
       forall k, linked_without arcs y [k] "n1" "n2").
Proof.
  set (arcs := [("e1", ("n1", "n2")); ("e2", ("n2", "n1"))]). exists arcs, [("e1", 0); ("e2", 1)].
  assert (S : forall a b, states_of arcs [("e1", a); ("e2", b)]) by (intros a b; split; [repeat constructor; cbn; intuition discriminate|intros k H; exact H]).
  split; [exact nx_lp_ok|]. split; [exact bf_path_ok|].
  split; [split; [repeat constructor; cbn; intuition discriminate|intros k u v [E|[E|[]]]; injection E as <- <- <-; discriminate]|].
  split; [apply S|]. split; [vm_compute; reflexivity|]. split; [intros (s & E & P); injection E as <-; lia|].
  exists [("e1", 1); ("e2", 1)]. split; [apply S|]. split; [vm_compute; reflexivity|]. intros k.
  destruct (string_dec k "e1") as [->|D]; [exists ["e2"]|exists ["e1"]]; (split; [eapply chain_arc; [cbn; tauto|constructor]|]);
    intros k' [<-|[]]; (split; [eexists; split; [reflexivity|lia]|]); intros [E|[]]; congruence.
Qed.
Print Assumptions C92_parallel_refuted.

(** ** C93: cuts *)
(** [operation.max_flow]: the value is the least capacity of a cut, or the target if every cut has more; the state is survival
    if and only if no cut is below the target. *)
Theorem C93_flow :
  forall nx_flow edges varis o d target x, nx_flow_ok nx_flow -> edges_ok edges varis -> caps_ok varis -> wf_varis varis ->
    (exists k, In k (keys varis) /\ (fst (ends edges k) = o \/ snd (ends edges k) = o)) -> o <> d -> d <> "new_t" -> (0 <= target)%Qc ->
    In x (space (comps_of varis)) ->
    exists val s m, max_flow nx_flow x target o d edges varis = Ok (val, s, m) /\
      (forall side, splits side o d -> (val <= cut_cap true (network edges varis x) side)%Qc) /\
      (val = target \/ exists side, splits side o d /\ cut_cap true (network edges varis x) side = val) /\
      (s = S_ <-> forall side, splits side o d -> (target <= cut_cap true (network edges varis x) side)%Qc).
Proof.
  intros nf edges varis o d target x Hn He Hc Hv Ho Hod Hd Ht Hx.
  destruct (C72_max_flow nf edges varis o d target x Hn He Hc Hv Ho Hod Hd Ht Hx) as (val & s & m & E & L & (phi & W) & M & Ss & C). exists val, s, m. split; auto.
  assert (Weak : forall side, splits side o d -> (val <= cut_cap true (network edges varis x) side)%Qc) by (intros side Sp; apply (weak_cut true _ phi o d val side W Sp)).
  split; auto.
  assert (Strong : val = target \/ exists side, splits side o d /\ cut_cap true (network edges varis x) side = val).
  { destruct (Qc_eq_dec val target) as [->|Ne]; auto. right. apply (strong_cut true _ o d Hod) with (phi := phi); auto.
    - intros e I. apply in_map_iff in I as ([k z] & <- & I). cbn [fst snd]. destruct (comp_state varis Hc Hv x k z Hx I) as (v & cs & _ & _ & _ & _ & P). exact P.
    - intros p v Sv. destruct (M p v Sv) as [X|X]; auto. contradiction. }
  split; auto. rewrite Ss. split.
  - intros (p & v & Sv & T) side Sp. apply (Qcle_trans _ v); auto. apply (weak_cut true _ p o d v side Sv Sp).
  - intros H. exists phi, val. split; auto. destruct Strong as [->|(side & Sp & Cs)]; [apply Qcle_refl|]. rewrite <- Cs. auto.
Qed.
Print Assumptions C93_flow.

(** The same for the demo with and without directions. *)
Theorem C93_demo :
  forall nx_flow bi edges varis o d target x, nx_flow2_ok nx_flow -> edges2_ok bi edges varis -> caps_ok varis -> wf_varis varis ->
    (exists k u v, In (k, (u, v)) edges /\ (u = o \/ v = o)) -> o <> d -> d <> "t_new" -> (0 <= target)%Qc ->
    In x (space (comps_of varis)) ->
    exists val s m, max_flow_fun nx_flow x o d edges varis target bi = Ok (val, s, Some m) /\
      (forall side, splits side o d -> (val <= cut_cap bi (network2 edges varis x) side)%Qc) /\
      (val = target \/ exists side, splits side o d /\ cut_cap bi (network2 edges varis x) side = val) /\
      (s = S_ <-> forall side, splits side o d -> (target <= cut_cap bi (network2 edges varis x) side)%Qc).
Proof.
  intros nf bi edges varis o d target x Hn He Hc Hv Ho Hod Hd Ht Hx.
  destruct (C79_max_flow nf bi edges varis o d target x Hn He Hc Hv Ho Hod Hd Ht Hx) as (val & s & m & E & L & (phi & W) & M & Ss & C). exists val, s, m. split; auto.
  assert (Weak : forall side, splits side o d -> (val <= cut_cap bi (network2 edges varis x) side)%Qc) by (intros side Sp; apply (weak_cut bi _ phi o d val side W Sp)).
  split; auto.
  assert (Strong : val = target \/ exists side, splits side o d /\ cut_cap bi (network2 edges varis x) side = val).
  { destruct (Qc_eq_dec val target) as [->|Ne]; auto. right. apply (strong_cut bi _ o d Hod) with (phi := phi); auto.
    - intros e I. apply in_map_iff in I as ([k uv] & <- & I). cbn [fst snd].
      assert (K : In k (keys x)). { rewrite (proj2 (space_states varis x Hv Hx)), <- (proj1 He). apply in_map_iff. exists (k, uv). auto. }
      apply dfind_keys in K as [z K]. unfold coord. rewrite K. apply dfind_In in K. destruct (comp_state varis Hc Hv x k z Hx K) as (v & cs & _ & _ & _ & _ & P). exact P.
    - intros p v Sv. destruct (M p v Sv) as [X|X]; auto. contradiction. }
  split; auto. rewrite Ss. split.
  - intros (p & v & Sv & T) side Sp. apply (Qcle_trans _ v); auto. apply (weak_cut bi _ p o d v side Sv Sp).
  - intros H. exists phi, val. split; auto. destruct Strong as [->|(side & Sp & Cs)]; [apply Qcle_refl|]. rewrite <- Cs. auto.
Qed.
Print Assumptions C93_demo.

Definition sideof (l : list string) (n : string) : bool := existsb (String.eqb n) l.
Example C93_ex :
  nx_flow_ok nx_lp /\ edges_ok fedges fvaris /\ caps_ok fvaris /\ wf_varis fvaris /\ In (fx 2 0 1 1 0) (space (comps_of fvaris)) /\
  splits (sideof ["n1"; "n2"; "n3"]) "n1" "n4" /\ splits (sideof ["n1"]) "n1" "n4" /\
  (** the cut before n4 is the least *)
  this (cut_cap true (network fedges fvaris (fx 2 0 1 1 0)) (sideof ["n1"; "n2"; "n3"])) = 1%Q /\
  this (cut_cap true (network fedges fvaris (fx 2 0 1 1 0)) (sideof ["n1"])) = 2%Q /\
  fshow (max_flow nx_lp (fx 2 0 1 1 0) (Q2Qc 2) "n1" "n4" fedges fvaris) = Some (1%Q, F_, None) /\
  (** an edge against the direction counts only without directions: from n3 to n1 *)
  this (cut_cap false (network2 fedges fvaris (fx 2 2 2 2 2)) (sideof ["n3"])) = 2%Q /\
  this (cut_cap true (network2 fedges fvaris (fx 2 2 2 2 2)) (sideof ["n3"])) = 6%Q /\
  nx_flow2_ok nx_lp2 /\
  fshow (max_flow_fun nx_lp2 (fx 2 2 2 2 2) "n3" "n4" fedges fvaris (Q2Qc 3) false) = Some (2%Q, F_, Some []).
Proof.
  split; [exact nx_lp_ok|]. split; [apply edges_b_ok; vm_compute; reflexivity|].
  split; [apply (caps_b_ok _ (repeat [0%Qc; Q2Qc 1; Q2Qc 2] 5)); [reflexivity|vm_compute; reflexivity]|]. split; [exact fvaris_wf|].
  split; [vm_compute; tauto|]. split; [split; reflexivity|]. split; [split; reflexivity|].
  repeat (split; [first [exact nx_lp2_ok | vm_compute; reflexivity]|]). vm_compute. reflexivity.
Qed.
