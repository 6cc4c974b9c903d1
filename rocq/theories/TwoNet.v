(** Search for connection in a network of components with two states: lemmas for the demos
    rbd, routine and n3e3. *)
From Coq Require Import ZArith List String Bool Arith QArith Qcanon Lia Permutation.
From Verif Require Import Py PyFacts Num Vari VariFacts Brc SpecBrc BrcFacts BrcDecomp BrcProb BrcRun BrcMisc BrcMain BrcProper.
From Verif Require Import PfMapGeom Cpm SpecCpm CpmFacts CpmProb Model ModelFacts.
From Verif Require Import Bnb SpecBnb PathModel PathModelFacts Trans SpecTrans TransFacts NetSys Config SpecConfig ConfigFacts.
From Verif Require Import PropBrc PropBrc2 PropTrans PfMapRun WriteRun DemoNet SpecDemo.
Import ListNotations.
Open Scope string_scope.
Open Scope Z_scope.
Open Scope list_scope.

(** * Connection in the graph of a file *)
Lemma file_entries f dir multi : NoDup (keys (node_conn_df f)) -> (multi = false -> no_parallel dir (node_conn_df f)) ->
  g_edges (file_graph f dir multi) = map entry_edge (node_conn_df f).
Proof. intros N NP. cbn [file_graph g_edges]. apply edges_plain; auto. Qed.

Lemma conn_joined f dir multi x o d : NoDup (keys (node_conn_df f)) -> (multi = false -> no_parallel dir (node_conn_df f)) ->
  In o (g_nodes (file_graph f dir multi)) ->
  (conn (file_graph f dir multi) x o d <-> joined dir (node_conn_df f) x o d).
Proof.
  intros N NP Io. pose proof (file_entries f dir multi N NP) as E. set (G := file_graph f dir multi) in *. split.
  - intros C. clear Io. induction C as [a Ia Aa|a b c e l Ia Aa Ie Le El Al C IH].
    + exists [a], [], 0%Qc. split; [constructor|]. split; [intros n [<-|[]]; exact Aa|intros k []].
    + destruct IH as (ns & ks & t & R & An & Ak). rewrite E in Ie. apply in_map_iff in Ie as ([k en] & <- & Ie). cbn [entry_edge e_label fst] in El. injection El as <-.
      exists (a :: ns), (k :: ks), (weight en + t)%Qc. split; [econstructor; eauto|]. split.
      * intros n [<-|Hn]; auto. * intros k' [<-|Hk]; auto.
  - intros (ns & ks & t & R & An & Ak). revert Io An Ak. induction R as [a|a b c k en ns ks t Hin He R IH]; intros Ia An Ak.
    + constructor; auto. apply An. left; auto.
    + assert (Ib : In b (g_nodes G)).
      { apply file_nodes. right. exists k, en. split; auto. destruct He as [[_ <-]|(_ & <- & _)]; auto. }
      apply (conn_step G x a b c (entry_edge (k, en)) k); auto.
      * apply An. left; auto. * rewrite E. apply in_map; auto. * apply Ak. left; auto.
      * apply IH; auto; intros; [apply An|apply Ak]; right; auto.
Qed.

(** * The search *)
Definition fs2 : list value := [VStr "f"; VStr "s"].
Lemma two_arc k : two_state k = arc_var fs2 k.
Proof. reflexivity. Qed.
Lemma two_arcs K : map (fun k => (k, two_state k)) K = arc_vars K fs2.
Proof. reflexivity. Qed.

Definition conv3 (l : st) : Z := match l with F_ => 0 | S_ => 1 | U_ => 2 end.
Lemma conv3_eq : st_br_to_cs = fun l => Ok (conv3 l).
Proof. reflexivity. Qed.

Lemma qsum_elem l q : (forall p, In p l -> 0 <= p)%Qc -> In q l -> (q <= qsum l)%Qc.
Proof.
  induction l as [|a l IH]; intros H I; [destruct I|]. cbn [qsum]. assert (0 <= a)%Qc by (apply H; left; auto).
  assert (0 <= qsum l)%Qc by (apply qsum_nonneg; intros; apply H; right; auto).
  destruct I as [->|I]; [qc_lra|]. assert (q <= qsum l)%Qc by (apply IH; auto; intros; apply H; right; auto). qc_lra.
Qed.

Lemma label_F b : (b_up_state b = F_ -> b_down_state b = F_) -> (br_label b = F_ <-> b_up_state b = F_).
Proof. unfold br_label. destruct (b_down_state b), (b_up_state b); cbn; intuition congruence. Qed.
Lemma label_S b : (b_down_state b = S_ -> b_up_state b = S_) -> (br_label b = S_ <-> b_down_state b = S_).
Proof. unfold br_label. destruct (b_down_state b), (b_up_state b); cbn; intuition congruence. Qed.

Section Net.
Context (nx_path : graph -> string -> string -> option (list string)) (nx_wpath : graph -> string -> string -> res (list string))
  (nx_wlen : graph -> string -> string -> res value) (Hn : nx_path_ok nx_path).
Context (G : graph) (Wg : wf_graph G) (Lk : label_keys G) (o d : string) (K : list string) (NK : NoDup K).
Notation V := (arc_vars K fs2).
Definition net_sys : sysfun := as_sysfun (fun x => sf_min_path nx_path nx_wpath nx_wlen x G o d V None).

Lemma V_wf : wf_varis V.
Proof. apply arc_wf; auto. Qed.
Lemma V_space : space (comps_of V) = arc_states K.
Proof. apply arc_space; auto. Qed.
Lemma V_keys : keys V = K.
Proof. apply arc_keys. Qed.
Lemma V_size : Z.of_nat (List.length (space (comps_of V))) = 2 ^ Z.of_nat (List.length K).
Proof.
  rewrite V_space. unfold arc_states. clear. induction K as [|k l IH]; [reflexivity|].
  cbn [map List.length]. rewrite Nat2Z.inj_succ, Z.pow_succ_r by lia. rewrite <- IH. set (r := map _ l). change (space ((k, 2) :: r)) with
    (map (fun y => (k, 0) :: y) (space r) ++ map (fun y => (k, 1) :: y) (space r) ++ []). rewrite app_nil_r, app_length, !map_length. rewrite Nat2Z.inj_add, <- Z.add_diag. reflexivity.
Qed.
Lemma V_stored k v : In (k, v) V -> v_name v = k /\ stored v.
Proof. intros H. apply arc_in in H as [_ ->]. split; [reflexivity|apply arc_stored; auto]. Qed.

Lemma conn_dec : exists cb : dict Z -> bool, forall x, In x (arc_states K) -> (cb x = true <-> conn G x o d).
Proof.
  exists (fun x => surv (sf_min_path nx_path nx_wpath nx_wlen x G o d V None)). intros x Hx. rewrite <- V_space in Hx.
  destruct (C50_connected nx_path nx_wpath nx_wlen G x o d V None Hn Wg Lk) as (s & m & E & C & _); auto.
  - intros k z F. assert (Hk : In k (keys x)) by (apply dfind_keys; eauto). change (In x (sp V)) in Hx. rewrite (sp_keys V x Hx), V_keys in Hk.
    assert (R := sp_coord V V_wf x k (arc_var fs2 k) Hx ltac:(apply arc_in; auto)). unfold coord in R. rewrite F in R. lia.
  - rewrite E. cbn [surv]. rewrite <- C. destruct s; split; congruence.
Qed.

Context (probs : prob_dict) (Wp : wf_probs V probs) (max_sf max_nb : Z) (Hm : 1 <= max_sf).
Notation cfg := (mkCfg max_sf (Some max_nb) 0%Qc None true true).

(** every vector has a positive probability *)
Definition positive : Prop := forall k x, In k K -> x = 0 \/ x = 1 -> (0 < pr probs k x)%Qc.

Lemma two_run : exists s brs rows,
  run V probs net_sys cfg None None = Ok s /\ s_brs s = Some brs /\ brs <> [] /\ boxes V brs /\ exact_probs V probs brs /\ partition V brs /\ proper_labels brs /\
  get_csys brs V st_br_to_cs = Ok (rows, V) /\ Forall2 (row_ok V conv3 V) brs rows /\
  (forall b x, In b brs -> In x (arc_states K) -> in_branch b x = true ->
     (br_label b = S_ -> conn G x o d) /\ (br_label b = F_ -> ~ conn G x o d)) /\
  last (m_pf_low (s_mon s)) 0%Qc = qsum (map b_p (filter (fun b => st_eqb (br_label b) F_) brs)) /\
  last (m_pf_up (s_mon s)) 0%Qc = (1 - qsum (map b_p (filter (fun b => st_eqb (br_label b) S_) brs)))%Qc /\
  (forall cb, (forall x, In x (arc_states K) -> (cb x = true <-> conn G x o d)) ->
     (last (m_pf_low (s_mon s)) 0 <= p_fail V probs cb)%Qc /\ (p_fail V probs cb <= last (m_pf_up (s_mon s)) 0)%Qc /\
     (2 * 2 ^ Z.of_nat (List.length K) <= max_nb -> 2 ^ Z.of_nat (List.length K) < max_sf ->
        last (m_pf_low (s_mon s)) 0%Qc = p_fail V probs cb /\ last (m_pf_up (s_mon s)) 0%Qc = p_fail V probs cb)) /\
  (2 * 2 ^ Z.of_nat (List.length K) <= max_nb -> 2 ^ Z.of_nat (List.length K) < max_sf -> positive ->
     forall b, In b brs -> br_label b <> U_).
Proof.
  assert (So : forall cb, (forall x, In x (arc_states K) -> (cb x = true <-> conn G x o d)) -> sys_ok V cb net_sys).
  { intros cb Hc. apply conn_sys_ok; auto. - apply V_wf. - rewrite V_space. auto. }
  destruct conn_dec as [cb0 H0]. pose proof (So cb0 H0) as So0. pose proof V_wf as Wv.
  pose proof (none_start V probs cb0) as St0.
  destruct (C16_run_total V probs cb0 net_sys cfg None None Wv Wp So0 St0 (or_introl eq_refl)) as [s Er].
  assert (Mx : 0 < g_max_sf cfg) by (cbn; lia).
  destruct (C16_resume V probs cb0 net_sys cfg None None s Wv Wp So0 St0 Mx Er) as (brs & Eb & St' & Pb & Nl & El & Eu).
  destruct St' as (Wr' & Sr' & Vb). destruct (Vb brs eq_refl) as (V1 & V2 & V3 & V4).
  assert (Pr : proper_labels brs).
  { assert (P := run_proper V probs Wv Wp cb0 net_sys So0 cfg None None (proj1 St0) (proj1 (proj2 St0)) (proj2 (proj2 St0)) s).
    assert (P0 : proper_o None) by (intros b0 E0; discriminate). specialize (P P0 Er brs Eb). rewrite Forall_forall in P. exact P. }
  assert (Nb : brs <> []). { intros X. rewrite X in Pb. specialize (Pb (worst_of V) (worst_sp V Wv)). cbn in Pb. congruence. }
  assert (Wb : forall b, In b brs -> wf_br V b) by (intros b Hb; apply V1; auto).
  destruct (get_csys_ok V Wv (stored_tables V (fun k v H => proj2 (V_stored k v H))) conv3 brs Nb Wb) as (rows & V' & Ec & _ & Fr).
  assert (V' = V) as -> by (apply (get_csys_same V Wv (fun k v H => proj2 (V_stored k v H)) (fun l => Ok (conv3 l)) brs rows V' Wb Ec)).
  assert (LF : forall b, In b brs -> st_eqb (b_up_state b) F_ = st_eqb (br_label b) F_).
  { intros b Hb. pose proof (label_F b (proj1 (Pr b Hb))) as X. destruct (br_label b), (b_up_state b); cbn; try reflexivity; exfalso; destruct X as [X1 X2]; try (specialize (X1 eq_refl); discriminate); specialize (X2 eq_refl); discriminate. }
  assert (LS : forall b, In b brs -> st_eqb (b_down_state b) S_ = st_eqb (br_label b) S_).
  { intros b Hb. pose proof (label_S b (proj2 (Pr b Hb))) as X. destruct (br_label b), (b_down_state b); cbn; try reflexivity; exfalso; destruct X as [X1 X2]; try (specialize (X1 eq_refl); discriminate); specialize (X2 eq_refl); discriminate. }
  assert (El' : last (m_pf_low (s_mon s)) 0%Qc = qsum (map b_p (filter (fun b => st_eqb (br_label b) F_) brs))).
  { rewrite El. do 2 f_equal. apply filter_ext_in. auto. }
  assert (Eu' : last (m_pf_up (s_mon s)) 0%Qc = (1 - qsum (map b_p (filter (fun b => st_eqb (br_label b) S_) brs)))%Qc).
  { rewrite Eu. do 3 f_equal. apply filter_ext_in. auto. }
  assert (Sl : sound_labels V cb0 brs).
  { destruct Sr' as [Hs1 Hs2]. intros b x Hb Hx Hin. destruct (V1 b Hb) as (D & U & L). destruct (V3 b Hb) as (L1 & _ & _ & L4).
    apply (in_branch_spec V Wv b x Hx) in Hin as [I1 I2]. split; intros E.
    - assert (M := L4 E). apply (match_f_anti V (s_rules s) x (b_up b)) in M; auto. apply match_f_spec in M as (r & Hr' & M). eapply Hs2; eauto.
    - assert (M := L1 E). apply (match_s_mono V (s_rules s) (b_down b) x) in M; auto. apply match_s_spec in M as (r & Hr' & M). eapply Hs1; eauto. }
  exists s, brs, rows. split; auto. split; auto. split; auto. split; auto. split; auto. split; auto. split; auto. split; [rewrite conv3_eq; auto|]. split; auto.
  split.
  { intros b x Hb Hx Hin. rewrite <- V_space in Hx. destruct (Sl b x Hb Hx Hin) as [Y1 Y2]. rewrite V_space in Hx. split; intros L.
    - apply (H0 x Hx). apply Y2. apply (label_S b (proj2 (Pr b Hb))). auto.
    - rewrite <- (H0 x Hx). apply not_true_iff_false. apply Y1. apply (label_F b (proj1 (Pr b Hb))). auto. }
  split; auto. split; auto.
  assert (Ex : forall cb, (forall x, In x (arc_states K) -> (cb x = true <-> conn G x o d)) ->
     (last (m_pf_low (s_mon s)) 0 <= p_fail V probs cb)%Qc /\ (p_fail V probs cb <= last (m_pf_up (s_mon s)) 0)%Qc /\
     (2 * 2 ^ Z.of_nat (List.length K) <= max_nb -> 2 ^ Z.of_nat (List.length K) < max_sf ->
        last (m_pf_low (s_mon s)) 0%Qc = p_fail V probs cb /\ last (m_pf_up (s_mon s)) 0%Qc = p_fail V probs cb)).
  { intros cb Hc. pose proof (So cb Hc) as Sc. pose proof (none_start V probs cb) as St. 
    destruct (C57_connectivity nx_path nx_wpath nx_wlen G o d V probs cb cfg Hn Wg Lk Wv Wp) as (s' & Er' & B1 & B2 & _); auto.
    { rewrite V_space. auto. }
    change (run V probs net_sys cfg None None = Ok s') in Er'. rewrite Er in Er'. injection Er' as <-.
    split; auto. split; auto. intros Z1 Z2.
    assert (Un : unlimited V (g_max_nb cfg)) by (right; exists max_nb; split; auto; rewrite V_size; lia).
    destruct (C52_stop_reason V probs net_sys cfg None None s Mx Er) as (bs & fl & Ebs & Ef & Hf). rewrite Eb in Ebs. injection Ebs as <-.
    assert (fl = O_complete).
    { pose proof (branch_number V brs Wv V1 Pb) as Nbr. pose proof V_size as Vz. destruct fl; auto; exfalso.
      - destruct Hf as (m & Em & Lm). cbn in Em. injection Em as <-. assert (0 < 2 ^ Z.of_nat (List.length K)) by (apply Z.pow_pos_nonneg; lia). lia.
      - pose proof (C52_width_reached V probs cb net_sys cfg None None s Wv Wp Sc St Un Mx (Qcle_refl _) Er Ef) as X. cbn [g_pf_bnd_wr] in X.
        destruct (C21_aligned V probs cb net_sys cfg None None s Wv Wp Sc St Mx Er) as (_ & _ & R2 & _). cbn [map] in R2. injection R2 as R2 R3 R4 _.
        assert (Nur : m_pf_up (s_mon s) <> []) by (intros Y; rewrite Y in R3; discriminate).
        assert (Eu1 : last (m_pf_up (s_mon s)) 1%Qc = last (m_pf_up (s_mon s)) 0%Qc).
        { destruct (exists_last Nur) as (m & z & ->). rewrite !last_last. auto. }
        rewrite Eu1 in X. replace (last (m_pf_low (s_mon s)) 0 * 0)%Qc with 0%Qc in X by ring.
        assert (Z : (last (m_pf_low (s_mon s)) 0 <= last (m_pf_up (s_mon s)) 0)%Qc) by (eapply Qcle_trans; eauto).
        revert X Z. generalize (last (m_pf_low (s_mon s)) 0%Qc) (last (m_pf_up (s_mon s)) 0%Qc). clear. intros a b X Z. qc_lra.
      - destruct Hf as (m & Em & _). discriminate.
      - destruct (C20_calls_distinct V probs cb net_sys cfg None None s Wv Wp Sc St (or_introl eq_refl) Er) as (_ & _ & Nc & _). cbn [g_max_sf] in Hf. lia. }
    subst fl. destruct (C18_complete_exact_partial V probs cb net_sys cfg None None s Wv Wp Sc St Un Er Ef) as (X1 & X2 & _). auto. }
  split; auto.
  intros Z1 Z2 Hpos b Hb Lu. destruct (Ex cb0 H0) as (_ & _ & Ex0). destruct (Ex0 Z1 Z2) as [X1 X2].
  assert (Tot : qsum (map b_p (filter (fun _ => true) brs)) = 1%Qc).
  { rewrite (sel_prob V probs) by auto. rewrite <- (prob_total V probs Wp). unfold prob_event. do 2 f_equal. apply filter_ext_in. intros x Hx.
    pose proof (Pb x Hx) as P. unfold sel. apply existsb_exists. destruct (filter (fun b => in_branch b x) brs) as [|b' l] eqn:E; [discriminate|].
    exists b'. apply (filter_In (fun b => in_branch b x)). rewrite E. left; auto. }
  assert (Sum : qsum (map b_p (filter (fun _ => true) brs)) =
    (qsum (map b_p (filter (fun b => st_eqb (br_label b) F_) brs)) + qsum (map b_p (filter (fun b => st_eqb (br_label b) S_) brs)) +
     qsum (map b_p (filter (fun b => st_eqb (br_label b) U_) brs)))%Qc).
  { clear. induction brs as [|b l IH]; [cbn; ring|]. cbn [filter]. destruct (br_label b); cbn [st_eqb map qsum]; rewrite IH; ring. }
  assert (Zu : qsum (map b_p (filter (fun b => st_eqb (br_label b) U_) brs)) = 0%Qc).
  { rewrite Tot, <- El' in Sum. assert (Sum' : 1%Qc = (last (m_pf_low (s_mon s)) 0 + (1 - last (m_pf_up (s_mon s)) 0) + qsum (map b_p (filter (fun b => st_eqb (br_label b) U_) brs)))%Qc).
    { rewrite Sum at 1. rewrite Eu'. ring. } rewrite X1, X2 in Sum'. revert Sum'. generalize (p_fail V probs cb0) (qsum (map b_p (filter (fun b => st_eqb (br_label b) U_) brs))). intros q r Y.
    assert (Y' : (r = 1 - 1)%Qc) by (rewrite Y at 1; ring). rewrite Y'. ring. }
  assert (Bp : (0 < b_p b)%Qc).
  { rewrite (V2 b Hb). destruct (V1 b Hb) as (D1 & D2 & D3). unfold prob_event.
    assert (Pd : (0 < prob_of probs (b_down b))%Qc).
    { unfold prob_of. assert (Q : forall kv, In kv (b_down b) -> (0 < pr probs (fst kv) (snd kv))%Qc).
      { intros [k z] Hk. cbn [fst snd]. assert (Kk : In k K) by (rewrite <- V_keys, <- (sp_keys V _ D1); eapply In_keys; eauto).
        apply Hpos; auto. pose proof (sp_coord V Wv _ k (arc_var fs2 k) D1 ltac:(apply arc_in; auto)) as R. rewrite arc_n in R by reflexivity.
        rewrite (coord_In _ _ _ (sp_nodup V Wv _ D1) Hk) in R. lia. }
      clear - Q. induction (b_down b) as [|kv l IH]; cbn [map qprod]; [reflexivity|]. apply qc_mult_pos; [apply Q; left; auto|apply IH; intros; apply Q; right; auto]. }
    eapply Qclt_le_trans; [exact Pd|]. apply qsum_elem.
    - intros q Hq. apply in_map_iff in Hq as (x & <- & Hx). apply filter_In in Hx as [Hx _]. apply (prob_of_nonneg V probs Wv Wp); auto.
    - apply in_map. apply filter_In. split; auto. apply (self_in V); auto. }
  assert (Le : (b_p b <= qsum (map b_p (filter (fun b => st_eqb (br_label b) U_) brs)))%Qc).
  { apply qsum_elem.
    - intros q Hq. apply in_map_iff in Hq as (b' & <- & Hb'). apply filter_In in Hb' as [Hb' _]. rewrite (V2 b' Hb'). apply (prob_event_nonneg V probs Wv Wp).
    - apply in_map. apply filter_In. rewrite Lu. auto. }
  rewrite Zu in Le. qc_lra.
Qed.
End Net.
