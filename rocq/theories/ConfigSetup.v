(** Proofs about the set-up of the path-based model from a network file. *)
From Coq Require Import ZArith List String Bool Arith QArith Qcanon Lia Permutation.
From Verif Require Import Py PyFacts Num Vari VariFacts Brc SpecBrc BrcFacts Bnb SpecBnb BnbFacts PathModel PathFacts Trans SpecTrans TransFacts PropBnb.
From Verif Require Import Config SpecConfig ConfigFacts ConfigPaths.
Import ListNotations.
Open Scope string_scope.
Open Scope Z_scope.
Open Scope list_scope.

Section File.
Context (f : netfile) (dir : bool).
Context (Hk : NoDup (keys (node_conn_df f))) (Hnp : no_parallel dir (node_conn_df f)).
Context (Hw0 : forall k en, In (k, en) (node_conn_df f) -> (0 <= weight en)%Qc).
Let G := file_graph f dir false.
Let L := node_conn_df f.

Lemma edge_entry e a b : In e (g_edges G) -> leads G e a b ->
  exists k en, e_label e = Some k /\ e_weight e = Some (VNum (weight en)) /\ In (k, en) L /\ ends dir en a b.
Proof.
  intros He Hl. destruct (file_last f dir a b e He Hl) as (k & en & E1 & E2 & E3). apply last_In in E3 as [E3 E4]. eauto 6.
Qed.
Lemma entry_edge_ex k en a b : In (k, en) L -> ends dir en a b ->
  exists e, In e (g_edges G) /\ leads G e a b /\ e_label e = Some k /\ e_weight e = Some (VNum (weight en)).
Proof.
  intros H E. destruct (last_ex dir L a b k en H E) as (k' & en' & La). destruct (last_In _ _ _ _ _ _ La) as [H' E'].
  assert (k' = k). { apply (Hnp k en k' en'); auto. apply (ends_pair dir en en' a b E). auto. }
  subst k'. assert (en' = en) by (apply (In_dfind _ _ _ Hk) in H; apply (In_dfind _ _ _ Hk) in H'; congruence). subst en'.
  apply (file_edge f dir a b k en); auto.
Qed.
Lemma node_of k en a b : In (k, en) L -> ends dir en a b -> In a (g_nodes G) /\ In b (g_nodes G).
Proof.
  intros H E. unfold G. rewrite !file_nodes. destruct E as [[<- <-]|(_ & <- & <-)]; split; right; exists k, en; auto.
Qed.
Lemma trip_route a ns ks t b : trip G a ns ks t b -> route dir L a ns ks t b.
Proof.
  induction 1 as [a H|a c b e l w ns ks t H He Hl El Ew T IH]; [constructor|].
  destruct (edge_entry e a c He Hl) as (k & en & E1 & E2 & E3 & E4). rewrite El in E1. rewrite Ew in E2. injection E1 as ->. injection E2 as ->.
  apply (route_cons dir L a c b); auto.
Qed.
Lemma route_trip a ns ks t b : In a (g_nodes G) -> route dir L a ns ks t b -> trip G a ns ks t b.
Proof.
  intros Ha R. revert Ha. induction R as [a|a c b k en ns ks t H E R IH]; intros Ha; [constructor; auto|].
  destruct (entry_edge_ex k en a c H E) as (e & He & Hl & El & Ew). apply (trip_cons G a c b e k); auto. apply IH. apply (node_of k en a c); auto.
Qed.
Lemma route_head a ns ks t b : route dir L a ns ks t b -> exists q, ns = a :: q.
Proof. intros R. inversion R; eauto. Qed.
Lemma route_pos a ns ks t b : route dir L a ns ks t b -> (0 <= t)%Qc.
Proof.
  induction 1 as [a|a c b k en ns ks t H E R IH]; [apply Qcle_refl|]. specialize (Hw0 k en H). qc_lra.
Qed.
Lemma route_incl a ns ks t b : route dir L a ns ks t b -> incl ks (keys L).
Proof.
  induction 1 as [a|a c b k en ns ks t H E R IH]; intros x; [intros []|]. intros [<-|Hx]; auto. apply (In_keys _ _ _ H).
Qed.
Lemma route_suffix a ns ks t b x : route dir L a ns ks t b -> In x ns ->
  exists n1 n2 k2 t2, ns = n1 ++ n2 /\ route dir L x n2 k2 t2 b /\ incl k2 ks /\ (t2 <= t)%Qc.
Proof.
  induction 1 as [a|a c b k en ns ks t H E R IH]; intros X.
  - destruct X as [<-|[]]. exists [], [a], [], 0%Qc. split; auto. split; [constructor|]. split; [intros y Hy; auto|apply Qcle_refl].
  - destruct X as [<-|X].
    + exists [], (a :: ns), (k :: ks), (weight en + t)%Qc. split; auto. split; [apply (route_cons dir L a c b); auto|]. split; [intros y Hy; auto|apply Qcle_refl].
    + destruct (IH X) as (n1 & n2 & k2 & t2 & -> & R2 & I & Le). exists (a :: n1), n2, k2, t2. split; auto. split; auto. split; [intros y Hy; right; auto|].
      specialize (Hw0 k en H). qc_lra.
Qed.
Lemma route_simple a ns ks t b : route dir L a ns ks t b ->
  exists ns' ks' t', route dir L a ns' ks' t' b /\ NoDup ns' /\ incl ks' ks /\ (t' <= t)%Qc.
Proof.
  induction 1 as [a|a c b k en ns ks t H E R (n' & k' & t' & R' & N & I & Le)].
  - exists [a], [], 0%Qc. split; [constructor|]. split; [repeat constructor; auto|]. split; [intros y Hy; auto|apply Qcle_refl].
  - pose proof (Hw0 k en H) as W. destruct (in_dec string_dec a n') as [Ia|Ia].
    + destruct (route_suffix c n' k' t' b a R' Ia) as (n1 & n2 & k2 & t2 & -> & R2 & I2 & Le2). exists n2, k2, t2. split; auto. split.
      * clear - N. induction n1; cbn in N; auto. inversion N; auto.
      * split; [intros y Hy; right; auto|qc_lra].
    + exists (a :: n'), (k :: k'), (weight en + t')%Qc. split; [apply (route_cons dir L a c b); auto|]. split; [constructor; auto|]. split.
      * intros y [<-|Hy]; [left|right]; auto.
      * qc_lra.
Qed.
Lemma route_labels a ns ks t b : route dir L a ns ks t b -> forall k, In k ks -> exists en, In (k, en) L /\ In (origin en) ns /\ In (destination en) ns.
Proof.
  induction 1 as [a|a c b k en ns ks t H E R IH]; intros x; [intros []|]. destruct (route_head _ _ _ _ _ R) as [q Eq]. intros [<-|Hx].
  - exists en. split; auto. destruct E as [[-> ->]|(_ & -> & ->)]; rewrite Eq; cbn; auto.
  - destruct (IH x Hx) as (en' & H1 & H2 & H3). exists en'. split; auto. split; right; auto.
Qed.
Lemma route_nodup a ns ks t b : route dir L a ns ks t b -> NoDup ns -> NoDup ks.
Proof.
  induction 1 as [a|a c b k en ns ks t H E R IH]; intros N; [constructor|]. inversion N as [|? ? N1 N2]; subst. constructor; auto.
  intros Hx. destruct (route_labels _ _ _ _ _ R k Hx) as (en' & H1 & H2 & H3).
  assert (en' = en) by (apply (In_dfind _ _ _ Hk) in H; apply (In_dfind _ _ _ Hk) in H1; congruence). subst en'.
  destruct E as [[<- <-]|(_ & <- & <-)]; auto.
Qed.

(** * The paths of one OD *)
Context (o d : string) (Hod : o <> d) (pt : od_paths) (Hpt : paths_of G o d pt).
Lemma pt_route ks t : In (ks, t) pt -> exists ns, route dir L o ns ks t d /\ NoDup ns.
Proof.
  destruct Hpt as (l & N & Hl & F). intros H. destruct (Forall2_in_r _ _ _ _ F H) as (ns & Hns & T). apply Hl in Hns as [_ Nn].
  exists ns. split; auto. apply trip_route. auto.
Qed.
Context (Ho : In o (g_nodes G)).
Lemma route_pt ns ks t : route dir L o ns ks t d -> NoDup ns -> In (ks, t) pt.
Proof.
  destruct Hpt as (l & N & Hl & F). intros R Nn. apply route_trip in R; auto.
  assert (Hns : In ns l) by (apply Hl; split; auto; apply (trip_walk _ _ _ _ _ _ R)).
  destruct (Forall2_in_l _ _ _ _ F Hns) as ([ks' t'] & Hx & T). cbn [fst snd] in T.
  assert (Hwf : wf_graph G /\ label_keys G /\ num_weights G) by (apply file_wf; auto).
  destruct (trip_fun G (proj1 Hwf) eq_refl _ _ _ _ _ _ _ _ R T) as [-> ->]. auto.
Qed.
Lemma pt_ok p t : In (p, t) pt -> p <> [] /\ NoDup p /\ incl p (keys L) /\ (0 <= t)%Qc.
Proof.
  intros H. destruct (pt_route p t H) as (ns & R & N). split; [|split; [|split]].
  - intros ->. inversion R; subst. congruence.
  - apply (route_nodup _ _ _ _ _ R N).
  - apply (route_incl _ _ _ _ _ R).
  - apply (route_pos _ _ _ _ _ R).
Qed.
Lemma surviving_reach x p t : In (p, t) pt -> surviving x p -> reach dir L (fun k => dfind x k = Some 1) o d t.
Proof. intros H [_ S]. destruct (pt_route p t H) as (ns & R & N). exists ns, p. auto. Qed.
Lemma reach_surviving x t : reach dir L (fun k => dfind x k = Some 1) o d t -> exists p t', In (p, t') pt /\ surviving x p /\ (t' <= t)%Qc.
Proof.
  intros (ns & ks & R & U). destruct (route_simple _ _ _ _ _ R) as (ns' & ks' & t' & R' & N & I & Le).
  assert (H : In (ks', t') pt) by (apply (route_pt ns'); auto). exists ks', t'. split; auto. split; auto.
  split; [apply (pt_ok _ _ H)|]. intros k Hx. apply U, I. auto.
Qed.

Context (Hsep : forall ns t ns' t', simple_route dir L o d ns t -> simple_route dir L o d ns' t' -> t = t' \/ ~ close_to t t').
Lemma pt_sep p t p' t' : In (p, t) pt -> In (p', t') pt -> t = t' \/ ~ close_to t t'.
Proof.
  intros H H'. destruct (pt_route p t H) as (ns & R & N). destruct (pt_route p' t' H') as (ns' & R' & N').
  apply (Hsep ns t ns' t'); [exists p|exists p']; auto.
Qed.
Lemma ex_close pt0 p t : (forall p t, In (p, t) pt0 -> (0 <= t)%Qc) -> In (p, t) pt0 -> forall v, In v (times pt0) -> closeb (VNum t) (VNum v) = true -> close_to t v.
Proof.
  intros H0 Hi v Hv C. apply times_In in Hv as (p' & Hv). pose proof (H0 p' v Hv) as Hv0.
  unfold closeb, isclose in C. apply qc_leb_le in C. destruct (qabs_ge (t - v)) as [A1 A2].
  replace (- (t - v))%Qc with (v - t)%Qc in A2 by ring.
  assert (E : qabs v = v) by (unfold qabs; rewrite (proj2 (qc_leb_le 0 v) Hv0); auto). rewrite E in C.
  split; eapply Qcle_trans; eauto.
Qed.
(** the code of a path is the first position of its time *)
Lemma code_first p t : In (p, t) pt -> first_at (od_values pt) (code pt t) (VNum t).
Proof.
  intros H. destruct (code_spec pt p t H) as (n & v & E1 & E2 & N1 & V1 & T1 & C1 & _).
  assert (v = t).
  { assert (C : close_to t v) by (apply (ex_close pt p t); auto; intros p0 t0 H0; apply (pt_ok p0 t0 H0)).
    apply times_In in T1 as (p' & Hp'). destruct (pt_sep p t p' v H Hp'); [auto|contradiction]. }
  subst v. rewrite E2. split; [lia|]. rewrite Nat2Z.id. split; auto. intros j Lj F.
  destruct (find_idx_some _ _ _ E1) as (_ & _ & _ & B). specialize (B j _ Lj F). rewrite close_refl in B. discriminate.
Qed.
Lemma first_unique vals s s' v : first_at vals s v -> first_at vals s' v -> s = s'.
Proof.
  intros (A1 & A2 & A3) (B1 & B2 & B3). destruct (lt_eq_lt_dec (Z.to_nat s) (Z.to_nat s')) as [[C|C]|C].
  - destruct (B3 _ C A2).
  - lia.
  - destruct (A3 _ C B2).
Qed.

Lemma state_time x : In x (arc_states (keys L)) -> exists s v,
  ev 1 (od_list pt) x = s /\ first_at (od_values pt) s v /\ travel_time dir L (fun k => dfind x k = Some 1) o d v.
Proof.
  intros Hx. assert (PO : paths_ok (keys L) (od_list pt)) by (apply od_paths_ok; intros p t Hp; destruct (pt_ok p t Hp) as (? & ? & ? & _); auto).
  destruct (ev_cases (keys L) (od_list pt) PO x) as [(e & He & Hs & Ev)|(e & He & Ev)].
  - apply od_tail_In in He as (p & t & Hi & ->). unfold pe_state, pe_path in *. cbn [fst snd] in *.
    exists (code pt t), (VNum t). split; auto. split; [apply (code_first p); auto|]. split; [apply (surviving_reach x p); auto|].
    intros t0 R0. destruct (reach_surviving x t0 R0) as (p' & t' & Hi' & Hs' & Le). apply Qcle_trans with t'; auto.
    assert (M2 : code pt t' <= code pt t).
    { rewrite <- Ev. apply (ev_ge (keys L) (od_list pt) PO x (p', VNum t', code pt t')); [apply od_tail_In; eauto|exact Hs']. }
    destruct (qc_leb t t') eqn:Q; [apply qc_leb_le; auto|]. apply qc_leb_gt in Q. assert (Q' : (t' <= t)%Qc) by (apply Qclt_le_weak; auto).
    pose proof (code_mono pt p' t' p t Hi' Hi Q') as M1.
    assert (E : code pt t' = code pt t) by lia. pose proof (code_first p t Hi) as F1. pose proof (code_first p' t' Hi') as F2. rewrite E in F2.
    destruct F1 as (_ & F1 & _). destruct F2 as (_ & F2 & _). rewrite F1 in F2. injection F2 as ->. apply Qcle_refl.
  - injection He as <-. unfold pe_state in Ev. cbn [snd] in Ev. exists 0, VInf. split; auto. split.
    + split; [lia|]. split; [reflexivity|]. intros j Lj. cbn in Lj. lia.
    + intros t R. destruct (reach_surviving x t R) as (p & t' & Hi & Hs & Le).
      pose proof (ev_ge (keys L) (od_list pt) PO x (p, VNum t', code pt t')) as Q. rewrite Ev in Q.
      destruct (code_spec pt p t' Hi) as (n & v & _ & E2 & N1 & _). unfold pe_state in Q. cbn [snd] in Q. rewrite E2 in Q.
      assert (Z.of_nat n <= 0); [|lia]. apply Q; [rewrite <- E2; apply od_tail_In; eauto|exact Hs].
Qed.
Lemma travel_fun up v v' : travel_time dir L up o d v -> travel_time dir L up o d v' -> v = v'.
Proof.
  destruct v as [t| |], v' as [t'| |]; cbn [travel_time]; try tauto.
  - intros [R M] [R' M']. f_equal. apply Qcle_antisym; auto.
  - intros [R _] N. destruct (N t R).
  - intros N [R _]. destruct (N t' R).
Qed.
Lemma state_iff x s v : In x (arc_states (keys L)) -> first_at (od_values pt) s v ->
  (ev 1 (od_list pt) x = s <-> travel_time dir L (fun k => dfind x k = Some 1) o d v).
Proof.
  intros Hx F. destruct (state_time x Hx) as (s' & v' & E & F' & T'). rewrite E. split.
  - intros ->. destruct F as (_ & F & _). destruct F' as (_ & F' & _). rewrite F in F'. injection F' as ->. auto.
  - intros T. pose proof (travel_fun _ _ _ T T') as ->. apply (first_unique _ _ _ _ F' F).
Qed.
End File.
