(** Proofs about written network files and delays. *)
From Coq Require Import ZArith List String Bool Arith QArith Qcanon Lia.
From Verif Require Import Py PyFacts Num Vari VariFacts Brc SpecBrc BrcFacts BrcMain BrcProper Cpm SpecCpm Model ModelFacts Bnb SpecBnb Trans SpecTrans TransFacts NetSys.
From Verif Require Import Config SpecConfig ConfigFacts ConfigSetup PfMap SpecMap PfMapGeom PfMapRun WriteNet SpecWrite PropBrc PropBrc2 PropModel PropTrans.
Import ListNotations.
Open Scope string_scope.
Open Scope Z_scope.
Open Scope list_scope.

(** * The table of arcs *)
Section Table.
Variables (np_sqrt : Qc -> Qc) (arcs : arcs_t) (coords : dict point) (speeds : dict Qc).
Hypothesis Hk : NoDup (keys arcs).
Hypothesis Hs : forall k v, In k (keys arcs) -> dfind speeds k = Some v -> v <> 0%Qc.

Definition missing : Prop :=
  exists k a, In (k, a) arcs /\ (dfind coords (fst a) = None \/ dfind coords (snd a) = None \/ dfind speeds k = None).

Lemma dget_none {A} (d : dict A) k : dget d k = Err KeyError <-> dfind d k = None.
Proof. unfold dget. destruct (dfind d k); split; congruence. Qed.
Lemma lens_cases :
  (exists lens, get_arcs_length np_sqrt arcs coords = Ok lens /\
     Forall2 (fun ka kl => fst kl = fst ka /\ exists p q, dfind coords (fst (snd ka)) = Some p /\ dfind coords (snd (snd ka)) = Some q /\ snd kl = np_sqrt (dist2 p q)) arcs lens) \/
  (get_arcs_length np_sqrt arcs coords = Err KeyError /\ exists k a, In (k, a) arcs /\ (dfind coords (fst a) = None \/ dfind coords (snd a) = None)).
Proof.
  unfold get_arcs_length. clear Hk Hs. induction arcs as [|[k a] l IH]; [left; exists []; auto|]. cbn [mapM fst snd].
  destruct (dfind coords (fst a)) as [p|] eqn:Ep; [rewrite (proj2 (dget_ok coords (fst a) p) Ep)|rewrite (proj2 (dget_none coords (fst a)) Ep)]; cbn [bind].
  2: { right. split; auto. exists k, a. split; [left; auto|auto]. }
  destruct (dfind coords (snd a)) as [q|] eqn:Eq; [rewrite (proj2 (dget_ok coords (snd a) q) Eq)|rewrite (proj2 (dget_none coords (snd a)) Eq)]; cbn [bind].
  2: { right. split; auto. exists k, a. split; [left; auto|auto]. }
  destruct IH as [(lens & E & F)|(E & k' & a' & I & X)].
  - left. rewrite E. cbn [bind]. eexists. split; [reflexivity|]. constructor; auto. cbn [fst snd]. split; auto. exists p, q. auto.
  - right. rewrite E. cbn [bind]. split; auto. exists k', a'. split; auto. right. auto.
Qed.
Lemma table_cases :
  (exists L, get_node_conn_df np_sqrt arcs coords speeds = Ok L /\ timed np_sqrt arcs coords speeds L /\ ~ missing) \/
  (get_node_conn_df np_sqrt arcs coords speeds = Err KeyError /\ missing).
Proof.
  unfold get_node_conn_df. destruct lens_cases as [(lens & E & F)|(E & k & a & I & X)].
  2: { right. rewrite E. split; auto. exists k, a. split; auto. tauto. }
  rewrite E. cbn [bind].
  assert (Kl : keys lens = keys arcs).
  { clear - F. unfold keys. induction F as [|ka kl l l' (E & _) F IH]; cbn; [auto|]. rewrite IH, E. reflexivity. }
  assert (Fl : forall ka, In ka arcs -> exists p q, dfind coords (fst (snd ka)) = Some p /\ dfind coords (snd (snd ka)) = Some q /\ dget lens (fst ka) = Ok (np_sqrt (dist2 p q))).
  { intros ka I. destruct (Forall2_in_l _ _ _ _ F I) as ([k' len] & I' & (Ek & p & q & Ep & Eq & El)). cbn [fst snd] in *. subst k' len.
    exists p, q. split; auto. split; auto. apply dget_ok. apply In_dfind; auto. rewrite Kl. auto. }
  clear E F Kl.
  assert (X : forall l, incl l arcs ->
    (exists L, mapM (fun ka : string * (string * string) => len <- dget lens (fst ka) ;; speed <- dget speeds (fst ka) ;;
       if qc_eqb speed 0%Qc then Err ZeroDivisionError else Ok (fst ka, mkEntry (fst (snd ka)) (snd (snd ka)) (len / speed)%Qc)) l = Ok L /\
       timed np_sqrt l coords speeds L /\ (forall k a, In (k, a) l -> dfind speeds k <> None)) \/
    (mapM (fun ka : string * (string * string) => len <- dget lens (fst ka) ;; speed <- dget speeds (fst ka) ;;
       if qc_eqb speed 0%Qc then Err ZeroDivisionError else Ok (fst ka, mkEntry (fst (snd ka)) (snd (snd ka)) (len / speed)%Qc)) l = Err KeyError /\
       exists k a, In (k, a) l /\ dfind speeds k = None)).
  { induction l as [|[k a] l IH]; intros I; [left; exists []; split; auto; split; [constructor|intros k a []]|].
    destruct (Fl (k, a) (I _ (or_introl eq_refl))) as (p & q & Ep & Eq & El). cbn [mapM fst snd] in *. rewrite El. cbn [bind].
    destruct (dfind speeds k) as [v|] eqn:Ev; [rewrite (proj2 (dget_ok speeds k v) Ev)|rewrite (proj2 (dget_none speeds k) Ev)]; cbn [bind].
    2: { right. split; auto. exists k, a. split; [left; auto|auto]. }
    destruct (qc_eqb v 0) eqn:Z; [apply qc_eqb_eq in Z; destruct (Hs k v (In_keys _ _ _ (I _ (or_introl eq_refl))) Ev Z)|].
    destruct IH as [(L & E & T & N)|(E & k' & a' & I' & N)]; [intros x Hx; apply I; right; auto| |].
    - left. rewrite E. cbn [bind]. eexists. split; [reflexivity|]. split.
      + constructor; auto. cbn [fst snd origin destination weight]. repeat (split; auto). exists p, q, v. auto.
      + intros k' a' [H|H]; [injection H as <- <-; congruence|eauto].
    - right. rewrite E. split; auto. exists k', a'. split; auto. right. auto. }
  destruct (X arcs (fun x H => H)) as [(L & E & T & N)|(E & k & a & I & N)].
  - left. exists L. split; auto. split; auto. intros (k & a & I & [M|[M|M]]); [| |destruct (N k a I M)].
    + destruct (Fl (k, a) I) as (p & q & Ep & _). cbn [fst snd] in *. congruence.
    + destruct (Fl (k, a) I) as (p & q & _ & Eq & _). cbn [fst snd] in *. congruence.
  - right. split; auto. exists k, a. auto.
Qed.
Lemma timed_unique L L' : timed np_sqrt arcs coords speeds L -> timed np_sqrt arcs coords speeds L' -> L = L'.
Proof.
  unfold timed. clear. intros F. revert L'. induction F as [|[k a] [k1 [o1 d1 w1]] l L (E1 & E2 & E3 & p & q & v & E4 & E5 & E6 & E7) F IH]; intros L' F'; inversion F' as [|? [k2 [o2 d2 w2]] ? ? (X1 & X2 & X3 & p' & q' & v' & X4 & X5 & X6 & X7) F2]; subst; auto.
  cbn [fst snd origin destination weight] in *. rewrite E4 in X4. rewrite E5 in X5. rewrite E6 in X6. injection X4 as <-. injection X5 as <-. injection X6 as <-. f_equal; [congruence|auto].
Qed.
Lemma timed_keys L : timed np_sqrt arcs coords speeds L -> keys L = keys arcs.
Proof. unfold timed, keys. clear. intros F. induction F as [|ka ke l L (E & _) F IH]; cbn; [auto|]. rewrite IH, E. reflexivity. Qed.
Lemma timed_in L k en : timed np_sqrt arcs coords speeds L -> In (k, en) L -> In (k, (origin en, destination en)) arcs /\ takes np_sqrt coords speeds k (origin en, destination en) (weight en).
Proof.
  intros F I. destruct (Forall2_in_r _ _ _ _ F I) as ([k' a] & I' & (E1 & E2 & E3 & T)). cbn [fst snd] in *. subst k'. rewrite E2, E3. destruct a; auto.
Qed.
End Table.

Lemma data_keys arcs coords speeds : data_ok arcs coords speeds -> NoDup (keys arcs).
Proof. intros H; apply H. Qed.

(** * Networks with delays *)
Definition delay_values (w : Qc) : list value := [VNum (qz 10 * w)%Qc; VNum (qz 2 * w)%Qc; VNum (qz 1 * w)%Qc].
Definition delay_varis (L : dict entry) : dict variable := map (fun ke => (fst ke, mk_variable (fst ke) (delay_values (weight (snd ke))) None)) L.

Section Delay.
Variable f : netfile.
Let L := node_conn_df f.
Hypothesis Hk : NoDup (keys L).
Hypothesis Hnp : no_parallel false L.
Hypothesis Hw : forall k en, In (k, en) L -> (0 < weight en)%Qc.
Hypothesis Hne : L <> [].
Let G := file_graph f false false.
Let V := delay_varis L.
Let K := keys L.

Lemma dV_keys : keys V = K.
Proof. unfold V, delay_varis, K, keys. rewrite map_map. reflexivity. Qed.
Lemma dV_in k v : In (k, v) V -> exists en, In (k, en) L /\ v = mk_variable k (delay_values (weight en)) None.
Proof. intros H. apply in_map_iff in H as ([k' en] & E & I). injection E as <- <-. eauto. Qed.
Lemma dV_find k en : In (k, en) L -> dfind V k = Some (mk_variable k (delay_values (weight en)) None).
Proof. intros H. apply In_dfind; [rewrite dV_keys; auto|]. unfold V, delay_varis. apply in_map_iff. exists (k, en). auto. Qed.
Lemma dV_wf : wf_varis V.
Proof. split; [rewrite dV_keys; auto|]. intros k v H. apply dV_in in H as (en & _ & ->). cbn. lia. Qed.
Lemma dV_ne : V <> [].
Proof. unfold V, delay_varis. destruct L; [contradiction|discriminate]. Qed.
Lemma dV_space : space (comps_of V) = delay_states K.
Proof. unfold delay_states, K, V, delay_varis, comps_of, keys. rewrite !map_map. reflexivity. Qed.
Lemma dG_wf : wf_graph G.
Proof. apply file_wf. auto. Qed.
Lemma dV_times : times_ok G V.
Proof.
  intros e l He El. destruct (edge_entry f false e (e_src e) (e_dst e) He) as (k & en & E1 & _ & I & _); [left; auto|].
  rewrite El in E1. injection E1 as <-. eexists. split; [apply dV_find; exact I|]. cbn [mk_variable v_values]. pose proof (Hw l en I) as P.
  assert (P1 : (0 <= qz 1 * weight en)%Qc) by (replace (qz 1 * weight en)%Qc with (weight en) by (change (qz 1) with 1%Qc; ring); apply Qclt_le_weak; auto).
  assert (Q1 : (qz 1 <= qz 2)%Qc) by discriminate. assert (Q2 : (qz 2 <= qz 10)%Qc) by discriminate.
  assert (P2 : (qz 1 * weight en <= qz 2 * weight en)%Qc) by (apply qc_le_mul; auto; apply Qclt_le_weak; auto).
  assert (P3 : (qz 2 * weight en <= qz 10 * weight en)%Qc) by (apply qc_le_mul; auto; apply Qclt_le_weak; auto).
  split.
  - intros w [<-|[<-|[<-|[]]]]; cbn; auto.
    + apply Qcle_trans with (qz 1 * weight en)%Qc; auto. apply Qcle_trans with (qz 2 * weight en)%Qc; auto.
    + apply Qcle_trans with (qz 1 * weight en)%Qc; auto.
  - intros [|[|[|i]]] [|[|[|j]]] wi wj Hij Hi Hj; cbn in Hi, Hj; try (destruct i; discriminate); try (destruct j; discriminate); try lia;
      injection Hi as <-; injection Hj as <-; cbn; auto; try apply Qcle_refl. apply Qcle_trans with (qz 2 * weight en)%Qc; auto.
Qed.
Lemma state_3 x k : In x (delay_states K) -> In k K -> exists s, dfind x k = Some s /\ 0 <= s < 3.
Proof.
  intros Hx Hk'. rewrite <- dV_space in Hx. destruct (space_states V x dV_wf Hx) as [[_ S] _]. apply in_map_iff in Hk' as ([k' en] & <- & I). cbn [fst].
  destruct (S k' (mk_variable k' (delay_values (weight en)) None)) as (s & E & R); [unfold V, delay_varis; apply in_map_iff; exists (k', en); auto|].
  exists s. split; auto.
Qed.
Lemma d_time x k en : In x (delay_states K) -> In (k, en) L -> edge_time V x k = VNum (rate (coord x k) * weight en)%Qc.
Proof.
  intros Hx I. unfold edge_time. rewrite (dV_find k en I). unfold coord. destruct (state_3 x k Hx (In_keys _ _ _ I)) as (s & -> & R).
  cbn [mk_variable v_values]. assert (s = 0 \/ s = 1 \/ s = 2) as [-> | [-> | ->]] by lia; reflexivity.
Qed.
Lemma delayed_in x k en : In (k, en) (delayed L x) <-> exists en0, In (k, en0) L /\ en = mkEntry (origin en0) (destination en0) (rate (coord x k) * weight en0)%Qc.
Proof.
  unfold delayed. rewrite in_map_iff. split.
  - intros ([k' e0] & E & I). injection E as <- <-. eauto.
  - intros (e0 & I & ->). exists (k, e0). auto.
Qed.
Lemma d_within x a b T : In x (delay_states K) -> within G (edge_time V x) a b T -> exists t, T = VNum t /\ reach false (delayed L x) (fun _ => True) a b t.
Proof.
  intros Hx W. induction W as [a Ha|a b c e l T Ha He Hl El W (t & -> & ns & ks & R & _)].
  - exists 0%Qc. split; auto. exists [a], []. split; [constructor|auto].
  - destruct (edge_entry f false e a b He Hl) as (k & en & Ek & _ & I & En). rewrite El in Ek. injection Ek as <-.
    rewrite (d_time x l en Hx I). eexists. split; [reflexivity|]. exists (a :: ns), (l :: ks). split; auto.
    apply (route_cons false (delayed L x) a b c l (mkEntry (origin en) (destination en) (rate (coord x l) * weight en)%Qc)); auto.
    apply delayed_in. eauto.
Qed.
Lemma d_reach x a b t : In x (delay_states K) -> In a (g_nodes G) -> reach false (delayed L x) (fun _ => True) a b t -> within G (edge_time V x) a b (VNum t).
Proof.
  intros Hx Ha (ns & ks & R & _). revert Ha. induction R as [a|a b c k en ns ks t I En R IH]; intros Ha; [constructor; auto|].
  apply delayed_in in I as (en0 & I & ->). cbn [weight]. destruct (entry_edge_ex f false Hk Hnp k en0 a b I En) as (e & He & Hl & El & _).
  replace (VNum (rate (coord x k) * weight en0 + t)%Qc) with (t_add (edge_time V x k) (VNum t)) by (rewrite (d_time x k en0 Hx I); reflexivity).
  apply (wi_step G _ a b c e k); auto. apply IH. apply (node_of f false k en0 a b I En).
Qed.

(** no damage *)
Lemma best_in : In (best_of V) (delay_states K).
Proof.
  unfold best_of, V, delay_varis, K, keys, delay_states. rewrite !map_map. cbn [fst snd]. clear. induction L as [|[k en] l IH]; [left; auto|].
  cbn [map space]. apply in_flat_map. exists 2. split; [change (zrange 0 3) with [0; 1; 2]; cbn; auto|]. exact (in_map (cons (k, 2)) _ _ IH).
Qed.
Lemma best_2 k en : In (k, en) L -> coord (best_of V) k = 2.
Proof.
  intros I. unfold coord. rewrite (In_dfind (best_of V) k 2); auto.
  - unfold keys, best_of. rewrite map_map. cbn [fst]. change (NoDup (keys V)). rewrite dV_keys. auto.
  - unfold best_of, V, delay_varis. rewrite map_map. apply in_map_iff. exists (k, en). auto.
Qed.
Lemma best_same : delayed L (best_of V) = L.
Proof.
  unfold delayed. rewrite <- (map_id L) at 2. apply map_ext_in. intros [k [o d w]] I. cbn [fst snd origin destination weight]. rewrite (best_2 _ _ I). cbn. do 2 f_equal. ring.
Qed.
Lemma route_pos (L' : dict entry) : (forall k en, In (k, en) L' -> (0 < weight en)%Qc) -> forall a ns ks t b, route false L' a ns ks t b -> (0 <= t)%Qc /\ (a <> b -> (0 < t)%Qc).
Proof.
  intros P. induction 1 as [a|a b c k en ns ks t I En R [IH _]]; [split; [apply Qcle_refl|contradiction]|]. pose proof (P k en I). split; intros; qc_lra.
Qed.

Variables (o d : string).
Hypothesis Hod : o <> d.
Hypothesis Hconn : exists t, reach false L (fun _ => True) o d t.

Lemma o_node : In o (g_nodes G).
Proof.
  destruct Hconn as (t & ns & ks & R & _). destruct R as [a|a b c k en ns ks t I En R]; [contradiction|]. apply (node_of f false k en a b I En).
Qed.
Lemma o_walk : exists p, walk G o p d.
Proof.
  pose proof o_node as Ho. destruct Hconn as (t & ns & ks & R & _). clear Hconn Hod. revert Ho. induction R as [a|a b c k en ns ks t I En R IH]; intros Ha; [exists [a]; constructor; auto|].
  destruct (entry_edge_ex f false Hk Hnp k en a b I En) as (e & He & Hl & _). destruct IH as [p Hp]; [apply (node_of f false k en a b I En)|].
  exists (a :: p). apply (walk_cons G a b c e p); auto.
Qed.
Lemma tt_fun (L' : dict entry) v v' : travel_time false L' (fun _ => True) o d v -> travel_time false L' (fun _ => True) o d v' -> v = v'.
Proof.
  destruct v as [t| |], v' as [t'| |]; cbn [travel_time]; try tauto.
  - intros [R M] [R' M']. f_equal. apply Qcle_antisym; auto.
  - intros [R _] N. destruct (N t R).
  - intros N [R _]. destruct (N t' R).
Qed.

Section Time.
Variables (nx_path : graph -> string -> string -> option (list string)) (nx_wpath : graph -> string -> string -> res (list string)) (nx_wlen : graph -> string -> string -> res value).
Hypothesis Hn : nx_wpath_ok nx_wpath nx_wlen.

Lemma d_time_ex x : In x (delay_states K) -> exists t p es, get_time_and_path_given_comps nx_wpath nx_wlen x G o d V = Ok (VNum t, p, es) /\
  travel_time false (delayed L x) (fun _ => True) o d (VNum t).
Proof.
  intros Hx. assert (Hx' : In x (space (comps_of V))) by (rewrite dV_space; auto). destruct (space_states V x dV_wf Hx') as [Sx Kx].
  destruct (time_and_path G dG_wf eq_refl V dV_times nx_wpath nx_wlen Hn x o d Sx dV_ne o_walk) as (T & p & es & E & W & M).
  destruct (d_within x o d T Hx W) as (t & -> & R). exists t, p, es. split; auto. split; auto.
  intros t' R'. apply (d_reach x o d t' Hx o_node) in R'. exact (M _ R').
Qed.
Lemma t0_ex : exists t0 p es, get_time_and_path_given_comps nx_wpath nx_wlen (best_of V) G o d V = Ok (VNum t0, p, es) /\
  travel_time false L (fun _ => True) o d (VNum t0) /\ (0 < t0)%Qc.
Proof.
  destruct (d_time_ex (best_of V) best_in) as (t0 & p & es & E & T). rewrite best_same in T. exists t0, p, es. split; auto. split; auto.
  destruct T as [(ns & ks & R & _) _]. apply (route_pos L Hw _ _ _ _ _ R). auto.
Qed.
Definition delay_sys (t0 : Qc) : sysfun := as_sysfun (fun x => sf_min_path nx_path nx_wpath nx_wlen x G o d V (Some (VNum (t0 + t0)%Qc))).
Lemma two_t t0 : (Q2Qc 2 * t0 = t0 + t0)%Qc.
Proof. replace (Q2Qc 2) with (1 + 1)%Qc by reflexivity. ring. Qed.
Lemma delay_sys_ok t0 slowb : travel_time false L (fun _ => True) o d (VNum t0) -> (0 < t0)%Qc ->
  (forall x, In x (delay_states K) -> (slowb x = true <-> slow L o d x)) -> sys_ok V (fun x => negb (slowb x)) (delay_sys t0).
Proof.
  intros T0 P0 Hl. assert (P2 : (0 < t0 + t0)%Qc) by qc_lra.
  apply time_sys_ok; auto; try apply dG_wf; try apply dV_wf; try apply dV_times; try apply dV_ne; try apply o_walk.
  - intros X. assert (Y : (t0 + t0)%Qc = 0%Qc) by congruence. rewrite Y in P2. apply (Qclt_not_eq _ _ P2). auto.
  - apply Qclt_le_weak. auto.
  - intros x Hx. rewrite dV_space in Hx. destruct (d_time_ex x Hx) as (t & p & es & E & T).
    assert (Sl : slow L o d x <-> (t0 + t0 < t)%Qc).
    { split.
      - intros (t0' & t' & T0' & T' & Lt). apply (tt_fun _ _ _ T0) in T0'. injection T0' as <-. apply (tt_fun _ _ _ T) in T'. injection T' as <-. rewrite <- two_t. auto.
      - intros Lt. exists t0, t. rewrite two_t. auto. }
    rewrite negb_true_iff. split.
    + intros Hp. exists (VNum t). split; [apply d_reach; auto; [apply o_node|apply T]|]. cbn. destruct (Qclt_le_dec (t0 + t0)%Qc t) as [Lt|Le]; auto.
      apply Sl, Hl in Lt; auto. congruence.
    + intros (T' & W & Le). destruct (slowb x) eqn:Sb; auto. apply Hl, Sl in Sb; auto. destruct (d_within x o d T' Hx W) as (t' & -> & R).
      exfalso. apply (Qclt_not_le _ _ Sb). apply Qcle_trans with t'; auto. apply (proj2 T t' R).
Qed.
Lemma slow_dec : exists slowb, forall x, In x (delay_states K) -> (slowb x = true <-> slow L o d x).
Proof.
  destruct t0_ex as (t0 & _ & _ & _ & T0 & _).
  exists (fun x => match get_time_and_path_given_comps nx_wpath nx_wlen x G o d V with Ok (VNum t, _, _) => qc_ltb (t0 + t0)%Qc t | _ => false end).
  intros x Hx. destruct (d_time_ex x Hx) as (t & p & es & -> & T). rewrite qc_ltb_lt. split.
  - intros Lt. exists t0, t. rewrite two_t. auto.
  - intros (t0' & t' & T0' & T' & Lt). apply (tt_fun _ _ _ T0) in T0'. injection T0' as <-. apply (tt_fun _ _ _ T) in T'. injection T' as <-. rewrite <- two_t. auto.
Qed.
End Time.
End Delay.
