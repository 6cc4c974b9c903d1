(** Proofs about network files. *)
From Coq Require Import ZArith List String Bool Arith QArith Qcanon Lia Permutation.
From Verif Require Import Py PyFacts Num Vari VariFacts Brc SpecBrc Trans SpecTrans TransFacts Config SpecConfig.
Import ListNotations.
Open Scope string_scope.
Open Scope Z_scope.
Open Scope list_scope.

(** * The type of the graph *)
Lemma graph_kind_ok gt dir multi : graph_kind gt = Ok (dir, multi) <-> kind_of gt dir multi.
Proof.
  unfold graph_kind, kind_of. destruct gt as [t|].
  - destruct (String.eqb_spec t "Graph") as [->|N1]; [split; [intros [= <- <-]; left; auto|intros [(-> & -> & _)|[(_ & _ & E)|[(_ & _ & E)|(_ & _ & E)]]]; auto; discriminate]|].
    destruct (String.eqb_spec t "DiGraph") as [->|N2]; [split; [intros [= <- <-]; right; left; auto|intros [(_ & _ & [E|E])|[(-> & -> & E)|[(_ & _ & E)|(_ & _ & E)]]]; auto; discriminate]|].
    destruct (String.eqb_spec t "MultiGraph") as [->|N3]; [split; [intros [= <- <-]; right; right; left; auto|intros [(_ & _ & [E|E])|[(_ & _ & E)|[(-> & -> & E)|(_ & _ & E)]]]; auto; discriminate]|].
    destruct (String.eqb_spec t "MultiDiGraph") as [->|N4]; [split; [intros [= <- <-]; right; right; right; auto|intros [(_ & _ & [E|E])|[(_ & _ & E)|[(_ & _ & E)|(-> & -> & E)]]]; auto; discriminate]|].
    split; [discriminate|]. intros [(_ & _ & [E|E])|[(_ & _ & E)|[(_ & _ & E)|(_ & _ & E)]]]; congruence.
  - split; [intros [= <- <-]; left; auto|]. intros [(-> & -> & _)|[(_ & _ & E)|[(_ & _ & E)|(_ & _ & E)]]]; auto; discriminate.
Qed.
Lemma graph_kind_err gt e : graph_kind gt = Err e <-> e = AssertionError /\ forall dir multi, ~ kind_of gt dir multi.
Proof.
  split.
  - intros E. split.
    + revert E. unfold graph_kind. destruct gt as [t|]; [|discriminate]. repeat (destruct (String.eqb _ _); [discriminate|]). congruence.
    + intros dir multi K. apply graph_kind_ok in K. congruence.
  - intros [-> N]. destruct (graph_kind gt) as [[dir multi]|e] eqn:E; [exfalso; apply (N dir multi); apply graph_kind_ok; auto|].
    revert E. unfold graph_kind. destruct gt as [t|]; [|discriminate]. repeat (destruct (String.eqb _ _); [discriminate|]). auto.
Qed.

(** * Nodes *)
Lemma add_node_In ns n x : In x (add_node ns n) <-> x = n \/ In x ns.
Proof.
  unfold add_node. destruct (mem_str n ns) eqn:M.
  - apply mem_str_In in M. split; auto. intros [->|H]; auto.
  - rewrite in_app_iff. cbn [In]. split; [intros [H|[H|[]]]; auto|intros [->|H]; auto].
Qed.
Lemma add_node_nodup ns n : NoDup ns -> NoDup (add_node ns n).
Proof.
  intros N. unfold add_node. destruct (mem_str n ns) eqn:M; auto.
  apply NoDup_rev in N. rewrite <- (rev_involutive (ns ++ [n])), rev_app_distr. apply NoDup_rev. cbn. constructor; auto.
  rewrite <- in_rev. intros H. apply mem_str_In in H. congruence.
Qed.
Lemma entries_nodes dir multi l : forall acc x, In x (fst (fold_left (add_entry dir multi) l acc)) <->
  In x (fst acc) \/ exists k en, In (k, en) l /\ (x = origin en \/ x = destination en).
Proof.
  induction l as [|[k0 en0] l IH]; intros acc x; cbn [fold_left].
  - split; auto. intros [H|(k & en & [] & _)]; auto.
  - rewrite IH. unfold add_entry. cbn [fst snd]. rewrite !add_node_In. split.
    + intros [[->|[->|H]]|(k & en & H & E)]; auto; right; [exists k0, en0|exists k0, en0|exists k, en]; cbn; auto.
    + intros [H|(k & en & [H|H] & E)]; auto; [|right; exists k, en; auto]. injection H as <- <-. destruct E; auto.
Qed.
Lemma entries_nodup dir multi l : forall acc, NoDup (fst acc) -> NoDup (fst (fold_left (add_entry dir multi) l acc)).
Proof.
  induction l as [|kv l IH]; intros acc N; cbn [fold_left]; auto. apply IH. unfold add_entry. cbn [fst]. apply add_node_nodup, add_node_nodup. auto.
Qed.
Lemma comps_nodes l : forall ns x, In x (fold_left add_node l ns) <-> In x ns \/ In x l.
Proof.
  induction l as [|n l IH]; intros ns x; cbn [fold_left In]; [tauto|]. rewrite IH, add_node_In. intuition.
Qed.
Lemma comps_nodup l : forall ns, NoDup ns -> NoDup (fold_left add_node l ns).
Proof. induction l as [|n l IH]; intros ns N; cbn [fold_left]; auto. apply IH, add_node_nodup; auto. Qed.

(** * Edges *)
Lemma entries_edges dir multi l : forall acc, snd (fold_left (add_entry dir multi) l acc) = fold_left (add_edge dir multi) (map entry_edge l) (snd acc).
Proof. induction l as [|kv l IH]; intros acc; cbn [fold_left map]; auto. rewrite IH. auto. Qed.

Definition lds (dir : bool) (e : gedge) (a b : string) : Prop :=
  (e_src e = a /\ e_dst e = b) \/ (dir = false /\ e_src e = b /\ e_dst e = a).
Lemma lds_leads G e a b : lds (g_dir G) e a b <-> leads G e a b.
Proof. reflexivity. Qed.
Lemma joins_lds dir e a b : joins dir e a b = true <-> lds dir e a b.
Proof. unfold joins, lds. rewrite orb_true_iff, !andb_true_iff, negb_true_iff, !String.eqb_eq. tauto. Qed.
Lemma lds_entry dir k en a b : lds dir (entry_edge (k, en)) a b <-> ends dir en a b.
Proof. reflexivity. Qed.
Lemma hit_spec dir multi e e' : add_hit dir multi e e' = true <-> lds dir e' (e_src e) (e_dst e) /\ (multi = true -> e_key e' = e_key e).
Proof.
  unfold add_hit. rewrite andb_true_iff, joins_lds. destruct multi; [rewrite gkey_eqb_eq; tauto|]. split; intros [H _]; split; auto. discriminate.
Qed.
Lemma add_new dir multi es e : (forall e', In e' es -> ~ (lds dir e' (e_src e) (e_dst e) /\ (multi = true -> e_key e' = e_key e))) ->
  add_edge dir multi es e = es ++ [e].
Proof.
  intros H. unfold add_edge. destruct (existsb _ es) eqn:E; auto. apply existsb_exists in E as (e' & He & Ht). apply hit_spec in Ht. destruct (H e' He Ht).
Qed.

(** multigraphs, and files without parallel entries *)
Lemma edges_plain dir multi l : NoDup (keys l) -> (multi = false -> no_parallel dir l) ->
  fold_left (add_edge dir multi) (map entry_edge l) [] = map entry_edge l.
Proof.
  induction l as [|[k0 en0] l IH] using rev_ind; intros N NP; auto.
  unfold keys in N. rewrite map_app in N. cbn [map fst] in N. apply NoDup_remove in N as [N1 N2]. rewrite app_nil_r in N1, N2.
  rewrite map_app, fold_left_app, IH; auto.
  2:{ intros M k en k' en' H1 H2. apply (NP M); apply in_or_app; auto. }
  cbn [map fold_left]. apply add_new. intros e' He [L K]. apply in_map_iff in He as ([k en] & <- & He). destruct multi.
  - specialize (K eq_refl). cbn in K. injection K as ->. apply N2. apply in_map_iff. exists (k0, en). auto.
  - assert (E : k = k0). { apply (NP eq_refl k0 en0 k en); [apply in_or_app; right; left; auto|apply in_or_app; auto|exact L]. }
    subst k. apply N2. apply in_map_iff. exists (k0, en). auto.
Qed.

(** simple graphs: the last of several entries *)
Definition ep (e : gedge) : string * string := (e_src e, e_dst e).
Definition upd (dir : bool) (e e' : gedge) : gedge :=
  if add_hit dir false e e' then mkEdge (e_src e') (e_dst e') (e_key e') (e_label e) (e_weight e) else e'.
Lemma upd_ep dir e e' : ep (upd dir e e') = ep e'.
Proof. unfold upd. destruct (add_hit _ _ _ _); auto. Qed.
Lemma add_simple dir es e : add_edge dir false es e = if existsb (add_hit dir false e) es then map (upd dir e) es else es ++ [e].
Proof. reflexivity. Qed.

Lemma ends_sym dir en en' : ends dir en (origin en') (destination en') <-> ends dir en' (origin en) (destination en).
Proof. unfold ends. intuition congruence. Qed.
Lemma last_snoc_old dir l k0 en0 a b k en : ~ ends dir en0 a b ->
  (last_entry dir (l ++ [(k0, en0)]) a b k en <-> last_entry dir l a b k en).
Proof.
  intros N. split; intros (pre & post & E & H & F).
  - destruct post as [|x post] using rev_ind.
    + apply app_inj_tail in E as [_ E]. injection E as <- <-. tauto.
    + clear IHpost. rewrite app_comm_cons, app_assoc in E. apply app_inj_tail in E as [E1 E2]. subst l.
      exists pre, post. split; auto. split; auto. intros k' en' H'. apply (F k'), in_or_app; auto.
  - exists pre, (post ++ [(k0, en0)]). rewrite E. split; [rewrite <- app_assoc; auto|]. split; auto.
    intros k' en' H'. apply in_app_or in H' as [H'|[H'|[]]]; [eauto|]. injection H' as <- <-. auto.
Qed.
Lemma last_snoc_new dir l k0 en0 a b : ends dir en0 a b -> last_entry dir (l ++ [(k0, en0)]) a b k0 en0.
Proof. intros H. exists l, []. split; auto. Qed.
Lemma last_unique dir l a b k en k' en' : last_entry dir l a b k en -> last_entry dir l a b k' en' -> (k, en) = (k', en').
Proof.
  intros (pre & post & E & H & F) (pre' & post' & E' & H' & F'). rewrite E in E'. clear E.
  revert pre' E'. induction pre as [|x pre IH]; intros [|y pre'] E'; cbn in E'.
  - injection E' as -> ->. auto.
  - injection E' as <- E'. exfalso. apply (F k' en'); auto. rewrite E'. apply in_or_app. right. left. auto.
  - injection E' as -> E'. exfalso. apply (F' k en); auto. rewrite <- E'. apply in_or_app. right. left. auto.
  - injection E' as _ E'. eauto.
Qed.
Lemma last_In dir l a b k en : last_entry dir l a b k en -> In (k, en) l /\ ends dir en a b.
Proof. intros (pre & post & -> & H & _). split; auto. apply in_or_app. right. left. auto. Qed.
Lemma last_ex dir l a b k en : In (k, en) l -> ends dir en a b -> exists k' en', last_entry dir l a b k' en'.
Proof.
  induction l as [|[k0 en0] l IH] using rev_ind; [intros []|]. intros H E.
  assert (D : ends dir en0 a b \/ ~ ends dir en0 a b).
  { destruct (joins dir (entry_edge (k0, en0)) a b) eqn:J; [left|right]; rewrite <- (lds_entry dir k0), <- joins_lds; congruence. }
  destruct D as [D|D]; [exists k0, en0; apply last_snoc_new; auto|].
  apply in_app_or in H as [H|[H|[]]]; [|congruence]. destruct (IH H E) as (k' & en' & L). exists k', en'. apply last_snoc_old; auto.
Qed.
Lemma ends_pair dir en en' a b : ends dir en a b -> (ends dir en' a b <-> ends dir en' (origin en) (destination en)).
Proof.
  unfold ends. intros [[<- <-]|(-> & <- & <-)]; [tauto|]. split; intros [[H1 H2]|(_ & H1 & H2)]; auto.
Qed.

Definition elds (dir : bool) (p q : string * string) : Prop := q = p \/ (dir = false /\ q = (snd p, fst p)).
Definition simple_inv (dir : bool) (l : dict entry) (es : list gedge) : Prop :=
  NoDup (map ep es) /\
  (forall p q, In p (map ep es) -> In q (map ep es) -> elds dir p q -> q = p) /\
  (forall e, In e es -> exists k en, e_label e = Some k /\ e_weight e = Some (VNum (weight en)) /\ last_entry dir l (e_src e) (e_dst e) k en) /\
  (forall k en, In (k, en) l -> exists e, In e es /\ lds dir e (origin en) (destination en)).
Lemma edges_simple dir l : simple_inv dir l (fold_left (add_edge dir false) (map entry_edge l) []).
Proof.
  induction l as [|[k0 en0] l (I1 & I2 & I3 & I4)] using rev_ind.
  - split; [constructor|]. split; [intros p q []|]. split; [intros e []|intros k en []].
  - rewrite map_app, fold_left_app. cbn [map fold_left]. set (es := fold_left _ _ _) in *. rewrite add_simple.
    set (e0 := entry_edge (k0, en0)).
    assert (Hit : forall e, add_hit dir false e0 e = true <-> lds dir e (origin en0) (destination en0)).
    { intros e. rewrite hit_spec. split; [tauto|]. intros H. split; auto. discriminate. }
    assert (HE : forall e, In e es -> add_hit dir false e0 e = true <-> ends dir en0 (e_src e) (e_dst e)).
    { intros e He. rewrite Hit. unfold lds, ends. intuition congruence. }
    destruct (existsb (add_hit dir false e0) es) eqn:X.
    + assert (Em : map ep (map (upd dir e0) es) = map ep es) by (rewrite map_map; apply map_ext; intros e; apply upd_ep).
      unfold simple_inv. rewrite Em. split; auto. split; auto. split.
      * intros e He. apply in_map_iff in He as (e' & <- & He). destruct (I3 e' He) as (k & en & L1 & L2 & L3). unfold upd.
        destruct (add_hit dir false e0 e') eqn:Y.
        -- apply HE in Y; auto. exists k0, en0. cbn. split; auto. split; auto. apply last_snoc_new; auto.
        -- exists k, en. split; auto. split; auto. apply last_snoc_old; auto. rewrite <- HE by auto. congruence.
      * intros k en H. apply in_app_or in H as [H|[H|[]]].
        -- destruct (I4 k en H) as (e & He & L). exists (upd dir e0 e). split; [apply in_map; auto|].
           pose proof (upd_ep dir e0 e) as U. unfold ep in U. injection U as U1 U2. unfold lds in *. rewrite U1, U2. auto.
        -- injection H as <- <-. apply existsb_exists in X as (e & He & Ht). apply Hit in Ht. exists (upd dir e0 e). split; [apply in_map; auto|].
           pose proof (upd_ep dir e0 e) as U. unfold ep in U. injection U as U1 U2. unfold lds in *. rewrite U1, U2. auto.
    + assert (NH : forall e, In e es -> ~ lds dir e (origin en0) (destination en0)).
      { intros e He L. apply Hit in L. assert (F : existsb (add_hit dir false e0) es = true) by (apply existsb_exists; eauto). congruence. }
      unfold simple_inv. rewrite map_app. cbn [map]. split; [|split; [|split]].
      * apply NoDup_rev in I1. rewrite <- (rev_involutive (map ep es ++ _)), rev_app_distr. apply NoDup_rev. cbn. constructor; auto.
        rewrite <- in_rev. intros F. apply in_map_iff in F as (e & E & He). apply (NH e He). left. unfold ep in E. injection E as -> ->. auto.
      * intros p q Hp Hq L. apply in_app_or in Hp as [Hp|[<-|[]]]; apply in_app_or in Hq as [Hq|[<-|[]]]; auto.
        -- apply in_map_iff in Hp as (e & <- & He). exfalso. apply (NH e He). destruct L as [L|[D L]]; unfold ep in L; cbn in L; injection L as L1 L2; [left|right]; auto.
        -- apply in_map_iff in Hq as (e & <- & He). exfalso. apply (NH e He). destruct L as [L|[D L]]; unfold ep in L; cbn in L; injection L as L1 L2; [left|right]; auto.
      * intros e He. apply in_app_or in He as [He|[<-|[]]].
        -- destruct (I3 e He) as (k & en & L1 & L2 & L3). exists k, en. split; auto. split; auto. apply last_snoc_old; auto. rewrite <- HE by auto.
           rewrite Hit. apply NH; auto.
        -- exists k0, en0. cbn. split; auto. split; auto. apply last_snoc_new. left; auto.
      * intros k en H. apply in_app_or in H as [H|[H|[]]].
        -- destruct (I4 k en H) as (e & He & L). exists e. split; auto. apply in_or_app; auto.
        -- injection H as <- <-. exists e0. split; [apply in_or_app; right; left; auto|]. left; auto.
Qed.

Lemma map_inj_in {A B} (f : A -> B) l x y : NoDup (map f l) -> In x l -> In y l -> f x = f y -> x = y.
Proof.
  induction l as [|z l IH]; cbn [map]; [intros _ []|]. intros N. inversion N as [|? ? N1 N2]; subst.
  intros [<-|Hx] [<-|Hy] E; auto; exfalso; apply N1; [rewrite E|rewrite <- E]; apply in_map; auto.
Qed.

(** * The graph of a file *)
Definition file_graph (f : netfile) (dir multi : bool) : graph :=
  mkGraph dir multi (fold_left add_node (component_list f) (fst (fold_left (add_entry dir multi) (node_conn_df f) ([], []))))
    (fold_left (add_edge dir multi) (map entry_edge (node_conn_df f)) []).
Lemma read_ok f dir multi : kind_of (graph_type f) dir multi ->
  read_model f = Ok (file_graph f dir multi, node_conn_df f, sysout_setup f).
Proof. intros K. apply graph_kind_ok in K. unfold read_model. rewrite K. cbn [bind fst snd]. rewrite entries_edges. reflexivity. Qed.
Lemma file_nodes f dir multi n : In n (g_nodes (file_graph f dir multi)) <->
  In n (component_list f) \/ exists k en, In (k, en) (node_conn_df f) /\ (n = origin en \/ n = destination en).
Proof. cbn [file_graph g_nodes]. rewrite comps_nodes, entries_nodes. cbn [fst In]. tauto. Qed.
Lemma file_nodes_nodup f dir multi : NoDup (g_nodes (file_graph f dir multi)).
Proof. cbn [file_graph g_nodes]. apply comps_nodup, entries_nodup. constructor. Qed.
Lemma file_last f dir a b e : In e (g_edges (file_graph f dir false)) -> lds dir e a b ->
  exists k en, e_label e = Some k /\ e_weight e = Some (VNum (weight en)) /\ last_entry dir (node_conn_df f) a b k en.
Proof.
  cbn [file_graph g_edges]. destruct (edges_simple dir (node_conn_df f)) as (_ & _ & I3 & _). intros He L.
  destruct (I3 e He) as (k & en & L1 & L2 & pre & post & E & H & F). exists k, en. split; auto. split; auto. exists pre, post. split; auto.
  destruct L as [[<- <-]|(-> & <- & <-)]; auto. split; [unfold ends in *; intuition|]. intros k' en' H' X. apply (F k' en' H'). unfold ends in *. intuition.
Qed.
Lemma file_edge f dir a b k en : last_entry dir (node_conn_df f) a b k en ->
  exists e, In e (g_edges (file_graph f dir false)) /\ lds dir e a b /\ e_label e = Some k /\ e_weight e = Some (VNum (weight en)).
Proof.
  intros H. destruct (last_In _ _ _ _ _ _ H) as [H1 H2]. destruct (edges_simple dir (node_conn_df f)) as (_ & _ & _ & I4).
  destruct (I4 k en H1) as (e & He & L). exists e. split; auto.
  assert (L' : lds dir e a b).
  { destruct H2 as [[<- <-]|(D & <- & <-)]; auto. unfold lds in *. intuition. }
  split; auto. destruct (file_last f dir a b e He L') as (k' & en' & E1 & E2 & E3). pose proof (last_unique _ _ _ _ _ _ _ _ H E3) as U. injection U as -> ->. auto.
Qed.
Lemma file_wf f dir multi : NoDup (keys (node_conn_df f)) -> wf_graph (file_graph f dir multi) /\ label_keys (file_graph f dir multi) /\ num_weights (file_graph f dir multi).
Proof.
  intros N. destruct multi.
  - assert (E : g_edges (file_graph f dir true) = map entry_edge (node_conn_df f)) by (apply edges_plain; [auto|discriminate]).
    assert (Nl : NoDup (map e_label (map entry_edge (node_conn_df f)))).
    { rewrite map_map. unfold keys in N. clear E. induction (node_conn_df f) as [|[k en] l IH]; cbn; constructor; cbn in N; inversion N as [|? ? N1 N2]; subst; auto.
      intros H. apply in_map_iff in H as ([k' en'] & H & Hi). cbn in H. injection H as ->. apply N1. apply in_map_iff. exists (k, en'). auto. }
    split; [split; [|split]|split].
    + rewrite E. apply (NoDup_map_inv _ _ Nl).
    + rewrite E. intros e He. apply in_map_iff in He as ([k en] & <- & He). cbn [entry_edge e_src e_dst e_label fst snd]. rewrite !file_nodes.
      split; [right; eauto 6|]. split; [right; eauto 6|discriminate].
    + rewrite E. intros e e' He He' _ K. specialize (K eq_refl). apply (map_inj_in e_label _ e' e Nl); auto.
      apply in_map_iff in He as ([k en] & <- & He). apply in_map_iff in He' as ([k' en'] & <- & He'). cbn in *. congruence.
    + intros _ e He. rewrite E in He. apply in_map_iff in He as ([k en] & <- & He). cbn. split; [eauto|discriminate].
    + intros e He. rewrite E in He. apply in_map_iff in He as ([k en] & <- & He). cbn. eauto.
  - destruct (edges_simple dir (node_conn_df f)) as (I1 & I2 & I3 & I4). split; [split; [|split]|split].
    + apply (NoDup_map_inv _ _ I1).
    + intros e He. destruct (I3 e He) as (k & en & L1 & L2 & L3). apply last_In in L3 as [L3 L4]. rewrite !file_nodes, L1.
      destruct L4 as [[<- <-]|(_ & <- & <-)]; (split; [right; eauto 6|]); (split; [right; eauto 6|discriminate]).
    + intros e e' He He' L _. apply (map_inj_in ep _ e' e I1); auto. apply I2; try (apply in_map; auto).
      destruct L as [[L1 L2]|(D & L1 & L2)]; unfold elds, ep; rewrite L1, L2; auto.
    + discriminate.
    + intros e He. destruct (I3 e He) as (k & en & L1 & L2 & L3). eauto.
Qed.
