(** C74-C76: network files, their paths, and the path-based model made from them. *)
From Coq Require Import ZArith List String Bool Arith QArith Qcanon Lia Permutation.
From Verif Require Import Py PyFacts Num Vari VariFacts Brc SpecBrc BrcFacts Cpm SpecCpm Model Bnb SpecBnb BnbFacts PathModel PathFacts PropBnb PropPath.
From Verif Require Import Trans SpecTrans TransFacts NxPaths Config SpecConfig ConfigFacts ConfigPaths ConfigSetup.
Import ListNotations.
Open Scope string_scope.
Open Scope Z_scope.
Open Scope list_scope.

(** ** C74: the graph of a network file *)
(** the nodes are those of the components and of the entries; edges join nodes, are labelled,
    keyed by label in multigraphs and weighted, as the system functions expect (C50, C55) *)
Theorem C74_graph :
  forall f dir multi, kind_of (graph_type f) dir multi -> NoDup (keys (node_conn_df f)) ->
    exists G, read_model f = Ok (G, node_conn_df f, sysout_setup f) /\ g_dir G = dir /\ g_multi G = multi /\
      wf_graph G /\ label_keys G /\ num_weights G /\ NoDup (g_nodes G) /\
      forall n, In n (g_nodes G) <-> In n (component_list f) \/ exists k en, In (k, en) (node_conn_df f) /\ (n = origin en \/ n = destination en).
Proof.
  intros f dir multi K N. exists (file_graph f dir multi). split; [apply read_ok; auto|]. split; auto. split; auto.
  destruct (file_wf f dir multi N) as (W1 & W2 & W3). split; auto. split; auto. split; auto. split; [apply file_nodes_nodup|]. apply file_nodes.
Qed.
Print Assumptions C74_graph.
(** one edge for each entry, in multigraphs always, in simple graphs without parallel entries *)
Theorem C74_edges :
  forall f dir multi, kind_of (graph_type f) dir multi -> NoDup (keys (node_conn_df f)) ->
    multi = true \/ no_parallel dir (node_conn_df f) ->
    exists G, read_model f = Ok (G, node_conn_df f, sysout_setup f) /\
      Forall2 (fun kv e => e_src e = origin (snd kv) /\ e_dst e = destination (snd kv) /\ e_label e = Some (fst kv) /\
                           e_key e = KStr (fst kv) /\ e_weight e = Some (VNum (weight (snd kv)))) (node_conn_df f) (g_edges G).
Proof.
  intros f dir multi K N H. exists (file_graph f dir multi). split; [apply read_ok; auto|]. cbn [file_graph g_edges].
  rewrite edges_plain; auto; [|intros ->; destruct H; [discriminate|auto]].
  induction (node_conn_df f) as [|kv l IH]; cbn [map]; constructor; [cbn; auto 6|].
  apply IH; [inversion N; auto|]. destruct H as [H|H]; auto. right. intros k en k' en' H1 H2. apply H; right; auto.
Qed.
Print Assumptions C74_edges.
(** simple graphs in general: between two nodes lies the last of the entries between them *)
Theorem C74_last :
  forall f dir, kind_of (graph_type f) dir false ->
    exists G, read_model f = Ok (G, node_conn_df f, sysout_setup f) /\
      forall a b k w, (exists e, In e (g_edges G) /\ leads G e a b /\ e_label e = Some k /\ e_weight e = Some (VNum w)) <->
        exists en, last_entry dir (node_conn_df f) a b k en /\ weight en = w.
Proof.
  intros f dir K. exists (file_graph f dir false). split; [apply read_ok; auto|]. intros a b k w. split.
  - intros (e & He & Hl & El & Ew). destruct (file_last f dir a b e He Hl) as (k' & en & E1 & E2 & E3). exists en. split; congruence.
  - intros (en & H & <-). apply (file_edge f dir a b k en); auto.
Qed.
Print Assumptions C74_last.
(** a type that is not listed, also one in lower case, is refused *)
Theorem C74_type : forall f e, read_model f = Err e <-> e = AssertionError /\ forall dir multi, ~ kind_of (graph_type f) dir multi.
Proof.
  intros f e. rewrite <- graph_kind_err. unfold read_model. destruct (graph_kind (graph_type f)) as [[dir multi]|e']; cbn [bind]; split; congruence.
Qed.
Print Assumptions C74_type.

(** examples: a triangle with a chord given twice *)
Definition en (a b : string) (w : Z) : entry := mkEntry a b (qz w).
Definition tri_df : dict entry := [("e1", en "a" "b" 1); ("e2", en "a" "c" 1); ("e3", en "c" "b" 2)].
Definition tri_file (gt : option string) : netfile := mkNetfile ["a"; "b"; "c"; "z"] tri_df [("od", ("a", "b"))] gt.
Definition par_df : dict entry := [("e1", en "a" "b" 1); ("e2", en "b" "a" 3)].
Definition par_file (gt : option string) : netfile := mkNetfile ["a"; "b"] par_df [("od", ("a", "b"))] gt.
Definition labels (G : graph) : list (string * string * option string) := map (fun e => (e_src e, e_dst e, e_label e)) (g_edges G).
Lemma nd_keys_ok {A} (d : dict A) : nodupb (keys d) = true -> NoDup (keys d).
Proof. apply nodupb_ok. Qed.
Lemma tri_np dir : no_parallel dir tri_df.
Proof.
  intros k e1 k' e2 H1 H2 E. cbn in H1, H2. repeat (destruct H1 as [H1|H1]; [injection H1 as <- <-|]); try (destruct H1);
    repeat (destruct H2 as [H2|H2]; [injection H2 as <- <-|]); try (destruct H2); auto; destruct E as [[E1 E2]|(_ & E1 & E2)]; discriminate.
Qed.
Example C74_ex :
  kind_of None false false /\ kind_of (Some "DiGraph") true false /\ NoDup (keys tri_df) /\ no_parallel false tri_df /\
  (exists G es ods, read_model (tri_file None) = Ok (G, es, ods) /\ g_nodes G = ["a"; "b"; "c"; "z"] /\
     labels G = [("a", "b", Some "e1"); ("a", "c", Some "e2"); ("c", "b", Some "e3")]) /\
  (exists G es ods, read_model (par_file (Some "DiGraph")) = Ok (G, es, ods) /\ labels G = [("a", "b", Some "e1"); ("b", "a", Some "e2")]) /\
  (exists G es ods, read_model (par_file (Some "MultiGraph")) = Ok (G, es, ods) /\ labels G = [("a", "b", Some "e1"); ("b", "a", Some "e2")]) /\
  last_entry false par_df "a" "b" "e2" (en "b" "a" 3) /\
  read_model (tri_file (Some "graph")) = Err AssertionError.
Proof.
  split; [left; auto|]. split; [right; left; auto|]. split; [apply nd_keys_ok; reflexivity|]. split; [apply tri_np|].
  do 3 (split; [do 3 eexists; split; [reflexivity|repeat split; reflexivity]|]). split; [|reflexivity].
  exists [("e1", en "a" "b" 1)], []. split; auto. split; [right; cbn; auto|intros k' en' []].
Qed.
(** in a simple graph an entry parallel to a later one is lost: no edge carries its label *)
Theorem C74_parallel_refuted :
  exists f G, NoDup (keys (node_conn_df f)) /\ kind_of (graph_type f) false false /\
    read_model f = Ok (G, node_conn_df f, sysout_setup f) /\
    In "e1" (keys (node_conn_df f)) /\ forall e, In e (g_edges G) -> e_label e <> Some "e1".
Proof.
  exists (par_file None). eexists. split; [apply nd_keys_ok; reflexivity|]. split; [left; auto|]. split; [reflexivity|]. split; [left; auto|].
  intros e [<-|[]]. discriminate.
Qed.
Print Assumptions C74_parallel_refuted.

(** ** C75: all paths and their times *)
(** simple graphs and different ODs: one entry for each path without repeated nodes, with
    the labels and the total weight of its edges; ODs without path are missing *)
Theorem C75_paths :
  forall nx G ods, nx_simple_ok nx -> wf_graph G -> g_multi G = false -> num_weights G -> NoDup ods ->
    (forall o d, In (o, d) ods -> In o (g_nodes G) /\ In d (g_nodes G) /\ o <> d) ->
    exists pts, get_all_paths_and_times nx ods G = Ok pts /\ NoDup (map fst pts) /\ incl (map fst pts) ods /\
      forall o d, In (o, d) ods -> exists l pt, NoDup l /\ (forall ns, In ns l <-> walk G o ns d /\ NoDup ns) /\
        Forall2 (fun ns x => trip G o ns (fst x) (snd x) d) l pt /\
        (In (o, d) (map fst pts) <-> l <> []) /\ (l <> [] -> In ((o, d), pt) pts).
Proof.
  intros nx G ods Hnx Hwf Hs Hw N H. destruct (get_all_ok nx Hnx G Hwf Hs Hw ods []) as (pts & P & E); auto.
  set (res := flat_map (fun op : (string * string) * od_paths => match snd op with [] => [] | _ => [op] end) (combine ods pts)) in *.
  assert (R : forall od pt, In (od, pt) res <-> In (od, pt) (combine ods pts) /\ pt <> []).
  { intros od pt. unfold res. rewrite in_flat_map. split.
    - intros ([od' pt'] & H1 & H2). cbn [snd] in H2. destruct pt' as [|x pt']; [destruct H2|]. destruct H2 as [[= <- <-]|[]]. split; auto. discriminate.
    - intros [H1 H2]. exists (od, pt). split; auto. cbn [snd]. destruct pt; [congruence|left; auto]. }
  assert (Nc : NoDup (map fst (combine ods pts))).
  { clear - N P. induction P; cbn [combine map fst]; [constructor|]. inversion N as [|? ? N1 N2]; subst. constructor; auto.
    intros F. apply in_map_iff in F as ([a b] & <- & F). apply in_combine_l in F. auto. }
  exists res. split; [exact E|]. split.
  - unfold res. clear - Nc. induction (combine ods pts) as [|[od pt] l IH]; cbn; [constructor|]. cbn in Nc. inversion Nc as [|? ? N1 N2]; subst.
    destruct pt; cbn; auto. constructor; auto. intros F. apply N1. apply in_map_iff in F as (y & <- & F). apply in_flat_map in F as ([od' pt'] & F1 & F2).
    cbn [snd] in F2. destruct pt'; [destruct F2|]. destruct F2 as [<-|[]]. apply in_map. auto.
  - split.
    + intros od Hod. apply in_map_iff in Hod as ([od' pt] & <- & Hod). apply R in Hod as [Hod _]. apply in_combine_l in Hod. auto.
    + intros o d Hod. assert (X : exists pt, In ((o, d), pt) (combine ods pts) /\ paths_of G o d pt).
      { clear - P Hod. induction P as [|od pt ods pts Q P IH]; [destruct Hod|]. cbn [combine]. destruct Hod as [->|Hod].
        - exists pt. split; [left; auto|auto].
        - destruct (IH Hod) as (pt' & H1 & H2). exists pt'. split; [right; auto|auto]. }
      destruct X as (pt & Hc & l & L1 & L2 & L3). exists l, pt. split; auto. split; auto. split; auto.
      assert (Ne : pt <> [] <-> l <> []) by (inversion L3; subst; split; intros X; congruence). split.
      * split.
        -- intros F. apply in_map_iff in F as ([od' pt'] & E' & F). cbn in E'. subst od'. apply R in F as [F1 F2]. apply Ne.
           assert (Q : ((o, d), pt') = ((o, d), pt)) by (apply (map_inj_in fst (combine ods pts)); auto). congruence.
        -- intros F. apply in_map_iff. exists ((o, d), pt). split; auto. apply R. split; [auto|apply Ne; auto].
      * intros F. apply R. split; [auto|apply Ne; auto].
Qed.
Print Assumptions C75_paths.
(** multigraphs: as soon as the first OD has a path, the labels cannot be looked up *)
Theorem C75_multi_refuted :
  forall nx G o d ods p, nx_simple_ok nx -> g_multi G = true -> num_weights G -> o <> d -> walk G o p d -> In d (g_nodes G) ->
    get_all_paths_and_times nx ((o, d) :: ods) G = Err KeyError.
Proof.
  intros nx G o d ods p Hnx Hm Hw Nod W Hd. destruct (Hnx G o d (walk_node _ _ _ _ W) Hd Nod) as (l & El & _ & Hl).
  destruct (walk_simple _ _ _ _ W) as (q & Wq & Nq & _). unfold get_all_paths_and_times. cbn [foldM fst snd]. rewrite El. cbn [bind].
  destruct l as [|p0 l]; [assert (F : In q []) by (apply Hl; auto); destruct F|].
  assert (W0 : walk G o p0 d) by (apply Hl; left; auto). cbn [foldM].
  assert (Sw : forall a b, (exists e, In e (g_edges G) /\ leads G e a b) -> exists w, step_weight G (a, b) = Ok w).
  { intros a b (e & He & Hle). unfold step_weight. cbn [fst snd]. destruct (filter _ (g_edges G)) as [|e0 es] eqn:F.
    - exfalso. assert (X : In e (filter (fun x => joins (g_dir G) x a b) (g_edges G))) by (apply filter_In; split; auto; apply joins_leads; auto). rewrite F in X. destruct X.
    - assert (I : forall x, In x (e0 :: es) -> exists w, num_weight x = Ok w).
      { intros x Hx. rewrite <- F in Hx. apply filter_In in Hx as [Hx _]. destruct (Hw x Hx) as [w Ew]. exists w. unfold num_weight. rewrite Ew. auto. }
      destruct (I e0 (or_introl eq_refl)) as [w0 ->]. cbn [bind]. rewrite Hm. clear F. revert w0.
      assert (I' : forall x, In x es -> exists w, num_weight x = Ok w) by (intros x Hx; apply I; right; auto). clear I.
      induction es as [|e1 es IH]; intros w0; cbn [foldM]; eauto. destruct (I' e1 (or_introl eq_refl)) as [w1 ->]. cbn [bind]. apply IH. intros x Hx. apply I'. right. auto. }
  assert (Pw : forall a q b, walk G a q b -> exists ws, mapM (step_weight G) (pairwise q) = Ok ws).
  { intros a q0 b X. induction X as [a Ha|a c b e q0 Ha He Hle X (ws & IH)]; [exists []; auto|]. destruct (walk_head _ _ _ _ X) as [r ->].
    change (pairwise (a :: c :: r)) with ((a, c) :: pairwise (c :: r)). cbn [mapM]. destruct (Sw a c) as [w ->]; eauto. cbn [bind]. rewrite IH. cbn [bind]. eauto. }
  destruct (Pw _ _ _ W0) as (ws & Ews). unfold path_entry_of, path_weight. rewrite Ews. cbn [bind].
  inversion W0 as [|? c ? e q0 Ha He Hle X]; subst; [congruence|]. destruct (walk_head _ _ _ _ X) as [r ->].
  change (pairwise (o :: c :: r)) with ((o, c) :: pairwise (c :: r)). cbn [mapM]. unfold step_label at 1. rewrite Hm. auto.
Qed.
Print Assumptions C75_multi_refuted.
(** the weight of a path, also in multigraphs: the least time of a trip along its nodes *)
Theorem C75_multi_weight :
  forall G a p b, wf_graph G -> num_weights G -> walk G a p b ->
    exists t, path_weight G p = Ok t /\ (exists ls, trip G a p ls t b) /\ forall ls t', trip G a p ls t' b -> (t <= t')%Qc.
Proof.
  intros G a p b Hwf Hw W. pose proof Hwf as (_ & Hn & U).
  assert (St : forall x y, (exists e, In e (g_edges G) /\ leads G e x y) -> exists w e, step_weight G (x, y) = Ok w /\
    In e (g_edges G) /\ leads G e x y /\ e_weight e = Some (VNum w) /\
    forall e' w', In e' (g_edges G) -> leads G e' x y -> e_weight e' = Some (VNum w') -> (w <= w')%Qc).
  { intros x y (e0 & He0 & Le0). unfold step_weight. cbn [fst snd].
    assert (F : forall e, In e (filter (fun e => joins (g_dir G) e x y) (g_edges G)) <-> In e (g_edges G) /\ leads G e x y)
      by (intros e; rewrite filter_In, joins_leads; tauto).
    destruct (filter _ (g_edges G)) as [|e es]; [exfalso; apply (F e0); auto|].
    destruct (proj1 (F e) (or_introl eq_refl)) as [He Le]. destruct (Hw e He) as [w Ew]. unfold num_weight at 1. rewrite Ew. cbn [bind].
    destruct (g_multi G) eqn:M.
    - assert (X : forall l m, (forall e, In e l -> In e (g_edges G)) -> exists m',
        foldM (fun m e' => w' <- num_weight e' ;; Ok (if qc_ltb w' m then w' else m)) l m = Ok m' /\ (m' <= m)%Qc /\
        (m' = m \/ exists e, In e l /\ e_weight e = Some (VNum m')) /\ forall e w, In e l -> e_weight e = Some (VNum w) -> (m' <= w)%Qc).
      { clear - Hw. induction l as [|e l IH]; intros m H; cbn [foldM].
        - exists m. split; auto. split; [apply Qcle_refl|]. split; auto. intros e w [].
        - destruct (Hw e (H e (or_introl eq_refl))) as [w Ew]. unfold num_weight at 1. rewrite Ew. cbn [bind].
          destruct (IH (if qc_ltb w m then w else m)) as (m' & E & L1 & C & L2); [intros; apply H; right; auto|].
          assert (Q : ((if qc_ltb w m then w else m) <= m /\ (if qc_ltb w m then w else m) <= w)%Qc).
          { destruct (qc_ltb w m) eqn:Q.
            - apply qc_ltb_lt in Q. split; [apply Qclt_le_weak; auto|apply Qcle_refl].
            - split; [apply Qcle_refl|]. apply Qcnot_lt_le. intros X. apply qc_ltb_lt in X. congruence. }
          exists m'. split; [exact E|]. split; [eapply Qcle_trans; [exact L1|apply Q]|]. split.
          + destruct C as [->|(e' & He' & Ee')]; [|right; exists e'; split; [right; auto|auto]].
            destruct (qc_ltb w m); [right; exists e; split; [left; auto|auto]|left; auto].
          + intros e' w' [<-|He'] E'; [|eapply L2; eauto]. assert (w' = w) by congruence. subst w'. eapply Qcle_trans; [exact L1|apply Q]. }
      destruct (X es w) as (m' & E & L1 & C & L2); [intros e' He'; apply F; right; auto|].
      assert (L3 : forall e' w', In e' (g_edges G) -> leads G e' x y -> e_weight e' = Some (VNum w') -> (m' <= w')%Qc).
      { intros e' w' He' Le' Ew'. destruct (proj2 (F e') (conj He' Le')) as [<-|Hin]; [|eapply L2; eauto]. assert (w' = w) by congruence. subst w'. auto. }
      destruct C as [->|(e' & He' & Ee')]; [exists w, e|exists m', e']; (split; [exact E|]).
      + repeat (split; [assumption|]). assumption.
      + destruct (proj1 (F e') (or_intror He')) as [A B]. repeat (split; [assumption|]). assumption.
    - exists w, e. split; auto. repeat (split; [assumption|]). intros e' w' He' Le' Ew'.
      assert (e' = e). { apply U; auto; [|congruence]. destruct Le as [[<- <-]|(D & <- & <-)]; auto. unfold leads in *. intuition. }
      subst e'. assert (w' = w) by congruence. subst w'. apply Qcle_refl. }
  unfold path_weight. induction W as [a H|a c b e p H He L W IH].
  - exists 0%Qc. split; [reflexivity|]. split; [exists []; constructor; auto|]. intros ls t' T. inversion T as [|? ? ? ? ? ? ? ? ? ? ? ? ? ? T2]; subst; [apply Qcle_refl|inversion T2].
  - destruct IH as (t & E & (ls & T) & Min). destruct (walk_head _ _ _ _ W) as [q Eq]. subst p.
    destruct (St a c) as (w & e1 & Ew & He1 & Le1 & We1 & Mw); [eauto|].
    change (pairwise (a :: c :: q)) with ((a, c) :: pairwise (c :: q)). cbn [mapM]. rewrite Ew. cbn [bind].
    destruct (mapM (step_weight G) (pairwise (c :: q))) as [ws|]; cbn [bind] in *; [|discriminate]. injection E as E.
    exists (w + t)%Qc. split; [cbn [qsum]; rewrite E; auto|]. split.
    + destruct (Hn e1 He1) as (_ & _ & HL). destruct (e_label e1) as [l|] eqn:El; [|congruence]. exists (l :: ls). apply (trip_cons G a c b e1 l w (c :: q)); auto.
    + intros ls' t' T'. inversion T' as [|? c' ? e' l' w' ? ls2 t2 H' He' L' El' Ew' T2]; subst.
      assert (c' = c). { inversion T2; subst; auto. } subst c'.
      apply Qcplus_le_compat; [eapply Mw; eauto|eapply Min; eauto].
Qed.
Print Assumptions C75_multi_weight.
Definition two_graph : graph := mkGraph false true ["a"; "b"; "c"]
  [mkEdge "a" "b" (KStr "e1") (Some "e1") (Some (VNum (q1 3 1))); mkEdge "b" "a" (KStr "e2") (Some "e2") (Some (VNum (q1 2 1)));
   mkEdge "b" "c" (KStr "e3") (Some "e3") (Some (VNum (q1 1 1)))].
Example C75_multi_weight_ex :
  wf_graph two_graph /\ num_weights two_graph /\ walk two_graph "a" ["a"; "b"; "c"] "c" /\
  match path_weight two_graph ["a"; "b"; "c"] with Ok t => this t = 3%Q | Err _ => False end /\
  trip two_graph "a" ["a"; "b"; "c"] ["e1"; "e3"] (q1 3 1 + (q1 1 1 + 0))%Qc "c".
Proof.
  split; [|split; [|split; [|split]]].
  - split; [repeat constructor; cbn; intuition congruence|]. split.
    + intros e [<-|[<-|[<-|[]]]]; cbn; intuition congruence.
    + intros e e' [<-|[<-|[<-|[]]]] [<-|[<-|[<-|[]]]] _ K; auto; specialize (K eq_refl); discriminate K.
  - intros e [<-|[<-|[<-|[]]]]; eexists; reflexivity.
  - eapply walk_cons; [cbn; auto|left; reflexivity|left; cbn; auto|]. eapply walk_cons; [cbn; auto|right; right; left; reflexivity|left; cbn; auto|]. constructor. cbn; auto.
  - vm_compute. reflexivity.
  - eapply trip_cons; [cbn; auto|left; reflexivity|left; cbn; auto|reflexivity|reflexivity|].
    eapply trip_cons; [cbn; auto|right; right; left; reflexivity|left; cbn; auto|reflexivity|reflexivity|]. constructor. cbn; auto.
Qed.

Definition pshow (r : res pdict) : res (list ((string * string) * list (list string * Q))) :=
  d <- r ;; Ok (map (fun kv => (fst kv, map (fun x => (fst x, this (snd x))) (snd kv))) d).
Definition all_paths (f : netfile) (ods : list (string * string)) : res (list ((string * string) * list (list string * Q))) :=
  r <- read_model f ;; pshow (get_all_paths_and_times bf_simple ods (fst (fst r))).
Example C75_ex :
  nx_simple_ok bf_simple /\ wf_graph (file_graph (tri_file None) false false) /\ num_weights (file_graph (tri_file None) false false) /\
  read_model (tri_file None) = Ok (file_graph (tri_file None) false false, tri_df, [("od", ("a", "b"))]) /\
  all_paths (tri_file None) [("a", "b"); ("a", "z"); ("c", "a")]
    = Ok [(("a", "b"), [(["e1"], 1%Q); (["e2"; "e3"], 3%Q)]); (("c", "a"), [(["e2"], 1%Q); (["e3"; "e1"], 3%Q)])] /\
  all_paths (tri_file (Some "DiGraph")) [("c", "b"); ("c", "a")] = Ok [(("c", "b"), [(["e3"], 2%Q)])] /\
  all_paths (tri_file (Some "MultiGraph")) [("a", "b")] = Err KeyError /\
  all_paths (tri_file (Some "MultiGraph")) [("a", "z")] = Ok [].
Proof.
  split; [apply bf_simple_ok|]. destruct (file_wf (tri_file None) false false) as (W1 & _ & W3); [apply nd_keys_ok; reflexivity|].
  split; [exact W1|]. split; [exact W3|]. split; [reflexivity|]. split; [vm_compute; reflexivity|]. split; [vm_compute; reflexivity|]. split; vm_compute; reflexivity.
Qed.
(** an OD given twice gets every path twice *)
Theorem C75_twice_refuted :
  all_paths (par_file None) [("a", "b")] = Ok [(("a", "b"), [(["e2"], 3%Q)])] /\
  all_paths (par_file None) [("a", "b"); ("a", "b")] = Ok [(("a", "b"), [(["e2"], 3%Q); (["e2"], 3%Q)])].
Proof. split; vm_compute; reflexivity. Qed.
Print Assumptions C75_twice_refuted.

(** ** C76: from the network file to the distribution of the travel time *)
(** One OD, a simple graph without parallel entries, weights not negative, at most five
    routes whose times are equal or clearly different, two damage states.  For every
    scenario, the values of the variable of the OD contain every travel time, and the
    probability computed for the first state with value [v] is that of travel time [v]. *)
Theorem C76_setup_partial :
  forall nx fuel f dir ds (scenarios : dict (dict (list Qc))) od o d key dr,
    nx_simple_ok nx -> kind_of (graph_type f) dir false -> NoDup (keys (node_conn_df f)) -> no_parallel dir (node_conn_df f) ->
    (forall k en, In (k, en) (node_conn_df f) -> (0 <= weight en)%Qc) ->
    sysout_setup f = [(od, (o, d))] -> o <> d ->
    (exists t, reach dir (node_conn_df f) (fun _ => True) o d t) ->
    (forall l, NoDup l -> (forall ns, In ns l -> exists t, simple_route dir (node_conn_df f) o d ns t) -> (List.length l <= 5)%nat) ->
    (forall ns t ns' t', simple_route dir (node_conn_df f) o d ns t -> simple_route dir (node_conn_df f) o d ns' t' -> t = t' \/ ~ close_to t t') ->
    List.length ds = 2%nat ->
    (forall sc scen, In (sc, scen) scenarios ->
       NoDup (keys scen) /\ incl (keys (node_conn_df f)) (keys scen) /\ ~ In od (keys scen) /\
       (forall k p, In (k, p) scen -> List.length p = 2%nat /\ (forall q, In q p -> 0 <= q)%Qc /\ qsum p = 1%Qc)) ->
    NoDup (keys dr) -> (forall g, In g dr -> glob_match key (fst g) = false) -> (List.length (node_conn_df f) < fuel)%nat ->
    exists ms, setup_model nx fuel f ds scenarios key dr = Ok ms /\
      Forall2 (fun sc r => fst r = (od, fst sc) /\
        exists V M, dfind (snd (snd r)) od = Some V /\
          (forall x, In x (arc_states (keys (node_conn_df f))) ->
             exists v, travel_time dir (node_conn_df f) (fun k => dfind x k = Some 1) o d v /\ In v (v_values V)) /\
          forall s v E, first_at (v_values V) s v ->
            (forall x, In x (arc_states (keys (node_conn_df f))) ->
               (E x = true <-> travel_time dir (node_conn_df f) (fun k => dfind x k = Some 1) o d v)) ->
            compute_prob (fst (snd r)) (snd (snd r)) (keys (node_conn_df f)) od (SI s) true =
              Ok (event_prob (keys (node_conn_df f)) (snd sc) E, M)) scenarios ms.
Proof.
  intros nx fuel f dir ds scenarios od o d key dr Hnx K Nk Np Hw0 Eod Nod (t0 & ns0 & ks0 & R0 & _) H5 Hsep Hds Hsc Nd Hd Hf.
  set (L := node_conn_df f) in *. set (G := file_graph f dir false).
  destruct (file_wf f dir false Nk) as (W1 & _ & W3). fold G in W1, W3.
  assert (Nodes : In o (g_nodes G) /\ In d (g_nodes G)).
  { assert (Hl : forall a ns ks t b, route dir L a ns ks t b -> a = b \/ (In a (g_nodes G) /\ In b (g_nodes G))).
    { induction 1 as [a|a c b k en ns ks t H E R IH]; auto. right. destruct (node_of f dir k en a c H E) as [Na Nc]. split; auto.
      destruct IH as [<-|[_ IH]]; auto. }
    destruct (Hl _ _ _ _ _ R0); [congruence|auto]. }
  destruct Nodes as [Ho Hdn].
  destruct (get_all_ok nx Hnx G W1 eq_refl W3 [(o, d)] []) as (pts & P & E).
  { repeat constructor. intros []. }
  { intros x _ []. }
  { intros o' d' [X|[]]. injection X as <- <-. auto. }
  inversion P as [|? pt ? ? Hpt P0]; subst. inversion P0; subst. cbn [fst snd] in Hpt.
  assert (Npt : pt <> []).
  { destruct (route_simple f dir Hw0 _ _ _ _ _ R0) as (ns' & ks' & t' & R' & N' & _).
    pose proof (route_pt f dir Nk Np o d pt Hpt Ho ns' ks' t' R' N') as X. intros ->. destruct X. }
  assert (Hlen : (List.length pt <= 5)%nat).
  { destruct Hpt as (l & Nl & Hl & F). rewrite <- (PyFacts.Forall2_length _ _ _ F). apply H5; auto. intros ns Hns.
    destruct (Forall2_in_l _ _ _ _ F Hns) as (x & _ & T). exists (snd x), (fst x). split; [apply (trip_route f dir); auto|apply Hl; auto]. }
  assert (Pok : forall p t, In (p, t) pt -> p <> [] /\ NoDup p /\ incl p (keys L)).
  { intros p t H. destruct (pt_ok f dir Nk Hw0 o d Nod pt Hpt Ho p t H) as (? & ? & ? & _). auto. }
  assert (Eall : get_all_paths_and_times nx [(o, d)] G = Ok [((o, d), pt)]).
  { unfold get_all_paths_and_times. rewrite E. cbn [combine flat_map snd app]. destruct pt; [congruence|auto]. }
  assert (Eby : by_od [(od, (o, d))] [((o, d), pt)] = [(od, pt)]).
  { unfold by_od, pfind. cbn [flat_map find fst snd]. rewrite (proj2 (pair_eqb_eq (o, d) (o, d)) eq_refl). auto. }
  assert (Hlk : (List.length (keys L) < fuel)%nat) by (unfold keys; rewrite map_length; auto).
  assert (Hdf : dfind [(od, pt)] od = Some pt) by (cbn [dfind]; rewrite String.eqb_refl; auto).
  destruct (C44_get_branches_partial (keys L) od [(od, pt)] pt key dr fuel Nk Hdf Npt Pok Nd Hd Hlk) as (pti & brs & d' & Ei & Eb & _).
  assert (Epti : pti = od_list pt) by (rewrite od_idx_ok in Ei; congruence).
  unfold setup_model. rewrite (read_ok f dir false K). cbn [bind fst snd]. fold G L. rewrite Eod. cbn [map snd]. rewrite Eall. cbn [bind]. rewrite Eby.
  change (keys [(od, (o, d))]) with [od]. rewrite Eb. cbn [bind fst flat_map]. rewrite app_nil_r.
  assert (Hd1 : dget [(od, pt)] od = Ok pt) by (apply dget_ok; auto).
  assert (Hd2 : dget [(od, brs)] od = Ok brs) by (apply dget_ok; cbn [dfind]; rewrite String.eqb_refl; auto).
  clear E P P0 R0.
  induction scenarios as [|[sc scen] scs IH]; cbn [map]; [exists []; split; auto|].
  destruct IH as (ms & Ems & Fms); [intros sc' scen' H; apply (Hsc sc'); right; auto|].
  destruct (Hsc sc scen (or_introl eq_refl)) as (Ns & Is & Nos & Hp).
  destruct (C46_path_model_partial (keys L) ds scen od [(od, pt)] pt key dr fuel Nk Hds Ns Is Nos Hp Hdf Npt Hlen Pok Nd Hd Hlk)
    as (pti' & brs' & d'' & cpms & varis & M & Ei' & Eb' & Em & Hprob).
  rewrite Eb in Eb'. injection Eb' as <- <-. rewrite Ei in Ei'. injection Ei' as <-.
  exists (((od, sc), (cpms, varis)) :: ms). split.
  - cbn [mapM fst snd]. rewrite Hd1. cbn [bind]. rewrite Hd2. cbn [bind]. rewrite Em. cbn [bind].
    change (fst (od, sc)) with od in Ems. rewrite Ems. auto.
  - constructor; auto. cbn [fst snd]. split; auto. exists (od_var od pt), M.
    assert (EV : dfind varis od = Some (od_var od pt)).
    { revert Em. unfold model_given_od_scen. destruct (mapM _ scen) as [cs|]; cbn [bind]; [|discriminate].
      destruct (mapM _ (keys L)) as [vs|]; cbn [bind]; [|discriminate]. destruct (get_cmat_from_branches brs vs) as [c|]; cbn [bind]; [|discriminate].
      destruct (mk_cpm _ _ _ _) as [M'|]; cbn [bind]; [|discriminate]. intros [= _ <-]. rewrite dfind_dset. rewrite String.eqb_refl. auto. }
    split; auto. change (v_values (od_var od pt)) with (od_values pt).
    assert (St := state_time f dir Nk Np Hw0 o d Nod pt Hpt Ho Hsep). fold L in St.
    assert (Sf := state_iff f dir Nk Np Hw0 o d Nod pt Hpt Ho Hsep). fold L in Sf.
    split.
    + intros x Hx. destruct (St x Hx) as (s & v & _ & (_ & F & _) & T). exists v. split; auto. apply (nth_error_In _ _ F).
    + intros s v Ev Fv HE.
      assert (Rs : 0 <= s <= Z.of_nat (List.length pt)).
      { destruct Fv as (F1 & F2 & _). split; auto. assert (X : (Z.to_nat s < List.length (od_values pt))%nat) by (apply nth_error_Some; congruence).
        rewrite od_values_eq in X. cbn [List.length] in X. rewrite map_length in X. unfold times in X.
        rewrite (Permutation_length (sort_desc_perm _ _)), map_length in X. lia. }
      rewrite (Hprob s Rs). do 2 f_equal. unfold event_prob. f_equal. f_equal. apply filter_ext_in. intros x Hx.
      unfold in_state. rewrite Epti. rewrite (eval_as (keys L)); auto; [|discriminate|].
      * specialize (Sf x s v Hx Fv). specialize (HE x Hx). destruct (Z.eqb_spec (ev 1 (od_list pt) x) s) as [Q|Q]; destruct (Ev x); auto; exfalso.
        -- assert (false = true) by (apply HE, Sf; auto). discriminate.
        -- apply Q, Sf, HE. auto.
      * intros e [<-|He]; [intros k []|]. apply (od_tail_In pt) in He as (p & t & Hi & ->). apply (Pok p t Hi).
Qed.
Print Assumptions C76_setup_partial.

(** *** examples: the triangle *)
Lemma file_paths f dir o d pt :
  NoDup (keys (node_conn_df f)) -> In o (g_nodes (file_graph f dir false)) -> In d (g_nodes (file_graph f dir false)) -> o <> d -> pt <> [] ->
  get_all_paths_and_times bf_simple [(o, d)] (file_graph f dir false) = Ok [((o, d), pt)] -> paths_of (file_graph f dir false) o d pt.
Proof.
  intros Nk Ho Hd Nod Npt E. destruct (file_wf f dir false Nk) as (W1 & _ & W3).
  destruct (get_all_ok bf_simple bf_simple_ok (file_graph f dir false) W1 eq_refl W3 [(o, d)] []) as (pts & P & E').
  { repeat constructor. intros []. }
  { intros x _ []. }
  { intros o' d' [X|[]]. injection X as <- <-. auto. }
  inversion P as [|? pt' ? ? Hpt P0]; subst. inversion P0; subst. cbn [fst snd] in Hpt.
  unfold get_all_paths_and_times in E. rewrite E' in E. destruct pt' as [|x pt']; cbn in E; [discriminate E|]. injection E as E. rewrite <- E. exact Hpt.
Qed.
Lemma file_routes f dir o d pt :
  NoDup (keys (node_conn_df f)) -> no_parallel dir (node_conn_df f) -> In o (g_nodes (file_graph f dir false)) ->
  paths_of (file_graph f dir false) o d pt ->
  (forall l, NoDup l -> (forall ns, In ns l -> exists t, simple_route dir (node_conn_df f) o d ns t) -> (List.length l <= List.length pt)%nat) /\
  (forall ns t, simple_route dir (node_conn_df f) o d ns t -> In t (map snd pt)).
Proof.
  intros Nk Np Ho Hpt. split.
  - intros l Nl H. destruct Hpt as (l0 & N0 & H0 & F). rewrite <- (PyFacts.Forall2_length _ _ _ F). apply NoDup_incl_length; auto.
    intros ns Hns. destruct (H ns Hns) as (t & ks & R & N). apply H0. split; auto. apply (trip_walk _ _ _ ks t). apply (route_trip f dir Nk Np); auto.
  - intros ns t (ks & R & N). apply in_map_iff. exists (ks, t). split; auto. apply (route_pt f dir Nk Np o d pt Hpt Ho ns); auto.
Qed.
Definition tri_pt : od_paths := [(["e1"], qz 1); (["e2"; "e3"], qz 3)].
Definition ex_scens : dict (dict (list Qc)) := [("s1", ex_scen)].
Definition setup_probs (f : netfile) (scens : dict (dict (list Qc))) (n : nat) : res (list (list Q)) :=
  ms <- setup_model bf_simple 8 f ex_ds scens "a" [] ;;
  mapM (fun r => mapM (fun s => p <- compute_prob (fst (snd r)) (snd (snd r)) (keys (node_conn_df f)) "od" (SI s) true ;; Ok (this (fst p)))
                      (zrange 0 (Z.of_nat n))) ms.
Lemma tri_paths : paths_of (file_graph (tri_file None) false false) "a" "b" tri_pt.
Proof.
  apply file_paths; [apply nd_keys_ok; reflexivity|cbn; auto|cbn; auto|discriminate|discriminate|].
  assert (E : pshow (get_all_paths_and_times bf_simple [("a", "b")] (file_graph (tri_file None) false false)) = pshow (Ok [(("a", "b"), tri_pt)])) by (vm_compute; reflexivity).
  destruct (get_all_paths_and_times bf_simple [("a", "b")] (file_graph (tri_file None) false false)) as [r|]; [|discriminate E].
  cbn [pshow bind] in E. injection E as E. f_equal.
  assert (J : forall a b : Qc, this a = this b -> a = b) by (intros a b H; apply Qc_is_canon; rewrite H; reflexivity).
  destruct r as [|[k l] [|? ?]]; try discriminate E. cbn [map fst snd] in E.
  destruct l as [|[p1 t1] [|[p2 t2] [|? ?]]]; try discriminate E. cbn [map fst snd] in E.
  injection E as Ek E1 E2 E3 E4. unfold tri_pt. rewrite Ek, E1, E3. rewrite (J t1 (qz 1) E2), (J t2 (qz 3) E4). reflexivity.
Qed.
Example C76_setup_partial_ex :
  nx_simple_ok bf_simple /\ kind_of (graph_type (tri_file None)) false false /\ NoDup (keys tri_df) /\ no_parallel false tri_df /\
  (forall k en, In (k, en) tri_df -> (0 <= weight en)%Qc) /\ (exists t, reach false tri_df (fun _ => True) "a" "b" t) /\
  (forall l, NoDup l -> (forall ns, In ns l -> exists t, simple_route false tri_df "a" "b" ns t) -> (List.length l <= 5)%nat) /\
  (forall ns t ns' t', simple_route false tri_df "a" "b" ns t -> simple_route false tri_df "a" "b" ns' t' -> t = t' \/ ~ close_to t t') /\
  incl (keys tri_df) (keys ex_scen) /\ ~ In "od" (keys ex_scen) /\
  (exists ms, setup_model bf_simple 8 (tri_file None) ex_ds ex_scens "a" [] = Ok ms /\ map fst ms = [("od", "s1")]) /\
  first_at [VInf; VNum (qz 3); VNum (qz 1)] 1 (VNum (qz 3)) /\
  travel_time false tri_df (fun k => k <> "e1") "a" "b" (VNum (qz 3)) /\
  setup_probs (tri_file None) ex_scens 3 = Ok [[1 # 25; 3 # 50; 9 # 10]%Q].
Proof.
  assert (Nk : NoDup (keys tri_df)) by (apply nd_keys_ok; reflexivity).
  assert (Ho : In "a" (g_nodes (file_graph (tri_file None) false false))) by (cbn; auto).
  destruct (file_routes (tri_file None) false "a" "b" tri_pt Nk (tri_np false) Ho tri_paths) as [F1 F2].
  split; [apply bf_simple_ok|]. split; [left; auto|]. split; [exact Nk|]. split; [apply tri_np|].
  assert (W : forall k en, In (k, en) tri_df -> (0 <= weight en)%Qc).
  { intros k e [H|[H|[H|[]]]]; injection H as _ <-; vm_compute; congruence. }
  split; [exact W|].
  assert (R1 : route false tri_df "a" ["a"; "b"] ["e1"] (qz 1 + 0)%Qc "b").
  { apply (route_cons false tri_df "a" "b" "b" "e1" (en "a" "b" 1)); [cbn; auto|left; auto|constructor]. }
  assert (R2 : route false tri_df "a" ["a"; "c"; "b"] ["e2"; "e3"] (qz 1 + (qz 2 + 0))%Qc "b").
  { apply (route_cons false tri_df "a" "c" "b" "e2" (en "a" "c" 1)); [cbn; auto|left; auto|].
    apply (route_cons false tri_df "c" "b" "b" "e3" (en "c" "b" 2)); [cbn; auto|left; auto|constructor]. }
  assert (Q3 : (qz 1 + (qz 2 + 0))%Qc = qz 3) by (apply Qc_is_canon; vm_compute; reflexivity).
  split; [do 3 eexists; split; [exact R1|auto]|].
  split; [intros l Nl H; apply (Nat.le_trans _ 2); [apply (F1 l Nl H)|lia]|].
  assert (Ts : forall t, In t (map snd tri_pt) -> t = qz 1 \/ t = qz 3) by (intros t [<-|[<-|[]]]; auto).
  split.
  { intros ns t ns' t' H H'. apply F2, Ts in H. apply F2, Ts in H'.
    destruct H as [-> | ->], H' as [-> | ->]; auto; right; intros [C1 C2]; [revert C2|revert C1]; vm_compute; intros C; apply C; reflexivity. }
  split; [intros k Hk; exact Hk|]. split; [cbn; intuition congruence|].
  split; [eexists; split; [vm_compute; reflexivity|reflexivity]|].
  split. { split; [lia|]. split; [reflexivity|]. intros j Lj. destruct j; [cbn; discriminate|cbn in Lj; lia]. }
  split; [|vm_compute; reflexivity]. split.
  - exists ["a"; "c"; "b"], ["e2"; "e3"]. rewrite <- Q3. split; [exact R2|]. intros k [<-|[<-|[]]]; discriminate.
  - intros t (ns & ks & R & U). destruct (route_simple (tri_file None) false W _ _ _ _ _ R) as (ns' & ks' & t' & R' & N' & I & Le).
    apply Qcle_trans with t'; auto. pose proof (route_pt (tri_file None) false Nk (tri_np false) "a" "b" tri_pt tri_paths Ho ns' ks' t' R' N') as X.
    destruct X as [X|[X|[]]]; injection X as <- <-; [exfalso; apply (U "e1"); [apply I; left; auto|auto]|apply Qcle_refl].
Qed.

(** an OD without route: the set-up raises *)
Theorem C76_no_route_refuted :
  forall nx fuel f dir ds scenarios od o d key dr,
    nx_simple_ok nx -> kind_of (graph_type f) dir false -> NoDup (keys (node_conn_df f)) -> no_parallel dir (node_conn_df f) ->
    (forall k en, In (k, en) (node_conn_df f) -> (0 <= weight en)%Qc) ->
    sysout_setup f = [(od, (o, d))] -> o <> d -> In o (component_list f) -> In d (component_list f) ->
    (forall t, ~ reach dir (node_conn_df f) (fun _ => True) o d t) ->
    setup_model nx fuel f ds scenarios key dr = Err KeyError.
Proof.
  intros nx fuel f dir ds scenarios od o d key dr Hnx K Nk Np Hw0 Eod Nod Ho Hd Nr.
  assert (Hon : In o (g_nodes (file_graph f dir false))) by (apply file_nodes; auto).
  assert (Hdn : In d (g_nodes (file_graph f dir false))) by (apply file_nodes; auto).
  destruct (file_wf f dir false Nk) as (W1 & _ & W3).
  destruct (get_all_ok nx Hnx (file_graph f dir false) W1 eq_refl W3 [(o, d)] []) as (pts & P & E).
  { repeat constructor. intros []. }
  { intros x _ []. }
  { intros o' d' [X|[]]. injection X as <- <-. auto. }
  inversion P as [|? pt ? ? Hpt P0]; subst. inversion P0; subst. cbn [fst snd] in Hpt.
  assert (Ept : pt = []).
  { destruct pt as [|[p t] pt]; auto. exfalso. destruct (pt_route f dir o d _ Hpt p t (or_introl eq_refl)) as (ns & R & _).
    apply (Nr t). exists ns, p. auto. }
  subst pt. unfold setup_model. rewrite (read_ok f dir false K). cbn [bind fst snd]. rewrite Eod. cbn [map snd].
  unfold get_all_paths_and_times. rewrite E. reflexivity.
Qed.
Print Assumptions C76_no_route_refuted.
(** a multigraph with a route: the set-up raises *)
Theorem C76_multi_refuted :
  forall nx fuel f dir ds scenarios od o d ods key dr t,
    nx_simple_ok nx -> kind_of (graph_type f) dir true -> NoDup (keys (node_conn_df f)) ->
    sysout_setup f = (od, (o, d)) :: ods -> o <> d -> reach dir (node_conn_df f) (fun _ => True) o d t ->
    setup_model nx fuel f ds scenarios key dr = Err KeyError.
Proof.
  intros nx fuel f dir ds scenarios od o d ods key dr t Hnx K Nk Eod Nod (ns & ks & R & _).
  unfold setup_model. rewrite (read_ok f dir true K). cbn [bind fst snd]. rewrite Eod. cbn [map snd].
  destruct (file_wf f dir true Nk) as (_ & _ & W3).
  assert (E : g_edges (file_graph f dir true) = map entry_edge (node_conn_df f)) by (apply edges_plain; [auto|discriminate]).
  assert (Nd : forall k en a b, In (k, en) (node_conn_df f) -> ends dir en a b -> In a (g_nodes (file_graph f dir true)) /\ In b (g_nodes (file_graph f dir true))).
  { intros k e a b H X. rewrite !file_nodes. destruct X as [[<- <-]|(_ & <- & <-)]; split; right; exists k, e; auto. }
  assert (Wk : forall a ns ks t b, route dir (node_conn_df f) a ns ks t b -> In a (g_nodes (file_graph f dir true)) ->
    walk (file_graph f dir true) a ns b /\ In b (g_nodes (file_graph f dir true))).
  { induction 1 as [a|a c b k e ns0 ks0 t0 H X R0 IH]; intros Ha; [split; [constructor|]; auto|]. destruct (Nd k e a c H X) as [_ Hc].
    destruct (IH Hc) as [IH1 IH2]. split; auto. apply (walk_cons _ a c b (entry_edge (k, e))); auto. rewrite E. apply in_map. auto. }
  assert (Ho : In o (g_nodes (file_graph f dir true))).
  { inversion R as [|? c ? k e ns0 ks0 t0 H X R0]; subst; [congruence|]. apply (Nd k e o c H X). }
  destruct (Wk _ _ _ _ _ R Ho) as [W Hd].
  rewrite (C75_multi_refuted nx (file_graph f dir true) o d (map snd ods) ns Hnx eq_refl W3 Nod W Hd). reflexivity.
Qed.
Print Assumptions C76_multi_refuted.
(** parallel entries: only the last is in the graph, and the other does not help to keep the
    OD connected.  The probability of state 0 is 1/5; that of no route is 1/50. *)
Definition par_scen : dict (list Qc) := [("e1", [q1 1 10; q1 9 10]); ("e2", [q1 1 5; q1 4 5])].
Theorem C76_parallel_refuted :
  exists f scen, NoDup (keys (node_conn_df f)) /\ kind_of (graph_type f) false false /\
    setup_probs f [("s1", scen)] 1 = Ok [[1 # 5]%Q] /\
    (forall E, (forall x, In x (arc_states (keys (node_conn_df f))) ->
       (E x = true <-> travel_time false (node_conn_df f) (fun k => dfind x k = Some 1) "a" "b" VInf)) ->
       this (event_prob (keys (node_conn_df f)) scen E) = (1 # 50)%Q).
Proof.
  exists (par_file None), par_scen. split; [apply nd_keys_ok; reflexivity|]. split; [left; auto|]. split; [vm_compute; reflexivity|].
  intros E HE.
  assert (Up : forall x k e a b, (k, e) = ("e1", en "a" "b" 1) /\ a = "a" /\ b = "b" \/ (k, e) = ("e2", en "b" "a" 3) /\ a = "a" /\ b = "b" ->
     dfind x k = Some 1 -> ~ travel_time false par_df (fun k => dfind x k = Some 1) "a" "b" VInf).
  { intros x k e a b H U T. apply (T (weight e + 0)%Qc). exists ["a"; "b"], [k]. split; [|intros k' [<-|[]]; auto].
    destruct H as [(H & _ & _)|(H & _ & _)]; injection H as -> ->;
      (eapply (route_cons false par_df "a" "b" "b"); [cbn; auto| |constructor]); [left|right]; cbn; auto. }
  assert (Ev : forall a b, In [("e1", a); ("e2", b)] (arc_states ["e1"; "e2"]) -> E [("e1", a); ("e2", b)] = (a =? 0) && (b =? 0)).
  { intros a b Hx. specialize (HE _ Hx).
    assert (Ra : 0 <= a <= 1 /\ 0 <= b <= 1).
    { cbn in Hx. repeat (destruct Hx as [Hx|Hx]; [injection Hx as <- <-; lia|]). destruct Hx. }
    destruct (Z.eqb_spec a 0) as [->|Na]; cbn [andb].
    - destruct (Z.eqb_spec b 0) as [->|Nb].
      + apply HE. intros t (ns & ks & R & U). inversion R as [|? c ? k e ns0 ks0 t0 H X R0]; subst.
        specialize (U k (or_introl eq_refl)). destruct H as [H|[H|[]]]; injection H as <- <-; discriminate U.
      + destruct (E _) eqn:EE; auto. exfalso. assert (b = 1) by lia. subst b.
        apply (Up [("e1", 0); ("e2", 1)] "e2" (en "b" "a" 3) "a" "b"); [auto|reflexivity|apply HE; auto].
    - destruct (E _) eqn:EE; auto. exfalso. assert (a = 1) by lia. subst a.
      apply (Up [("e1", 1); ("e2", b)] "e1" (en "a" "b" 1) "a" "b"); [auto|reflexivity|apply HE; auto]. }
  change (keys (node_conn_df (par_file None))) with ["e1"; "e2"].
  unfold event_prob. rewrite (filter_ext_in E (fun x => match x with [(_, a); (_, b)] => (a =? 0) && (b =? 0) | _ => false end)).
  - vm_compute. reflexivity.
  - intros x Hx. pose proof Hx as Hx'. cbn in Hx'. repeat (destruct Hx' as [Hx'|Hx']; [rewrite <- Hx' in *; apply Ev; auto|]). destruct Hx'.
Qed.
Print Assumptions C76_parallel_refuted.
