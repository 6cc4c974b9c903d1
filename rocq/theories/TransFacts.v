(** Proofs about the network system functions. *)
From Coq Require Import ZArith List String Bool Arith QArith Qcanon Lia Permutation.
From Verif Require Import Py PyFacts Num Vari VariFacts Brc Trans SpecBrc SpecTrans.
Import ListNotations.
Open Scope string_scope.
Open Scope Z_scope.
Open Scope list_scope.

Lemma joins_leads G e a b : joins (g_dir G) e a b = true <-> leads G e a b.
Proof.
  unfold joins, leads. rewrite orb_true_iff, !andb_true_iff, negb_true_iff, !String.eqb_eq. tauto.
Qed.
Lemma gkey_eqb_eq a b : gkey_eqb a b = true <-> a = b.
Proof. destruct a, b; cbn; try (split; congruence); [rewrite Z.eqb_eq|rewrite String.eqb_eq]; split; congruence. Qed.

(** * Removing the failed components *)
Definition edge_ok (comps : dict Z) (e : gedge) : Prop := forall l, e_label e = Some l -> alive comps l.
Lemma alive_dec comps k : {alive comps k} + {dfind comps k = Some 0}.
Proof.
  unfold alive. destruct (dfind comps k) as [s|]; [|left; discriminate].
  destruct (Z.eq_dec s 0) as [->|]; [right; auto|left; congruence].
Qed.

Section Conn.
Variable G : graph.
Variable comps : dict Z.
Hypothesis Hwf : wf_graph G.
Hypothesis Hlk : label_keys G.

Lemma hit_iff e e' l : In e (g_edges G) -> In e' (g_edges G) -> e_label e = Some l ->
  (rm_hit (g_dir G) (g_multi G) (e_src e) (e_dst e) l e' = true <-> e' = e).
Proof.
  intros He He' El. unfold rm_hit. rewrite andb_true_iff, joins_leads. destruct Hwf as (_ & _ & U). split.
  - intros [L K]. apply U; auto. intros M. rewrite M in K. apply gkey_eqb_eq in K.
    destruct (Hlk M e He) as [(l' & E1 & E2) _]. congruence.
  - intros ->. split; [left; auto|]. destruct (g_multi G) eqn:M; auto. apply gkey_eqb_eq.
    destruct (Hlk M e He) as [(l' & E1 & E2) _]. congruence.
Qed.

Lemma drop_edges post : forall es, incl post (g_edges G) -> NoDup post -> incl post es -> incl es (g_edges G) ->
  exists es', foldM (drop_edge G comps) post es = Ok es' /\ forall e, In e es' <-> In e es /\ (In e post -> edge_ok comps e).
Proof.
  induction post as [|e0 post IH]; intros es I1 N I2 I3.
  - exists es. split; [reflexivity|]. intros e. cbn [In]. tauto.
  - inversion N as [|? ? N1 N2]; subst. cbn [foldM].
    assert (He0 : In e0 (g_edges G)) by (apply I1; cbn; auto).
    assert (Keep : edge_ok comps e0 -> drop_edge G comps es e0 = Ok es).
    { intros K. unfold drop_edge. destruct (e_label e0) as [l|] eqn:El; auto. specialize (K l El). unfold alive in K.
      destruct (dfind comps l) as [s|]; auto. destruct (Z.eqb_spec s 0) as [->|]; [congruence|auto]. }
    assert (D : edge_ok comps e0 \/ exists l, e_label e0 = Some l /\ dfind comps l = Some 0).
    { unfold edge_ok. destruct (e_label e0) as [l|]; [|left; discriminate]. destruct (alive_dec comps l) as [A|A]; [left|right; eauto].
      intros l' [= <-]. auto. }
    destruct D as [K|(l & El & D)].
    + rewrite Keep by auto. cbn [bind]. destruct (IH es) as (es' & E & H); [intros x Hx; apply I1; cbn; auto|auto|intros x Hx; apply I2; cbn; auto|auto|].
      exists es'. split; [exact E|]. intros e. rewrite H. cbn [In]. split; [|tauto]. intros [H1 H2]. split; auto. intros [<-|X]; auto.
    + assert (E0 : drop_edge G comps es e0 = Ok (filter (fun e => negb (rm_hit (g_dir G) (g_multi G) (e_src e0) (e_dst e0) l e)) es)).
      { unfold drop_edge. rewrite El, D. cbn [Z.eqb]. unfold remove_edge.
        rewrite (proj2 (existsb_exists _ _)); [reflexivity|]. exists e0. split; [apply I2; cbn; auto|]. apply hit_iff; auto. }
      rewrite E0. cbn [bind]. set (es1 := filter _ es).
      assert (H1 : forall e, In e es1 <-> In e es /\ e <> e0).
      { intros e. unfold es1. rewrite filter_In, negb_true_iff. split; intros [X Y]; split; auto.
        - intros ->. rewrite (proj2 (hit_iff e0 e0 l He0 He0 El)) in Y; [discriminate|auto].
        - destruct (rm_hit _ _ _ _ _ e) eqn:Z; auto. apply hit_iff in Z; auto. congruence. }
      destruct (IH es1) as (es' & E & H).
      * intros x Hx. apply I1. cbn. auto.
      * auto.
      * intros x Hx. apply H1. split; [apply I2; cbn; auto|]. intros ->. auto.
      * intros x Hx. apply H1 in Hx as [Hx _]. auto.
      * exists es'. split; [exact E|]. intros e. rewrite H, H1. cbn [In]. split.
        -- intros [[X Y] Z]. split; auto. intros [<-|W]; [congruence|auto].
        -- intros [X Y]. split; [split; auto|auto]. intros ->. apply (Y (or_introl eq_refl) l El). auto.
Qed.

Lemma drop_nodes ns : forall acc, let r := fold_left (drop_node comps) ns acc in
  (forall n, In n (fst r) <-> In n (fst acc) /\ (In n ns -> alive comps n)) /\
  (forall e, In e (snd r) <-> In e (snd acc) /\ (In (e_src e) ns -> alive comps (e_src e)) /\ (In (e_dst e) ns -> alive comps (e_dst e))).
Proof.
  induction ns as [|n0 ns IH]; intros acc; cbn [fold_left]; cbv zeta.
  - split; intros; cbn [In]; tauto.
  - destruct (alive_dec comps n0) as [A|D].
    + assert (E : drop_node comps acc n0 = acc).
      { unfold drop_node. unfold alive in A. destruct (dfind comps n0) as [s|]; auto. destruct (Z.eqb_spec s 0) as [->|]; [congruence|auto]. }
      rewrite E in *. destruct (IH acc) as [J1 J2]. cbv zeta in J1, J2. split.
      * intros n. rewrite J1. cbn [In]. split; [|tauto]. intros [X Y]. split; auto. intros [<-|Z]; auto.
      * intros e. rewrite J2. cbn [In]. split; [|tauto]. intros [X [Y Z]]. split; auto. split; intros [W|W]; try rewrite <- W; auto.
    + assert (E : drop_node comps acc n0 = (filter (fun n => negb (String.eqb n n0)) (fst acc),
         filter (fun e => negb (String.eqb (e_src e) n0) && negb (String.eqb (e_dst e) n0)) (snd acc))) by (unfold drop_node; rewrite D; reflexivity).
      rewrite E in *. destruct (IH (filter (fun n => negb (String.eqb n n0)) (fst acc),
         filter (fun e => negb (String.eqb (e_src e) n0) && negb (String.eqb (e_dst e) n0)) (snd acc))) as [J1 J2]. cbv zeta in J1, J2. cbn [fst snd] in J1, J2. split.
      * intros n. rewrite J1, filter_In, negb_true_iff, String.eqb_neq. cbn [In]. split.
        -- intros [[X Y] Z]. split; auto. intros [<-|W]; [congruence|auto].
        -- intros [X Y]. split; [split; auto|auto]. intros ->. apply (Y (or_introl eq_refl)). auto.
      * intros e. rewrite J2, filter_In, andb_true_iff, !negb_true_iff, !String.eqb_neq. cbn [In]. split.
        -- intros [[X [Y1 Y2]] [Z1 Z2]]. split; auto. split; intros [W|W]; try congruence; auto.
        -- intros [X [Y1 Y2]]. split; [split; auto|auto]. split; intros W; [apply (Y1 (or_introl (eq_sym W)))|apply (Y2 (or_introl (eq_sym W)))]; rewrite W; auto.
Qed.

Lemma update_conn_ok : exists H, update_conn G comps = Ok H /\ g_dir H = g_dir G /\ g_multi H = g_multi G /\
  (forall n, In n (g_nodes H) <-> In n (g_nodes G) /\ alive comps n) /\
  (forall e, In e (g_edges H) <-> In e (g_edges G) /\ edge_ok comps e /\ alive comps (e_src e) /\ alive comps (e_dst e)).
Proof.
  unfold update_conn. destruct (drop_edges (g_edges G) (g_edges G)) as (es & E & He); try (intros x Hx; exact Hx); [apply Hwf|].
  rewrite E. cbn [bind]. eexists. split; [reflexivity|]. cbn [g_dir g_multi g_nodes g_edges]. split; auto. split; auto.
  destruct (drop_nodes (g_nodes G) (g_nodes G, es)) as [D1 D2]. cbv zeta in D1, D2. cbn [fst snd] in D1, D2. split.
  - intros n. rewrite D1. tauto.
  - intros e. rewrite D2, He. split.
    + intros [[X Y] [Z1 Z2]]. destruct Hwf as (_ & W & _). destruct (W e X) as (W1 & W2 & _). auto.
    + tauto.
Qed.
End Conn.

Lemma leads_dir G H e a b : g_dir H = g_dir G -> (leads H e a b <-> leads G e a b).
Proof. unfold leads. intros ->. tauto. Qed.
Lemma walk_head G a p b : walk G a p b -> exists q, p = a :: q.
Proof. destruct 1; eauto. Qed.
Lemma walk_node G a p b : walk G a p b -> In a (g_nodes G).
Proof. destruct 1; auto. Qed.

(** walks in the graph that is left are connections by living components *)
Lemma conn_walk G comps H : wf_graph G -> g_dir H = g_dir G ->
  (forall n, In n (g_nodes H) <-> In n (g_nodes G) /\ alive comps n) ->
  (forall e, In e (g_edges H) <-> In e (g_edges G) /\ edge_ok comps e /\ alive comps (e_src e) /\ alive comps (e_dst e)) ->
  forall a b, conn G comps a b <-> exists p, walk H a p b.
Proof.
  intros (_ & W & _) Hd Hn He a b. split.
  - induction 1 as [a H1 H2|a b c e l H1 H2 H3 H4 H5 H6 H7 IH].
    + exists [a]. constructor. apply Hn. auto.
    + destruct IH as [p Hp]. exists (a :: p). apply (walk_cons H a b c e p).
      * apply Hn; auto.
      * apply He. split; auto. split; [intros l' E; congruence|]. apply walk_node in Hp. apply Hn in Hp as [_ Ab].
        destruct H4 as [[-> ->]|(_ & -> & ->)]; auto.
      * apply (leads_dir G); auto.
      * auto.
  - intros [p Hp]. induction Hp as [a H1|a b c e p H1 H2 H3 H4 IH].
    + apply Hn in H1 as []. constructor; auto.
    + apply Hn in H1 as []. apply He in H2 as (E1 & E2 & _). destruct (e_label e) as [l|] eqn:El; [|destruct (W e E1) as (_ & _ & X); congruence].
      apply (conn_step G comps a b c e l); auto. apply (leads_dir G H); auto.
Qed.

(** * Edges of a path *)
Lemma sort_head {A} (g : A -> A -> bool) l x r : sort_desc g l = x :: r -> In x l.
Proof. intros E. apply (Permutation_in x (sort_desc_perm g l)). rewrite E. cbn. auto. Qed.
Lemma sort_desc_cons {A} (g : A -> A -> bool) a l : exists x r, sort_desc g (a :: l) = x :: r.
Proof. unfold sort_desc. cbn [fold_right]. destruct (fold_right (insert_desc g) [] l) as [|y r]; cbn [insert_desc]; eauto. destruct (g y a); eauto. Qed.

Lemma edge_between_ok G a b e : In e (g_edges G) -> leads G e a b -> (forall e, In e (g_edges G) -> e_label e <> None) ->
  (g_multi G = true -> forall e, In e (g_edges G) -> e_weight e <> None) ->
  exists e' l, edge_between G (a, b) = Ok l /\ In e' (g_edges G) /\ leads G e' a b /\ e_label e' = Some l.
Proof.
  intros He Hl Hlab Hw. unfold edge_between. cbn [fst snd]. set (es := filter _ _).
  assert (Hes : forall x, In x es <-> In x (g_edges G) /\ leads G x a b) by (intros x; unfold es; rewrite filter_In, joins_leads; tauto).
  assert (Lab : forall x, In x es -> exists l, label_of x = Ok l /\ e_label x = Some l).
  { intros x Hx. apply Hes in Hx as [Hx _]. unfold label_of. destruct (e_label x) as [l|] eqn:E; eauto. exfalso. apply (Hlab x Hx E). }
  destruct es as [|e1 es'] eqn:E; [exfalso; apply (proj2 (Hes e)); auto|].
  assert (Take : forall x, In x (e1 :: es') -> exists e' l, label_of x = Ok l /\ In e' (g_edges G) /\ leads G e' a b /\ e_label e' = Some l).
  { intros x Hx. destruct (Lab x Hx) as (l & L1 & L2). apply Hes in Hx as [X1 X2]. exists x, l. auto. }
  destruct (g_multi G) eqn:M; [|apply Take; cbn; auto]. destruct es' as [|e2 es'']; [apply Take; cbn; auto|].
  destruct (existsb _ (e1 :: e2 :: es'')) eqn:X.
  - exfalso. apply existsb_exists in X as (x & Hx & Ex). apply Hes in Hx as [Hx _]. specialize (Hw eq_refl x Hx). destruct (e_weight x); congruence.
  - destruct (sort_desc_cons (fun a b => match e_weight a, e_weight b with Some x, Some y => t_ltb x y | _, _ => false end) e1 (e2 :: es'')) as (x & r & S).
    rewrite S. apply Take. apply (sort_head _ _ _ _ S).
Qed.

Lemma path_edges_ok G a p b : walk G a p b -> (forall e, In e (g_edges G) -> e_label e <> None) ->
  (g_multi G = true -> forall e, In e (g_edges G) -> e_weight e <> None) ->
  exists ls, get_edge_from_nodes G p = Ok ls /\
    (forall l, In l ls -> exists e, In e (g_edges G) /\ e_label e = Some l) /\
    Forall2 (fun ab l => exists e, In e (g_edges G) /\ leads G e (fst ab) (snd ab) /\ e_label e = Some l) (pairwise p) ls.
Proof.
  intros W Hl Hw. unfold get_edge_from_nodes. induction W as [a H1|a b c e p H1 H2 H3 H4 IH].
  - exists []. split; [reflexivity|]. split; [intros l []|constructor].
  - destruct IH as (ls & E & I1 & I2). destruct (walk_head _ _ _ _ H4) as [q ->]. change (pairwise (a :: b :: q)) with ((a, b) :: pairwise (b :: q)).
    destruct (edge_between_ok G a b e H2 H3 Hl Hw) as (e' & l & Eb & J1 & J2 & J3). exists (l :: ls). split.
    + cbn [mapM]. rewrite Eb. cbn [bind]. rewrite E. reflexivity.
    + split; [intros l' [<-|X]; eauto|]. constructor; eauto.
Qed.

(** * The components of a path *)
Lemma comps_on_spec comps l : forall m k, dfind (comps_on comps m l) k =
  if mem_str k l then match dfind comps k with Some s => Some s | None => dfind m k end else dfind m k.
Proof.
  unfold comps_on. induction l as [|a l IH]; intros m k; cbn [fold_left]; [reflexivity|].
  rewrite IH. change (mem_str k (a :: l)) with (String.eqb k a || mem_str k l). destruct (String.eqb_spec k a) as [->|Ne]; cbn [orb].
  - destruct (dfind comps a) as [s|] eqn:E; destruct (mem_str a l); auto. rewrite dfind_dset, String.eqb_refl. auto.
  - destruct (dfind comps a) as [s|]; auto. rewrite dfind_dset. destruct (String.eqb_spec k a); [congruence|]. auto.
Qed.
Lemma dset_nodup {A} (d : dict A) k a : NoDup (keys d) -> NoDup (keys (dset d k a)).
Proof.
  induction d as [|[k' a'] d IH]; cbn; intros H; [repeat constructor; auto|]. inversion H as [|? ? N1 N2]; subst.
  destruct (String.eqb_spec k k') as [->|Ne]; cbn; [constructor; auto|]. constructor; [|apply IH; auto].
  intros X. apply N1. apply in_map_iff in X as ([k0 a0] & E & X). cbn in E. subst k0.
  apply in_map_iff. destruct (dfind d k') as [v|] eqn:F; [exists (k', v); split; auto; apply dfind_In; auto|].
  exfalso. assert (G : dfind (dset d k a) k' = None) by (rewrite dfind_dset; destruct (String.eqb_spec k' k); congruence).
  apply dfind_none in G. apply G. apply in_map_iff. exists (k', a0). auto.
Qed.
Lemma comps_on_nodup comps l : forall m, NoDup (keys m) -> NoDup (keys (comps_on comps m l)).
Proof.
  unfold comps_on. induction l as [|a l IH]; intros m H; cbn [fold_left]; auto. apply IH. destruct (dfind comps a); auto. apply dset_nodup; auto.
Qed.

(** * Connectivity mode *)
Lemma rewalk G H y a p b ls : g_dir H = g_dir G -> incl (g_nodes H) (g_nodes G) -> incl (g_edges H) (g_edges G) ->
  walk H a p b -> Forall2 (fun ab l => exists e, In e (g_edges H) /\ leads H e (fst ab) (snd ab) /\ e_label e = Some l) (pairwise p) ls ->
  (forall n, In n p -> alive y n) -> (forall l, In l ls -> alive y l) -> conn G y a b.
Proof.
  intros Hd Hn He W. revert ls. induction W as [a H1|a b c e p H1 H2 H3 H4 IH]; intros ls F An Al.
  - constructor; [apply Hn; auto|apply An; cbn; auto].
  - destruct (walk_head _ _ _ _ H4) as [q ->]. change (pairwise (a :: b :: q)) with ((a, b) :: pairwise (b :: q)) in F.
    inversion F as [|? l ? ls' (e' & E1 & E2 & E3) F']; subst. cbn [fst snd] in E2.
    apply (conn_step G y a b c e' l); auto; [apply An; cbn; auto|apply (leads_dir G H); auto|apply Al; cbn; auto|].
    apply (IH ls'); auto; intros; [apply An|apply Al]; cbn; auto.
Qed.

Section ConnMode.
Variable nx_path : graph -> string -> string -> option (list string).
Variable nx_wpath : graph -> string -> string -> res (list string).
Variable nx_wlen : graph -> string -> string -> res value.
Hypothesis Hnx : nx_path_ok nx_path.
Variable G : graph.
Hypothesis Hwf : wf_graph G.
Hypothesis Hlk : label_keys G.

Lemma sf_conn x o d varis : (forall k s, dfind x k = Some s -> 0 <= s) ->
  exists st m, sf_min_path nx_path nx_wpath nx_wlen x G o d varis None = Ok (None, st, m) /\
    ((st = S_ /\ conn G x o d /\ NoDup (keys m) /\ (forall k s, dfind m k = Some s -> dfind x k = Some s /\ 0 < s) /\
      (forall y, at_least x m y -> conn G y o d)) \/
     (st = F_ /\ m = [] /\ ~ conn G x o d)).
Proof.
  intros Nx. unfold sf_min_path, get_connectivity_given_comps.
  destruct (update_conn_ok G x Hwf Hlk) as (H & EH & Hd & Hm & Hn & He). rewrite EH. cbn [bind].
  assert (CW := conn_walk G x H Hwf Hd Hn He o d). specialize (Hnx H o d). destruct (nx_path H o d) as [p|].
  - destruct Hnx as [W _].
    destruct (path_edges_ok H o p d W) as (ls & El & L1 & L2).
    + intros e X. apply He in X as [X _]. destruct Hwf as (_ & Q & _). apply Q; auto.
    + intros M e X. apply He in X as [X _]. apply Hlk; auto. congruence.
    + rewrite El. cbn [bind]. destruct (walk_head _ _ _ _ W) as [q Ep].
      set (m := comps_on x (comps_on x [] ls) p). exists S_, m. split; [unfold min_comps, m; rewrite Ep; reflexivity|]. left. split; [reflexivity|].
      assert (An : forall n, In n p -> alive x n).
      { intros n X. clear - W Hn X. induction W as [a H1|a b c e p H1 H2 H3 H4 IH]; [destruct X as [<-|[]]|destruct X as [<-|X]]; try (apply Hn; auto; fail). auto. }
      assert (Al : forall l, In l ls -> alive x l).
      { intros l X. apply L1 in X as (e & X & Y). apply He in X as (_ & X & _). apply X, Y. }
      assert (Dm : forall k, dfind m k = if mem_str k p || mem_str k ls then dfind x k else None).
      { intros k. unfold m. rewrite !comps_on_spec. cbn [dfind]. destruct (mem_str k p), (mem_str k ls), (dfind x k); auto. }
      split; [apply CW; eauto|]. split; [apply comps_on_nodup, comps_on_nodup; constructor|]. split.
      * intros k s E. rewrite Dm in E. destruct (mem_str k p || mem_str k ls) eqn:X; [|discriminate]. split; auto.
        assert (A : alive x k). { apply orb_true_iff in X as [X|X]; apply mem_str_In in X; auto. }
        specialize (Nx k s E). unfold alive in A. destruct (Z.eq_dec s 0); [congruence|lia].
      * intros y [Y1 Y2].
        assert (Ay : forall k, In k p \/ In k ls -> alive y k).
        { intros k X. unfold alive. destruct (dfind x k) as [s|] eqn:E.
          - assert (E2 : dfind m k = Some s). { rewrite Dm. rewrite (proj2 (orb_true_iff _ _)); auto. destruct X as [X|X]; apply mem_str_In in X; auto. }
            destruct (Y1 k s E2) as (s' & E3 & L). rewrite E3. assert (A : alive x k) by (destruct X; auto).
            specialize (Nx k s E). unfold alive in A. intros [= ->]. assert (s = 0) by lia. congruence.
          - rewrite (Y2 k E). discriminate. }
        apply (rewalk G H y o p d ls); auto; intros k X; [apply Hn in X; apply X|apply He in X; apply X].
  - exists F_, []. split; [reflexivity|]. right. split; [reflexivity|]. split; [reflexivity|]. intros C. apply CW in C as [p W]. apply (Hnx p W).
Qed.
End ConnMode.

Lemma conn_mono G x y : (forall k, alive x k -> alive y k) -> forall a b, conn G x a b -> conn G y a b.
Proof. intros M a b C. induction C; [constructor; auto|]. eapply conn_step; eauto. Qed.

(** * Threshold mode *)
Lemma t_le_refl a b : t_le b a -> t_le a a.
Proof. destruct a, b; cbn; intros; auto; try tauto. apply Qcle_refl. Qed.
Lemma t_le_trans a b c : t_le a b -> t_le b c -> t_le a c.
Proof. destruct a, b, c; cbn; intros; try tauto. eapply Qcle_trans; eauto. Qed.
Lemma t_add_le a b c d : t_le a b -> t_le c d -> t_le (t_add a c) (t_add b d).
Proof. destruct a, b, c, d; cbn; intros; try tauto. apply Qcplus_le_compat; auto. Qed.
Lemma t_ltb_le a t : t_le (VNum 0%Qc) a -> t_le (VNum 0%Qc) t -> (t_ltb t a = false <-> t_le a t).
Proof.
  destruct t as [t| |], a as [x| |]; cbn; try tauto; intros _ _; [|split; [discriminate|tauto]]. split; intros H.
  - apply qc_ltb_ge in H. auto.
  - destruct (qc_ltb t x) eqn:E; auto. apply qc_ltb_lt in E. exfalso. apply (Qclt_not_le _ _ E). auto.
Qed.

Lemma py_index_nth2 {A} (l : list A) s : 0 <= s < Z.of_nat (List.length l) -> exists a, py_index l s = Ok a /\ nth_error l (Z.to_nat s) = Some a.
Proof.
  intros H. unfold py_index. destruct (Z.ltb_spec s 0); [lia|]. destruct (Z.leb_spec 0 s); [|lia].
  destruct (Z.ltb_spec s (Z.of_nat (List.length l))); [|lia]. cbn [andb].
  destruct (nth_error l (Z.to_nat s)) eqn:E; eauto. apply nth_error_None in E. lia.
Qed.

Section Weights.
Variable G : graph.
Hypothesis Hwf : wf_graph G.
Hypothesis Hsim : g_multi G = false.
Variable varis : dict variable.
Hypothesis Ht : times_ok G varis.

Lemma edge_time_ok x e l : states_ok varis x -> In e (g_edges G) -> e_label e = Some l ->
  edge_weight varis x e = Ok (edge_time varis x l) /\ t_le (VNum 0%Qc) (edge_time varis x l).
Proof.
  intros [Nv Hx] He El. destruct (Ht e l He El) as (v & Ev & P & _). destruct (Hx l v) as (s & Es & R); [apply dfind_In; auto|].
  unfold edge_weight, edge_time, coord. rewrite El. cbn [bind]. unfold dget. rewrite Ev, Es. cbn [bind].
  destruct (py_index_nth2 (v_values v) s) as (w & E1 & E2); [unfold nvals in R; lia|]. rewrite E1, (nth_error_nth _ _ VInf E2). split; auto. apply P. apply (nth_error_In _ _ E2).
Qed.
Lemma edge_time_mono x y e l sx sy : states_ok varis x -> states_ok varis y -> In e (g_edges G) -> e_label e = Some l ->
  dfind x l = Some sx -> dfind y l = Some sy -> sx <= sy -> t_le (edge_time varis y l) (edge_time varis x l).
Proof.
  intros [Nv Hx] [_ Hy] He El Ex Ey L. destruct (Ht e l He El) as (v & Ev & _ & M).
  destruct (Hx l v) as (s1 & E1 & R1); [apply dfind_In; auto|]. destruct (Hy l v) as (s2 & E2 & R2); [apply dfind_In; auto|].
  assert (s1 = sx) by congruence. assert (s2 = sy) by congruence. subst.
  unfold edge_time, coord. rewrite Ev, Ex, Ey. destruct (py_index_nth2 (v_values v) sx) as (w1 & _ & N1); [unfold nvals in R1; lia|].
  destruct (py_index_nth2 (v_values v) sy) as (w2 & _ & N2); [unfold nvals in R2; lia|]. rewrite (nth_error_nth _ _ VInf N1), (nth_error_nth _ _ VInf N2).
  apply (M (Z.to_nat sx) (Z.to_nat sy)); auto. lia.
Qed.

Definition reweight (x : dict Z) (e : gedge) : gedge :=
  mkEdge (e_src e) (e_dst e) (e_key e) (e_label e) (match e_label e with Some l => Some (edge_time varis x l) | None => e_weight e end).
Definition wgraph (x : dict Z) : graph := mkGraph (g_dir G) (g_multi G) (g_nodes G) (map (reweight x) (g_edges G)).

Lemma update_weights_ok x : states_ok varis x -> update_weights G x varis = Ok (wgraph x).
Proof.
  intros Hx. unfold update_weights. destruct Hwf as (Nd & W & U).
  set (tm := fun e => match e_label e with Some l => edge_time varis x l | None => VInf end).
  assert (E : mapM (fun e => w <- edge_weight varis x e ;; Ok (e_src e, e_dst e, w)) (g_edges G) = Ok (map (fun e => (e_src e, e_dst e, tm e)) (g_edges G))).
  { apply mapM_ok. intros e He. destruct (e_label e) as [l|] eqn:El; [|destruct (W e He) as (_ & _ & X); congruence].
    destruct (edge_time_ok x e l Hx He El) as [-> _]. cbn [bind]. unfold tm. rewrite El. auto. }
  rewrite E. cbn [bind]. unfold wgraph. do 2 f_equal. apply map_ext_in. intros e He. rewrite Hsim. cbn [negb orb].
  assert (Hin : In e (rev (g_edges G))) by (apply in_rev; rewrite rev_involutive; auto).
  rewrite <- map_rev. destruct (find _ _) as [a|] eqn:F.
  - apply find_some in F as [F1 F2]. apply andb_true_iff in F2 as [F2 F3]. apply String.eqb_eq in F2, F3.
    apply in_map_iff in F1 as (e' & <- & F1). cbn [fst snd] in F2, F3. apply in_rev in F1.
    assert (e' = e). { apply U; auto; [left; auto|congruence]. } subst e'. cbn [snd]. unfold reweight, tm.
    destruct (e_label e) as [l|] eqn:El; auto. destruct (W e He) as (_ & _ & X). congruence.
  - exfalso. assert (Q := find_none _ _ F (e_src e, e_dst e, tm e)). cbn [fst snd] in Q. rewrite !String.eqb_refl in Q. cbn in Q.
    assert (true = false); [|discriminate]. apply Q. apply in_map_iff. eauto.
Qed.

Lemma leads_w x e a b : leads (wgraph x) (reweight x e) a b <-> leads G e a b.
Proof. unfold leads, reweight, wgraph. cbn. tauto. Qed.
Lemma good_w x : states_ok varis x -> good_weights (wgraph x).
Proof.
  intros Hx e' He'. cbn [wgraph g_edges] in He'. apply in_map_iff in He' as (e & <- & He). destruct Hwf as (_ & W & _).
  cbn [reweight e_weight]. destruct (e_label e) as [l|] eqn:El; [|destruct (W e He) as (_ & _ & X); congruence].
  eexists. split; [reflexivity|]. apply (edge_time_ok x e l); auto.
Qed.
Lemma unique_edge e e' a b : In e (g_edges G) -> In e' (g_edges G) -> leads G e a b -> leads G e' a b -> e' = e.
Proof.
  intros He He' L L'. destruct Hwf as (_ & _ & U). apply U; auto; [|rewrite Hsim; discriminate].
  unfold leads in *. destruct L as [[<- <-]|(D & <- & <-)]; auto. destruct L' as [[-> ->]|(_ & -> & ->)]; auto.
Qed.
Lemma step_w x e l a b : states_ok varis x -> In e (g_edges G) -> leads G e a b -> e_label e = Some l -> step_time (wgraph x) a b (edge_time varis x l).
Proof.
  intros Hx He L El. split.
  - exists (reweight x e). split; [apply in_map_iff; eauto|]. split; [apply leads_w; auto|]. cbn. rewrite El. auto.
  - intros e1 w' H1 L1 E1. cbn [wgraph g_edges] in H1. apply in_map_iff in H1 as (e2 & <- & H2). apply leads_w in L1.
    assert (e2 = e) by (apply (unique_edge e e2 a b); auto). subst e2. cbn in E1. rewrite El in E1. injection E1 as <-.
    apply (t_le_refl _ (VNum 0%Qc)). apply (edge_time_ok x e l); auto.
Qed.

Lemma within_walk x a b T : states_ok varis x ->
  (within G (edge_time varis x) a b T <-> exists p, walk (wgraph x) a p b /\ walk_time (wgraph x) p T).
Proof.
  intros Hx. split.
  - induction 1 as [a H1|a b c e l T H1 H2 H3 H4 H5 IH].
    + exists [a]. split; constructor. auto.
    + destruct IH as (p & P1 & P2). exists (a :: p). split.
      * apply (walk_cons (wgraph x) a b c (reweight x e) p); [auto|apply in_map_iff; eauto|apply leads_w; auto|auto].
      * destruct (walk_head _ _ _ _ P1) as [q ->]. constructor; auto. apply (step_w x e l); auto.
  - intros (p & P1 & P2). revert T P2. induction P1 as [a H1|a b c e p H1 H2 H3 H4 IH]; intros T P2.
    + inversion P2; subst. constructor. auto.
    + destruct (walk_head _ _ _ _ H4) as [q ->]. inversion P2 as [|? ? ? w T' S P3]; subst.
      destruct S as [(e' & E1 & E2 & E3) _]. cbn [wgraph g_edges] in E1. apply in_map_iff in E1 as (e0 & <- & E0). apply leads_w in E2.
      cbn [reweight e_weight] in E3. destruct (e_label e0) as [l|] eqn:El; [|destruct Hwf as (_ & W & _); destruct (W e0 E0) as (_ & _ & X); congruence].
      injection E3 as <-. apply (wi_step G _ a b c e0 l T'); auto.
Qed.

Lemma within_pos x a b T : states_ok varis x -> within G (edge_time varis x) a b T -> t_le (VNum 0%Qc) T.
Proof.
  intros Hx. induction 1 as [a H1|a b c e l T H1 H2 H3 H4 H5 IH]; [cbn; apply Qcle_refl|].
  replace (VNum 0%Qc) with (t_add (VNum 0%Qc) (VNum 0%Qc)) by (cbn; f_equal; ring). apply t_add_le; auto. apply (edge_time_ok x e l); auto.
Qed.
Lemma walk_w x a p b : walk G a p b -> walk (wgraph x) a p b.
Proof.
  induction 1 as [a H1|a b c e p H1 H2 H3 H4 IH]; [constructor; auto|].
  apply (walk_cons (wgraph x) a b c (reweight x e) p); [auto|apply in_map_iff; eauto|apply leads_w; auto|auto].
Qed.

(** the same path with other states *)
Lemma rewithin x y a p b T ls : states_ok varis x -> states_ok varis y -> walk (wgraph x) a p b -> walk_time (wgraph x) p T ->
  Forall2 (fun ab l => exists e, In e (g_edges (wgraph x)) /\ leads (wgraph x) e (fst ab) (snd ab) /\ e_label e = Some l) (pairwise p) ls ->
  (forall l, In l ls -> t_le (edge_time varis y l) (edge_time varis x l)) ->
  exists T', within G (edge_time varis y) a b T' /\ t_le T' T.
Proof.
  intros Hx Hy W. revert T ls. induction W as [a H1|a b c e p H1 H2 H3 H4 IH]; intros T ls WT F Hl.
  - inversion WT; subst. exists (VNum 0%Qc). split; [constructor; auto|]. cbn. apply Qcle_refl.
  - destruct (walk_head _ _ _ _ H4) as [q ->]. change (pairwise (a :: b :: q)) with ((a, b) :: pairwise (b :: q)) in F.
    inversion F as [|? l ? ls' (e1 & E1 & E2 & E3) F']; subst. inversion WT as [|? ? ? w T0 S WT']; subst. cbn [fst snd] in E2.
    destruct (IH T0 ls' WT' F') as (T' & I1 & I2); [intros; apply Hl; cbn; auto|].
    cbn [wgraph g_edges] in E1. apply in_map_iff in E1 as (e0 & <- & E0). apply leads_w in E2. cbn [reweight e_label] in E3.
    exists (t_add (edge_time varis y l) T'). split; [apply (wi_step G _ a b c e0 l T'); auto|]. apply t_add_le; auto.
    apply (t_le_trans _ (edge_time varis x l)); [apply Hl; cbn; auto|].
    destruct S as [(e2 & F1 & F2 & F3) _]. cbn [wgraph g_edges] in F1. apply in_map_iff in F1 as (e3 & <- & F1). apply leads_w in F2.
    assert (e3 = e0) by (apply (unique_edge e0 e3 a b); auto). subst e3. cbn [reweight e_weight] in F3. rewrite E3 in F3. injection F3 as <-.
    apply (t_le_refl _ (VNum 0%Qc)), (edge_time_ok x e0 l); auto.
Qed.

Variable nx_path : graph -> string -> string -> option (list string).
Variable nx_wpath : graph -> string -> string -> res (list string).
Variable nx_wlen : graph -> string -> string -> res value.
Hypothesis Hnx : nx_wpath_ok nx_wpath nx_wlen.

Lemma allM_states x : states_ok varis x -> allM (fun kv => s <- dget x (fst kv) ;; Ok (s <? nvals (snd kv))) varis = Ok true.
Proof.
  intros [_ Hx]. unfold allM. rewrite (mapM_ok _ (fun _ => true)).
  - cbn [bind]. f_equal. clear. induction varis as [|? l IH]; cbn; auto.
  - intros [k v] Hk. destruct (Hx k v Hk) as (s & Es & R). unfold dget. cbn [fst snd]. rewrite Es. cbn [bind]. f_equal. apply Z.ltb_lt. lia.
Qed.

Lemma sf_time x o d t : states_ok varis x -> varis <> [] -> t <> VNum 0%Qc -> t_le (VNum 0%Qc) t -> (exists p, walk G o p d) ->
  exists T st m, sf_min_path nx_path nx_wpath nx_wlen x G o d varis (Some t) = Ok (Some T, st, m) /\
    within G (edge_time varis x) o d T /\ (forall T', within G (edge_time varis x) o d T' -> t_le T T') /\
    NoDup (keys m) /\ (forall k s, dfind m k = Some s -> dfind x k = Some s) /\
    ((st = S_ /\ t_le T t /\
      (forall y, states_ok varis y -> (forall k s, dfind m k = Some s -> exists s', dfind y k = Some s' /\ s <= s') ->
        exists T', within G (edge_time varis y) o d T' /\ t_le T' t)) \/
     (st = F_ /\ m = [] /\ ~ t_le T t)).
Proof.
  intros Hx Nv Nt Pt [p0 Hp0]. unfold sf_min_path.
  assert (Tt : truthy t = true). { destruct t as [q| |]; auto. cbn. destruct (qc_eqb q 0%Qc) eqn:Q; auto. apply qc_eqb_eq in Q. congruence. }
  rewrite Tt. unfold get_time_and_path_given_comps. rewrite allM_states by auto. cbn [bind].
  assert (UG : update_G G x varis = Ok (wgraph x)). { rewrite <- (update_weights_ok x) by auto. unfold update_G. destruct varis; [contradiction|auto]. }
  rewrite UG. cbn [bind].
  assert (C := Hnx (wgraph x) o d (good_w x Hx)). destruct (nx_wpath (wgraph x) o d) as [p|er].
  2:{ exfalso. apply (C p0). apply walk_w; auto. }
  destruct C as (W & T & WT & EL & Mn). cbn [bind]. rewrite EL. cbn [bind].
  destruct (path_edges_ok (wgraph x) o p d W) as (ls & Els & L1 & L2).
  { intros e He. cbn [wgraph g_edges] in He. apply in_map_iff in He as (e0 & <- & He). cbn. destruct Hwf as (_ & X & _). apply X; auto. }
  { cbn [wgraph g_multi]. rewrite Hsim. discriminate. }
  rewrite Els. cbn [bind]. assert (WI : within G (edge_time varis x) o d T) by (apply within_walk; eauto).
  assert (TL := t_ltb_le T t (within_pos x o d T Hx WI) Pt).
  destruct (t_ltb t T) eqn:TT.
  - exists T, F_, []. split; [reflexivity|]. split; [exact WI|]. split.
    { intros T' H'. apply within_walk in H' as (q & Q1 & Q2); auto. eapply Mn; eauto. }
    split; [constructor|]. split; [discriminate|]. right. split; auto. split; auto. intros X. apply TL in X. discriminate.
  - set (m := comps_on x (comps_on x [] ls) p). exists T, S_, m. split; [reflexivity|]. split; [exact WI|]. split.
    { intros T' H'. apply within_walk in H' as (q & Q1 & Q2); auto. eapply Mn; eauto. }
    assert (Dm : forall k, dfind m k = if mem_str k p || mem_str k ls then dfind x k else None).
    { intros k. unfold m. rewrite !comps_on_spec. cbn [dfind]. destruct (mem_str k p), (mem_str k ls), (dfind x k); auto. }
    split; [apply comps_on_nodup, comps_on_nodup; constructor|]. split.
    { intros k s E. rewrite Dm in E. destruct (mem_str k p || mem_str k ls); congruence. }
    left. split; auto. assert (TL2 : t_le T t) by (apply TL; auto). split; auto. intros y Hy My.
    destruct (rewithin x y o p d T ls Hx Hy W WT L2) as (T' & I1 & I2).
    { intros l Hl. destruct (L1 l Hl) as (e & E1 & E2). cbn [wgraph g_edges] in E1. apply in_map_iff in E1 as (e0 & <- & E0). cbn in E2.
      destruct (Ht e0 l E0 E2) as (v & Ev & _). destruct (proj2 Hx l v) as (s & Es & _); [apply dfind_In; auto|].
      destruct (My l s) as (s' & Es' & L). { rewrite Dm. rewrite (proj2 (orb_true_iff _ _)); auto. right. apply mem_str_In. auto. }
      apply (edge_time_mono x y e0 l s s'); auto. }
    exists T'. split; auto. apply (t_le_trans _ T); auto.
Qed.
End Weights.
