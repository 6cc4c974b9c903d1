(** Proofs about [rou_conn]. *)
From Coq Require Import ZArith List String Bool Arith Lia QArith Qcanon.
From Verif Require Import Py PyFacts Num Vari VariFacts Brc SpecBrc BrcFacts Flow SpecFlow FlowFacts MaxFlow SpecMaxFlow SpecCut MinCut Trans SpecTrans TransFacts NetSys RouConn SpecConn.
Import ListNotations.
Open Scope string_scope.
Open Scope Z_scope.
Open Scope list_scope.

(** * Chains *)
Lemma chain_app arcs a ks b ls c : chain arcs a ks b -> chain arcs b ls c -> chain arcs a (ks ++ ls) c.
Proof. intros H. induction H as [a|a b c' k ks I H IH]; intros L; cbn [app]; auto. econstructor; eauto. Qed.
Lemma chain_rev arcs a ks b : chain arcs a ks b -> chain arcs b (rev ks) a.
Proof.
  intros H. induction H as [a|a b c k ks I H IH]; [constructor|]. cbn [rev]. eapply chain_app; [exact IH|].
  apply (chain_arc arcs b a a k []); [tauto|constructor].
Qed.
Lemma chain_incl arcs arcs' a ks b : incl arcs arcs' -> chain arcs a ks b -> chain arcs' a ks b.
Proof. intros Hi H. induction H as [a|a b c k ks I H IH]; [constructor|]. econstructor; eauto. destruct I; auto. Qed.
Lemma chain_keys (b : string -> bool) arcs a ks c : chain (filter (fun ka => b (fst ka)) arcs) a ks c -> forall k, In k ks -> b k = true.
Proof.
  intros H. induction H as [a|a a' c k ks I H IH]; intros k' [].
  - subst k'. destruct I as [I|I]; apply filter_In in I; apply I.
  - auto.
Qed.
Lemma chain_side arcs (side : string -> bool) a ks c : chain arcs a ks c -> side a = true -> side c = false ->
  exists k u v, In k ks /\ In (k, (u, v)) arcs /\ ((side u = true /\ side v = false) \/ (side v = true /\ side u = false)).
Proof.
  intros H. induction H as [a|a b c k ks I H IH]; intros A C; [congruence|]. destruct (side b) eqn:B.
  - destruct (IH eq_refl C) as (k' & u & v & K & R). exists k', u, v. split; auto. right; auto.
  - destruct I as [I|I]; [exists k, a, b|exists k, b, a]; (split; [left; auto|]; split; auto).
Qed.

(** what can be reached over the arcs [l] *)
Lemma classes (l : dict (string * string)) : exists f : string -> string,
  (forall k u v, In (k, (u, v)) l -> f u = f v) /\ forall a b, f a = f b -> exists ks, chain l a ks b.
Proof.
  induction l as [|[k [u v]] l (f & F1 & F2)].
  - exists (fun n => n). split; [intros k u v []|]. intros a b ->. exists []. constructor.
  - exists (fun n => if String.eqb (f n) (f u) then f v else f n). split.
    + intros k' u' v' [E|I].
      * injection E as <- <- <-. rewrite String.eqb_refl. destruct (String.eqb (f v) (f u)); auto.
      * rewrite (F1 k' u' v' I). auto.
    + assert (F : forall a b, f a = f b -> exists ks, chain ((k, (u, v)) :: l) a ks b).
      { intros a b E. destruct (F2 a b E) as [ks C]. exists ks. apply (chain_incl l); auto. intros z; right; auto. }
      assert (U : exists ks, chain ((k, (u, v)) :: l) u ks v). { exists [k]. apply (chain_arc _ u v v k []); [left; left; auto|constructor]. }
      destruct U as [ku U]. intros a b. destruct (String.eqb_spec (f a) (f u)) as [A|A], (String.eqb_spec (f b) (f u)) as [B|B]; intros E.
      * apply F. congruence.
      * destruct (F a u A) as [k1 C1]. destruct (F v b E) as [k2 C2]. exists (k1 ++ ku ++ k2). eapply chain_app; [exact C1|]. eapply chain_app; eauto.
      * destruct (F b u B) as [k1 C1]. destruct (F v a (eq_sym E)) as [k2 C2]. exists (rev (k1 ++ ku ++ k2)). apply chain_rev. eapply chain_app; [exact C1|]. eapply chain_app; eauto.
      * apply F. auto.
Qed.
Lemma reach (b : string -> bool) arcs o : exists side : string -> bool, side o = true /\
  (forall k u v, In (k, (u, v)) arcs -> b k = true -> side u = side v) /\
  (forall n, side n = true -> exists ks, chain arcs o ks n /\ forall k, In k ks -> b k = true).
Proof.
  destruct (classes (filter (fun ka => b (fst ka)) arcs)) as (f & F1 & F2). exists (fun n => String.eqb (f n) (f o)). split; [apply String.eqb_refl|]. split.
  - intros k u v I B. rewrite (F1 k u v); auto. apply filter_In. auto.
  - intros n E. apply String.eqb_eq in E. destruct (F2 o n (eq_sym E)) as [ks C]. exists ks. split; [|apply (chain_keys b arcs o ks n C)].
    apply (chain_incl _ arcs) in C; auto. intros z Hz. apply filter_In in Hz. apply Hz.
Qed.

(** * The graph *)
Definition workb (x : dict Z) (k : string) : bool := match dfind x k with Some s => 0 <? s | None => false end.
Lemma workb_works x k : workb x k = true <-> works x k.
Proof.
  unfold workb, works. destruct (dfind x k) as [s|]; split.
  - intros H. apply Z.ltb_lt in H. eauto.
  - intros (s' & [= <-] & H). apply Z.ltb_lt. auto.
  - discriminate.
  - intros (s' & H & _). discriminate H.
Qed.
Definition adj (g : cgraph) (u v : string) : Prop := exists c, In (u, v, c) g \/ In (v, u, c) g.
Definition unit_caps (g : cgraph) : Prop := forall e, In e g -> snd e = 1%Qc.

Lemma same_ends_spec u v e : same_ends u v e = true <-> fst e = (u, v) \/ fst e = (v, u).
Proof.
  destruct e as [[a b] c]. unfold same_ends. cbn [fst snd]. rewrite orb_true_iff, !andb_true_iff, !String.eqb_eq. split.
  - intros [[-> ->]|[-> ->]]; auto.
  - intros [E|E]; injection E as -> ->; auto.
Qed.
Lemma simple_end g u v c : simple g -> u <> v -> existsb (same_ends u v) g = false -> simple (g ++ [(u, v, c)]).
Proof.
  intros S D N. induction g as [|[[a b] e] g IH]; cbn [app simple]; [split; auto; split; auto; intros ? ? ? []|].
  cbn [existsb] in N. apply orb_false_iff in N as [N1 N2]. destruct S as (S1 & S2 & S3). split; auto. split; auto.
  intros p q r I. apply in_app_iff in I as [I|[E|[]]]; [eauto|]. injection E as <- <- <-.
  assert (X : ~ same_ends u v (a, b, e) = true) by congruence. rewrite same_ends_spec in X. cbn [fst] in X. split; intros [-> ->]; apply X; auto.
Qed.
Lemma add_edge_unit g u v : simple g -> unit_caps g -> u <> v ->
  simple (add_edge g u v 1%Qc) /\ unit_caps (add_edge g u v 1%Qc) /\
  forall a b, adj (add_edge g u v 1%Qc) a b <-> adj g a b \/ (a = u /\ b = v) \/ (a = v /\ b = u).
Proof.
  intros S U D. unfold add_edge. destruct (existsb (same_ends u v) g) eqn:E.
  - replace (map (fun e => if same_ends u v e then (fst e, 1%Qc) else e) g) with g.
    2:{ rewrite <- (map_id g) at 1. apply map_ext_in. intros e I. destruct (same_ends u v e); auto. rewrite <- (U e I). destruct e; auto. }
    split; auto. split; auto. intros a b. split; auto. intros [H|H]; auto. apply existsb_exists in E as (e & I & E). apply same_ends_spec in E.
    destruct e as [uv c]. cbn [fst] in E. exists c. destruct H as [[-> ->]|[-> ->]], E as [-> | ->]; auto.
  - split; [apply simple_end; auto|]. split. { intros e I. apply in_app_iff in I as [I|[<-|[]]]; auto. }
    intros a b. unfold adj. split.
    + intros (c & [I|I]); apply in_app_iff in I as [I|[I|[]]]; eauto; injection I as <- <- _; auto.
    + intros [(c & H)|[[-> ->]|[-> ->]]]; [exists c|exists 1%Qc|exists 1%Qc].
      * destruct H; [left|right]; apply in_app_iff; auto. * left. apply in_app_iff. right; left; auto. * right. apply in_app_iff. right; left; auto.
Qed.

Section Conn.
Context (arcs : dict (string * string)) (Ha : arcs_ok arcs) (x : dict Z) (Hx : states_of arcs x).

Lemma arc_found k : In k (keys arcs) -> exists u v, dfind arcs k = Some (u, v) /\ In (k, (u, v)) arcs /\ u <> v.
Proof. intros I. apply dfind_keys in I as ([u v] & E). exists u, v. split; auto. apply dfind_In in E. split; auto. apply (proj2 Ha k); auto. Qed.
Lemma arc_same k u v : In (k, (u, v)) arcs -> dfind arcs k = Some (u, v).
Proof. apply In_dfind, Ha. Qed.

Lemma arc_graph_from xs : incl (keys xs) (keys arcs) -> forall g, simple g -> unit_caps g ->
  exists g', foldM (fun g kx => if 0 <? snd kx then uv <- dget arcs (fst kx) ;; Ok (add_edge g (fst uv) (snd uv) 1%Qc) else Ok g) xs g = Ok g' /\
    simple g' /\ unit_caps g' /\
    forall a b, adj g' a b <-> adj g a b \/ exists k s, In (k, s) xs /\ 0 < s /\ (In (k, (a, b)) arcs \/ In (k, (b, a)) arcs).
Proof.
  induction xs as [|[k s] xs IH]; intros Hi g Sg Ug; cbn [foldM].
  - exists g. split; auto. split; auto. split; auto. intros a b. split; auto. intros [H|(k & s & [] & _)]; auto.
  - cbn [fst snd]. assert (Hi' : incl (keys xs) (keys arcs)) by (intros z Hz; apply Hi; right; auto). destruct (0 <? s) eqn:P.
    + apply Z.ltb_lt in P. destruct (arc_found k) as (u & v & F & I & D); [apply Hi; left; auto|]. apply dget_ok in F. rewrite F. cbn [bind fst snd].
      destruct (add_edge_unit g u v Sg Ug D) as (S1 & U1 & A1). destruct (IH Hi' _ S1 U1) as (g' & E & S2 & U2 & A2). exists g'. split; auto. split; auto. split; auto.
      intros a b. rewrite A2, A1. split.
      * intros [[H|H]|(k' & s' & H1 & H2)]; auto; right; [exists k, s|exists k', s'].
        -- split; [left; auto|]. split; auto. destruct H as [[-> ->]|[-> ->]]; auto.
        -- split; auto. right; auto.
      * intros [H|(k' & s' & [H1|H1] & H2 & H3)]; auto.
        -- injection H1 as <- <-. left. right. apply dget_ok in F. destruct H3 as [H3|H3]; apply arc_same in H3; rewrite H3 in F; injection F as -> ->; auto.
        -- right. exists k', s'. auto.
    + apply Z.ltb_ge in P. destruct (IH Hi' g Sg Ug) as (g' & E & S2 & U2 & A2). exists g'. split; auto. split; auto. split; auto. intros a b. rewrite A2. split.
      * intros [H|(k' & s' & H1 & H2)]; auto. right. exists k', s'. split; auto. right; auto.
      * intros [H|(k' & s' & [H1|H1] & H2 & H3)]; auto; [injection H1 as <- <-; lia|]. right. exists k', s'. auto.
Qed.
Lemma arc_graph_ok : exists g, arc_graph x arcs = Ok g /\ simple g /\ unit_caps g /\
  forall a b, adj g a b <-> exists k, works x k /\ (In (k, (a, b)) arcs \/ In (k, (b, a)) arcs).
Proof.
  destruct (arc_graph_from x (proj2 Hx) [] I) as (g & E & S & U & A). { intros e []. }
  exists g. split; auto. split; auto. split; auto. intros a b. rewrite A. split.
  - intros [(c & [[]|[]])|(k & s & H1 & H2 & H3)]. exists k. split; auto. exists s. split; auto. apply In_dfind; auto. apply Hx.
  - intros (k & (s & H1 & H2) & H3). right. exists k, s. split; auto. apply dfind_In; auto.
Qed.

(** without parallel arcs: one edge for each arc that works *)
Definition arc_edges (xs : dict Z) : cgraph := map (fun kx => (ends arcs (fst kx), 1%Qc)) (filter (fun kx => 0 <? snd kx) xs).
Lemma arc_edges_simple : single arcs -> forall xs, NoDup (keys xs) -> incl (keys xs) (keys arcs) -> simple (arc_edges xs).
Proof.
  intros Sg xs. induction xs as [|[k s] xs IH]; intros N Hi; [exact I|]. inversion N as [|? ? N1 N2]; subst.
  assert (Hi' : incl (keys xs) (keys arcs)) by (intros z Hz; apply Hi; right; auto). unfold arc_edges. cbn [filter snd]. destruct (0 <? s); [|apply IH; auto].
  cbn [map fst]. fold (arc_edges xs). destruct (arc_found k) as (u & v & F & Hk & D); [apply Hi; left; auto|]. unfold ends. rewrite F. cbn [simple]. split; auto. split; [|apply IH; auto].
  intros a b c H. apply in_map_iff in H as ([k' s'] & E & H). apply filter_In in H as [H _]. cbn [fst] in E.
  assert (K' : In k' (keys xs)) by (apply in_map_iff; exists (k', s'); auto). destruct (arc_found k' (Hi' _ K')) as (u' & v' & F' & Hk' & _).
  unfold ends in E. rewrite F' in E. injection E as -> -> _. split; intros [-> ->]; apply N1; rewrite (Sg k k' u v Hk); auto.
Qed.
Lemma arc_graph_exact : single arcs -> arc_graph x arcs = Ok (arc_edges x).
Proof.
  intros Sg. assert (X : forall xs g, incl (keys xs) (keys arcs) -> simple (g ++ arc_edges xs) ->
    foldM (fun g kx => if 0 <? snd kx then uv <- dget arcs (fst kx) ;; Ok (add_edge g (fst uv) (snd uv) 1%Qc) else Ok g) xs g = Ok (g ++ arc_edges xs)).
  { induction xs as [|[k s] xs IH]; intros g Hi S; cbn [foldM]; [rewrite app_nil_r; auto|]. cbn [fst snd].
    assert (Hi' : incl (keys xs) (keys arcs)) by (intros z Hz; apply Hi; right; auto). unfold arc_edges in *. cbn [filter snd] in *. destruct (0 <? s); [|apply IH; auto].
    cbn [map fst] in *. destruct (arc_found k) as (u & v & F & Hk & D); [apply Hi; left; auto|]. assert (E : ends arcs k = (u, v)) by (unfold ends; rewrite F; auto).
    apply dget_ok in F. rewrite F. cbn [bind fst snd]. rewrite E in *. change ((u, v, 1%Qc) :: ?l) with ([(u, v, 1%Qc)] ++ l) in *. rewrite app_assoc in *.
    rewrite add_edge_new by (apply simple_app in S; auto). apply IH; auto. }
  unfold arc_graph. rewrite X; auto; [apply Hx|]. apply arc_edges_simple; auto; apply Hx.
Qed.
End Conn.

(** * The flow *)
Lemma unit_cut g side : unit_caps g -> cut_cap true g side = qz (Z.of_nat (List.length (filter (crosses true side) g))).
Proof.
  intros U. unfold cut_cap. rewrite (map_ext_in snd (fun _ => 1%Qc)).
  - rewrite qsum_const. ring.
  - intros e H. apply filter_In in H as [H _]. auto.
Qed.
Lemma in_nodes_spec g n : in_nodes g n = true <-> is_node g n.
Proof.
  unfold in_nodes, is_node. rewrite existsb_exists. split; intros (e & H & E); exists e; (split; [exact H|]).
  - apply orb_true_iff in E as [E|E]; apply String.eqb_eq in E; auto.
  - apply orb_true_iff. destruct E as [E|E]; apply String.eqb_eq in E; auto.
Qed.
Lemma adj_node g a b : adj g a b -> is_node g a /\ is_node g b.
Proof. intros (c & [H|H]); split; (eexists; split; [exact H|]); cbn; auto. Qed.
Lemma cross_adj side e : crosses true side e = true -> (side (fst (fst e)) = true /\ side (snd (fst e)) = false) \/ (side (snd (fst e)) = true /\ side (fst (fst e)) = false).
Proof. unfold crosses. destruct (side (fst (fst e))), (side (snd (fst e))); cbn; auto; discriminate. Qed.
Lemma cross_back side a b c : side a <> side b -> crosses true side (a, b, c) = true /\ crosses true side (b, a, c) = true.
Proof. intros H. unfold crosses. cbn [fst snd]. destruct (side a), (side b); cbn; auto; congruence. Qed.

Section Flow.
Context (nx_flow : cgraph -> string -> string -> res (Qc * (string -> string -> Qc))) (Hn : nx_flow_ok nx_flow).
Context (arcs : dict (string * string)) (Ha : arcs_ok arcs) (x : dict Z) (Hx : states_of arcs x) (o d : string) (Hod : o <> d).
Context (g : cgraph) (Sg : simple g) (Ug : unit_caps g).
Context (Ad : forall a b, adj g a b <-> exists k, works x k /\ (In (k, (a, b)) arcs \/ In (k, (b, a)) arcs)).

Lemma chain_nodes ks : chain arcs o ks d -> (forall k, In k ks -> works x k) -> is_node g o /\ is_node g d.
Proof.
  intros H W. split.
  - inversion H as [|? b ? k ks' E H']; subst; [congruence|]. apply (adj_node g o b). apply Ad. exists k. split; auto. apply W. left; auto.
  - apply chain_rev in H. assert (W' : forall k, In k (rev ks) -> works x k) by (intros k Hk; apply W, in_rev; auto). clear W. revert W'. generalize dependent (rev ks). intros rk H W'.
    inversion H as [|? b ? k ks' E H']; subst; [congruence|]. apply (adj_node g d b). apply Ad. exists k. split; auto. apply W'. left; auto.
Qed.

(** the value: a cut of the graph, at most every cut *)
Lemma flow_cut : exists val side0, (if in_nodes g o && in_nodes g d then vf <- nx_flow g o d ;; Ok (fst vf) else Ok 0%Qc) = Ok val /\
  splits side0 o d /\ cut_cap true g side0 = val /\ forall side, splits side o d -> (val <= cut_cap true g side)%Qc.
Proof.
  assert (Pos : forall e, In e g -> (0 <= snd e)%Qc) by (intros e H; rewrite (Ug e H); discriminate).
  destruct (in_nodes g o && in_nodes g d) eqn:B.
  - apply andb_true_iff in B as [B1 B2]. apply in_nodes_spec in B1, B2. destruct (Hn g o d Sg Pos B1 B2 Hod) as (val & f & E & _ & S & M).
    destruct (strong_cut true g o d Hod Pos (signed f g) val S M) as (side & Sp & C). exists val, side. rewrite E. split; auto. split; auto. split; auto.
    intros side' Sp'. apply (weak_cut true g (signed f g) o d val side' S Sp').
  - assert (X : exists side0, splits side0 o d /\ cut_cap true g side0 = 0%Qc).
    { apply andb_false_iff in B as [B|B].
      - exists (String.eqb o). split; [split; [apply String.eqb_refl|apply String.eqb_neq; auto]|]. rewrite unit_cut by auto.
        replace (filter (crosses true (String.eqb o)) g) with (@nil (string * string * Qc)); [reflexivity|]. symmetry.
        destruct (filter _ g) as [|e r] eqn:F; auto. exfalso. assert (H : In e (filter (crosses true (String.eqb o)) g)) by (rewrite F; left; auto).
        apply filter_In in H as [H C]. apply cross_adj in C. assert (N : is_node g o) by (exists e; split; auto; destruct C as [[C _]|[C _]]; apply String.eqb_eq in C; auto).
        apply in_nodes_spec in N. congruence.
      - exists (fun n => negb (String.eqb d n)). split; [split; [apply negb_true_iff, String.eqb_neq; auto|rewrite String.eqb_refl; auto]|]. rewrite unit_cut by auto.
        replace (filter (crosses true (fun n => negb (String.eqb d n))) g) with (@nil (string * string * Qc)); [reflexivity|]. symmetry.
        destruct (filter _ g) as [|e r] eqn:F; auto. exfalso. assert (H : In e (filter (crosses true (fun n => negb (String.eqb d n))) g)) by (rewrite F; left; auto).
        apply filter_In in H as [H C]. apply cross_adj in C. assert (N : is_node g d) by (exists e; split; auto; destruct C as [[_ C]|[_ C]]; apply negb_false_iff, String.eqb_eq in C; auto).
        apply in_nodes_spec in N. congruence. }
    destruct X as (side0 & S0 & C0). exists 0%Qc, side0. split; auto. split; auto. split; auto. intros side _. rewrite unit_cut by auto.
    destruct (List.length (filter (crosses true side) g)) as [|n]; [apply Qcle_refl|]. apply Qclt_le_weak, qz_pos. lia.
Qed.

Lemma cut_one side : splits side o d -> linked arcs x o d -> (1 <= cut_cap true g side)%Qc.
Proof.
  intros [So Sd] (ks & C & W). destruct (chain_side arcs side o ks d C So Sd) as (k & u & v & Hk & Hi & D).
  assert (A : adj g u v) by (apply Ad; exists k; split; auto). rewrite unit_cut by auto.
  assert (X : (1 <= List.length (filter (crosses true side) g))%nat).
  { destruct A as (c & Hc). assert (D' : side u <> side v) by (destruct D as [[-> ->]|[-> ->]]; discriminate). destruct (cross_back side u v c D') as [X1 X2].
    assert (Y : exists e, In e (filter (crosses true side) g)) by (destruct Hc as [Hc|Hc]; eexists; apply filter_In; split; eauto).
    destruct Y as [e Y]. destruct (filter _ g); [destruct Y|cbn; lia]. }
  destruct (List.length _) as [|n]; [lia|]. rewrite qz_succ. assert (0 <= qz (Z.of_nat n))%Qc; [|qc_lra].
  destruct n; [apply Qcle_refl|apply Qclt_le_weak, qz_pos; lia].
Qed.
Lemma cut_none : ~ linked arcs x o d -> exists side, splits side o d /\ cut_cap true g side = 0%Qc.
Proof.
  intros N. destruct (reach (workb x) arcs o) as (side & So & Sc & Sr). exists side. split.
  - split; auto. destruct (side d) eqn:E; auto. exfalso. apply N. destruct (Sr d E) as (ks & C & W). exists ks. split; auto. intros k Hk. apply workb_works. auto.
  - rewrite unit_cut by auto. replace (filter (crosses true side) g) with (@nil (string * string * Qc)); [reflexivity|]. symmetry.
    destruct (filter _ g) as [|e r] eqn:F; auto. exfalso. assert (H : In e (filter (crosses true side) g)) by (rewrite F; left; auto).
    apply filter_In in H as [H C]. apply cross_adj in C. destruct e as [[u v] c]. cbn [fst snd] in C.
    assert (A : adj g u v) by (exists c; auto). apply Ad in A as (k & W & [A|A]); apply workb_works in W; specialize (Sc k _ _ A W); destruct C as [[C1 C2]|[C1 C2]]; congruence.
Qed.

(** * The path *)
Lemma plain_node n : In n (g_nodes (plain_graph g)) <-> is_node g n.
Proof.
  unfold plain_graph. cbn [g_nodes]. rewrite nodup_In, in_flat_map. unfold is_node. split; intros (e & H & E); exists e; (split; [exact H|]).
  - destruct E as [E|[E|[]]]; auto.
  - destruct E as [E|E]; [left|right; left]; auto.
Qed.
Lemma plain_leads a b : (exists e, In e (g_edges (plain_graph g)) /\ leads (plain_graph g) e a b) <-> adj g a b.
Proof.
  unfold plain_graph, adj, leads. cbn [g_edges g_dir]. split.
  - intros (e & H & L). apply in_map_iff in H as ([[u v] c] & <- & H). cbn [e_src e_dst fst snd] in L. exists c.
    destruct L as [[-> ->]|(_ & -> & ->)]; auto.
  - intros (c & [H|H]); eexists; (split; [apply in_map; exact H|]); cbn; auto.
Qed.

Lemma arc_name_ok a b : adj g a b -> exists k, arc_name arcs (a, b) = Ok k /\ (In (k, (a, b)) arcs \/ In (k, (b, a)) arcs) /\ (single arcs -> works x k).
Proof.
  intros A. apply Ad in A as (k0 & W & H). unfold arc_name. cbn [fst snd].
  assert (Sp : forall u v kuv, find (pair_is u v) arcs = Some kuv -> kuv = (fst kuv, (u, v)) /\ In (fst kuv, (u, v)) arcs).
  { intros u v [k [u' v']] F. apply find_some in F as [F E]. unfold pair_is in E. cbn [fst snd] in E. apply andb_true_iff in E as [E1 E2].
    apply String.eqb_eq in E1, E2. subst. auto. }
  assert (U : forall k, single arcs -> In (k, (a, b)) arcs \/ In (k, (b, a)) arcs -> works x k).
  { intros k Sa Hk. replace k with k0; auto. destruct H as [H|H], Hk as [Hk|Hk]; try (apply (Sa k0 k _ _ H); auto; fail). }
  destruct (find (pair_is a b) arcs) as [kuv|] eqn:F.
  - apply Sp in F as [_ F]. exists (fst kuv). auto.
  - destruct (find (pair_is b a) arcs) as [kuv|] eqn:F'.
    + apply Sp in F' as [_ F']. exists (fst kuv). auto.
    + exfalso. destruct H as [H|H]; [apply (find_none _ _ F) in H|apply (find_none _ _ F') in H]; unfold pair_is in H; cbn [fst snd] in H; rewrite !String.eqb_refl in H; discriminate H.
Qed.
Lemma walk_names a p c : walk (plain_graph g) a p c -> exists ks, mapM (arc_name arcs) (pairwise p) = Ok ks /\ chain arcs a ks c /\
  List.length p = S (List.length ks) /\ (single arcs -> forall k, In k ks -> works x k).
Proof.
  intros W. induction W as [a Hi|a b c e p Hi He L W IH].
  - exists []. split; auto. split; [constructor|]. split; auto. intros _ k [].
  - destruct IH as (ks & E & C & Len & Wk). destruct (walk_head _ _ _ _ W) as [q ->]. destruct (arc_name_ok a b) as (k & Ek & Hk & Wk'); [apply plain_leads; eauto|].
    exists (k :: ks). change (pairwise (a :: b :: q)) with ((a, b) :: pairwise (b :: q)). cbn [mapM]. rewrite Ek. cbn [bind]. rewrite E. split; auto. split; [econstructor; eauto|].
    split; [cbn [List.length] in *; lia|]. intros Sa k' [<-|H]; auto.
Qed.
Lemma chain_walk a ks c : chain arcs a ks c -> (forall k, In k ks -> works x k) -> is_node g a -> exists p, walk (plain_graph g) a p c /\ List.length p = S (List.length ks).
Proof.
  intros C. induction C as [a|a b c k ks H C IH]; intros W Na.
  - exists [a]. split; auto. constructor. apply plain_node; auto.
  - assert (A : adj g a b) by (apply Ad; exists k; split; auto; apply W; left; auto). destruct IH as (p & P & L); [intros; apply W; right; auto|apply (adj_node g a b A)|].
    exists (a :: p). apply plain_leads in A as (e & E1 & E2). split; [apply (walk_cons _ a b c e); auto; apply plain_node; auto|cbn; lia].
Qed.
Lemma rule_fold (f : string * string -> res string) l ks : mapM f l = Ok ks -> forall m,
  foldM (fun m ab => k <- f ab ;; Ok (dset m k 1)) l m = Ok (fold_left (fun m k => dset m k 1) ks m).
Proof.
  revert ks. induction l as [|a l IH]; intros ks H m; cbn [mapM] in H.
  - injection H as <-. auto.
  - destruct (f a) as [k|e] eqn:E; cbn [bind] in H; [|discriminate H]. destruct (mapM f l) as [ks'|e]; cbn [bind] in H; [|discriminate H]. injection H as <-.
    cbn [foldM fold_left]. rewrite E. cbn [bind]. apply IH. auto.
Qed.
Lemma ones_find ks : forall m k, dfind (fold_left (fun (m : dict Z) k => dset m k 1) ks m) k = if existsb (String.eqb k) ks then Some 1 else dfind m k.
Proof.
  induction ks as [|k0 ks IH]; intros m k; cbn [fold_left existsb]; auto. rewrite IH, dfind_dset_if. destruct (String.eqb k k0), (existsb (String.eqb k) ks); auto.
Qed.
Lemma ones_nodup ks : forall m : dict Z, NoDup (keys m) -> NoDup (keys (fold_left (fun m k => dset m k 1) ks m)).
Proof. induction ks as [|k ks IH]; intros m N; cbn [fold_left]; auto. apply IH, dset_nodup. auto. Qed.
End Flow.

(** * The function *)
Lemma rou_conn_ok nx_flow nx_path arcs x o d : nx_flow_ok nx_flow -> nx_path_ok nx_path -> arcs_ok arcs -> states_of arcs x -> o <> d ->
  exists val s m, rou_conn nx_flow nx_path x o d arcs = Ok (val, s, m) /\
    ((s = S_ /\ linked arcs x o d /\ (1 <= val)%Qc /\ exists r ks, m = Some r /\ NoDup (keys r) /\ chain arcs o ks d /\
        (forall k z, dfind r k = Some z <-> z = 1 /\ In k ks) /\
        (forall ks', chain arcs o ks' d -> (forall k, In k ks' -> works x k) -> (List.length ks <= List.length ks')%nat) /\
        (single arcs -> forall k, In k ks -> works x k)) \/
     (s = F_ /\ ~ linked arcs x o d /\ val = 0%Qc /\ m = None)).
Proof.
  intros Hf Hp Ha Hx Hod. destruct (arc_graph_ok arcs Ha x Hx) as (g & Eg & Sg & Ug & Ad). unfold rou_conn. rewrite Eg. cbn [bind].
  destruct (flow_cut nx_flow Hf o d Hod g Sg Ug) as (val & side & Ev & Sp & C & M). rewrite Ev. cbn [bind].
  destruct (qc_ltb 0 val) eqn:P.
  - apply qc_ltb_lt in P.
    assert (L : linked arcs x o d).
    { destruct (reach (workb x) arcs o) as (sd & So & Sc & Sr). destruct (sd d) eqn:E.
      - destruct (Sr d E) as (ks & K & W). exists ks. split; auto. intros k Hk. apply workb_works; auto.
      - exfalso. assert (N : ~ linked arcs x o d).
        { intros (ks & K & W). destruct (chain_side arcs sd o ks d K So E) as (k & u & v & Hk & Hi & D). apply W, workb_works in Hk. specialize (Sc k u v Hi Hk). destruct D as [[]|[]]; congruence. }
        destruct (cut_none arcs x o d g Ug Ad N) as (sd' & S' & Z'). specialize (M sd' S'). rewrite Z' in M. qc_lra. }
    assert (V1 : (1 <= val)%Qc) by (rewrite <- C; apply (cut_one arcs x o d g Ug Ad side Sp L)).
    destruct L as (ks0 & K0 & W0). destruct (chain_nodes arcs x o d Hod g Ad ks0 K0 W0) as [No _].
    specialize (Hp (plain_graph g) o d). destruct (nx_path (plain_graph g) o d) as [p|].
    + destruct Hp as [Wp Mp]. destruct (walk_names arcs x g Ad o p d Wp) as (ks & En & Ck & Ln & Wk).
      unfold arc_rule. rewrite (rule_fold _ _ ks En). cbn [bind]. eexists val, S_, _. split; [reflexivity|]. left. split; auto. split; [exists ks0; auto|]. split; auto.
      eexists _, ks. split; [reflexivity|]. split; [apply ones_nodup; constructor|]. split; auto. split; [|split; auto].
      * intros k z. rewrite ones_find. cbn [dfind find]. destruct (existsb (String.eqb k) ks) eqn:E.
        -- apply existsb_exists in E as (k' & I' & E'). apply String.eqb_eq in E'. subst k'. split; [intros [= <-]; auto|intros [-> _]; auto].
        -- split; [discriminate|]. intros [_ I']. assert (X : existsb (String.eqb k) ks = true) by (apply existsb_exists; exists k; split; auto; apply String.eqb_refl). congruence.
      * intros ks' K' W'. destruct (chain_walk arcs x g Ad o ks' d K' W' No) as (q & Wq & Lq). specialize (Mp q Wq). lia.
    + exfalso. destruct (chain_walk arcs x g Ad o ks0 d K0 W0 No) as (q & Wq & _). apply (Hp q Wq).
  - apply qc_ltb_ge in P. assert (N : ~ linked arcs x o d). { intros L. assert (X := cut_one arcs x o d g Ug Ad side Sp L). rewrite C in X. qc_lra. }
    exists val, F_, None. split; auto. right. split; auto. split; auto. split; auto. apply Qcle_antisym; auto. rewrite <- C, unit_cut by auto.
    destruct (List.length (filter (crosses true side) g)) as [|n]; [apply Qcle_refl|]. apply Qclt_le_weak, qz_pos. lia.
Qed.

Lemma crossing arcs x side : arcs_ok arcs -> states_of arcs x ->
  filter (crosses true side) (arc_edges arcs x) = map (fun kx => (ends arcs (fst kx), 1%Qc)) (filter (fun kx => (0 <? snd kx) && crosses true side (ends arcs (fst kx), 1%Qc)) x).
Proof.
  intros _ _. unfold arc_edges. induction x as [|[k s] x IH]; auto. cbn [filter snd fst]. destruct (0 <? s); cbn [andb map filter fst]; auto.
  destruct (crosses true side (ends arcs k, 1%Qc)); cbn [map fst]; rewrite IH; auto.
Qed.
Lemma rou_value nx_flow nx_path arcs x o d val s m : nx_flow_ok nx_flow -> nx_path_ok nx_path -> arcs_ok arcs -> states_of arcs x -> o <> d -> single arcs ->
  rou_conn nx_flow nx_path x o d arcs = Ok (val, s, m) ->
  (exists K, NoDup K /\ (forall k, In k K -> works x k) /\ val = qz (Z.of_nat (List.length K)) /\ ~ linked_without arcs x K o d) /\
  forall K, ~ linked_without arcs x K o d -> (val <= qz (Z.of_nat (List.length K)))%Qc.
Proof.
  intros Hf Hp Ha Hx Hod Hs E. destruct (arc_graph_ok arcs Ha x Hx) as (g & Eg & Sg & Ug & Ad).
  assert (Xg : g = arc_edges arcs x) by (rewrite (arc_graph_exact arcs Ha x Hx Hs) in Eg; congruence).
  destruct (flow_cut nx_flow Hf o d Hod g Sg Ug) as (val' & side & Ev & Sp & C & M).
  assert (Evv : val' = val).
  { unfold rou_conn in E. rewrite Eg in E. cbn [bind] in E. rewrite Ev in E. cbn [bind] in E. destruct (qc_ltb 0 val'); [|congruence].
    destruct (nx_path (plain_graph g) o d); [|discriminate E]. destruct (arc_rule arcs l); cbn [bind] in E; congruence. }
  rewrite Evv in *. clear E Evv val'. set (Kof := fun sd => keys (filter (fun kx => (0 <? snd kx) && crosses true sd (ends arcs (fst kx), 1%Qc)) x)).
  assert (Kin : forall sd k, In k (Kof sd) <-> works x k /\ crosses true sd (ends arcs k, 1%Qc) = true).
  { intros sd k. unfold Kof, keys. rewrite in_map_iff. split.
    - intros ([k' s'] & Ek & H). cbn [fst] in Ek. subst k'. apply filter_In in H as [Hin B]. cbn [fst snd] in B. apply andb_true_iff in B as [B1 B2]. split; auto. exists s'.
      split; [apply In_dfind; auto; apply Hx|apply Z.ltb_lt; auto].
    - intros [(s' & F & P) B]. exists (k, s'). split; auto. apply filter_In. split; [apply dfind_In; auto|]. cbn [fst snd]. rewrite B. apply Z.ltb_lt in P. rewrite P. auto. }
  assert (Knd : forall sd, NoDup (Kof sd)).
  { intros sd. unfold Kof, keys. destruct Hx as [Nx _]. unfold keys in Nx. clear -Nx. induction x as [|[k s] l IH]; [constructor|]. inversion Nx as [|? ? N1 N2]; subst. cbn [filter].
    destruct (_ && _); cbn [map]; auto. constructor; auto. intros H. apply N1. apply in_map_iff in H as (z & Ez & H). apply filter_In in H as [H _]. apply in_map_iff. exists z. auto. }
  assert (Kcut : forall sd, cut_cap true g sd = qz (Z.of_nat (List.length (Kof sd)))).
  { intros sd. rewrite unit_cut by auto. rewrite Xg, crossing by auto. unfold Kof, keys. rewrite !map_length. auto. }
  assert (Ends : forall k u v, In (k, (u, v)) arcs -> ends arcs k = (u, v)). { intros k u v H. unfold ends. rewrite (In_dfind arcs k (u, v)); auto. apply Ha. }
  split.
  - exists (Kof side). split; auto. split; [intros k H; apply (Kin side k); auto|]. split; [rewrite <- Kcut; auto|]. intros (ks & Ck & W). destruct Sp as [So Sd].
    destruct (chain_side arcs side o ks d Ck So Sd) as (k & u & v & Hk & Hi & D). destruct (W k Hk) as [W1 W2]. apply W2. apply Kin. split; auto. rewrite (Ends k u v Hi).
    apply (cross_back side u v 1%Qc). destruct D as [[-> ->]|[-> ->]]; discriminate.
  - intros K NL. destruct (reach (fun k => workb x k && negb (existsb (String.eqb k) K)) arcs o) as (sd & So & Sc & Sr).
    assert (Mem : forall k, existsb (String.eqb k) K = true <-> In k K).
    { intros k. rewrite existsb_exists. split; [intros (k' & I' & E'); apply String.eqb_eq in E'; subst; auto|intros H; exists k; split; auto; apply String.eqb_refl]. }
    assert (Sp' : splits sd o d).
    { split; auto. destruct (sd d) eqn:E; auto. exfalso. apply NL. destruct (Sr d E) as (ks & Ck & W). exists ks. split; auto. intros k Hk. specialize (W k Hk).
      apply andb_true_iff in W as [W1 W2]. split; [apply workb_works; auto|]. intros H. apply Mem in H. rewrite H in W2. discriminate W2. }
    apply (Qcle_trans _ (cut_cap true g sd)); [apply M; auto|]. rewrite Kcut.
    assert (L : (List.length (Kof sd) <= List.length K)%nat).
    { apply NoDup_incl_length; auto. intros k H. apply Kin in H as [W B]. destruct (existsb (String.eqb k) K) eqn:E; [apply Mem; auto|]. exfalso.
      assert (Kk : In k (keys arcs)) by (destruct W as (s' & F & _); apply (proj2 Hx), dfind_keys; eauto). destruct (arc_found arcs Ha k Kk) as (u & v & _ & Hi & _).
      rewrite (Ends k u v Hi) in B. apply cross_adj in B. cbn [fst snd] in B. apply workb_works in W. specialize (Sc k u v Hi). rewrite W, E in Sc. specialize (Sc eq_refl).
      destruct B as [[]|[]]; congruence. }
    unfold Qcle. rewrite !qz_this. rewrite <- Zle_Qle. lia.
Qed.
