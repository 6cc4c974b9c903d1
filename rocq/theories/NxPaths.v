(** Reference versions of [nx.shortest_path] (with and without weights) that meet the
    contracts of SpecTrans: walks are enumerated by their length, up to the number of nodes.
    They stand for no code of /repo; they show that the contracts can be met and are run in
    the examples. *)
From Coq Require Import ZArith List String Bool QArith Qcanon Lia.
From Verif Require Import Py Num PyFacts Vari VariFacts Brc Trans SpecTrans TransFacts.
Import ListNotations.
Open Scope string_scope.
Open Scope Z_scope.
Open Scope list_scope.

(** the nodes reached by one edge *)
Definition succs (G : graph) (a : string) : list string :=
  flat_map (fun e => (if String.eqb (e_src e) a then [e_dst e] else []) ++
                     (if negb (g_dir G) && String.eqb (e_dst e) a then [e_src e] else [])) (g_edges G).
Lemma succs_spec G a b : In b (succs G a) <-> exists e, In e (g_edges G) /\ leads G e a b.
Proof.
  unfold succs. rewrite in_flat_map. split; intros (e & He & H); exists e; (split; [exact He|]).
  - apply in_app_or in H as [H|H].
    + destruct (String.eqb_spec (e_src e) a); [|destruct H]. destruct H as [H|[]]. left; auto.
    + destruct (g_dir G) eqn:D; [destruct H|]. destruct (String.eqb_spec (e_dst e) a); [|destruct H]. destruct H as [H|[]]. right; auto.
  - apply in_or_app. destruct H as [[H1 H2]|(D & H1 & H2)].
    + left. rewrite H1, String.eqb_refl. cbn. auto.
    + right. rewrite D, H2, String.eqb_refl. cbn. auto.
Qed.

(** the walks of [n] steps *)
Fixpoint walks (G : graph) (n : nat) (a b : string) : list (list string) :=
  if mem_str a (g_nodes G) then
    match n with
    | O => if String.eqb a b then [[a]] else []
    | S m => flat_map (fun c => map (cons a) (walks G m c b)) (succs G a)
    end
  else [].
Lemma walks_spec G n a b p : In p (walks G n a b) <-> walk G a p b /\ List.length p = S n.
Proof.
  revert a p. induction n as [|n IH]; intros a p; cbn [walks].
  - destruct (mem_str a (g_nodes G)) eqn:M.
    + apply mem_str_In in M. destruct (String.eqb_spec a b) as [<-|N].
      * split; [intros [<-|[]]; split; [constructor|]; auto|]. intros [W L]. destruct (walk_head _ _ _ _ W) as [q ->]. destruct q; [left; auto|discriminate].
      * split; [intros []|]. intros [W L]. inversion W as [|? ? ? ? ? ? ? ? W2]; subst; [congruence|]. destruct (walk_head _ _ _ _ W2) as [q ->]. discriminate.
    + split; [intros []|]. intros [W L]. apply walk_node in W. apply mem_str_In in W. congruence.
  - destruct (mem_str a (g_nodes G)) eqn:M.
    + apply mem_str_In in M. rewrite in_flat_map. split.
      * intros (c & H1 & H2). apply in_map_iff in H2 as (q & <- & H2). apply succs_spec in H1 as (e & E1 & E2). apply IH in H2 as [H2 H3].
        split; [apply (walk_cons G a c b e q); auto|cbn; auto].
      * intros [W L]. inversion W as [|? c ? e q H1 H2 H3 H4]; subst; [discriminate|]. exists c. split; [apply succs_spec; eauto|].
        apply in_map. apply IH. split; auto.
    + split; [intros []|]. intros [W L]. apply walk_node in W. apply mem_str_In in W. congruence.
Qed.

(** * Walks without repeated nodes *)
Lemma walk_incl G a p b : walk G a p b -> incl p (g_nodes G).
Proof. induction 1; intros x [<-|X]; auto. destruct X. Qed.
Lemma walk_suffix G a p b x : walk G a p b -> In x p -> exists p1 p2, p = p1 ++ p2 /\ walk G x p2 b.
Proof.
  induction 1 as [a H1|a c b e p H1 H2 H3 H4 IH]; intros X.
  - destruct X as [<-|[]]. exists [], [a]. split; auto. constructor. auto.
  - destruct X as [<-|X].
    + exists [], (a :: p). split; auto. apply (walk_cons G a c b e p); auto.
    + destruct (IH X) as (p1 & p2 & -> & W). exists (a :: p1), p2. auto.
Qed.
Lemma walk_simple G a p b : walk G a p b -> exists q, walk G a q b /\ NoDup q /\ (List.length q <= List.length p)%nat.
Proof.
  induction 1 as [a H1|a c b e p H1 H2 H3 H4 (q & W & N & L)].
  - exists [a]. split; [constructor; auto|]. split; [constructor; [intros []|constructor]|auto].
  - destruct (in_dec string_dec a q) as [I|I].
    + destruct (walk_suffix G c q b a W I) as (q1 & q2 & -> & W2). exists q2. split; auto. split.
      * clear - N. induction q1; cbn in N; auto. inversion N; auto.
      * rewrite app_length in L. cbn. lia.
    + exists (a :: q). split; [apply (walk_cons G a c b e q); auto|]. split; [constructor; auto|cbn; lia].
Qed.
Lemma simple_length G a p b : walk G a p b -> NoDup p -> (List.length p <= List.length (g_nodes G))%nat.
Proof. intros W N. apply NoDup_incl_length; auto. apply (walk_incl _ _ _ _ W). Qed.

(** * Fewest nodes *)
Definition bf_path (G : graph) (a b : string) : option (list string) :=
  hd_error (flat_map (fun n => walks G n a b) (seq 0 (List.length (g_nodes G)))).
Lemma seq_first {A} (f : nat -> list A) (P : A -> nat -> Prop) x : forall len s,
  hd_error (flat_map f (seq s len)) = Some x -> exists n, (s <= n < s + len)%nat /\ In x (f n) /\ forall m, (s <= m < n)%nat -> f m = [].
Proof.
  induction len as [|len IH]; intros s; cbn; [discriminate|]. destruct (f s) as [|y l] eqn:E; cbn; intros H.
  - destruct (IH (S s) H) as (n & R & I & M). exists n. split; [lia|]. split; auto. intros m Rm. destruct (Nat.eq_dec m s); [subst; auto|]. apply M. lia.
  - injection H as ->. exists s. split; [lia|]. split; [rewrite E; cbn; auto|]. intros m. lia.
Qed.
Theorem bf_path_ok : nx_path_ok bf_path.
Proof.
  intros G a b. destruct (bf_path G a b) as [p|] eqn:E.
  - apply (seq_first _ (fun _ _ => True)) in E as (n & R & I & M). apply walks_spec in I as [W L]. split; auto.
    intros q Wq. rewrite L. destruct (walk_simple _ _ _ _ Wq) as (q' & Wq' & N & Lq).
    destruct (walk_head _ _ _ _ Wq') as [r Er]. destruct (le_lt_dec (S n) (List.length q')) as [|C]; [lia|].
    exfalso. assert (F : walks G (List.length r) a b = []). { apply M. rewrite Er in C. cbn in C. lia. }
    assert (I : In q' (walks G (List.length r) a b)). { apply walks_spec. split; auto. rewrite Er. auto. } rewrite F in I. destruct I.
  - intros q Wq. destruct (walk_simple _ _ _ _ Wq) as (q' & Wq' & N & Lq). assert (B := simple_length _ _ _ _ Wq' N).
    destruct (walk_head _ _ _ _ Wq') as [r Er]. unfold bf_path in E.
    assert (I : In q' (flat_map (fun n => walks G n a b) (seq 0 (List.length (g_nodes G))))).
    { apply in_flat_map. exists (List.length r). rewrite Er in B. cbn in B. split; [apply in_seq; lia|]. apply walks_spec. split; auto. rewrite Er. auto. }
    destruct (flat_map _ _); [destruct I|discriminate].
Qed.

(** * Least time *)
Definition t_leb (a b : value) : bool :=
  match a, b with VNum x, VNum y => qc_leb x y | VNum _, VInf | VInf, VInf => true | _, _ => false end.
Lemma t_leb_le a b : t_leb a b = true <-> t_le a b.
Proof. destruct a, b; cbn; try (split; [discriminate|tauto]); try tauto. apply qc_leb_le. Qed.
Definition is_t (a : value) : Prop := t_le (VNum 0%Qc) a.
Lemma t_leb_total a b : is_t a -> is_t b -> t_leb a b = false -> t_le b a.
Proof.
  unfold is_t. destruct a as [x| |], b as [y| |]; cbn; try tauto; try discriminate. intros _ _ E. apply qc_leb_gt in E. apply Qclt_le_weak; auto.
Qed.
Definition t_min (a b : value) : value := if t_leb a b then a else b.
(** weights of the edges leading from one node to another *)
Definition steps (G : graph) (a b : string) : list value :=
  flat_map (fun e => if joins (g_dir G) e a b then match e_weight e with Some w => [w] | None => [] end else []) (g_edges G).
Definition step (G : graph) (a b : string) : value := fold_right t_min VInf (steps G a b).
Fixpoint wtime (G : graph) (p : list string) : value :=
  match p with
  | a :: (b :: _) as q => t_add (step G a b) (wtime G q)
  | _ => VNum 0%Qc
  end.
Definition bf_walks (G : graph) (a b : string) : list (list string) :=
  flat_map (fun n => walks G n a b) (seq 0 (List.length (g_nodes G))).
Definition best (G : graph) (l : list (list string)) : option (list string) :=
  fold_right (fun p r => match r with None => Some p | Some q => if t_leb (wtime G p) (wtime G q) then Some p else Some q end) None l.
Definition bf_wpath (G : graph) (a b : string) : res (list string) :=
  match best G (bf_walks G a b) with Some p => Ok p | None => Err NetworkXNoPath end.
Definition bf_wlen (G : graph) (a b : string) : res value := p <- bf_wpath G a b ;; Ok (wtime G p).

Lemma steps_spec G a b w : In w (steps G a b) <-> exists e, In e (g_edges G) /\ leads G e a b /\ e_weight e = Some w.
Proof.
  unfold steps. rewrite in_flat_map. split.
  - intros (e & He & H). exists e. split; auto. destruct (joins _ _ _ _) eqn:X; [|destruct H]. apply joins_leads in X.
    destruct (e_weight e); [|destruct H]. destruct H as [->|[]]. auto.
  - intros (e & He & L & W). exists e. split; auto. rewrite W. apply joins_leads in L. rewrite L. left; auto.
Qed.
Lemma min_spec l : (forall w, In w l -> is_t w) -> l <> [] -> In (fold_right t_min VInf l) l /\ forall w, In w l -> t_le (fold_right t_min VInf l) w.
Proof.
  induction l as [|w l IH]; intros H N; [contradiction|]. cbn. destruct l as [|w2 l].
  - cbn. unfold t_min. assert (t_leb w VInf = true). { apply t_leb_le. specialize (H w (or_introl eq_refl)). unfold is_t in H. destruct w; cbn in *; tauto. }
    rewrite H0. split; auto. intros w' [<-|[]]. apply (t_le_refl _ (VNum 0%Qc)), H. cbn; auto.
  - destruct IH as [I M]; [intros; apply H; cbn; auto|discriminate|]. set (r := fold_right t_min VInf (w2 :: l)) in *. unfold t_min.
    destruct (t_leb w r) eqn:E.
    + split; auto. apply t_leb_le in E. intros w' [<-|X]; [apply (t_le_refl _ (VNum 0%Qc)), H; cbn; auto|]. apply (t_le_trans _ r); auto.
    + split; auto. apply t_leb_total in E; [|apply H; cbn; auto|apply H; cbn; auto]. intros w' [<-|X]; auto.
Qed.
Lemma step_ok G e a b : good_weights G -> In e (g_edges G) -> leads G e a b -> step_time G a b (step G a b) /\ is_t (step G a b).
Proof.
  intros Gw He L. destruct (Gw e He) as (w0 & E0 & P0). destruct (min_spec (steps G a b)) as [I M].
  - intros w X. apply steps_spec in X as (e1 & X1 & X2 & X3). destruct (Gw e1 X1) as (w1 & E1 & P1). unfold is_t. congruence.
  - intros X. assert (Y : In w0 (steps G a b)) by (apply steps_spec; eauto). rewrite X in Y. destruct Y.
  - fold (step G a b) in I, M. split.
    + split; [apply steps_spec; auto|]. intros e' w' H1 H2 H3. apply M. apply steps_spec. eauto.
    + apply steps_spec in I as (e1 & X1 & X2 & X3). destruct (Gw e1 X1) as (w1 & E1 & P1). unfold is_t. congruence.
Qed.
Lemma wtime_ok G a p b : good_weights G -> walk G a p b -> walk_time G p (wtime G p) /\ is_t (wtime G p).
Proof.
  intros Gw. induction 1 as [a H1|a c b e p H1 H2 H3 H4 [IH1 IH2]].
  - cbn. split; [constructor|]. apply Qcle_refl.
  - destruct (walk_head _ _ _ _ H4) as [q ->]. destruct (step_ok G e a c Gw H2 H3) as [S1 S2].
    change (wtime G (a :: c :: q)) with (t_add (step G a c) (wtime G (c :: q))). split; [constructor; auto|].
    unfold is_t. replace (VNum 0%Qc) with (t_add (VNum 0%Qc) (VNum 0%Qc)) by (cbn; f_equal; ring). apply t_add_le; auto.
Qed.
Lemma t_le_antisym a b : t_le a b -> t_le b a -> a = b.
Proof. destruct a, b; cbn; try tauto. intros. f_equal. apply Qcle_antisym; auto. Qed.
Lemma walk_time_unique G p T : walk_time G p T -> forall T', walk_time G p T' -> T' = T.
Proof.
  induction 1 as [a|a b p w T S W IH]; intros T' H; inversion H as [|? ? ? w' T'' S' W']; subst; auto. rewrite (IH T'' W'). f_equal.
  destruct S as [(e & E1 & E2 & E3) M], S' as [(e' & F1 & F2 & F3) M']. apply t_le_antisym; eauto.
Qed.
Lemma t_add_r y z : is_t y -> is_t z -> t_le z (t_add y z).
Proof.
  unfold is_t. destruct z as [z| |], y as [y| |]; cbn; try tauto. intros.
  replace z with (0 + z)%Qc at 1 by ring. apply Qcplus_le_compat; auto. apply Qcle_refl.
Qed.
Lemma wtime_cons G a c s : wtime G (a :: c :: s) = t_add (step G a c) (wtime G (c :: s)).
Proof. reflexivity. Qed.
Lemma suffix_time G a p b x : good_weights G -> walk G a p b -> In x p ->
  exists p1 p2, p = p1 ++ p2 /\ walk G x p2 b /\ t_le (wtime G p2) (wtime G p).
Proof.
  intros Gw. induction 1 as [a H1|a c b e p H1 H2 H3 H4 IH]; intros X.
  - destruct X as [<-|[]]. exists [], [a]. split; auto. split; [constructor; auto|cbn; apply Qcle_refl].
  - destruct X as [<-|X].
    + assert (W : walk G a (a :: p) b) by (apply (walk_cons G a c b e p); auto). exists [], (a :: p). split; auto. split; auto.
      apply (t_le_refl _ (VNum 0%Qc)). apply (wtime_ok G a (a :: p) b); auto.
    + destruct (IH X) as (p1 & p2 & Ep & W & L). exists (a :: p1), p2. split; [rewrite Ep; auto|]. split; auto.
      destruct (walk_head _ _ _ _ H4) as [q Eq]. rewrite Eq in *. change (wtime G (a :: c :: q)) with (t_add (step G a c) (wtime G (c :: q))).
      apply (t_le_trans _ _ _ L). destruct (step_ok G e a c Gw H2 H3) as [_ S]. destruct (wtime_ok G c (c :: q) b Gw H4) as [_ S2].
      apply t_add_r; auto.
Qed.
Lemma walk_simple_t G a p b : good_weights G -> walk G a p b -> exists q, walk G a q b /\ NoDup q /\ t_le (wtime G q) (wtime G p).
Proof.
  intros Gw. induction 1 as [a H1|a c b e p H1 H2 H3 H4 (q & W & N & L)].
  - exists [a]. split; [constructor; auto|]. split; [constructor; [intros []|constructor]|cbn; apply Qcle_refl].
  - destruct (walk_head _ _ _ _ H4) as [r Er], (walk_head _ _ _ _ W) as [s Es]. subst p q.
    assert (A : t_le (wtime G (a :: c :: s)) (wtime G (a :: c :: r))).
    { rewrite !wtime_cons. apply t_add_le; [|exact L]. apply (t_le_refl _ (VNum 0%Qc)). apply (step_ok G e); auto. }
    assert (W' : walk G a (a :: c :: s) b) by (apply (walk_cons G a c b e (c :: s)); auto).
    destruct (in_dec string_dec a (c :: s)) as [I|I].
    + destruct (suffix_time G c (c :: s) b a Gw W I) as (q1 & q2 & Eq & W2 & L2). exists q2. split; auto. split.
      * rewrite Eq in N. clear - N. induction q1; cbn in N; auto. inversion N; auto.
      * apply (t_le_trans _ _ _ L2). apply (t_le_trans _ (wtime G (a :: c :: s))); auto.
        rewrite wtime_cons. apply t_add_r; [apply (step_ok G e a c); auto|apply (wtime_ok G c (c :: s) b); auto].
    + exists (a :: c :: s). split; auto. split; auto. constructor; auto.
Qed.
Lemma best_spec G l : (forall p, In p l -> is_t (wtime G p)) ->
  match best G l with Some p => In p l /\ forall q, In q l -> t_le (wtime G p) (wtime G q) | None => l = [] end.
Proof.
  induction l as [|p l IH]; intros H; cbn; auto. assert (Hl : forall q, In q l -> is_t (wtime G q)) by (intros; apply H; cbn; auto).
  assert (Hp : is_t (wtime G p)) by (apply H; cbn; auto). specialize (IH Hl). fold (best G l). destruct (best G l) as [q|].
  - destruct IH as [I M]. destruct (t_leb (wtime G p) (wtime G q)) eqn:E.
    + apply t_leb_le in E. split; auto. intros r [<-|X]; [apply (t_le_refl _ _ Hp)|]. apply (t_le_trans _ _ _ E). auto.
    + apply t_leb_total in E; auto. split; auto. intros r [<-|X]; auto.
  - split; auto. intros r [<-|X]; [apply (t_le_refl _ _ Hp)|]. subst l. destruct X.
Qed.
Lemma bf_walks_spec G a b p : In p (bf_walks G a b) <-> walk G a p b /\ (List.length p <= List.length (g_nodes G))%nat.
Proof.
  unfold bf_walks. rewrite in_flat_map. split.
  - intros (n & H1 & H2). apply in_seq in H1. apply walks_spec in H2 as [W L]. split; auto. lia.
  - intros [W L]. destruct (walk_head _ _ _ _ W) as [q E]. exists (List.length q). rewrite E in L. cbn in L. split; [apply in_seq; lia|].
    apply walks_spec. split; auto. rewrite E. auto.
Qed.
Theorem bf_wpath_ok : nx_wpath_ok bf_wpath bf_wlen.
Proof.
  intros G a b Gw. unfold bf_wlen. assert (B := best_spec G (bf_walks G a b)). unfold bf_wpath. destruct (best G (bf_walks G a b)) as [p|].
  - destruct B as [I M]. { intros q X. apply bf_walks_spec in X as [X _]. apply (wtime_ok G a q b); auto. }
    apply bf_walks_spec in I as [W L]. split; auto. exists (wtime G p). destruct (wtime_ok G a p b Gw W) as [P1 P2]. split; auto. split; auto.
    intros q Tq Wq Hq. destruct (wtime_ok G a q b Gw Wq) as [Q1 Q2]. rewrite (walk_time_unique G q _ Q1 Tq Hq).
    destruct (walk_simple_t G a q b Gw Wq) as (r & R1 & R2 & R3). apply (t_le_trans _ (wtime G r)); auto. apply M. apply bf_walks_spec.
    split; auto. apply (simple_length G a r b); auto.
  - intros q Wq. destruct (walk_simple G a q b Wq) as (r & R1 & R2 & R3).
    assert (X : In r (bf_walks G a b)). { apply bf_walks_spec. split; auto. apply (simple_length G a r b); auto. }
    rewrite B in X; [destruct X|]. intros s Y. apply bf_walks_spec in Y as [Y _]. apply (wtime_ok G a s b); auto.
Qed.

(** * Least time from several sources *)
Definition bf_multi (G : graph) (srcs : list string) (b : string) : res (value * list string) :=
  match best G (flat_map (fun s => bf_walks G s b) srcs) with Some p => Ok (wtime G p, p) | None => Err NetworkXNoPath end.
Theorem bf_multi_ok : nx_multi_ok bf_multi.
Proof.
  intros G srcs b Gw _ _. unfold bf_multi. assert (B := best_spec G (flat_map (fun s => bf_walks G s b) srcs)).
  assert (P : forall p, In p (flat_map (fun s => bf_walks G s b) srcs) -> is_t (wtime G p)).
  { intros p X. apply in_flat_map in X as (s & S & X). apply bf_walks_spec in X as [X _]. apply (wtime_ok G s p b); auto. }
  specialize (B P). destruct (best G _) as [p|].
  - destruct B as [I M]. apply in_flat_map in I as (s & S & I). apply bf_walks_spec in I as [W L]. split; [eauto|]. split; [apply (wtime_ok G s p b); auto|].
    intros s' q Tq S' Wq Hq. destruct (wtime_ok G s' q b Gw Wq) as [Q1 Q2]. rewrite (walk_time_unique G q _ Q1 Tq Hq).
    destruct (walk_simple_t G s' q b Gw Wq) as (r & R1 & R2 & R3). apply (t_le_trans _ (wtime G r)); auto. apply M. apply in_flat_map. exists s'.
    split; auto. apply bf_walks_spec. split; auto. apply (simple_length G s' r b); auto.
  - split; auto. intros s q S Wq. destruct (walk_simple G s q b Wq) as (r & R1 & R2 & R3).
    assert (X : In r (flat_map (fun s => bf_walks G s b) srcs)).
    { apply in_flat_map. exists s. split; auto. apply bf_walks_spec. split; auto. apply (simple_length G s r b); auto. }
    rewrite B in X. destruct X.
Qed.
