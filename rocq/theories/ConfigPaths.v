(** Proofs about the paths of a network and their times. *)
From Coq Require Import ZArith List String Bool Arith QArith Qcanon Lia Permutation.
From Verif Require Import Py PyFacts Num Vari VariFacts Brc SpecBrc PathModel Trans SpecTrans TransFacts NxPaths Config SpecConfig ConfigFacts.
Import ListNotations.
Open Scope string_scope.
Open Scope Z_scope.
Open Scope list_scope.

Lemma pair_eqb_eq a b : pair_eqb a b = true <-> a = b.
Proof.
  destruct a, b. unfold pair_eqb. cbn [fst snd]. rewrite andb_true_iff, !String.eqb_eq. split; [intros [-> ->]; auto|intros [= -> ->]; auto].
Qed.

(** * One path *)
Section Simple.
Variable G : graph.
Hypothesis Hwf : wf_graph G.
Hypothesis Hs : g_multi G = false.
Hypothesis Hw : num_weights G.

Lemma edge_unique e e' a b : In e (g_edges G) -> In e' (g_edges G) -> leads G e a b -> leads G e' a b -> e' = e.
Proof.
  intros He He' L L'. destruct Hwf as (_ & _ & U). apply U; auto; [|congruence].
  destruct L as [[<- <-]|(D & <- & <-)]; auto. unfold leads in *. intuition.
Qed.
Lemma edges_at e a b : In e (g_edges G) -> leads G e a b ->
  exists es, filter (fun x => joins (g_dir G) x a b) (g_edges G) = e :: es.
Proof.
  intros He L. destruct (filter _ (g_edges G)) as [|e' es] eqn:E.
  - exfalso. assert (F : In e (filter (fun x => joins (g_dir G) x a b) (g_edges G))) by (apply filter_In; split; auto; apply joins_leads; auto).
    rewrite E in F. destruct F.
  - exists es. f_equal. assert (F : In e' (filter (fun x => joins (g_dir G) x a b) (g_edges G))) by (rewrite E; left; auto).
    apply filter_In in F as [F1 F2]. apply joins_leads in F2. apply (edge_unique e e' a b); auto.
Qed.
Lemma find_filter {A} (g : A -> bool) l : find g l = hd_error (filter g l).
Proof. induction l as [|a l IH]; cbn; auto. destruct (g a); auto. Qed.
Lemma step_ok e a b l w : In e (g_edges G) -> leads G e a b -> e_label e = Some l -> e_weight e = Some (VNum w) ->
  step_weight G (a, b) = Ok w /\ step_label G (a, b) = Ok l.
Proof.
  intros He L El Ew. destruct (edges_at e a b He L) as (es & E). unfold step_weight, step_label, edge_at. rewrite find_filter. cbn [fst snd]. rewrite E, Hs.
  unfold num_weight, label_of. cbn [hd_error]. rewrite Ew, El. auto.
Qed.
Lemma walk_trip a p b : walk G a p b -> exists ls ws,
  mapM (step_weight G) (pairwise p) = Ok ws /\ mapM (step_label G) (pairwise p) = Ok ls /\ trip G a p ls (qsum ws) b.
Proof.
  induction 1 as [a H|a c b e p H He L W (ls & ws & E1 & E2 & T)].
  - exists [], []. split; auto. split; auto. constructor; auto.
  - destruct (walk_head _ _ _ _ W) as [q ->]. destruct Hwf as (_ & HE & _). destruct (HE e He) as (_ & _ & HL).
    destruct (e_label e) as [l|] eqn:El; [|congruence]. destruct (Hw e He) as [w Ew]. destruct (step_ok e a c l w He L El Ew) as [S1 S2].
    exists (l :: ls), (w :: ws). change (pairwise (a :: c :: q)) with ((a, c) :: pairwise (c :: q)). cbn [mapM]. rewrite S1, S2, E1, E2. cbn [bind].
    split; auto. split; auto. cbn [qsum]. apply (trip_cons G a c b e l w (c :: q) ls); auto.
Qed.
Lemma path_entry_ok a p b : walk G a p b -> exists x, path_entry_of G p = Ok x /\ trip G a p (fst x) (snd x) b.
Proof.
  intros W. destruct (walk_trip a p b W) as (ls & ws & E1 & E2 & T). exists (ls, qsum ws). unfold path_entry_of, path_weight. rewrite E1. cbn [bind].
  rewrite E2. auto.
Qed.
Lemma trip_walk a p ls t b : trip G a p ls t b -> walk G a p b.
Proof. induction 1; [constructor; auto|]. eapply walk_cons; eauto. Qed.
Lemma trip_fun a p ls t b ls' t' b' : trip G a p ls t b -> trip G a p ls' t' b' -> ls' = ls /\ t' = t.
Proof.
  intros T. revert ls' t' b'. induction T as [a H|a c b e l w p ls t H He L El Ew T IH]; intros ls' t' b' T'.
  - inversion T' as [|? ? ? ? ? ? ? ? ? ? ? ? ? ? T2]; subst; auto. inversion T2.
  - inversion T' as [|? c' ? e' l' w' ? ls2 t2 H' He' L' El' Ew' T2]; subst.
    + inversion T.
    + assert (c' = c). { destruct (walk_head _ _ _ _ (trip_walk _ _ _ _ _ T)) as [q ->]. destruct (walk_head _ _ _ _ (trip_walk _ _ _ _ _ T2)) as [q' E]. congruence. }
      subst c'. assert (e' = e) by (apply (edge_unique e e' a c); auto). subst e'. destruct (IH _ _ _ T2) as [-> ->]. split; congruence.
Qed.
End Simple.

(** * All paths of the ODs *)
Lemma append_new d k v : ~ In k (map fst d) -> append_to d k v = d ++ [(k, [v])].
Proof.
  induction d as [|[k' l] d IH]; cbn [append_to map fst In]; auto. intros N. destruct (pair_eqb k' k) eqn:E; [apply pair_eqb_eq in E; tauto|].
  rewrite IH by tauto. auto.
Qed.
Lemma append_last d k l v : ~ In k (map fst d) -> append_to (d ++ [(k, l)]) k v = d ++ [(k, l ++ [v])].
Proof.
  induction d as [|[k' l'] d IH]; cbn [append_to map fst In app].
  - intros _. rewrite (proj2 (pair_eqb_eq k k) eq_refl). auto.
  - intros N. destruct (pair_eqb k' k) eqn:E; [apply pair_eqb_eq in E; tauto|]. rewrite IH by tauto. auto.
Qed.
Definition add_paths (d : pdict) (k : string * string) (pt : od_paths) : pdict := match pt with [] => d | _ => d ++ [(k, pt)] end.
Lemma append_all (f : list string -> res (list string * Qc)) k d paths : forall pt,
  ~ In k (map fst d) -> Forall2 (fun p x => f p = Ok x) paths pt ->
  foldM (fun d p => x <- f p ;; Ok (append_to d k x)) paths d = Ok (add_paths d k pt).
Proof.
  intros pt N F.
  assert (H : forall paths pt l, Forall2 (fun p x => f p = Ok x) paths pt ->
    foldM (fun d p => x <- f p ;; Ok (append_to d k x)) paths (d ++ [(k, l)]) = Ok (d ++ [(k, l ++ pt)])).
  { clear F paths pt. induction paths as [|p paths IH]; intros pt l F; inversion F as [|? x ? pt' F1 F2]; subst; cbn [foldM]; [rewrite app_nil_r; auto|].
    rewrite F1. cbn [bind]. rewrite append_last by auto. rewrite (IH pt') by auto. rewrite <- app_assoc. auto. }
  inversion F as [|p x paths' pt' F1 F2]; subst; cbn [foldM]; auto. rewrite F1. cbn [bind]. rewrite append_new by auto. rewrite (H paths' pt') by auto. auto.
Qed.

Section All.
Context (nx : graph -> string -> string -> res (list (list string))) (Hnx : nx_simple_ok nx).
Context (G : graph) (Hwf : wf_graph G) (Hs : g_multi G = false) (Hw : num_weights G).

(** one entry for each path *)
Definition paths_of (o d : string) (pt : od_paths) : Prop :=
  exists l, NoDup l /\ (forall ns, In ns l <-> walk G o ns d /\ NoDup ns) /\ Forall2 (fun ns x => trip G o ns (fst x) (snd x) d) l pt.
Lemma get_all_ok ods : forall d0, NoDup ods -> (forall od, In od ods -> ~ In od (map fst d0)) ->
  (forall o d, In (o, d) ods -> In o (g_nodes G) /\ In d (g_nodes G) /\ o <> d) ->
  exists pts, Forall2 (fun od pt => paths_of (fst od) (snd od) pt) ods pts /\
    foldM (fun path_time od =>
      paths <- nx G (fst od) (snd od) ;;
      foldM (fun path_time p => x <- path_entry_of G p ;; Ok (append_to path_time od x)) paths path_time) ods d0
    = Ok (d0 ++ flat_map (fun op => match snd op with [] => [] | _ => [op] end) (combine ods pts)).
Proof.
  induction ods as [|[o d] ods IH]; intros d0 N F H.
  - exists []. split; auto. cbn. rewrite app_nil_r. auto.
  - inversion N as [|? ? N1 N2]; subst. destruct (H o d (or_introl eq_refl)) as (Ho & Hd & Nod).
    destruct (Hnx G o d Ho Hd Nod) as (l & El & Nl & Hl).
    assert (X : exists pt, Forall2 (fun p x => path_entry_of G p = Ok x /\ trip G o p (fst x) (snd x) d) l pt).
    { clear El Nl. assert (I : forall p, In p l -> walk G o p d) by (intros p Hp; apply Hl; auto). clear Hl.
      induction l as [|p l IHl]; [exists []; constructor|]. destruct IHl as [pt Hpt]; [intros q Hq; apply I; right; auto|].
      destruct (path_entry_ok G Hwf Hs Hw o p d (I p (or_introl eq_refl))) as (x & X1 & X2). exists (x :: pt). constructor; auto. }
    destruct X as [pt X].
    assert (A : foldM (fun path_time p => x <- path_entry_of G p ;; Ok (append_to path_time (o, d) x)) l d0 = Ok (add_paths d0 (o, d) pt)).
    { apply append_all; [apply F; left; auto|]. eapply Forall2_impl; [|exact X]. intros p x [P _]. exact P. }
    assert (K : forall od, In od (map fst (add_paths d0 (o, d) pt)) -> In od (map fst d0) \/ od = (o, d)).
    { intros od. unfold add_paths. destruct pt; auto. rewrite map_app. intros Hod. apply in_app_or in Hod as [Hod|[<-|[]]]; auto. }
    destruct (IH (add_paths d0 (o, d) pt)) as (pts & P1 & P2); auto.
    { intros od Hod C. destruct (K od C) as [C'| ->]; [apply (F od); [right; auto|auto]|contradiction]. }
    { intros o' d' Hod. apply H. right. auto. }
    exists (pt :: pts). split.
    + constructor; auto. exists l. split; [apply Nl, Hs|]. split; auto. eapply Forall2_impl; [|exact X]. intros p x [_ P]. exact P.
    + cbn [foldM]. cbn [fst snd]. rewrite El. cbn [bind]. rewrite A. cbn [bind]. rewrite P2. unfold add_paths. cbn [combine flat_map snd].
      destruct pt; cbn [app]; auto. rewrite <- app_assoc. auto.
Qed.
End All.

(** * A reference version of [nx.all_simple_paths] *)
Fixpoint nodupb (p : list string) : bool := match p with [] => true | a :: q => negb (mem_str a q) && nodupb q end.
Lemma nodupb_ok p : nodupb p = true <-> NoDup p.
Proof.
  induction p as [|a p IH]; cbn [nodupb]; [split; [constructor|auto]|]. rewrite andb_true_iff, negb_true_iff, IH, NoDup_cons_iff.
  rewrite <- (mem_str_In a p). destruct (mem_str a p); intuition congruence.
Qed.
Definition bf_simple (G : graph) (a b : string) : res (list (list string)) :=
  Ok (nodup (list_eq_dec string_dec) (filter nodupb (bf_walks G a b))).
Theorem bf_simple_ok : nx_simple_ok bf_simple.
Proof.
  intros G a b Ha Hb N. eexists. split; [reflexivity|]. split; [intros _; apply NoDup_nodup|]. intros p. rewrite nodup_In, filter_In, nodupb_ok. unfold bf_walks.
  rewrite in_flat_map. split.
  - intros [(n & _ & W) D]. apply walks_spec in W as [W _]. auto.
  - intros [W D]. split; auto.
    assert (B := simple_length _ _ _ _ W D). destruct (walk_head _ _ _ _ W) as [r Er]. exists (List.length r). rewrite Er in B. cbn in B.
    split; [apply in_seq; lia|]. apply walks_spec. split; auto. rewrite Er. auto.
Qed.
