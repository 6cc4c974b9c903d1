(** C50, C55-C57: the network system functions. *)
From Coq Require Import ZArith List String Bool Arith QArith Qcanon Lia.
From Verif Require Import Py PyFacts Num Vari VariFacts Brc SpecBrc BrcFacts PropBrc Trans SpecTrans TransFacts NxPaths NetSys.
Import ListNotations.
Open Scope string_scope.
Open Scope Z_scope.
Open Scope list_scope.

(** * C50: connectivity *)
Theorem C50_connected :
  forall nx_path nx_wpath nx_wlen (G : graph) (x : dict Z) (o d : string) (varis : dict variable) (thres : option value),
    nx_path_ok nx_path -> wf_graph G -> label_keys G -> (forall k s, dfind x k = Some s -> 0 <= s) ->
    thres = None ->
    exists s m, sf_min_path nx_path nx_wpath nx_wlen x G o d varis thres = Ok (None, s, m) /\
      (s = S_ <-> conn G x o d) /\ (s = F_ <-> ~ conn G x o d) /\ (s = F_ -> m = []).
Proof.
  intros nx_path nx_wpath nx_wlen G x o d varis thres Hn Wg Lk Px ->.
  destruct (sf_conn nx_path nx_wpath nx_wlen Hn G Wg Lk x o d varis Px) as (s & m & E & [(-> & C & _)|(-> & -> & C)]).
  - exists S_, m. split; auto. split; [tauto|]. split; [split; [discriminate|tauto]|discriminate].
  - exists F_, []. split; auto. split; [split; [discriminate|tauto]|]. tauto.
Qed.
Print Assumptions C50_connected.

Theorem C50_monotone :
  forall nx_path nx_wpath nx_wlen (G : graph) (x y : dict Z) (o d : string) (varis : dict variable) T m,
    nx_path_ok nx_path -> wf_graph G -> label_keys G -> (forall k s, dfind x k = Some s -> 0 <= s) ->
    keys y = keys x -> (forall k s, dfind x k = Some s -> exists s', dfind y k = Some s' /\ s <= s') ->
    sf_min_path nx_path nx_wpath nx_wlen x G o d varis None = Ok (T, S_, m) ->
    exists m', sf_min_path nx_path nx_wpath nx_wlen y G o d varis None = Ok (None, S_, m').
Proof.
  intros nx_path nx_wpath nx_wlen G x y o d varis T m Hn Wg Lk Px Ky My E.
  destruct (sf_conn nx_path nx_wpath nx_wlen Hn G Wg Lk x o d varis Px) as (s & m0 & E' & C). rewrite E in E'. injection E' as _ <- <-.
  destruct C as [(_ & C & _)|(X & _)]; [|discriminate].
  destruct (sf_conn nx_path nx_wpath nx_wlen Hn G Wg Lk y o d varis) as (s & m1 & E1 & C1).
  - intros k z F. assert (K := found_key _ _ _ F). rewrite Ky in K. destruct (dfind x k) as [s|] eqn:X; [|apply dfind_none in X; contradiction].
    destruct (My k s X) as (s' & Y & L). assert (s' = z) by congruence. specialize (Px k s X). lia.
  - destruct C1 as [(-> & _)|(_ & _ & N)]; [eauto|]. exfalso. apply N. apply (conn_mono G x y); auto. intros k A. unfold alive in *.
    destruct (dfind x k) as [s'|] eqn:X.
    + destruct (My k s' X) as (s2 & Y & L). rewrite Y. intros [= ->]. specialize (Px k s' X). assert (s' = 0) by lia. congruence.
    + assert (Y : dfind y k = None). { apply dfind_none. rewrite Ky. apply dfind_none. auto. } rewrite Y. discriminate.
Qed.
Print Assumptions C50_monotone.

(** every vector at least as good on the returned components survives *)
Theorem C50_rule :
  forall nx_path nx_wpath nx_wlen (G : graph) (x y : dict Z) (o d : string) (varis : dict variable) T m,
    nx_path_ok nx_path -> wf_graph G -> label_keys G -> (forall k s, dfind x k = Some s -> 0 <= s) -> (forall k s, dfind y k = Some s -> 0 <= s) ->
    sf_min_path nx_path nx_wpath nx_wlen x G o d varis None = Ok (T, S_, m) ->
    (forall k s, dfind m k = Some s -> dfind x k = Some s /\ 0 < s) /\
    (at_least x m y -> exists m', sf_min_path nx_path nx_wpath nx_wlen y G o d varis None = Ok (None, S_, m')).
Proof.
  intros nx_path nx_wpath nx_wlen G x y o d varis T m Hn Wg Lk Px Py E.
  destruct (sf_conn nx_path nx_wpath nx_wlen Hn G Wg Lk x o d varis Px) as (s & m0 & E' & C). rewrite E in E'. injection E' as _ <- <-.
  destruct C as [(_ & C & _ & M & R)|(X & _)]; [|discriminate]. split; [exact M|]. intros A.
  destruct (sf_conn nx_path nx_wpath nx_wlen Hn G Wg Lk y o d varis Py) as (s & m1 & E1 & C1).
  destruct C1 as [(-> & _)|(_ & _ & N)]; [eauto|]. exfalso. apply N. auto.
Qed.
Print Assumptions C50_rule.

(** four nodes, five edges (the bridge network); e5 crosses *)
Definition tedge (a b l : string) : gedge := mkEdge a b (KStr l) (Some l) (Some (VNum 1%Qc)).
Definition tgraph (dir multi : bool) : graph :=
  mkGraph dir multi ["n1"; "n2"; "n3"; "n4"]
    [tedge "n1" "n2" "e1"; tedge "n1" "n3" "e2"; tedge "n2" "n4" "e3"; tedge "n3" "n4" "e4"; tedge "n2" "n3" "e5"].
Lemma tgraph_wf dir multi : wf_graph (tgraph dir multi).
Proof.
  split; [|split].
  - repeat (constructor; [cbn; intuition discriminate|]). constructor.
  - intros e [<-|[<-|[<-|[<-|[<-|[]]]]]]; cbn; intuition discriminate.
  - intros e e' He He' L _. cbn in He, He'.
    destruct He as [<-|[<-|[<-|[<-|[<-|[]]]]]]; destruct He' as [<-|[<-|[<-|[<-|[<-|[]]]]]]; auto;
      exfalso; destruct L as [[A B]|(_ & A & B)]; cbn in A, B; discriminate.
Qed.
Lemma tgraph_keys dir multi : label_keys (tgraph dir multi).
Proof.
  intros _ e [<-|[<-|[<-|[<-|[<-|[]]]]]]; (split; [eexists; split; reflexivity|discriminate]).
Qed.
Example C50_connected_ex :
  nx_path_ok bf_path /\ wf_graph (tgraph false true) /\ label_keys (tgraph false true) /\
  sf_min_path bf_path bf_wpath bf_wlen [("e1", 1); ("e3", 0); ("e5", 1); ("n3", 2)] (tgraph false true) "n1" "n4" [] None
    = Ok (None, S_, [("n3", 2)]) /\
  sf_min_path bf_path bf_wpath bf_wlen [("e1", 1); ("e3", 0); ("e5", 1); ("n3", 0)] (tgraph false true) "n1" "n4" [] None = Ok (None, F_, []) /\
  sf_min_path bf_path bf_wpath bf_wlen [("e1", 1); ("e2", 0); ("e3", 0); ("e5", 1)] (tgraph false false) "n1" "n4" [] None
    = Ok (None, S_, [("e1", 1); ("e5", 1)]) /\
  at_least [("e1", 1); ("e2", 0); ("e3", 0); ("e5", 1)] [("e1", 1); ("e5", 1)] [("e1", 2); ("e2", 0); ("e3", 0); ("e5", 1)].
Proof.
  split; [exact bf_path_ok|]. split; [apply tgraph_wf|]. split; [apply tgraph_keys|]. split; [vm_compute; reflexivity|]. split; [vm_compute; reflexivity|].
  split; [vm_compute; reflexivity|]. split.
  - intros k s H. cbn [dfind] in *. destruct (String.eqb k "e1"); [injection H as <-; eexists; split; [reflexivity|lia]|].
    destruct (String.eqb k "e5") eqn:E5; [|discriminate]. injection H as <-. apply String.eqb_eq in E5. subst k. exists 1. split; [reflexivity|lia].
  - intros k. cbn [dfind]. destruct (String.eqb k "e1"), (String.eqb k "e2"), (String.eqb k "e3"), (String.eqb k "e5"); intros; congruence.
Qed.

(** with networkx's own integer keys in a multigraph a failed edge raises *)
Definition iedge (a b l : string) (i : Z) : gedge := mkEdge a b (KInt i) (Some l) (Some (VNum 1%Qc)).
Definition igraph : graph := mkGraph false true ["n1"; "n2"] [iedge "n1" "n2" "e1" 0; iedge "n1" "n2" "e2" 1].
Lemma igraph_wf : wf_graph igraph.
Proof.
  split; [|split].
  - repeat (constructor; [cbn; intuition discriminate|]). constructor.
  - intros e [<-|[<-|[]]]; cbn; intuition discriminate.
  - intros e e' He He' L K. cbn in He, He'. specialize (K eq_refl). destruct He as [<-|[<-|[]]]; destruct He' as [<-|[<-|[]]]; auto; discriminate.
Qed.
Theorem C50_integer_keys_refuted :
  ~ (forall nx_path nx_wpath nx_wlen (G : graph) (x : dict Z) (o d : string) (varis : dict variable),
      nx_path_ok nx_path -> wf_graph G -> (forall k s, dfind x k = Some s -> 0 <= s) ->
      exists s m, sf_min_path nx_path nx_wpath nx_wlen x G o d varis None = Ok (None, s, m) /\ (s = S_ <-> conn G x o d)).
Proof.
  intros H. destruct (H bf_path bf_wpath bf_wlen igraph [("e1", 0); ("e2", 1)] "n1" "n2" [] bf_path_ok igraph_wf) as (s & m & E & _).
  - intros k s X. cbn in X. destruct (String.eqb k "e1"); [injection X as <-; lia|]. destruct (String.eqb k "e2"); [injection X as <-; lia|discriminate].
  - vm_compute in E. discriminate.
Qed.
Print Assumptions C50_integer_keys_refuted.

(** * C55: travel time *)
Theorem C55_shortest_time :
  forall nx_path nx_wpath nx_wlen (G : graph) (x : dict Z) (o d : string) (varis : dict variable) (t : value),
    nx_wpath_ok nx_wpath nx_wlen -> wf_graph G -> g_multi G = false -> times_ok G varis -> states_ok varis x -> varis <> [] ->
    t <> VNum 0%Qc -> t_le (VNum 0%Qc) t -> (exists p, walk G o p d) ->
    exists T s m, sf_min_path nx_path nx_wpath nx_wlen x G o d varis (Some t) = Ok (Some T, s, m) /\
      within G (edge_time varis x) o d T /\ (forall T', within G (edge_time varis x) o d T' -> t_le T T') /\
      (s = S_ <-> t_le T t) /\ (s = F_ <-> ~ t_le T t) /\ (s = F_ -> m = []).
Proof.
  intros nx_path nx_wpath nx_wlen G x o d varis t Hn Wg Sg Ht Hx Nv Nt Pt Hw.
  destruct (sf_time G Wg Sg varis Ht nx_path nx_wpath nx_wlen Hn x o d t Hx Nv Nt Pt Hw) as (T & s & m & E & W & Mn & _ & _ & C).
  exists T, s, m. split; auto. split; auto. split; auto. destruct C as [(-> & C & _)|(-> & -> & C)].
  - split; [tauto|]. split; [split; [discriminate|tauto]|discriminate].
  - split; [split; [discriminate|tauto]|]. tauto.
Qed.
Print Assumptions C55_shortest_time.

(** improving the components never turns survival into failure; only those on the path matter *)
Theorem C55_rule :
  forall nx_path nx_wpath nx_wlen (G : graph) (x y : dict Z) (o d : string) (varis : dict variable) (t : value) T m,
    nx_wpath_ok nx_wpath nx_wlen -> wf_graph G -> g_multi G = false -> times_ok G varis -> states_ok varis x -> states_ok varis y -> varis <> [] ->
    t <> VNum 0%Qc -> t_le (VNum 0%Qc) t -> (exists p, walk G o p d) ->
    sf_min_path nx_path nx_wpath nx_wlen x G o d varis (Some t) = Ok (T, S_, m) ->
    (forall k s, dfind m k = Some s -> dfind x k = Some s) /\
    ((forall k s, dfind m k = Some s -> exists s', dfind y k = Some s' /\ s <= s') ->
     exists T' m', sf_min_path nx_path nx_wpath nx_wlen y G o d varis (Some t) = Ok (T', S_, m')).
Proof.
  intros nx_path nx_wpath nx_wlen G x y o d varis t T m Hn Wg Sg Ht Hx Hy Nv Nt Pt Hw E.
  destruct (sf_time G Wg Sg varis Ht nx_path nx_wpath nx_wlen Hn x o d t Hx Nv Nt Pt Hw) as (T0 & s & m0 & E0 & _ & _ & _ & M & C).
  rewrite E in E0. injection E0 as -> <- <-. destruct C as [(_ & _ & R)|(X & _)]; [|discriminate]. split; auto. intros My.
  destruct (R y Hy My) as (Ty & Wy & Ly).
  destruct (sf_time G Wg Sg varis Ht nx_path nx_wpath nx_wlen Hn y o d t Hy Nv Nt Pt Hw) as (T1 & s & m1 & E1 & _ & Mn & _ & _ & C).
  destruct C as [(-> & _)|(_ & _ & N)]; [eauto|]. exfalso. apply N. apply (t_le_trans _ Ty); auto.
Qed.
Print Assumptions C55_rule.

Definition tm (q : Q) : value := VNum (Q2Qc q).
Definition tvari (k : string) (l : list value) : string * variable := (k, mk_variable k l None).
Definition tvaris : dict variable :=
  [tvari "e1" [VInf; tm 2; tm 1]; tvari "e2" [tm 9; tm 5; tm 3]; tvari "e3" [tm 8; tm 4; tm 2]; tvari "e4" [tm 6; tm 3; tm 1]; tvari "e5" [tm 2; tm 1; tm (1#2)]].
Lemma tvaris_times dir multi : times_ok (tgraph dir multi) tvaris.
Proof.
  assert (A : forall l, forallb (fun w => t_leb (VNum 0%Qc) w) l = true -> forall w, In w l -> t_le (VNum 0%Qc) w).
  { intros l H w X. rewrite forallb_forall in H. apply t_leb_le, H, X. }
  assert (B : forall a b c, t_leb b a && t_leb c b && t_leb c a && t_leb a a && t_leb b b && t_leb c c = true -> forall i j wi wj, (i <= j)%nat ->
     nth_error [a; b; c] i = Some wi -> nth_error [a; b; c] j = Some wj -> t_le wj wi).
  { intros a b c H i j wi wj L E1 E2. rewrite !andb_true_iff in H. destruct H as [[[[[H1 H2] H3] H4] H5] H6]. apply t_leb_le.
    destruct i as [|[|[|i]]]; [| | |destruct i; discriminate]; (destruct j as [|[|[|j]]]; [| | |destruct j; discriminate]); cbn in E1, E2; injection E1 as <-; injection E2 as <-; auto; lia. }
  intros e l He El. cbn in He.
  destruct He as [<-|[<-|[<-|[<-|[<-|[]]]]]]; injection El as <-; (eexists; split; [reflexivity|]);
    (split; [apply A; vm_compute; reflexivity|apply B; vm_compute; reflexivity]).
Qed.
Lemma tvaris_wf : wf_varis tvaris.
Proof.
  split; [repeat (constructor; [cbn; intuition discriminate|]); constructor|].
  intros k v [H|[H|[H|[H|[H|[]]]]]]; injection H as <- <-; vm_compute; discriminate.
Qed.

Definition tx (a b c d e : Z) : dict Z := [("e1", a); ("e2", b); ("e3", c); ("e4", d); ("e5", e)].
Lemma tx_ok a b c d e : forallb (fun s => (0 <=? s) && (s <? 3)) [a; b; c; d; e] = true -> states_ok tvaris (tx a b c d e).
Proof.
  intros H. cbn [forallb] in H. rewrite !andb_true_iff, !Z.leb_le, !Z.ltb_lt in H. split; [apply tvaris_wf|].
  intros k v [X|[X|[X|[X|[X|[]]]]]]; injection X as <- <-; change (nvals _) with 3; eexists; (split; [reflexivity|lia]).
Qed.
Lemma twalk dir multi : exists p, walk (tgraph dir multi) "n1" p "n4".
Proof.
  exists ["n1"; "n2"; "n4"].
  apply (walk_cons _ _ "n2" _ (tedge "n1" "n2" "e1")); [cbn; auto|cbn; auto|left; auto|].
  apply (walk_cons _ _ "n4" _ (tedge "n2" "n4" "e3")); [cbn; auto|cbn; auto|left; auto|]. constructor. cbn; auto.
Qed.
(** in the intact state the time is 5/2; with e1 broken and the threshold 6 the detour via n3
    takes 4, via e4 in state 0 it would take 9 *)
Definition tshow (r : res (option value * st * dict Z)) : option (option Q * st * dict Z) :=
  match r with Ok (T, s, m) => Some (match T with Some (VNum q) => Some (this q) | _ => None end, s, m) | Err _ => None end.
Example C55_shortest_time_ex :
  nx_wpath_ok bf_wpath bf_wlen /\ wf_graph (tgraph false false) /\ times_ok (tgraph false false) tvaris /\
  states_ok tvaris (tx 0 2 0 2 0) /\ states_ok tvaris (tx 0 2 0 0 0) /\ (exists p, walk (tgraph false false) "n1" p "n4") /\
  tshow (sf_min_path bf_path bf_wpath bf_wlen (tx 2 2 2 2 2) (tgraph false false) "n1" "n4" tvaris (Some (tm 6))) = Some (Some (5#2)%Q, S_, [("e1", 2); ("e5", 2); ("e4", 2)]) /\
  tshow (sf_min_path bf_path bf_wpath bf_wlen (tx 0 2 0 2 0) (tgraph false false) "n1" "n4" tvaris (Some (tm 6))) = Some (Some 4%Q, S_, [("e2", 2); ("e4", 2)]) /\
  tshow (sf_min_path bf_path bf_wpath bf_wlen (tx 0 2 0 0 0) (tgraph false false) "n1" "n4" tvaris (Some (tm 6))) = Some (Some 9%Q, F_, []).
Proof.
  split; [exact bf_wpath_ok|]. split; [apply tgraph_wf|]. split; [apply tvaris_times|]. split; [apply tx_ok; reflexivity|]. split; [apply tx_ok; reflexivity|].
  split; [apply twalk|]. vm_compute. auto.
Qed.

(** In a multigraph only edges with key 0 get new weights: the component states are ignored
    otherwise. *)
Definition mvaris : dict variable := [tvari "e1" [tm 9; tm 1]; tvari "e2" [tm 9; tm 1]].
Definition medge (l : string) : gedge := mkEdge "n1" "n2" (KStr l) (Some l) (Some (tm 1)).
Definition mgraph : graph := mkGraph false true ["n1"; "n2"] [medge "e1"; medge "e2"].
Lemma mgraph_wf : wf_graph mgraph /\ label_keys mgraph /\ times_ok mgraph mvaris.
Proof.
  split; [split; [|split]|split].
  - repeat (constructor; [cbn; intuition discriminate|]). constructor.
  - intros e [<-|[<-|[]]]; cbn; intuition discriminate.
  - intros e e' He He' L K. cbn in He, He'. specialize (K eq_refl). destruct He as [<-|[<-|[]]]; destruct He' as [<-|[<-|[]]]; auto; discriminate.
  - intros _ e [<-|[<-|[]]]; (split; [eexists; split; reflexivity|discriminate]).
  - intros e l He El. cbn in He. destruct He as [<-|[<-|[]]]; injection El as <-; (eexists; split; [reflexivity|]);
      (split; [intros w [<-|[<-|[]]]; vm_compute; discriminate|]);
      intros i j wi wj L E1 E2; (destruct i as [|[|i]]; [| |destruct i; discriminate]); (destruct j as [|[|j]]; [| |destruct j; discriminate]);
      cbn in E1, E2; injection E1 as <-; injection E2 as <-; try lia; vm_compute; discriminate.
Qed.
Lemma mgraph_slow a b T : within mgraph (edge_time mvaris [("e1", 0); ("e2", 0)]) a b T -> (a <> b -> t_le (tm 9) T) /\ t_le (VNum 0%Qc) T.
Proof.
  induction 1 as [a H1|a b c e l T H1 H2 H3 H4 H5 [IH1 IH2]].
  - split; [contradiction|vm_compute; discriminate].
  - assert (E : edge_time mvaris [("e1", 0); ("e2", 0)] l = tm 9). { cbn in H2. destruct H2 as [<-|[<-|[]]]; injection H4 as <-; reflexivity. }
    rewrite E. assert (A : t_le (tm 9) (t_add (tm 9) T)).
    { destruct T as [q| |]; cbn in *; auto. unfold tm in *. replace (Q2Qc 9) with (Q2Qc 9 + 0)%Qc at 1 by ring. apply Qcplus_le_compat; [apply Qcle_refl|auto]. }
    split; auto. apply (t_le_trans _ (tm 9)); auto. vm_compute. discriminate.
Qed.
Theorem C55_multigraph_refuted :
  ~ (forall nx_path nx_wpath nx_wlen (G : graph) (x : dict Z) (o d : string) (varis : dict variable) (t : value) T s m,
      nx_wpath_ok nx_wpath nx_wlen -> wf_graph G -> label_keys G -> times_ok G varis -> states_ok varis x -> varis <> [] ->
      t <> VNum 0%Qc -> t_le (VNum 0%Qc) t -> (exists p, walk G o p d) ->
      sf_min_path nx_path nx_wpath nx_wlen x G o d varis (Some t) = Ok (Some T, s, m) ->
      within G (edge_time varis x) o d T).
Proof.
  intros H. destruct mgraph_wf as (W & L & Tk).
  assert (X : within mgraph (edge_time mvaris [("e1", 0); ("e2", 0)]) "n1" "n2" (VNum (1 + 0)%Qc)).
  { apply (H bf_path bf_wpath bf_wlen mgraph [("e1", 0); ("e2", 0)] "n1" "n2" mvaris (tm 2) (VNum (1 + 0)%Qc) S_ [("e1", 0)] bf_wpath_ok W L Tk).
    - split; [repeat (constructor; [cbn; intuition discriminate|]); constructor|].
      intros k v [X|[X|[]]]; injection X as <- <-; eexists; (split; [reflexivity|vm_compute; intuition discriminate]).
    - discriminate.
    - intros E. injection E as E. discriminate.
    - vm_compute. discriminate.
    - exists ["n1"; "n2"]. apply (walk_cons _ _ "n2" _ (medge "e1")); [cbn; auto|cbn; auto|left; auto|]. constructor. cbn; auto.
    - unfold sf_min_path. vm_compute. repeat f_equal. }
  apply mgraph_slow in X as [X _]. specialize (X ltac:(discriminate)). vm_compute in X. apply X. reflexivity.
Qed.
Print Assumptions C55_multigraph_refuted.

(** A threshold of 0 is taken for none: the time is not looked at, although no vector
    reaches the destination in no time. *)
Theorem C55_zero_threshold_refuted :
  ~ (forall nx_path nx_wpath nx_wlen (G : graph) (x : dict Z) (o d : string) (varis : dict variable) T s m,
      nx_path_ok nx_path -> nx_wpath_ok nx_wpath nx_wlen -> wf_graph G -> g_multi G = false -> times_ok G varis -> states_ok varis x -> varis <> [] ->
      (exists p, walk G o p d) ->
      sf_min_path nx_path nx_wpath nx_wlen x G o d varis (Some (VNum 0%Qc)) = Ok (T, s, m) ->
      (s = S_ <-> exists T, within G (edge_time varis x) o d T /\ t_le T (VNum 0%Qc))).
Proof.
  intros H.
  assert (X := H bf_path bf_wpath bf_wlen (tgraph false false) (tx 2 2 2 2 2) "n1" "n4" tvaris None S_ [("e1", 2); ("e3", 2)] bf_path_ok bf_wpath_ok
    (tgraph_wf _ _) eq_refl (tvaris_times _ _) (tx_ok 2 2 2 2 2 eq_refl) ltac:(discriminate) (twalk _ _) eq_refl).
  destruct (proj1 X eq_refl) as (T & W & L).
  destruct (C55_shortest_time bf_path bf_wpath bf_wlen (tgraph false false) (tx 2 2 2 2 2) "n1" "n4" tvaris (tm 6) bf_wpath_ok (tgraph_wf _ _) eq_refl
    (tvaris_times _ _) (tx_ok 2 2 2 2 2 eq_refl)) as (T' & s & m & E & _ & Mn & _).
  - discriminate.
  - intros E. injection E as E. discriminate.
  - vm_compute. discriminate.
  - apply twalk.
  - specialize (Mn T W). assert (S : t_le T' (VNum 0%Qc)) by (apply (t_le_trans _ T); auto).
    apply (f_equal tshow) in E. assert (F : tshow (sf_min_path bf_path bf_wpath bf_wlen (tx 2 2 2 2 2) (tgraph false false) "n1" "n4" tvaris (Some (tm 6)))
      = Some (Some (5#2)%Q, S_, [("e1", 2); ("e5", 2); ("e4", 2)])) by (vm_compute; reflexivity). rewrite F in E. cbn [tshow] in E.
    destruct T' as [q| |]; [|discriminate|discriminate]. injection E as E _ _. cbn in S. unfold Qcle in S. rewrite <- E in S. vm_compute in S. apply S. reflexivity.
Qed.
Print Assumptions C55_zero_threshold_refuted.

(** Without any route the exception of networkx is not caught (it is for several
    destinations, C56). *)
Definition dgraph : graph := mkGraph false false ["n1"; "n2"; "n3"] [tedge "n1" "n2" "e1"].
Theorem C55_no_route_refuted :
  ~ (forall nx_path nx_wpath nx_wlen (G : graph) (x : dict Z) (o d : string) (varis : dict variable) (t : value),
      nx_wpath_ok nx_wpath nx_wlen -> wf_graph G -> g_multi G = false -> times_ok G varis -> states_ok varis x -> varis <> [] ->
      t <> VNum 0%Qc -> t_le (VNum 0%Qc) t ->
      exists r, sf_min_path nx_path nx_wpath nx_wlen x G o d varis (Some t) = Ok r).
Proof.
  intros H. destruct (H bf_path bf_wpath bf_wlen dgraph [("e1", 1)] "n1" "n3" [tvari "e1" [tm 2; tm 1]] (tm 5) bf_wpath_ok) as [r E].
  - split; [repeat (constructor; [cbn; intuition discriminate|]); constructor|]. split; [intros e [<-|[]]; cbn; intuition discriminate|].
    intros e e' [<-|[]] [<-|[]]; auto.
  - reflexivity.
  - intros e l [<-|[]] El. injection El as <-. eexists. split; [reflexivity|]. split; [intros w [<-|[<-|[]]]; vm_compute; discriminate|].
    intros i j wi wj L E1 E2; (destruct i as [|[|i]]; [| |destruct i; discriminate]); (destruct j as [|[|j]]; [| |destruct j; discriminate]);
      cbn in E1, E2; injection E1 as <-; injection E2 as <-; try lia; vm_compute; discriminate.
  - split; [repeat (constructor; [cbn; intuition discriminate|]); constructor|]. intros k v [X|[]]. injection X as <- <-. exists 1. vm_compute. intuition discriminate.
  - discriminate.
  - intros E. injection E as E. discriminate.
  - vm_compute. discriminate.
  - vm_compute in E. discriminate.
Qed.
Print Assumptions C55_no_route_refuted.

(** * C56: several destinations *)
Theorem C56_nearest :
  forall nx_multi (G : graph) (x : dict Z) (o : string) (dests : list string) (varis : dict variable) (t : Qc),
    nx_multi_ok nx_multi -> wf_graph G -> g_multi G = false -> g_dir G = false -> times_ok G varis -> states_ok varis x -> keys x = keys varis ->
    varis <> [] -> t <> 0%Qc -> (0 <= t)%Qc -> dests <> [] -> incl dests (g_nodes G) ->
    exists T s m, sf_min_path_multi nx_multi x G o dests varis (Some (VNum t)) = Ok (Some T, s, m) /\
      ((exists d, In d dests /\ within G (edge_time varis x) o d T) \/ (T = VInf /\ forall d T', In d dests -> ~ within G (edge_time varis x) o d T')) /\
      (forall d T', In d dests -> within G (edge_time varis x) o d T' -> t_le T T') /\
      (s = S_ <-> t_le T (VNum t)) /\ (s = F_ <-> ~ t_le T (VNum t)) /\ (s = F_ -> m = []).
Proof.
  intros nx_multi G x o dests varis t Hn Wg Sg Ug Ht Hx Kx Nv Nt Pt Nd Hd.
  destruct (sf_multi G Wg Sg Ug varis Ht nx_multi Hn x o dests t Hx Kx Nv Nt Pt Nd Hd) as (T & s & m & E & W & Mn & _ & _ & C).
  exists T, s, m. split; auto. split; auto. split; auto. destruct C as [(-> & C & _)|(-> & -> & C)].
  - split; [tauto|]. split; [split; [discriminate|tauto]|discriminate].
  - split; [split; [discriminate|tauto]|]. tauto.
Qed.
Print Assumptions C56_nearest.

Theorem C56_rule :
  forall nx_multi (G : graph) (x y : dict Z) (o : string) (dests : list string) (varis : dict variable) (t : Qc) T m,
    nx_multi_ok nx_multi -> wf_graph G -> g_multi G = false -> g_dir G = false -> times_ok G varis -> states_ok varis x -> keys x = keys varis ->
    states_ok varis y -> keys y = keys varis ->
    varis <> [] -> t <> 0%Qc -> (0 <= t)%Qc -> dests <> [] -> incl dests (g_nodes G) ->
    sf_min_path_multi nx_multi x G o dests varis (Some (VNum t)) = Ok (T, S_, m) ->
    (forall k s, dfind m k = Some s -> dfind x k = Some s) /\
    ((forall k s, dfind m k = Some s -> exists s', dfind y k = Some s' /\ s <= s') ->
     exists T' m', sf_min_path_multi nx_multi y G o dests varis (Some (VNum t)) = Ok (T', S_, m')).
Proof.
  intros nx_multi G x y o dests varis t T m Hn Wg Sg Ug Ht Hx Kx Hy Ky Nv Nt Pt Nd Hd E.
  destruct (sf_multi G Wg Sg Ug varis Ht nx_multi Hn x o dests t Hx Kx Nv Nt Pt Nd Hd) as (T0 & s & m0 & E0 & _ & _ & _ & M & C).
  rewrite E in E0. injection E0 as -> <- <-. destruct C as [(_ & _ & R)|(X & _)]; [|discriminate]. split; auto. intros My.
  destruct (R y Hy My) as (d & Ty & I & Wy & Ly).
  destruct (sf_multi G Wg Sg Ug varis Ht nx_multi Hn y o dests t Hy Ky Nv Nt Pt Nd Hd) as (T1 & s & m1 & E1 & _ & Mn & _ & _ & C).
  destruct C as [(-> & _)|(_ & _ & N)]; [eauto|]. exfalso. apply N. apply (t_le_trans _ Ty); eauto.
Qed.
Print Assumptions C56_rule.
Example C56_nearest_ex :
  nx_multi_ok bf_multi /\ states_ok tvaris (tx 1 2 0 2 0) /\
  tshow (sf_min_path_multi bf_multi (tx 1 2 0 2 0) (tgraph false false) "n1" ["n4"; "n2"] tvaris (Some (tm 6))) = Some (Some 2%Q, S_, [("e1", 1)]) /\
  tshow (sf_min_path_multi bf_multi (tx 0 2 0 2 0) (tgraph false false) "n1" ["n4"; "n2"] tvaris (Some (tm 6))) = Some (Some 4%Q, S_, [("e2", 2); ("e4", 2)]) /\
  tshow (sf_min_path_multi bf_multi [("e1", 0)] dgraph "n3" ["n1"] [tvari "e1" [tm 2; tm 1]] (Some (tm 6))) = Some (None, F_, []).
Proof. split; [exact bf_multi_ok|]. split; [apply tx_ok; reflexivity|]. vm_compute. auto. Qed.

(** without a threshold the dictionary of destinations is treated as a pair *)
Theorem C56_no_threshold_refuted :
  forall nx_multi (G : graph) (x : dict Z) (o : string) (dests : list string) (varis : dict variable) (H : graph),
    update_conn G x = Ok H -> sf_min_path_multi nx_multi x G o dests varis None = Err KeyError.
Proof. intros nx_multi G x o dests varis H E. cbn. rewrite E. reflexivity. Qed.
Print Assumptions C56_no_threshold_refuted.
Example C56_no_threshold_refuted_ex : exists H, update_conn (tgraph false false) [("e1", 0)] = Ok H.
Proof. eexists. vm_compute. reflexivity. Qed.

(** * C57: failure probability of networks *)
Lemma net_bounds varis probs phi sys g : wf_varis varis -> wf_probs varis probs -> sys_ok varis phi sys -> g_surv_first g = true -> 1 <= g_max_sf g ->
  exists s, run varis probs sys g None None = Ok s /\
    (last (m_pf_low (s_mon s)) 0 <= p_fail varis probs phi)%Qc /\ (p_fail varis probs phi <= last (m_pf_up (s_mon s)) 0)%Qc /\
    (g_max_nb g = None -> m_out_flag (s_mon s) = Some O_complete ->
       last (m_pf_low (s_mon s)) 0%Qc = p_fail varis probs phi /\ last (m_pf_up (s_mon s)) 0%Qc = p_fail varis probs phi).
Proof.
  intros Wv Wp So Sf Mx. assert (St := none_start varis probs phi).
  destruct (C16_run_total varis probs phi sys g None None Wv Wp So St (or_introl Sf)) as [s E]. exists s. split; auto.
  destruct (C16_resume varis probs phi sys g None None s Wv Wp So St) as (b & Eb & _ & _ & Nl & _ & _); [lia|auto|].
  destruct (C21_aligned varis probs phi sys g None None s Wv Wp So St) as (_ & _ & L1 & _); [lia|auto|].
  assert (N : forall (l : list Qc), l <> [] -> nth_error l (List.length l - 1) = Some (last l 0%Qc)).
  { clear. intros l. induction l as [|a l IH]; [contradiction|]. intros _. destruct l as [|b l]; [reflexivity|].
    change (last (a :: b :: l) 0%Qc) with (last (b :: l) 0%Qc). rewrite <- IH by discriminate. cbn [List.length]. replace (S (S (List.length l)) - 1)%nat with (S (S (List.length l) - 1))%nat by lia. reflexivity. }
  assert (B := C16_bounds varis probs phi sys g None None s Wv Wp So St E (List.length (m_pf_low (s_mon s)) - 1)).
  cbn [map] in L1. injection L1 as L1 L2 L3 _. rewrite L1 in B.
  assert (B1 := B (last (m_pf_low (s_mon s)) 0%Qc) (last (m_pf_up (s_mon s)) 0%Qc) (last (m_pr_bu (s_mon s)) 0%Qc)).
  assert (Ne : forall l : list Qc, List.length l = S (List.length (s_sys s)) -> nth_error l (S (List.length (s_sys s)) - 1) = Some (last l 0%Qc)).
  { intros l El. rewrite <- El. apply N. intros ->. discriminate. }
  specialize (B1 (Ne _ L1) (Ne _ L2) (Ne _ L3)).
  split; [apply B1|]. split; [apply B1|]. intros Hm Fl.
  destruct (C18_complete_exact_partial varis probs phi sys g None None s Wv Wp So St (or_introl Hm) E Fl) as (C1 & C2 & _). auto.
Qed.
(** The search on a network in connectivity mode: the reported bounds enclose the probability
    that origin and destination are disconnected; if the search is complete they are equal. *)
Theorem C57_connectivity :
  forall nx_path nx_wpath nx_wlen (G : graph) (o d : string) (varis : dict variable) probs (phi : dict Z -> bool) g,
    nx_path_ok nx_path -> wf_graph G -> label_keys G -> wf_varis varis -> wf_probs varis probs ->
    (forall x, In x (space (comps_of varis)) -> (phi x = true <-> conn G x o d)) ->
    g_surv_first g = true -> 1 <= g_max_sf g ->
    exists s, run varis probs (as_sysfun (fun x => sf_min_path nx_path nx_wpath nx_wlen x G o d varis None)) g None None = Ok s /\
      (last (m_pf_low (s_mon s)) 0 <= p_fail varis probs phi)%Qc /\ (p_fail varis probs phi <= last (m_pf_up (s_mon s)) 0)%Qc /\
      (g_max_nb g = None -> m_out_flag (s_mon s) = Some O_complete ->
         last (m_pf_low (s_mon s)) 0%Qc = p_fail varis probs phi /\ last (m_pf_up (s_mon s)) 0%Qc = p_fail varis probs phi).
Proof.
  intros nx_path nx_wpath nx_wlen G o d varis probs phi g Hn Wg Lk Wv Wp Hp Sf Mx.
  assert (So := conn_sys_ok nx_path nx_wpath nx_wlen G o d varis phi Hn Wg Lk Wv Hp).
  apply (net_bounds varis probs phi _ g Wv Wp So Sf Mx).
Qed.
Print Assumptions C57_connectivity.

(** in threshold mode: the probability that the travel time exceeds the threshold *)
Theorem C57_travel_time :
  forall nx_path nx_wpath nx_wlen (G : graph) (o d : string) (varis : dict variable) probs (phi : dict Z -> bool) g (t : value),
    nx_wpath_ok nx_wpath nx_wlen -> wf_graph G -> g_multi G = false -> wf_varis varis -> wf_probs varis probs -> times_ok G varis -> varis <> [] ->
    t <> VNum 0%Qc -> t_le (VNum 0%Qc) t -> (exists p, walk G o p d) ->
    (forall x, In x (space (comps_of varis)) -> (phi x = true <-> exists T, within G (edge_time varis x) o d T /\ t_le T t)) ->
    g_surv_first g = true -> 1 <= g_max_sf g ->
    exists s, run varis probs (as_sysfun (fun x => sf_min_path nx_path nx_wpath nx_wlen x G o d varis (Some t))) g None None = Ok s /\
      (last (m_pf_low (s_mon s)) 0 <= p_fail varis probs phi)%Qc /\ (p_fail varis probs phi <= last (m_pf_up (s_mon s)) 0)%Qc /\
      (g_max_nb g = None -> m_out_flag (s_mon s) = Some O_complete ->
         last (m_pf_low (s_mon s)) 0%Qc = p_fail varis probs phi /\ last (m_pf_up (s_mon s)) 0%Qc = p_fail varis probs phi).
Proof.
  intros nx_path nx_wpath nx_wlen G o d varis probs phi g t Hn Wg Sg Wv Wp Ht Nv Nt Pt Hw Hp Sf Mx.
  assert (So := time_sys_ok nx_path nx_wpath nx_wlen G o d varis t phi Hn Wg Sg Wv Ht Nv Nt Pt Hw Hp).
  apply (net_bounds varis probs phi _ g Wv Wp So Sf Mx).
Qed.
Print Assumptions C57_travel_time.

(** for the nearest of several destinations *)
Theorem C57_nearest :
  forall nx_multi (G : graph) (o : string) (dests : list string) (varis : dict variable) probs (phi : dict Z -> bool) g (t : Qc),
    nx_multi_ok nx_multi -> wf_graph G -> g_multi G = false -> g_dir G = false -> wf_varis varis -> wf_probs varis probs -> times_ok G varis ->
    varis <> [] -> t <> 0%Qc -> (0 <= t)%Qc -> dests <> [] -> incl dests (g_nodes G) ->
    (forall x, In x (space (comps_of varis)) -> (phi x = true <-> exists d T, In d dests /\ within G (edge_time varis x) o d T /\ t_le T (VNum t))) ->
    g_surv_first g = true -> 1 <= g_max_sf g ->
    exists s, run varis probs (as_sysfun (fun x => sf_min_path_multi nx_multi x G o dests varis (Some (VNum t)))) g None None = Ok s /\
      (last (m_pf_low (s_mon s)) 0 <= p_fail varis probs phi)%Qc /\ (p_fail varis probs phi <= last (m_pf_up (s_mon s)) 0)%Qc /\
      (g_max_nb g = None -> m_out_flag (s_mon s) = Some O_complete ->
         last (m_pf_low (s_mon s)) 0%Qc = p_fail varis probs phi /\ last (m_pf_up (s_mon s)) 0%Qc = p_fail varis probs phi).
Proof.
  intros nx_multi G o dests varis probs phi g t Hn Wg Sg Ug Wv Wp Ht Nv Nt Pt Nd Hd Hp Sf Mx.
  assert (So := multi_sys_ok nx_multi G o dests varis t phi Hn Wg Sg Ug Wv Ht Nv Nt Pt Nd Hd Hp).
  apply (net_bounds varis probs phi _ g Wv Wp So Sf Mx).
Qed.
Print Assumptions C57_nearest.

Definition cgraph : graph := tgraph false false.
Definition tprobs : prob_dict := map (fun kv => (fst kv, PList [Q2Qc (1#10); Q2Qc (2#10); Q2Qc (7#10)])) tvaris.
Lemma tprobs_wf : wf_probs tvaris tprobs.
Proof.
  intros k v [H|[H|[H|[H|[H|[]]]]]]; injection H as <- <-;
    (split; [eexists; split; [reflexivity|]; intros x Hx; change (nvals _) with 3 in Hx|apply Qc_is_canon; vm_compute; reflexivity]);
    (assert (x = 0 \/ x = 1 \/ x = 2) as [->|[->| ->]] by lia; eexists; (split; [reflexivity|vm_compute; congruence])).
Qed.
Definition t_sys : sysfun := as_sysfun (fun x => sf_min_path bf_path bf_wpath bf_wlen x cgraph "n1" "n4" tvaris (Some (tm 6))).
Definition t_phi (x : dict Z) : bool := surv (sf_min_path bf_path bf_wpath bf_wlen x cgraph "n1" "n4" tvaris (Some (tm 6))).
Lemma t_phi_ok x : In x (space (comps_of tvaris)) -> (t_phi x = true <-> exists T, within cgraph (edge_time tvaris x) "n1" "n4" T /\ t_le T (tm 6)).
Proof.
  intros Hx. destruct (C55_shortest_time bf_path bf_wpath bf_wlen cgraph x "n1" "n4" tvaris (tm 6) bf_wpath_ok (tgraph_wf _ _) eq_refl (tvaris_times _ _)
    (proj1 (space_states _ _ tvaris_wf Hx))) as (T & s & m & E & W & Mn & S & F & _).
  - discriminate.
  - intros X. injection X as X. discriminate.
  - vm_compute. discriminate.
  - apply twalk.
  - unfold t_phi. rewrite E. cbn [surv]. split.
    + intros X. exists T. split; auto. apply S. destruct s; congruence.
    + intros (T' & W' & L). assert (L' : t_le T (tm 6)) by (apply (t_le_trans _ T'); auto). apply S in L'. rewrite L'. auto.
Qed.
(** the bridge network with three-state edges: complete and exact; the survival rules
    are the ways to stay within 6 *)
Example C57_travel_time_ex :
  (forall x, In x (space (comps_of tvaris)) -> (t_phi x = true <-> exists T, within cgraph (edge_time tvaris x) "n1" "n4" T /\ t_le T (tm 6))) /\
  wf_probs tvaris tprobs /\
  match run tvaris tprobs t_sys (mkCfg 100 None 0%Qc None true true) None None with
  | Ok s => m_out_flag (s_mon s) = Some O_complete /\ this (last (m_pf_low (s_mon s)) 0%Qc) = this (p_fail tvaris tprobs t_phi) /\
            this (p_fail tvaris tprobs t_phi) = (2771 # 100000)%Q /\
            r_s (s_rules s) = [[("e2", 1); ("e4", 2)]; [("e2", 2); ("e4", 1)]; [("e1", 1); ("e3", 1)]; [("e2", 2); ("e5", 1); ("e3", 2)];
              [("e1", 2); ("e5", 0); ("e4", 1)]; [("e1", 1); ("e5", 1); ("e4", 1)]; [("e1", 1); ("e5", 0); ("e4", 2)]]
  | Err _ => False
  end.
Proof. split; [exact t_phi_ok|]. split; [exact tprobs_wf|]. vm_compute. auto. Qed.

(** the bridge network with failing or surviving edges in connectivity mode *)
Definition cvaris : dict variable := map (fun k => (k, mk_variable k [VStr "f"; VStr "s"] None)) ["e1"; "e2"; "e3"; "e4"; "e5"].
Definition cprobs : prob_dict := map (fun kv => (fst kv, PList [Q2Qc (1#10); Q2Qc (9#10)])) cvaris.
Definition c_run x : res (option value * st * dict Z) := sf_min_path bf_path bf_wpath bf_wlen x cgraph "n1" "n4" cvaris None.
Definition c_phi (x : dict Z) : bool := surv (c_run x).
Lemma cvaris_wf : wf_varis cvaris /\ wf_probs cvaris cprobs.
Proof.
  split.
  - split; [repeat constructor; cbn; intuition discriminate|]. intros k v [H|[H|[H|[H|[H|[]]]]]]; injection H as <- <-; cbn; lia.
  - intros k v [H|[H|[H|[H|[H|[]]]]]]; injection H as <- <-;
      (split; [eexists; split; [reflexivity|]; intros x Hx; change (nvals _) with 2 in Hx|apply Qc_is_canon; vm_compute; reflexivity]);
      (assert (x = 0 \/ x = 1) as [->| ->] by lia; eexists; (split; [reflexivity|vm_compute; congruence])).
Qed.
Lemma c_phi_ok x : In x (space (comps_of cvaris)) -> (c_phi x = true <-> conn cgraph x "n1" "n4").
Proof.
  intros Hx. destruct (C50_connected bf_path bf_wpath bf_wlen cgraph x "n1" "n4" cvaris None bf_path_ok (tgraph_wf _ _) (tgraph_keys _ _)) as (s & m & E & S & F & _).
  - intros k z Hz. destruct (space_states _ _ (proj1 cvaris_wf) Hx) as [St K].
    assert (Kk : In k (keys cvaris)) by (rewrite <- K; eapply found_key; eauto).
    destruct (varis_find cvaris k Kk) as (v & Hv & _). assert (C := sp_coord cvaris (proj1 cvaris_wf) x k v Hx Hv).
    unfold coord in C. rewrite Hz in C. lia.
  - reflexivity.
  - unfold c_phi, c_run. rewrite E. cbn [surv]. rewrite <- S. destruct s; split; congruence.
Qed.
Example C57_connectivity_ex :
  nx_path_ok bf_path /\ wf_graph cgraph /\ label_keys cgraph /\ wf_varis cvaris /\ wf_probs cvaris cprobs /\
  (forall x, In x (space (comps_of cvaris)) -> (c_phi x = true <-> conn cgraph x "n1" "n4")) /\
  match run cvaris cprobs (as_sysfun c_run) (mkCfg 100 None 0%Qc None true true) None None with
  | Ok s => m_out_flag (s_mon s) = Some O_complete /\ this (last (m_pf_low (s_mon s)) 0%Qc) = (269 # 12500)%Q /\
            this (p_fail cvaris cprobs c_phi) = (269 # 12500)%Q
  | Err _ => False
  end.
Proof.
  split; [exact bf_path_ok|]. split; [apply tgraph_wf|]. split; [apply tgraph_keys|]. split; [apply cvaris_wf|]. split; [apply cvaris_wf|].
  split; [exact c_phi_ok|]. vm_compute. auto.
Qed.

(** the nearer of n2 and n4, three-state edges *)
Definition n_run x : res (option value * st * dict Z) := sf_min_path_multi bf_multi x cgraph "n1" ["n4"; "n2"] tvaris (Some (tm 2)).
Definition n_phi (x : dict Z) : bool := surv (n_run x).
Lemma n_phi_ok x : In x (space (comps_of tvaris)) ->
  (n_phi x = true <-> exists d T, In d ["n4"; "n2"] /\ within cgraph (edge_time tvaris x) "n1" d T /\ t_le T (tm 2)).
Proof.
  intros Hx. destruct (space_states _ _ tvaris_wf Hx) as [St K].
  destruct (C56_nearest bf_multi cgraph x "n1" ["n4"; "n2"] tvaris (Q2Qc 2) bf_multi_ok (tgraph_wf _ _) eq_refl eq_refl (tvaris_times _ _) St K)
    as (T & s & m & E & W & Mn & S & F & _).
  - discriminate.
  - discriminate.
  - vm_compute. discriminate.
  - discriminate.
  - intros d [<-|[<-|[]]]; cbn; auto.
  - unfold n_phi, n_run. change (tm 2) with (VNum (Q2Qc 2)). rewrite E. cbn [surv]. split.
    + intros X. assert (Es : s = S_) by (destruct s; congruence). destruct W as [(d & Hd & W)|[W _]].
      * exists d, T. split; auto. split; auto. apply S. exact Es.
      * apply S in Es. rewrite W in Es. destruct Es.
    + intros (d & T' & Hd & W' & L). assert (L' : t_le T (VNum (Q2Qc 2))) by (apply (t_le_trans _ T'); eauto). apply S in L'. rewrite L'. auto.
Qed.
Example C57_nearest_ex :
  nx_multi_ok bf_multi /\ wf_graph cgraph /\ times_ok cgraph tvaris /\ wf_varis tvaris /\ wf_probs tvaris tprobs /\
  (forall x, In x (space (comps_of tvaris)) ->
     (n_phi x = true <-> exists d T, In d ["n4"; "n2"] /\ within cgraph (edge_time tvaris x) "n1" d T /\ t_le T (tm 2))) /\
  match run tvaris tprobs (as_sysfun n_run) (mkCfg 100 None 0%Qc None true true) None None with
  | Ok s => m_out_flag (s_mon s) = Some O_complete /\ this (last (m_pf_low (s_mon s)) 0%Qc) = this (p_fail tvaris tprobs n_phi) /\
            this (p_fail tvaris tprobs n_phi) = (1 # 10)%Q
  | Err _ => False
  end.
Proof.
  split; [exact bf_multi_ok|]. split; [apply tgraph_wf|]. split; [apply tvaris_times|]. split; [apply tvaris_wf|]. split; [exact tprobs_wf|].
  split; [exact n_phi_ok|]. vm_compute. auto.
Qed.

(** * C58: get_branches_by_od *)
(** For an OD pair with a positive finite time t0 in the intact state: every vector of edge
    states is covered by exactly one row of the event matrix; rows with state 1 hold vectors
    whose time is at most 2 t0, rows with state 0 vectors whose time exceeds 2 t0. *)
Definition covers (varis varis' : dict variable) (x : dict Z) (row : list Z) (s : Z) : Prop :=
  exists cs, row = s :: cs /\ Forall2 (fun k c => coded varis' k c (coord x k)) (keys varis) cs.
Theorem C58_event_matrix :
  forall nx_path nx_wpath nx_wlen (G : graph) (edges : list string) (scen : dict (list value)) (o d : string) (mx : Z) (t0 : Qc) (varis : dict variable) (best : dict Z),
    nx_wpath_ok nx_wpath nx_wlen -> wf_graph G -> g_multi G = false -> edges <> [] -> NoDup edges ->
    Forall2 (fun k kv => exists vs, dfind scen k = Some vs /\ (1 <= List.length vs <= 6)%nat /\ kv = (k, mk_variable k vs None)) edges varis ->
    times_ok G varis -> In best (space (comps_of varis)) -> (forall k v, In (k, v) varis -> coord best k = nvals v - 1) ->
    within G (edge_time varis best) o d (VNum t0) -> (forall T, within G (edge_time varis best) o d T -> t_le (VNum t0) T) -> (0 < t0)%Qc -> 1 <= mx ->
    exists rows varis', get_branches_by_od nx_path nx_wpath nx_wlen G edges scen o d mx = Ok (rows, varis') /\ tables_extend varis varis' /\
      forall x, In x (space (comps_of varis)) -> exists i row s, nth_error rows i = Some row /\ covers varis varis' x row s /\
        (forall j row' s', nth_error rows j = Some row' -> covers varis varis' x row' s' -> j = i) /\
        (s = 1 -> exists T, within G (edge_time varis x) o d T /\ t_le T (VNum (t0 + t0)%Qc)) /\
        (s = 0 -> ~ exists T, within G (edge_time varis x) o d T /\ t_le T (VNum (t0 + t0)%Qc)).
Proof.
  intros nx_path nx_wpath nx_wlen G edges scen o d mx t0 varis best Hn Wg Sg Ne Nd Fv Ht Hb Cb W0 M0 P0 Mx.
  assert (Kv : keys varis = edges).
  { clear - Fv. induction Fv as [|k kv ks l (vs & _ & _ & ->) F IH]; [reflexivity|]. cbn. f_equal. exact IH. }
  assert (Vv : forall k v, In (k, v) varis -> exists vs, v = mk_variable k vs None /\ (1 <= List.length vs <= 6)%nat).
  { clear - Fv. intros k v H. induction Fv as [|k0 kv ks l (vs & _ & L & ->) F IH]; [destruct H|]. destruct H as [H|H]; auto. injection H as <- <-. eauto. }
  assert (Wv : wf_varis varis).
  { split; [rewrite Kv; auto|]. intros k v H. destruct (Vv k v H) as (vs & -> & L). unfold nvals. cbn [mk_variable v_values]. lia. }
  assert (Bt : forall k v, In (k, v) varis -> basic_table v).
  { intros k v H. destruct (Vv k v H) as (vs & -> & L). exists (gen_B (List.length vs)). split.
    - cbn [mk_variable v_B]. unfold stores_B. destruct (Nat.ltb_spec 0 (List.length vs)); [|lia]. destruct (Nat.leb_spec (List.length vs) 6); [|lia]. reflexivity.
    - intros s Hs. unfold nvals in Hs. cbn [mk_variable v_values] in Hs. exists [s]. split; [|intros; cbn; intuition].
      rewrite gen_B_basic by lia. rewrite Z2Nat.id by lia. auto. }
  assert (Nv : varis <> []) by (intros ->; cbn in Kv; congruence).
  unfold get_branches_by_od.
  assert (E1 : mapM (fun k => vs <- dget scen k ;; Ok (k, mk_variable k vs None)) edges = Ok varis).
  { clear - Fv. induction Fv as [|k kv ks l (vs & E & _ & ->) F IH]; [reflexivity|]. cbn [mapM]. unfold dget at 1. rewrite E. cbn [bind]. rewrite IH. reflexivity. }
  rewrite E1. cbn [bind].
  assert (Wp := uniform_ok varis Wv). set (probs := map _ varis) in *.
  assert (Bo : states_ok varis (best_of varis)).
  { split; [apply Wv|]. intros k v H. exists (nvals v - 1). split; [|assert (X := proj2 Wv k v H); lia].
    apply In_dfind; [unfold keys, best_of; rewrite map_map; apply Wv|]. unfold best_of. apply in_map_iff. exists (k, v). auto. }
  assert (Ex : forall l, edge_time varis (best_of varis) l = edge_time varis best l).
  { intros l. unfold edge_time. destruct (dfind varis l) as [v|] eqn:Ev; auto. apply dfind_In in Ev. rewrite (Cb l v Ev). f_equal. f_equal.
    unfold coord. rewrite (In_dfind (best_of varis) l (nvals v - 1)); auto; [unfold keys, best_of; rewrite map_map; apply Wv|].
    unfold best_of. apply in_map_iff. exists (l, v). auto. }
  assert (We : forall a b T, within G (edge_time varis (best_of varis)) a b T <-> within G (edge_time varis best) a b T).
  { intros a b T. split; intros H; induction H as [|? ? ? e l]; try (constructor; auto; fail); [rewrite Ex|rewrite <- Ex]; eapply wi_step; eauto. }
  assert (Hw : exists p, walk G o p d).
  { clear - W0. remember (VNum t0) as T. clear HeqT. induction W0 as [a H|a b c e l T H1 H2 H3 H4 H5 [p IH]]; [exists [a]; constructor; auto|].
    exists (a :: p). apply (walk_cons G a b c e p); auto. }
  destruct (time_and_path G Wg Sg varis Ht nx_wpath nx_wlen Hn (best_of varis) o d Bo Nv Hw) as (T & p & es & E2 & W2 & M2).
  rewrite E2. cbn [bind fst].
  assert (T = VNum t0). { apply t_le_antisym; [apply M2; apply We; auto|apply M0; apply We; auto]. } subst T.
  cbn [t_double]. set (t := VNum (t0 + t0)%Qc).
  assert (P2 : (0 < t0 + t0)%Qc) by qc_lra.
  assert (Nt : t <> VNum 0%Qc). { unfold t. intros X. assert (Y : (t0 + t0)%Qc = 0%Qc) by congruence. rewrite Y in P2. apply (Qclt_not_eq _ _ P2). auto. }
  assert (Pt : t_le (VNum 0%Qc) t) by (apply Qclt_le_weak; auto).
  set (f := fun x => sf_min_path nx_path nx_wpath nx_wlen x G o d varis (Some t)).
  set (phi := fun x => surv (f x)).
  assert (Hp : forall x, In x (space (comps_of varis)) -> (phi x = true <-> exists T, within G (edge_time varis x) o d T /\ t_le T t)).
  { intros x Hx. destruct (C55_shortest_time nx_path nx_wpath nx_wlen G x o d varis t Hn Wg Sg Ht (proj1 (space_states _ _ Wv Hx)) Nv Nt Pt Hw)
      as (T & s & m & E & W & Mn & S & _ & _). unfold phi, f. rewrite E. cbn [surv]. split.
    - intros X. exists T. split; auto. apply S. destruct s; congruence.
    - intros (T' & W' & L). assert (L' : t_le T t) by (apply (t_le_trans _ T'); auto). apply S in L'. rewrite L'. auto. }
  assert (So : sys_ok varis phi (as_sysfun f)) by (apply time_sys_ok; auto).
  set (g := mkCfg mx (Some mx) 0%Qc None true true). assert (St := none_start varis probs phi).
  destruct (C16_run_total varis probs phi (as_sysfun f) g None None Wv Wp So St (or_introl eq_refl)) as [s Er]. rewrite Er. cbn [bind].
  destruct (C16_resume varis probs phi (as_sysfun f) g None None s Wv Wp So St) as (b & Eb & (_ & Sr & Vb) & Pb & _); [cbn; lia|auto|]. rewrite Eb.
  destruct (Vb b eq_refl) as (Bx & _ & Lb & _).
  assert (Nb : b <> []). { intros ->. specialize (Pb best Hb). discriminate. }
  destruct (C24_event_matrix varis (fun s => match s with F_ => 0 | S_ => 1 | U_ => 2 end) b Wv Bt Nb Bx) as (rows & varis' & Ec & Te & Fr).
  exists rows, varis'. split; [exact Ec|]. split; auto. intros x Hx. specialize (Pb x Hx).
  assert (U : exists i br, nth_error b i = Some br /\ in_branch br x = true /\ forall j br', nth_error b j = Some br' -> in_branch br' x = true -> j = i).
  { clear - Pb. induction b as [|a b IH]; [discriminate|]. cbn [filter] in Pb. destruct (in_branch a x) eqn:A.
    - exists 0%nat, a. split; auto. split; auto. intros [|j] br' E I; auto. exfalso. cbn in E, Pb. apply nth_error_In in E.
      assert (X : In br' (filter (fun b => in_branch b x) b)) by (apply filter_In; auto). destruct (filter _ b); [destruct X|discriminate].
    - destruct (IH Pb) as (i & br & E & I & U). exists (S i), br. split; auto. split; auto. intros [|j] br' E' I'; [cbn in E'; congruence|]. f_equal. apply (U j br'); auto. }
  destruct U as (i & br & Ei & Ib & U).
  assert (Fn : forall {A B} (R : A -> B -> Prop) l l', Forall2 R l l' -> forall i, match nth_error l i, nth_error l' i with Some a, Some b => R a b | None, None => True | _, _ => False end).
  { clear. intros A B R l l' F. induction F as [|a b l l' H F IH]; intros [|i]; cbn; auto. apply IH. }
  assert (F0 := Fn _ _ _ _ _ Fr i). rewrite Ei in F0. destruct (nth_error rows i) as [row|] eqn:Erow; [|contradiction].
  destruct F0 as (cs & Ers & _ & Cs). exists i, row. eexists. split; [exact Erow|]. split; [exists cs; split; [exact Ers|apply Cs; auto]|]. split.
  { intros j row' s' Ej (cs' & Er' & Cv). assert (F1 := Fn _ _ _ _ _ Fr j). rewrite Ej in F1. destruct (nth_error b j) as [br'|] eqn:Ebj; [|contradiction].
    destruct F1 as (cs1 & Ers1 & _ & Cs1). apply (U j br' Ebj). apply Cs1; auto. rewrite Ers1 in Er'. injection Er' as _ <-. auto. }
  assert (Ibr : In br b) by (apply (nth_error_In _ _ Ei)). destruct (Bx br Ibr) as (B1 & B2 & B3). destruct (Lb br Ibr) as (L1 & _ & _ & L4).
  assert (Le : le_vec varis (b_down br) x /\ le_vec varis x (b_up br)).
  { unfold in_branch in Ib. rewrite forallb_forall in Ib. destruct (space_states varis x Wv Hx) as [_ Kx].
    split; intros k K; rewrite <- Kx in K; specialize (Ib _ (coord_pair x k K)); cbn [fst snd] in Ib; apply andb_true_iff in Ib as [X Y]; apply Z.leb_le in X, Y; auto. }
  destruct Le as [Le1 Le2]. destruct So as [Co _]. destruct Sr as [Sr1 Sr2].
  split; intros Hs.
  - apply Hp; auto. apply (Co (b_down br) x B1 Hx Le1).
    assert (D : b_down_state br = S_). { destruct (b_down_state br), (b_up_state br); cbn in Hs; auto; discriminate. }
    specialize (L1 D). unfold match_s in L1. apply existsb_exists in L1 as (r & R1 & R2). apply (Sr1 r); auto.
  - intros X. apply Hp in X; auto. assert (Y := Co x (b_up br) Hx B2 Le2 X).
    assert (D : b_up_state br = F_). { destruct (b_down_state br), (b_up_state br); cbn in Hs; auto; discriminate. }
    specialize (L4 D). unfold match_f in L4. apply existsb_exists in L4 as (r & R1 & R2). rewrite (Sr2 r (b_up br)) in Y; auto. discriminate.
Qed.
Print Assumptions C58_event_matrix.

(** three-state edges of the bridge network; 2 t0 = 5 *)
Definition tscen : dict (list value) :=
  [("e1", [VInf; tm 2; tm 1]); ("e2", [tm 9; tm 5; tm 3]); ("e3", [tm 8; tm 4; tm 2]); ("e4", [tm 6; tm 3; tm 1]); ("e5", [tm 2; tm 1; tm (1#2)])].
Example C58_event_matrix_ex :
  Forall2 (fun k kv => exists vs, dfind tscen k = Some vs /\ (1 <= List.length vs <= 6)%nat /\ kv = (k, mk_variable k vs None)) (keys tvaris) tvaris /\
  (forall k v, In (k, v) tvaris -> coord (tx 2 2 2 2 2) k = nvals v - 1) /\
  match get_branches_by_od bf_path bf_wpath bf_wlen cgraph (keys tvaris) tscen "n1" "n4" 100 with
  | Ok (rows, _) => firstn 4 rows = [[0; 3; 6; 3; 3; 6]; [1; 5; 6; 6; 2; 6]; [1; 2; 6; 5; 3; 6]; [0; 0; 6; 2; 3; 6]] /\ List.length rows = 10%nat
  | Err _ => False
  end.
Proof.
  split; [repeat (constructor; [eexists; split; [reflexivity|]; split; [cbn; lia|reflexivity]|]); constructor|].
  split; [intros k v [H|[H|[H|[H|[H|[]]]]]]; injection H as <- <-; reflexivity|]. vm_compute. auto.
Qed.
