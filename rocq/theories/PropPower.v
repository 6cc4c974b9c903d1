(** Properties of the power-cut network of demos/power_house. *)
From Coq Require Import ZArith List String Bool Arith Lia Permutation QArith Qcanon.
From Verif Require Import Py PyFacts Num Vari VariFacts Cpm CpmFacts SpecCpm CpmElim SysVal Bnb Power SpecPower BnetFacts PowerFacts PowerMain PowerDist.
Import ListNotations.
Open Scope string_scope.
Open Scope Z_scope.
Open Scope list_scope.

(** * C78: the network and the days without power *)
Lemma net_names haz pfs rep lins N : power_net haz pfs rep lins N -> map nd_name N = node_names pfs rep lins.
Proof.
  intros (Nn & Nc & NS & -> & _ & F1 & F2 & F3). unfold node_names. cbn [map]. f_equal. rewrite !map_app. f_equal; [unfold keys; rewrite !map_map; auto|]. rewrite (chain_names _ _ _ _ F1). f_equal. rewrite (c_names _ _ _ F2). f_equal.
  clear -F3. induction F3 as [|hs N' l NS H F IH]; cbn; auto. rewrite map_app, IH. f_equal. apply PowerHouse.house_nodes_names; auto.
Qed.

(** [quant_cpms] succeeds and makes one variable and one CPM for every node, in the order of
    construction. *)
Theorem C78_network haz pfs rep lins : power_ok haz pfs rep lins ->
  exists st, quant_cpms haz pfs rep lins = Ok st /\ keys (fst st) = node_names pfs rep lins /\ keys (snd st) = node_names pfs rep lins.
Proof.
  intros H. destruct (quant_main _ _ _ _ H) as (N & E & PN). exists (st_of N). split; auto. destruct (keys_st N) as [K1 K2]. rewrite K1, K2, (net_names _ _ _ _ _ PN). auto.
Qed.
Print Assumptions C78_network.

(** For every house, eliminating all other variables in any order leaves the distribution of the
    number of days until the house has power again. *)
Theorem C78_days haz pfs rep lins st h sets : power_ok haz pfs rep lins -> quant_cpms haz pfs rep lins = Ok st -> In (h, sets) lins ->
  exists vh, dget (snd st) h = Ok vh /\ v_name vh = h /\
    (forall k w, nth_error (v_values vh) k = Some w -> w = VNum (qz (Z.of_nat k))) /\
    (forall f, (cut_days f rep sets < List.length (v_values vh))%nat) /\
    forall ord, Permutation (vh :: ord) (map snd (snd st)) ->
      exists M, variable_elim (map snd (fst st)) ord = Ok M /\ c_vars M = [vh] /\ wf_cpm M /\
        forall a, mass M a = average haz pfs (fun f => indicator (Z.of_nat (cut_days f rep sets) =? a h)).
Proof.
  intros H E Hh. destruct (quant_main _ _ _ _ H) as (N & E' & PN). rewrite E in E'. injection E' as ->. apply (power_dist _ _ _ _ N H PN); auto.
Qed.
Print Assumptions C78_days.

(** ** The link sets *)
Lemma find_idx_split x p i : find_idx (String.eqb x) p = Some i <-> (exists pre post, p = pre ++ x :: post /\ ~ In x pre /\ i = List.length pre).
Proof.
  revert i. induction p as [|y p IH]; intros i; cbn.
  - split; [discriminate|]. intros ([|? ?] & post & E & _); discriminate E.
  - destruct (String.eqb_spec x y) as [<-|Hne].
    + split; [intros [= <-]; exists [], p; split; [auto|split; [intros []|auto]]|]. intros ([|z pre] & post & E & Hn & ->); auto. cbn in E. injection E as -> _. exfalso. apply Hn. left; auto.
    + split.
      * intros H. destruct (find_idx (String.eqb x) p) as [j|]; [|discriminate]. injection H as <-. destruct (proj1 (IH j) eq_refl) as (pre & post & -> & Hn & ->). exists (y :: pre), post. split; auto. split; auto. intros [X|X]; auto.
      * intros ([|z pre] & post & E & Hn & ->); cbn in E; [injection E as <- _; congruence|]. injection E as <- ->. rewrite (proj2 (IH (List.length pre))); auto. exists pre, post. split; auto. split; auto. intros X. apply Hn. right; auto.
Qed.
(** the link sets of a pole are the beginnings, up to the pole, of the paths that contain it,
    with their substation *)
Theorem C78_links pole paths set : In set (get_lins pole paths) <->
  exists s ps pre post, In (s, ps) paths /\ In (pre ++ pole :: post) ps /\ ~ In pole pre /\ set = s :: pre ++ [pole].
Proof.
  assert (FN : forall (pre post : list string), firstn (S (List.length pre)) (pre ++ pole :: post) = pre ++ [pole]) by (induction pre as [|y pre IH]; intros post; cbn in *; auto; rewrite IH; auto).
  unfold get_lins. rewrite in_flat_map. split.
  - intros ([s ps] & H1 & H2). cbn [fst snd] in H2. apply in_flat_map in H2 as (p & H2 & H3). destruct (find_idx (String.eqb pole) p) as [i|] eqn:E; [|destruct H3]. destruct H3 as [<-|[]].
    apply (proj1 (find_idx_split _ _ _)) in E as (pre & post & -> & Hn & ->). exists s, ps, pre, post. rewrite FN. auto.
  - intros (s & ps & pre & post & H1 & H2 & Hn & ->). exists (s, ps). split; auto. cbn [fst snd]. apply in_flat_map. exists (pre ++ pole :: post). split; auto.
    rewrite (proj2 (find_idx_split pole (pre ++ pole :: post) (List.length pre))) by eauto. rewrite FN. left; auto.
Qed.
Print Assumptions C78_links.
(** a house has the link sets of its poles *)
Lemma dset_keys_in {A} (d : dict A) k v n w : In (n, w) (dset d k v) -> (n = k /\ w = v) \/ In (n, w) d.
Proof.
  induction d as [|[m x] d IH]; cbn; [intros [[= <- <-]|[]]; auto|]. destruct (String.eqb_spec k m) as [->|Hne].
  - intros [[= <- <-]|H]; auto.
  - intros [[= <- <-]|H]; auto. destruct (IH H); auto.
Qed.
Theorem C78_houses houses paths : NoDup (keys houses) -> house_lins houses paths = map (fun hp => (fst hp, flat_map (fun pl => get_lins pl paths) (snd hp))) houses.
Proof.
  intros ND. unfold house_lins. assert (G : forall l d, NoDup (keys l) -> (forall n, In n (keys l) -> ~ In n (keys d)) ->
    fold_left (fun d hp => dset d (fst hp) (flat_map (fun pl => get_lins pl paths) (snd hp))) l d = d ++ map (fun hp => (fst hp, flat_map (fun pl => get_lins pl paths) (snd hp))) l).
  { induction l as [|[h pls] l IH]; intros d N D; cbn [fold_left map]; [rewrite app_nil_r; auto|]. cbn in N. inversion N as [|? ? N1 N2]; subst. cbn [fst snd]. rewrite dset_new by (apply D; left; auto). rewrite IH; auto; [rewrite <- app_assoc; auto|].
    intros n Hn X. unfold keys in X. rewrite map_app in X. apply in_app_iff in X as [X|[X|[]]]; [apply (D n); [right|]; auto|]. cbn in X. subst. auto. }
  apply G; auto.
Qed.
Print Assumptions C78_houses.

(** ** Example: two scenarios, a substation and two poles, two houses *)
Definition ex_q (a : Z) (b : positive) : Qc := Q2Qc (a # b).
Definition ex_haz : dict Qc := [("mild", ex_q 3 4); ("inte", ex_q 1 4)].
Definition ex_paths : dict (list (list string)) := [("s0", [["p0"; "p1"]; ["p2"; "p1"]])].
Definition ex_houses : dict (list string) := [("h0", ["p0"]); ("h1", ["p1"])].
Definition ex_pfs : dict (list Qc) := [("s0", [ex_q 1 10; ex_q 1 2]); ("p0", [ex_q 1 5; ex_q 1 2]); ("p1", [ex_q 0 1; ex_q 1 4]); ("p2", [ex_q 1 4; ex_q 1 1])].
Definition ex_rep : list string := ["s0"; "p2"; "p0"; "p1"].
Definition ex_lins := house_lins ex_houses ex_paths.
Example C78_ex_lins : ex_lins = [("h0", [["s0"; "p0"]]); ("h1", [["s0"; "p0"; "p1"]; ["s0"; "p2"; "p1"]])].
Proof. reflexivity. Qed.
Example C78_ex_ok : power_ok ex_haz ex_pfs ex_rep ex_lins.
Proof.
  rewrite C78_ex_lins. unfold power_ok. split; [cbn; lia|]. split; [cbn; lia|]. split; [|split; [|split; [|split; [|split; [|split]]]]].
  - vm_compute. repeat constructor; cbn; intuition discriminate.
  - intros s pf H. repeat (destruct H as [[= <- <-]|H]; [reflexivity|]). destruct H.
  - intros x H. cbn in *. tauto.
  - intros h sets H. assert (S : forall s, In s [["s0"; "p0"]; ["s0"; "p0"; "p1"]; ["s0"; "p2"; "p1"]] -> s <> [] /\ NoDup s /\ incl s ex_rep).
    { intros s Hs. repeat (destruct Hs as [<-|Hs]; [split; [discriminate|split; [repeat constructor; cbn; intuition discriminate|intros x Hx; cbn in *; tauto]]|]). destruct Hs. }
    destruct H as [[= <- <-]|[[= <- <-]|[]]]; (split; [discriminate|]); intros s Hs; apply S; cbn in *; tauto.
  - intros k p H. repeat (destruct H as [[= <- <-]|H]; [vm_compute; discriminate|]). destruct H.
  - exists "mild", (ex_q 3 4). split; [left; auto|reflexivity].
  - intros s pf p H. repeat (destruct H as [[= <- <-]|H]; [intros Hp; cbn in Hp; repeat (destruct Hp as [<-|Hp]; [split; vm_compute; discriminate|]); destruct Hp|]). destruct H.
Qed.
(** the second house has no power for 0, 1, 2, 3 or 4 days *)
Definition ex_days (k : Z) : Qc := average ex_haz ex_pfs (fun f => indicator (Z.of_nat (cut_days f ex_rep [["s0"; "p0"; "p1"]; ["s0"; "p2"; "p1"]]) =? k)).
Example C78_ex_days : map (fun k => this (ex_days k)) [0; 1; 2; 3; 4] = [(1101 # 1600); (159 # 800); (53 # 800); (1 # 32); (1 # 64)]%Q.
Proof. vm_compute. reflexivity. Qed.

(** eliminating the other variables in the order of [main] gives these probabilities *)
Definition others (st : net) (h : string) : list variable := filter (fun v => negb (String.eqb (v_name v) h)) (map snd (snd st)).
Definition house_probs (st : net) (h : string) (ks : list Z) : res (list Q) :=
  M <- variable_elim (map snd (fst st)) (others st h) ;;
  Ok (map (fun k => this (mass M (fun _ => k))) ks).
Example C78_ex_elim : (st <- quant_cpms ex_haz ex_pfs ex_rep ex_lins ;; house_probs st "h1" [0; 1; 2; 3; 4]) =
  Ok [(1101 # 1600); (159 # 800); (53 # 800); (1 # 32); (1 # 64)]%Q.
Proof. vm_compute. reflexivity. Qed.

(** ** Limits *)
(** The example in the comment of [main] (batch.py 269-288) has ten structures: the sixth closure
    time has seven states, no table of composite states and no CPM, and a house that depends on
    it ends in an exception. *)
Definition big_haz : dict Qc := [("mild", ex_q 1 2); ("medi", ex_q 1 5); ("inte", ex_q 3 10)].
Definition big_paths : dict (list (list string)) := [("s0", [["p0"; "p1"]; ["p2"; "p3"; "p5"]]); ("s1", [["p4"; "p5"]; ["p6"; "p7"]])].
Definition big_houses : dict (list string) := [("h0", ["p0"]); ("h1", ["p1"]); ("h2", ["p2"]); ("h3", ["p3"; "p4"]); ("h4", ["p5"]); ("h5", ["p6"]); ("h6", ["p7"])].
Definition big_rep : list string := ["s0"; "s1"; "p0"; "p1"; "p2"; "p3"; "p4"; "p5"; "p6"; "p7"].
Definition big_pfs : dict (list Qc) := combine big_rep (flat_map (fun _ => [[ex_q 1 1000; ex_q 1 100; ex_q 1 10]; [ex_q 5 1000; ex_q 5 100; ex_q 1 5]]) (seq 0 5)).
Theorem C78_ten_structures_refuted : quant_cpms big_haz big_pfs big_rep (house_lins big_houses big_paths) = Err AttributeError.
Proof. vm_compute. reflexivity. Qed.
Print Assumptions C78_ten_structures_refuted.
(** without such a house the CPM of the closure time is just missing *)
Theorem C78_missing_refuted : exists st, quant_cpms big_haz big_pfs (firstn 6 big_rep) (house_lins (firstn 1 big_houses) big_paths) = Ok st /\
  In "cp3" (keys (snd st)) /\ ~ In "cp3" (keys (fst st)).
Proof. eexists. split; [vm_compute; reflexivity|]. split; vm_compute; intuition discriminate. Qed.
Print Assumptions C78_missing_refuted.
(** A house [h10] and a house [h1] with several link sets use the same name: the node of [h10] is
    replaced by the first link set of [h1], and its distribution is not that of [h10]. *)
Theorem C78_name_clash_refuted : exists haz pfs rep lins st,
  NoDup (keys lins) /\ quant_cpms haz pfs rep lins = Ok st /\ In ("h10", [["b"]]) lins /\
  house_probs st "h10" [0; 1; 2] = Ok [(1 # 2); (1 # 2); 0]%Q /\
  map (fun k => this (average haz pfs (fun f => indicator (Z.of_nat (cut_days f rep [["b"]]) =? k)))) [0; 1; 2] = [(3 # 4); (1 # 8); (1 # 8)]%Q.
Proof.
  exists [("one", 1%Qc)], [("a", [ex_q 1 2]); ("b", [ex_q 1 4])], ["a"; "b"], [("h10", [["b"]]); ("h1", [["a"]; ["b"]])]. eexists.
  split; [repeat constructor; cbn; intuition discriminate|]. split; [vm_compute; reflexivity|]. split; [left; reflexivity|]. split; vm_compute; reflexivity.
Qed.
Print Assumptions C78_name_clash_refuted.
