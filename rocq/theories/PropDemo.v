(** C84, C85, C86: the demos rbd, routine and n3e3. *)
From Coq Require Import ZArith List String Bool Arith QArith Qcanon Lia Permutation.
From Verif Require Import Py PyFacts Num Vari VariFacts Brc SpecBrc BrcFacts BrcProb Cpm SpecCpm CpmElim Model ModelFacts SysJoint Bnb SpecBnb PathModel PathModelFacts Trans SpecTrans NxPaths.
From Verif Require Import Config SpecConfig ConfigFacts ConfigPaths PropModel PfMapGeom DemoNet SpecDemo TwoNet RbdRun RouRun.
Import ListNotations.
Open Scope string_scope.
Open Scope Z_scope.
Open Scope list_scope.

(** ** C84: the conditional probability of the demo rbd *)
(** it can be told whether the ends are joined *)
Theorem C84_decidable :
  forall f dir multi names o d, net_file f dir multi -> NoDup names -> In o (component_list f) ->
    exists jb, tells dir (node_conn_df f) names o d jb.
Proof.
  intros f dir multi names o d (Hk & NL & Np) NN Io. destruct (file_wf f dir multi NL) as (Wg & Lk & _).
  destruct (conn_dec bf_path (fun _ _ _ => Err KeyError) (fun _ _ _ => Err KeyError) bf_path_ok (file_graph f dir multi) Wg Lk o d names NN) as [cb H].
  exists cb. intros x Hx. rewrite (H x Hx). apply conn_joined; auto. apply file_nodes. auto.
Qed.
Print Assumptions C84_decidable.

Lemma event_both K sc (jb : dict Z -> bool) kept i : event_prob K sc (fun x => (coord x kept =? i) && ((if jb x then 1 else 0) =? 1)) = event_prob K sc (fun x => jb x && (coord x kept =? i)).
Proof. unfold event_prob. do 2 f_equal. apply filter_ext. intros x. destruct (jb x), (coord x kept =? i); reflexivity. Qed.

Lemma event_split K sc (E F : dict Z -> bool) : event_prob K sc E = (event_prob K sc (fun x => E x && negb (F x)) + event_prob K sc (fun x => E x && F x))%Qc.
Proof.
  unfold event_prob. rewrite !qsum_filter. induction (arc_states K) as [|x l IH]; cbn [map qsum]; [ring|]. rewrite IH. destruct (E x), (F x); cbn [andb negb]; ring.
Qed.
Lemma event_ext K sc E F : (forall x, In x (arc_states K) -> E x = F x) -> event_prob K sc E = event_prob K sc F.
Proof. intros H. unfold event_prob. do 2 f_equal. apply filter_ext_in. auto. Qed.
Lemma states_two K k x : NoDup K -> In k K -> In x (arc_states K) -> coord x k = 0 \/ coord x k = 1.
Proof.
  intros NK Hk Hx. rewrite <- (V_space K) in Hx. assert (Y := sp_coord (arc_vars K fs2) (V_wf K NK) x k (arc_var fs2 k) Hx ltac:(apply arc_in; auto)).
  change (nvals (arc_var fs2 k)) with 2 in Y. lia.
Qed.

(** The demo always comes to an end.  If no branch is left unknown and the name of the kept component comes
    after "sys", the ratio is the probability that this component works given that the ends are joined;
    there is no ratio if they never are. *)
Theorem C84_ratio :
  forall nx_path nx_wpath nx_wlen f dir multi o d kept mb, nx_path_ok nx_path -> net_file f dir multi -> ends_ok f o d kept -> 1 <= mb ->
    exists out, rbd_main nx_path nx_wpath nx_wlen f o d kept mb = Ok out /\
      (all_known (rb_brs out) -> String.ltb "sys" kept = true ->
       forall jb, tells dir (node_conn_df f) (inner o d (component_list f)) o d jb ->
         match rb_ratio out with
         | Some r => p_inner f o d jb <> 0%Qc /\ (r * p_inner f o d jb)%Qc = p_inner f o d (fun x => jb x && (coord x kept =? 1))
         | None => p_inner f o d jb = 0%Qc
         end) /\
      (** the other order of names: given that the component works, probability that the ends are joined *)
      (all_known (rb_brs out) -> String.ltb "sys" kept = false ->
       forall jb, tells dir (node_conn_df f) (inner o d (component_list f)) o d jb ->
         match rb_ratio out with
         | Some r => (r * p_inner f o d (fun x => coord x kept =? 1))%Qc = p_inner f o d (fun x => jb x && (coord x kept =? 1))
         | None => p_inner f o d (fun x => coord x kept =? 1) = 0%Qc
         end) /\
      (2 * 2 ^ Z.of_nat (List.length (inner o d (component_list f))) <= mb -> all_known (rb_brs out)).
Proof.
  intros nxp nxw nxl f dir multi o d kept mb Hn (Hk & NL & Np) (Nc & Io & Id & Ne & Hsys & Ik) Hm.
  destruct (rbd_run nxp nxw nxl Hn f dir multi Hk NL Np Nc o d kept Io Id Ne Hsys Ik mb Hm) as (brs & M & ER & Sz & HM).
  assert (NK := inner_nodup f Nc o d). assert (Nk : "sys" <> kept) by (intros X; rewrite X in Hsys; auto).
  exists (mkRbd brs M (qdiv (both_one M) (first_one M))). cbn [rb_brs rb_ratio]. split; auto. split; [|split; [|auto]].
  - intros Kn Lt jb Hj. destruct (HM Kn jb Hj) as (W & P & X & PX & Ev & B1 & B2 & Ms). rewrite (sort_two _ _ X PX Lt) in Ev.
    destruct (two_sums M "sys" kept W P Ev Nk B1 B2) as [S1 S2]. assert (R1 := Ms (jt2 "sys" 1 1) ltac:(unfold jt2; destruct (String.eqb kept "sys"); lia)). assert (R0 := Ms (jt2 "sys" 1 0) ltac:(unfold jt2; destruct (String.eqb kept "sys"); lia)).
    rewrite R1 in S1. rewrite R0, R1 in S2.
    unfold jt2 in S1, S2. rewrite String.eqb_refl in S1, S2. destruct (String.eqb_spec kept "sys") as [Y|_]; [congruence|].
    rewrite event_both in S1. rewrite !event_both in S2.
    assert (E0 : first_one M = p_inner f o d jb).
    { rewrite S2. unfold p_inner. rewrite (event_split _ _ jb (fun x => coord x kept =? 1)). f_equal. apply event_ext. intros x Hx.
      destruct (states_two _ kept x NK Ik Hx) as [Z|Z]; rewrite Z; destruct (jb x); reflexivity. }
    pose proof (qdiv_spec (both_one M) (first_one M)) as D. destruct (qdiv _ _) as [r|]; rewrite E0, ?S1 in D; exact D.
  - intros Kn Lt jb Hj. destruct (HM Kn jb Hj) as (W & P & X & PX & Ev & B1 & B2 & Ms).
    assert (Lt' := ltb_total _ _ Nk Lt). apply (Permutation_trans (l'' := [arc_var fs2 kept; arc_var fs2 "sys"])) in PX; [|apply perm_swap].
    rewrite (sort_two _ _ X PX Lt') in Ev. assert (Nk' : kept <> "sys") by congruence.
    destruct (two_sums M kept "sys" W P Ev Nk' B2 B1) as [S1 S2]. assert (R1 := Ms (jt2 kept 1 1) ltac:(unfold jt2; rewrite String.eqb_refl; lia)). assert (R0 := Ms (jt2 kept 1 0) ltac:(unfold jt2; rewrite String.eqb_refl; lia)).
    rewrite R1 in S1. rewrite R0, R1 in S2.
    unfold jt2 in S1, S2. rewrite String.eqb_refl in S1, S2. destruct (String.eqb_spec "sys" kept) as [Y|_]; [congruence|].
    rewrite event_both in S1.
    assert (E0 : first_one M = p_inner f o d (fun x => coord x kept =? 1)).
    { rewrite S2. unfold p_inner. rewrite (event_split _ _ (fun x => coord x kept =? 1) jb). f_equal; apply event_ext; intros x Hx; destruct (jb x), (coord x kept =? 1); reflexivity. }
    pose proof (qdiv_spec (both_one M) (first_one M)) as D. destruct (qdiv _ _) as [r|]; rewrite E0, ?S1 in D; [apply D|exact D].
Qed.
Print Assumptions C84_ratio.

(** without two different ends among the nodes of the file there is no ratio *)
Theorem C84_missing :
  forall nx_path nx_wpath nx_wlen f dir multi o d kept mb, net_file f dir multi -> NoDup (component_list f) ->
    ~ In o (component_list f) \/ ~ In d (component_list f) \/ o = d ->
    rbd_main nx_path nx_wpath nx_wlen f o d kept mb = Err ValueError.
Proof.
  intros nxp nxw nxl f dir multi o d kept mb (Hk & NL & Np) Nc H.
  assert (R : forall x l, ~ In x l -> py_remove x l = Err ValueError).
  { intros x l. induction l as [|y l IH]; intros N; auto. cbn [py_remove]. destruct (String.eqb_spec x y) as [->|]; [exfalso; apply N; left; auto|].
    rewrite IH; auto. intros X. apply N. right; auto. }
  unfold rbd_main. rewrite (read_ok f dir multi Hk). cbn [bind fst snd foldM].
  destruct (in_dec string_dec o (component_list f)) as [Io|No]; [|rewrite R by auto; auto].
  rewrite (remove_ok o) by auto. cbn [bind]. rewrite R; auto. intros X. apply filter_In in X as [X1 X2].
  destruct H as [H|[H|H]]; auto. rewrite H, String.eqb_refl in X2. discriminate.
Qed.
Print Assumptions C84_missing.

(** decision procedures for the examples *)
Definition np_b (dir : bool) (l : dict entry) : bool :=
  forallb (fun a => forallb (fun b =>
    negb ((String.eqb (origin (snd b)) (origin (snd a)) && String.eqb (destination (snd b)) (destination (snd a))) ||
          (negb dir && String.eqb (origin (snd b)) (destination (snd a)) && String.eqb (destination (snd b)) (origin (snd a)))) || String.eqb (fst b) (fst a)) l) l.
Lemma np_b_ok dir l : np_b dir l = true -> no_parallel dir l.
Proof.
  unfold np_b. rewrite forallb_forall. intros H k en k' en' I I' E. specialize (H _ I). rewrite forallb_forall in H. specialize (H _ I'). cbn [fst snd] in H.
  apply orb_true_iff in H as [H|H]; [|apply String.eqb_eq; auto]. exfalso. apply negb_true_iff, orb_false_iff in H as [H1 H2]. destruct E as [[E1 E2]|(E0 & E1 & E2)].
  - rewrite E1, E2, !String.eqb_refl in H1. discriminate.
  - rewrite E0, E1, E2, !String.eqb_refl in H2. discriminate.
Qed.
Definition en1 (k a b : string) : string * entry := (k, mkEntry a b 1%Qc).

(** demos/rbd/batch.py with the file written by [main] (80-85) *)
Definition rbd_file : netfile := mkNetfile ["source"; "x1"; "x2"; "x3"; "x4"; "x5"; "x6"; "x7"; "x8"; "sink"]
  [en1 "e1" "source" "x1"; en1 "e2" "source" "x2"; en1 "e3" "source" "x3"; en1 "e4" "source" "x4"; en1 "e5" "x4" "x5"; en1 "e6" "x5" "x6"; en1 "e7" "x6" "x7";
   en1 "e8" "x7" "x8"; en1 "e9" "x8" "sink"; en1 "e10" "x1" "x7"; en1 "e11" "x2" "x7"; en1 "e12" "x3" "x7"] [("od1", ("source", "sink"))] None.
Example C84_missing_ex :
  forall nx_path nx_wpath nx_wlen, rbd_main nx_path nx_wpath nx_wlen rbd_file "source" "x9" "x1" 100 = Err ValueError /\
    rbd_main nx_path nx_wpath nx_wlen rbd_file "sink" "sink" "x1" 100 = Err ValueError.
Proof. intros. split; reflexivity. Qed.
Definition ends_b (f : netfile) (o d kept : string) : bool :=
  nodupb (component_list f) && mem_str o (component_list f) && mem_str d (component_list f) && negb (String.eqb o d) &&
  negb (mem_str "sys" (inner o d (component_list f))) && mem_str kept (inner o d (component_list f)).
Lemma ends_b_ok f o d kept : ends_b f o d kept = true -> ends_ok f o d kept.
Proof.
  unfold ends_b. rewrite !andb_true_iff, !negb_true_iff. intros (((((H1 & H2) & H3) & H4) & H5) & H6).
  split; [apply nodupb_ok; auto|]. split; [apply mem_str_In; auto|]. split; [apply mem_str_In; auto|]. split; [apply String.eqb_neq; auto|].
  split; [intros X; apply mem_str_In in X; congruence|apply mem_str_In; auto].
Qed.
Definition known_b (brs : list branch) : bool := forallb (fun b => st_eqb (b_up_state b) F_ || st_eqb (b_down_state b) S_) brs.
Lemma known_b_ok brs : known_b brs = true <-> all_known brs.
Proof.
  unfold known_b, all_known. rewrite forallb_forall. split; intros H b Hb; specialize (H b Hb).
  - apply orb_true_iff in H as [H|H]; [left|right]; destruct (b_up_state b), (b_down_state b); try reflexivity; discriminate.
  - destruct H as [->| ->]; [reflexivity|apply orb_true_r].
Qed.
Definition rbd_view (r : res rbd_out) : option (list (list Z) * list Q * option Q * bool) :=
  match r with Ok o => Some (c_C (rb_M o), map this (c_p (rb_M o)), option_map this (rb_ratio o), known_b (rb_brs o)) | Err _ => None end.
Lemma view_ok r C p q b : rbd_view r = Some (C, p, Some q, b) -> exists out x, r = Ok out /\ rb_ratio out = Some x /\ x = Q2Qc q /\ known_b (rb_brs out) = b.
Proof.
  destruct r as [out|e]; [|discriminate]. cbn [rbd_view]. intros E. injection E as _ _ Er Ek. destruct (rb_ratio out) as [x|] eqn:Q; [|discriminate]. cbn in Er. injection Er as <-.
  exists out, x. split; auto. split; auto. split; auto. apply Qc_is_canon. cbn. symmetry. apply Qred_correct.
Qed.
Lemma rbd_net : net_file rbd_file false false.
Proof. split; [left; auto|split; [apply nodupb_ok; vm_compute; reflexivity|intros _; apply np_b_ok; vm_compute; reflexivity]]. Qed.
Example C84_ex :
  nx_path_ok bf_path /\ net_file rbd_file false false /\ ends_ok rbd_file "source" "sink" "x1" /\ String.ltb "sys" "x1" = true /\
  (exists jb, tells false (node_conn_df rbd_file) (inner "source" "sink" (component_list rbd_file)) "source" "sink" jb) /\
  rbd_view (rbd_main bf_path bf_wpath bf_wlen rbd_file "source" "sink" "x1" 100) =
    Some ([[0; 0]; [0; 0]; [1; 0]; [0; 1]; [1; 1]], [21951 # 100000000; 19 # 1000; 8078049 # 100000000; 171 # 1000; 729 # 1000]%Q, Some (100000 # 111081)%Q, true).
Proof.
  split; [apply bf_path_ok|]. split; [apply rbd_net|]. split; [apply ends_b_ok; vm_compute; reflexivity|]. split; [reflexivity|]. split.
  - apply (C84_decidable rbd_file false false); [apply rbd_net|apply nodupb_ok; vm_compute; reflexivity|cbn; auto].
  - vm_compute. reflexivity.
Qed.

(** two ways over one node each *)
Definition two_way (x y : string) : netfile := mkNetfile ["o"; x; y; "d"]
  [en1 "e1" "o" x; en1 "e2" "o" y; en1 "e3" x "d"; en1 "e4" y "d"] [("od1", ("o", "d"))] None.
Lemma two_way_net : net_file (two_way "x" "y") false false /\ net_file (two_way "a" "b") false false.
Proof. split; (split; [left; auto|split; [apply nodupb_ok; vm_compute; reflexivity|intros _; apply np_b_ok; vm_compute; reflexivity]]). Qed.

(** With unknown branches the ratio can be wrong: their code 2 stands for both states of the system
    variable, and their rows are left out of both sums. *)
Theorem C84_unknown_refuted :
  exists f o d kept mb out r, net_file f false false /\ ends_ok f o d kept /\ 1 <= mb /\ String.ltb "sys" kept = true /\
    rbd_main bf_path bf_wpath bf_wlen f o d kept mb = Ok out /\ rb_ratio out = Some r /\ ~ all_known (rb_brs out) /\
    forall jb, tells false (node_conn_df f) (inner o d (component_list f)) o d jb ->
      (r * p_inner f o d jb)%Qc <> p_inner f o d (fun x => jb x && (coord x kept =? 1)).
Proof.
  destruct two_way_net as [N _].
  assert (E2 : rbd_view (rbd_main bf_path bf_wpath bf_wlen (two_way "x" "y") "o" "d" "x" 2) = Some ([[2; 0]; [1; 1]], [1 # 10; 9 # 10]%Q, Some (1 # 1)%Q, false)) by (vm_compute; reflexivity).
  assert (E100 : rbd_view (rbd_main bf_path bf_wpath bf_wlen (two_way "x" "y") "o" "d" "x" 100) = Some ([[0; 0]; [1; 0]; [1; 1]], [1 # 100; 9 # 100; 9 # 10]%Q, Some (10 # 11)%Q, true)) by (vm_compute; reflexivity).
  assert (Eo : ends_ok (two_way "x" "y") "o" "d" "x") by (apply ends_b_ok; vm_compute; reflexivity).
  destruct (C84_ratio bf_path bf_wpath bf_wlen (two_way "x" "y") false false "o" "d" "x" 100 bf_path_ok N Eo ltac:(lia)) as (out' & R' & H' & _).
  apply view_ok in E2 as (out & r & R & Q & Er & Ek). apply view_ok in E100 as (out1 & r' & R1 & Q' & Er' & Ek').
  assert (Eo1 : out1 = out') by (pose proof (eq_trans (eq_sym R1) R') as Z; injection Z as Z; exact Z). subst out1. rewrite Q' in H'.
  exists (two_way "x" "y"), "o", "d", "x", 2, out, r. split; [exact N|]. split; [exact Eo|]. split; [lia|]. split; [reflexivity|]. split; [exact R|]. split; [exact Q|]. split.
  - intros X. apply known_b_ok in X. congruence.
  - intros jb Hj X. destruct (H' (proj1 (known_b_ok _) Ek') eq_refl jb Hj) as [Nz H1]. rewrite <- X in H1.
    subst r r'. change (Q2Qc (1 # 1)) with 1%Qc in H1. apply Nz. clear - H1. set (q := p_inner _ _ _ jb) in *. clearbody q.
    assert (Y : (Q2Qc (1 # 11) * q)%Qc = 0%Qc).
    { assert (Z : (1 * q)%Qc = (Q2Qc (10 # 11) * q + Q2Qc (1 # 11) * q)%Qc) by (rewrite <- Qcmult_plus_distr_l; f_equal; apply Qc_is_canon; reflexivity). rewrite Z in H1.
      assert (Y : (Q2Qc (10 # 11) * q + Q2Qc (1 # 11) * q - Q2Qc (10 # 11) * q)%Qc = 0%Qc) by (rewrite <- H1; ring). rewrite <- Y. ring. }
    apply Qcmult_integral in Y as [Y|Y]; auto. apply (f_equal this) in Y. discriminate.
Qed.
Print Assumptions C84_unknown_refuted.

(** If the name of the kept component comes before "sys", the columns are in the other order, and the ratio is
    not the probability that the component works given that the ends are joined. *)
Theorem C84_order_refuted :
  exists f o d kept mb out r, net_file f false false /\ ends_ok f o d kept /\ 1 <= mb /\
    rbd_main bf_path bf_wpath bf_wlen f o d kept mb = Ok out /\ rb_ratio out = Some r /\ all_known (rb_brs out) /\
    forall jb, tells false (node_conn_df f) (inner o d (component_list f)) o d jb ->
      (r * p_inner f o d jb)%Qc <> p_inner f o d (fun x => jb x && (coord x kept =? 1)).
Proof.
  destruct two_way_net as [_ N].
  assert (E100 : rbd_view (rbd_main bf_path bf_wpath bf_wlen (two_way "a" "b") "o" "d" "a" 100) = Some ([[0; 0]; [0; 1]; [1; 1]], [1 # 100; 9 # 100; 9 # 10]%Q, Some (1 # 1)%Q, true)) by (vm_compute; reflexivity).
  assert (Eo : ends_ok (two_way "a" "b") "o" "d" "a") by (apply ends_b_ok; vm_compute; reflexivity).
  apply view_ok in E100 as (out & r & R & Q & Er & Ek).
  exists (two_way "a" "b"), "o", "d", "a", 100, out, r. split; [exact N|]. split; [exact Eo|]. split; [lia|]. split; [exact R|]. split; [exact Q|]. split; [apply known_b_ok; auto|].
  intros jb Hj X. subst r. change (Q2Qc (1 # 1)) with 1%Qc in X.
  assert (J : jb [("a", 0); ("b", 1)] = true).
  { apply (Hj [("a", 0); ("b", 1)]); [right; left; reflexivity|]. exists ["o"; "b"; "d"], ["e2"; "e4"]. eexists. split.
    - eapply route_cons with (b := "b"); [right; left; reflexivity|left; split; reflexivity|]. eapply route_cons with (b := "d"); [do 3 right; left; reflexivity|left; split; reflexivity|]. apply route_one.
    - split; intros n Hn; cbn in Hn; decompose [or] Hn; subst; try contradiction; cbn; congruence. }
  rewrite Qcmult_1_l in X. unfold p_inner, event_prob in X. change (inner "o" "d" (component_list (two_way "a" "b"))) with ["a"; "b"] in X.
  change (arc_states ["a"; "b"]) with [[("a", 0); ("b", 0)]; [("a", 0); ("b", 1)]; [("a", 1); ("b", 0)]; [("a", 1); ("b", 1)]] in X. cbn [filter] in X. rewrite J in X.
  apply (f_equal this) in X. destruct (jb [("a", 0); ("b", 0)]), (jb [("a", 1); ("b", 0)]), (jb [("a", 1); ("b", 1)]); vm_compute in X; discriminate.
Qed.
Print Assumptions C84_order_refuted.

(** ** C85: the two probabilities of the demo routine *)
(** They are the last bounds in the monitor, and they enclose the probability that the ends are not joined;
    if the limits are not met, they are the probabilities that the ends are not joined and are joined. *)
Theorem C85_bounds :
  forall nx_path nx_wpath nx_wlen f dir multi key o d pr max_sf max_nb, nx_path_ok nx_path -> net_file f dir multi ->
    dfind (sysout_setup f) key = Some (o, d) -> In o (component_list f) -> ~ In "sys" (keys (node_conn_df f)) -> node_conn_df f <> [] ->
    pairs_ok (keys (node_conn_df f)) pr -> 1 <= max_sf ->
    exists out, routine_main nx_path nx_wpath nx_wlen f key pr max_sf max_nb = Ok out /\
      ro_pf out = last (m_pf_low (ro_mon out)) 0%Qc /\ (1 - ro_ps out)%Qc = last (m_pf_up (ro_mon out)) 0%Qc /\
      forall jb, tells dir (node_conn_df f) (keys (node_conn_df f)) o d jb ->
        let p E := event_prob (keys (node_conn_df f)) (given (keys (node_conn_df f)) pr) E in
        (ro_pf out <= p (fun x => negb (jb x)))%Qc /\ (ro_ps out <= p jb)%Qc /\
        (2 * 2 ^ Z.of_nat (List.length (node_conn_df f)) <= max_nb -> 2 ^ Z.of_nat (List.length (node_conn_df f)) < max_sf ->
           ro_pf out = p (fun x => negb (jb x)) /\ ro_ps out = p jb).
Proof.
  intros nxp nxw nxl f dir multi key o d prs msf mnb Hn (Hk & NL & Np) Ek Io Hsys Nn Hpr Hm.
  assert (NE : keys (node_conn_df f) <> []) by (destruct (node_conn_df f); [congruence|discriminate]).
  destruct (rou_run nxp nxw nxl Hn f dir multi Hk NL Np prs Hpr msf mnb Hm o d Io key Ek Hsys NE) as (out & E & E1 & E2 & HB).
  exists out. split; auto. split; auto. split; [rewrite E2; ring|]. intros jb Hj p. destruct (HB jb Hj) as (B1 & B2 & B3).
  assert (T : (p jb + p (fun x => negb (jb x)) = 1)%Qc).
  { unfold p. rewrite <- !(given_event _ NL prs Hpr). apply prob_event_compl; apply (pairs_wf _ prs Hpr). }
  change (event_prob _ _ (fun x => negb (jb x))) with (p (fun x => negb (jb x))) in B1, B2, B3. unfold keys in B3. rewrite map_length in B3. split; auto. split; [revert B2 T; generalize (p jb) (p (fun x => negb (jb x))); intros; qc_lra|].
  intros Z1 Z2. destruct (B3 Z1 Z2) as [B4 B5]. split; auto. revert B4 B5 T. generalize (p jb) (p (fun x => negb (jb x))). intros a b -> B5 T.
  assert (ro_ps out = (1 - b)%Qc) as -> by (rewrite <- B5; ring). rewrite <- T. ring.
Qed.
Print Assumptions C85_bounds.

(** demos/routine/batch.py: the network of network_data.json, five arcs *)
Definition rou_file : netfile := mkNetfile ["n1"; "n2"; "n3"; "n4"]
  [en1 "e1" "n1" "n2"; en1 "e2" "n1" "n3"; en1 "e3" "n2" "n3"; en1 "e4" "n2" "n4"; en1 "e5" "n3" "n4"] [("od1", ("n1", "n4"))] None.
Definition rou_pr : dict (Qc * Qc) :=
  map (fun kz => (fst kz, (Q2Qc (snd kz # 100), (1 - Q2Qc (snd kz # 100))%Qc))) [("e1", 1); ("e2", 2); ("e3", 3); ("e4", 4); ("e5", 5)].
Definition pairs_b (names : list string) (pr : dict (Qc * Qc)) : bool :=
  forallb (fun k => match dfind pr k with Some p => Qle_bool 0 (fst p) && Qle_bool 0 (snd p) && qc_eqb (fst p + snd p)%Qc 1%Qc | None => false end) names.
Lemma pairs_b_ok names pr : pairs_b names pr = true -> pairs_ok names pr.
Proof.
  unfold pairs_b. rewrite forallb_forall. intros H k Hk. specialize (H k Hk). destruct (dfind pr k) as [p|]; [|discriminate]. exists p.
  apply andb_true_iff in H as [H H3]. apply andb_true_iff in H as [H1 H2]. apply Qle_bool_iff in H1, H2. apply qc_eqb_eq in H3. split; auto.
Qed.
Lemma rou_net : net_file rou_file false false.
Proof. split; [left; auto|split; [apply nodupb_ok; vm_compute; reflexivity|intros _; apply np_b_ok; vm_compute; reflexivity]]. Qed.
Definition rou_view (r : res rou_out) : option (Q * Q) := match r with Ok o => Some (this (ro_pf o), this (ro_ps o)) | Err _ => None end.
Example C85_ex :
  nx_path_ok bf_path /\ net_file rou_file false false /\ dfind (sysout_setup rou_file) "od1" = Some ("n1", "n4") /\ pairs_ok (keys (node_conn_df rou_file)) rou_pr /\
  2 * 2 ^ Z.of_nat (List.length (node_conn_df rou_file)) <= 100 /\ 2 ^ Z.of_nat (List.length (node_conn_df rou_file)) < 1000 /\
  (exists jb, tells false (node_conn_df rou_file) (keys (node_conn_df rou_file)) "n1" "n4" jb) /\
  rou_view (routine_main bf_path bf_wpath bf_wlen rou_file "od1" rou_pr 1000 100) = Some (559071 # 250000000, 249440929 # 250000000)%Q /\
  (** with few branches: bounds only *)
  rou_view (routine_main bf_path bf_wpath bf_wlen rou_file "od1" rou_pr 1000 3) = Some (0 # 1, 594 # 625)%Q /\
  (** no arcs: no components for the product *)
  routine_main bf_path bf_wpath bf_wlen (mkNetfile ["n1"; "n4"] [] [("od1", ("n1", "n4"))] None) "od1" [] 1000 100 = Err IndexError.
Proof.
  split; [apply bf_path_ok|]. split; [apply rou_net|]. split; [reflexivity|]. split; [apply pairs_b_ok; vm_compute; reflexivity|]. split; [vm_compute; discriminate|]. split; [reflexivity|].
  split; [apply (C84_decidable rou_file false false); [apply rou_net|apply rou_net|cbn; auto]|]. repeat split; vm_compute; reflexivity.
Qed.

(** ** C86: the matrix of the demo n3e3 *)
(** Each state of the arcs is matched by exactly one row; its first code tells whether the ends are joined
    (1), are not joined (0), or that this is not known (2).  If the limits are not met and no arc is certain,
    all is known. *)
Theorem C86_rows :
  forall nx_path nx_wpath nx_wlen f dir multi o d pr max_sf max_nb, nx_path_ok nx_path -> net_file f dir multi -> In o (component_list f) ->
    pairs_ok (keys (node_conn_df f)) pr -> 1 <= max_sf ->
    exists rows, n3e3_main nx_path nx_wpath nx_wlen f o d pr max_sf max_nb = Ok rows /\
      (forall x, In x (arc_states (keys (node_conn_df f))) -> List.length (filter (fun r => row_has (keys (node_conn_df f)) r x) rows) = 1%nat) /\
      (forall r, In r rows -> nth_error r 0 = Some 0 \/ nth_error r 0 = Some 1 \/ nth_error r 0 = Some 2) /\
      (forall r x, In r rows -> In x (arc_states (keys (node_conn_df f))) -> row_has (keys (node_conn_df f)) r x = true ->
         (nth_error r 0 = Some 1 -> joined dir (node_conn_df f) x o d) /\ (nth_error r 0 = Some 0 -> ~ joined dir (node_conn_df f) x o d)) /\
      (2 * 2 ^ Z.of_nat (List.length (node_conn_df f)) <= max_nb -> 2 ^ Z.of_nat (List.length (node_conn_df f)) < max_sf ->
       (forall k p, In k (keys (node_conn_df f)) -> dfind pr k = Some p -> 0 < fst p /\ 0 < snd p)%Qc -> forall r, In r rows -> nth_error r 0 <> Some 2).
Proof.
  intros nxp nxw nxl f dir multi o d prs msf mnb Hn (Hk & NL & Np) Io Hpr Hm.
  destruct (n3_run nxp nxw nxl Hn f dir multi Hk NL Np prs Hpr msf mnb Hm o d Io) as (rows & E & E1 & E2 & E3 & E4).
  exists rows. split; auto. split; auto. split; auto. split; auto. unfold keys in E4. rewrite map_length in E4. exact E4.
Qed.
Print Assumptions C86_rows.

(** demos/n3e3/batch.py 16-24: two parallel arcs; the probabilities of 31 *)
Definition n3_file : netfile := mkNetfile ["n1"; "n2"; "n3"] [en1 "e1" "n1" "n2"; en1 "e2" "n2" "n3"; en1 "e3" "n2" "n3"] [("od1", ("n1", "n3"))] (Some "MultiDiGraph").
Definition n3_pr : dict (Qc * Qc) := map (fun kz => (fst kz, (Q2Qc (snd kz # 10), (1 - Q2Qc (snd kz # 10))%Qc))) [("e1", 1); ("e2", 2); ("e3", 3)].
Example C86_ex :
  nx_path_ok bf_path /\ net_file n3_file true true /\ pairs_ok (keys (node_conn_df n3_file)) n3_pr /\
  (forall k p, In k (keys (node_conn_df n3_file)) -> dfind n3_pr k = Some p -> 0 < fst p /\ 0 < snd p)%Qc /\
  2 * 2 ^ Z.of_nat (List.length (node_conn_df n3_file)) <= 100 /\ 2 ^ Z.of_nat (List.length (node_conn_df n3_file)) < 100 /\
  n3e3_main bf_path bf_wpath bf_wlen n3_file "n1" "n3" n3_pr 100 100 = Ok [[1; 1; 1; 2]; [0; 1; 0; 0]; [1; 1; 0; 1]; [0; 0; 2; 2]] /\
  joined true (node_conn_df n3_file) [("e1", 1); ("e2", 0); ("e3", 1)] "n1" "n3".
Proof.
  split; [apply bf_path_ok|]. split; [split; [do 3 right; auto|split; [apply nodupb_ok; vm_compute; reflexivity|discriminate]]|].
  split; [apply pairs_b_ok; vm_compute; reflexivity|]. split.
  { intros k p Hk. cbn in Hk. decompose [or] Hk; subst; try contradiction; cbn [dfind n3_pr map fst snd String.eqb Ascii.eqb Bool.eqb]; intros E; injection E as <-; split; reflexivity. }
  split; [vm_compute; discriminate|]. split; [reflexivity|]. split; [vm_compute; reflexivity|].
  exists ["n1"; "n2"; "n3"], ["e1"; "e3"]. eexists. split.
  - eapply route_cons with (b := "n2"); [left; reflexivity|left; split; reflexivity|]. eapply route_cons with (b := "n3"); [right; right; left; reflexivity|left; split; reflexivity|]. apply route_one.
  - split; intros n Hn; cbn in Hn; decompose [or] Hn; subst; try contradiction; cbn; congruence.
Qed.
