(** C117: the demo SF, connection in a network whose edges fail with probability 1/2. *)
From Coq Require Import ZArith List String Bool Arith QArith Qcanon Lia.
From Verif Require Import Py PyFacts Num Vari VariFacts Brc SpecBrc BrcFacts Cpm SpecCpm Model ModelFacts Bnb SpecBnb PathModel PathModelFacts Trans SpecTrans NxPaths.
From Verif Require Import Config SpecConfig ConfigFacts ConfigPaths DemoNet SpecDemo TwoNet PropDemo SfNet SfRun.
Import ListNotations.
Open Scope string_scope.
Open Scope Z_scope.
Open Scope list_scope.

(** The variables are returned unchanged.  Each row has a code from 0 to 2 for the system and for each edge,
    each state of the edges is matched by exactly one row, and the first code of the row tells whether the
    ends are joined (1), are not joined (0), or that this is not known (2).  If the limits are not met all is
    known: no edge is certain. *)
Theorem C117_rows :
  forall nx_path nx_wpath nx_wlen f dir multi o d max_sf max_nb, nx_path_ok nx_path -> net_file f dir multi -> In o (component_list f) -> 1 <= max_sf ->
    exists rows, sf_main nx_path nx_wpath nx_wlen f o d max_sf max_nb =
        Ok (rows, map (fun k => (k, mk_variable k [VStr "f"; VStr "s"] None)) (keys (node_conn_df f))) /\
      (forall r, In r rows -> List.length r = S (List.length (node_conn_df f)) /\ forall c, In c r -> 0 <= c <= 2) /\
      (forall x, In x (arc_states (keys (node_conn_df f))) -> List.length (filter (fun r => row_has (keys (node_conn_df f)) r x) rows) = 1%nat) /\
      (forall r x, In r rows -> In x (arc_states (keys (node_conn_df f))) -> row_has (keys (node_conn_df f)) r x = true ->
         (nth_error r 0 = Some 1 -> joined dir (node_conn_df f) x o d) /\ (nth_error r 0 = Some 0 -> ~ joined dir (node_conn_df f) x o d)) /\
      (2 * 2 ^ Z.of_nat (List.length (node_conn_df f)) <= max_nb -> 2 ^ Z.of_nat (List.length (node_conn_df f)) < max_sf ->
       forall r, In r rows -> nth_error r 0 <> Some 2).
Proof.
  intros nxp nxw nxl f dir multi o d msf mnb Hn (Hk & NL & Np) Io Hm.
  destruct (sf_run nxp nxw nxl Hn f dir multi Hk NL Np msf mnb Hm o d Io) as (rows & E & E1 & E2 & E3 & E4).
  unfold keys in E1, E4. rewrite map_length in E1, E4. exists rows. split; [rewrite E; reflexivity|]. split; auto.
Qed.
Print Assumptions C117_rows.

(** states of the edges that a row stands for: each edge with the code 2 is free *)
Definition free (r : list Z) : nat := 2 ^ List.length (filter (Z.eqb 2) (tl r)).
Definition coded_as (c : Z) (r : list Z) : bool := match r with z :: _ => z =? c | [] => false end.

(** Counting states in the matrix: the rows stand for all 2^n states, those with the code 1 for at most as many
    states as there are with the ends joined and those with the code 0 for at most as many as there are without.
    If the limits are not met both are equal, so that the matrix gives the probability of connection with edges
    that fail with probability 1/2. *)
Theorem C117_count :
  forall nx_path nx_wpath nx_wlen f dir multi o d max_sf max_nb rows vs jb, nx_path_ok nx_path -> net_file f dir multi -> In o (component_list f) -> 1 <= max_sf ->
    tells dir (node_conn_df f) (keys (node_conn_df f)) o d jb ->
    sf_main nx_path nx_wpath nx_wlen f o d max_sf max_nb = Ok (rows, vs) ->
    list_sum (map free rows) = (2 ^ List.length (node_conn_df f))%nat /\
    (list_sum (map free (filter (coded_as 1) rows)) <= List.length (filter jb (arc_states (keys (node_conn_df f)))))%nat /\
    (list_sum (map free (filter (coded_as 0) rows)) <= List.length (filter (fun x => negb (jb x)) (arc_states (keys (node_conn_df f)))))%nat /\
    (2 * 2 ^ Z.of_nat (List.length (node_conn_df f)) <= max_nb -> 2 ^ Z.of_nat (List.length (node_conn_df f)) < max_sf ->
     list_sum (map free (filter (coded_as 1) rows)) = List.length (filter jb (arc_states (keys (node_conn_df f)))) /\
     list_sum (map free (filter (coded_as 0) rows)) = List.length (filter (fun x => negb (jb x)) (arc_states (keys (node_conn_df f))))).
Proof.
  intros nxp nxw nxl f dir multi o d msf mnb rows vs jb Hn Hf Io Hm Ht E.
  destruct (C117_rows nxp nxw nxl f dir multi o d msf mnb Hn Hf Io Hm) as (rows' & E' & H1 & H2 & H3 & H4).
  rewrite E in E'. assert (X : rows' = rows) by congruence. subst rows'. clear E E' vs.
  destruct Hf as (_ & NL & _). set (K := keys (node_conn_df f)) in *. set (X := arc_states K) in *.
  assert (LK : List.length K = List.length (node_conn_df f)) by apply map_length.
  assert (Fr : forall R, incl R rows -> list_sum (map free R) = list_sum (map (fun x => List.length (filter (fun r => row_has K r x) R)) X)).
  { intros R HR. rewrite <- (sum_swap (row_has K)). f_equal. apply map_ext_in. intros r Hr. destruct (H1 r (HR r Hr)) as [L Rg]. destruct r as [|c cs]; [discriminate|].
    unfold free. cbn [tl]. symmetry. apply row_states; auto; [cbn in L; lia|]. intros z Hz. apply Rg. right; auto. }
  assert (LX : List.length X = (2 ^ List.length (node_conn_df f))%nat).
  { rewrite <- LK. unfold X. generalize K. clear. intros l. induction l as [|k l IH]; auto. unfold arc_states in *. cbn [map space]. change (zrange 0 2) with [0; 1]. cbn [flat_map].
    rewrite app_nil_r, app_length, !map_length. cbn [List.length Nat.pow]. match goal with |- (?a + ?a)%nat = _ => change (a = 2 ^ List.length l)%nat in IH; rewrite IH end. lia. }
  assert (One : forall p x, In x X -> (List.length (filter (fun r => row_has K r x) (filter p rows)) <= 1)%nat).
  { intros p x Hx. rewrite <- (H2 x Hx). clear. induction rows as [|r l IH]; auto. cbn [filter]. destruct (p r); cbn [filter]; destruct (row_has K r x); cbn [List.length]; lia. }
  assert (Le : forall c q, (forall r x, In r rows -> In x X -> row_has K r x = true -> coded_as c r = true -> q x = true) ->
    (list_sum (map free (filter (coded_as c) rows)) <= List.length (filter q X))%nat).
  { intros c q Hq. rewrite Fr by (intros r Hr; apply filter_In in Hr; tauto). rewrite <- sum_ind. apply sum_le. intros x Hx. specialize (One (coded_as c) x Hx).
    destruct (filter (fun r => row_has K r x) (filter (coded_as c) rows)) as [|r l] eqn:Ef; [cbn; lia|].
    assert (Hr : In r (filter (fun r => row_has K r x) (filter (coded_as c) rows))) by (rewrite Ef; left; auto).
    apply filter_In in Hr as [Hr Rx]. apply filter_In in Hr as [Hr Cr]. rewrite (Hq r x Hr Hx Rx Cr). auto. }
  assert (C1 : forall r c, coded_as c r = true <-> nth_error r 0 = Some c).
  { intros [|z r] c; cbn; [split; discriminate|]. rewrite Z.eqb_eq. split; [intros ->; auto|intros [= ->]; auto]. }
  assert (Q1 : forall r x, In r rows -> In x X -> row_has K r x = true -> coded_as 1 r = true -> jb x = true).
  { intros r x Hr Hx Rx Cr. apply Ht; auto. apply (H3 r x Hr Hx Rx), C1, Cr. }
  assert (Q0 : forall r x, In r rows -> In x X -> row_has K r x = true -> coded_as 0 r = true -> negb (jb x) = true).
  { intros r x Hr Hx Rx Cr. apply negb_true_iff. destruct (jb x) eqn:J; auto. exfalso. apply (proj2 (H3 r x Hr Hx Rx)); [apply C1, Cr|]. apply Ht; auto. }
  split; [|split; [apply Le; auto|split; [apply Le; auto|]]].
  - rewrite Fr by (intros r Hr; auto). rewrite <- LX. transitivity (list_sum (map (fun _ => 1%nat) X)).
    + f_equal. apply map_ext_in. intros x Hx. apply H2; auto.
    + clear. induction X; cbn; auto.
  - intros Z1 Z2. assert (Kn := H4 Z1 Z2).
    assert (Ge : forall c q, (forall r x, In r rows -> In x X -> row_has K r x = true -> q x = true -> coded_as c r = true) ->
      (List.length (filter q X) <= list_sum (map free (filter (coded_as c) rows)))%nat).
    { intros c q Hq. rewrite Fr by (intros r Hr; apply filter_In in Hr; tauto). rewrite <- sum_ind. apply sum_le. intros x Hx. destruct (q x) eqn:Qx; [|lia].
      assert (Hl := H2 x Hx). destruct (filter (fun r => row_has K r x) rows) as [|r l] eqn:Ef; [discriminate|].
      assert (Hr : In r (filter (fun r => row_has K r x) rows)) by (rewrite Ef; left; auto). apply filter_In in Hr as [Hr Rx].
      assert (Hr' : In r (filter (fun r => row_has K r x) (filter (coded_as c) rows))) by (apply filter_In; split; auto; apply filter_In; split; auto; apply (Hq r x); auto).
      destruct (filter (fun r => row_has K r x) (filter (coded_as c) rows)); [destruct Hr'|cbn; lia]. }
    assert (Cs : forall r, In r rows -> coded_as 0 r = true \/ coded_as 1 r = true).
    { intros r Hr. destruct (H1 r Hr) as [L Rg]. destruct r as [|c r]; [discriminate|]. specialize (Rg c (or_introl eq_refl)). specialize (Kn _ Hr). cbn in Kn |- *.
      rewrite !Z.eqb_eq. assert (c <> 2) by congruence. lia. }
    split; apply Nat.le_antisymm; try (apply Le; auto); apply Ge; intros r x Hr Hx Rx Qx; destruct (Cs r Hr) as [Y|Y]; auto.
    + specialize (Q0 r x Hr Hx Rx Y). rewrite Qx in Q0. discriminate.
    + rewrite (Q1 r x Hr Hx Rx Y) in Qx. discriminate.
Qed.
Print Assumptions C117_count.

(** Nodes and edges as in the file of the demo, without directions: a square 13-1-2-3 with the chord 1-3. *)
Definition sf_en (k a b : string) : string * entry := (k, mkEntry a b 1%Qc).
Definition sf_file : netfile :=
  mkNetfile ["1"; "2"; "3"; "13"] [sf_en "e1_2" "1" "2"; sf_en "e1_3" "1" "3"; sf_en "e2_3" "2" "3"; sf_en "e1_13" "1" "13"; sf_en "e3_13" "3" "13"] [("od1", ("1", "13"))] None.
Definition sf_rows : list (list Z) := match sf_main bf_path bf_wpath bf_wlen sf_file "13" "2" 100 1000 with Ok (r, _) => r | Err _ => [] end.
Example C117_ex :
  nx_path_ok bf_path /\ net_file sf_file false false /\ In "13" (component_list sf_file) /\ 2 * 2 ^ Z.of_nat (List.length (node_conn_df sf_file)) <= 1000 /\
  2 ^ Z.of_nat (List.length (node_conn_df sf_file)) < 100 /\ (exists jb, tells false (node_conn_df sf_file) (keys (node_conn_df sf_file)) "13" "2" jb) /\
  map fst (match sf_main bf_path bf_wpath bf_wlen sf_file "13" "2" 100 1000 with Ok (_, v) => v | Err _ => [] end) = ["e1_2"; "e1_3"; "e2_3"; "e1_13"; "e3_13"] /\
  list_sum (map free (filter (coded_as 1) sf_rows)) = 16%nat /\ list_sum (map free (filter (coded_as 0) sf_rows)) = 16%nat /\
  joined false (node_conn_df sf_file) [("e1_2", 1); ("e1_3", 1); ("e2_3", 0); ("e1_13", 0); ("e3_13", 1)] "13" "2" /\
  list_sum (map free (filter (coded_as 2) (match sf_main bf_path bf_wpath bf_wlen sf_file "13" "2" 3 1000 with Ok (r, _) => r | Err _ => [] end))) = 18%nat.
Proof.
  split; [apply bf_path_ok|].
  assert (Hf : net_file sf_file false false).
  { split; [left; auto|]. split; [apply nodupb_ok; vm_compute; reflexivity|]. intros _. apply np_b_ok. vm_compute. reflexivity. }
  split; auto.
  split; [cbn; auto 10|]. split; [vm_compute; discriminate|]. split; [vm_compute; reflexivity|].
  split; [apply (C84_decidable sf_file false false _ _ _ Hf); [apply nodupb_ok; vm_compute; reflexivity|cbn; auto 10]|].
  do 3 (split; [vm_compute; reflexivity|]).
  split; [|vm_compute; reflexivity].
  exists ["13"; "3"; "1"; "2"], ["e3_13"; "e1_3"; "e1_2"]. eexists. split.
  - eapply route_cons with (b := "3"); [right; right; right; right; left; reflexivity|right; split; [reflexivity|split; reflexivity]|].
    eapply route_cons with (b := "1"); [right; left; reflexivity|right; split; [reflexivity|split; reflexivity]|].
    eapply route_cons with (b := "2"); [left; reflexivity|left; split; reflexivity|]. apply route_one.
  - split; intros n Hn; cbn in Hn; decompose [or] Hn; subst; try contradiction; cbn; congruence.
Qed.
