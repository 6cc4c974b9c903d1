(** C47-C49: the legacy branch and bound. *)
From Coq Require Import ZArith List String Bool Arith QArith Qcanon Lia Permutation Sorting.
From Verif Require Import Py PyFacts Num Vari VariFacts Cpm SpecCpm Legacy SpecLegacy LegacyFacts.
Import ListNotations.
Open Scope string_scope.
Open Scope Z_scope.
Open Scope list_scope.

Lemma lsize_prod mx : (forall m, In m mx -> 1 <= m) -> lsize (map (fun _ => 1) mx) mx = Z.to_nat (fold_right Z.mul 1 mx) /\ 1 <= fold_right Z.mul 1 mx.
Proof.
  induction mx as [|m l IH]; intros H; cbn [map lsize fold_right]; [split; [reflexivity|lia]|]. destruct IH as [-> P]; [intros; apply H; cbn; auto|].
  assert (1 <= m) by (apply H; cbn; auto). split; [|nia]. rewrite Z2Nat.inj_mul by lia. f_equal. lia.
Qed.

(** For every system function and admissible branching functions the search ends, and its
    branches partition the vectors, with the same state at both ends. *)
Theorem C47_partition :
  forall V R (sys_fn : list Z -> res (Z * V * R)) next_comp_fn next_state_fn (arcs : list string) (mx : list Z) (fuel : nat),
    NoDup arcs -> List.length mx = List.length arcs -> (forall m, In m mx -> 1 <= m) ->
    (forall x, vec_ok mx x -> exists r, sys_fn x = Ok r) ->
    (forall cand rd ru, cand <> [] -> incl cand arcs -> exists c, next_comp_fn cand rd ru = Ok c /\ In c cand) ->
    (forall i c m d u rd ru, nth_error arcs i = Some c -> nth_error mx i = Some m -> 1 <= d < u -> u <= m ->
       exists s, next_state_fn c [d; u] rd ru = Ok s /\ d <= s < u) ->
    (2 * Z.to_nat (fold_right Z.mul 1%Z mx) <= fuel)%nat ->
    exists brs, run_bnb V R sys_fn next_comp_fn next_state_fn arcs fuel mx = Ok brs /\
      (forall b, In b brs -> l_complete b = true /\ vec_ok mx (l_down b) /\ vec_ok mx (l_up b) /\ Forall2 Z.le (l_down b) (l_up b) /\
         exists s vd vu rd ru, sys_fn (l_down b) = Ok (s, vd, rd) /\ sys_fn (l_up b) = Ok (s, vu, ru) /\
           l_dstate b = s /\ l_ustate b = s /\ l_dval b = Some vd /\ l_uval b = Some vu) /\
      forall x, vec_ok mx x -> lcovered brs x = 1%nat.
Proof.
  intros V R sys_fn nc ns arcs mx fuel Na La Hm Hs Hc Hn Hf.
  destruct (run_ok V R sys_fn nc ns arcs mx Na La Hs Hc Hn fuel Hm) as (brs & E & Hb & Cv); [rewrite (proj1 (lsize_prod mx Hm)); exact Hf|].
  exists brs. split; [exact E|]. split; [|exact Cv]. intros b H. destruct (Hb b H) as [(B1 & B2 & B3 & B4) B5]. exact (conj B5 (conj B1 (conj B2 (conj B3 (B4 B5))))).
Qed.
Print Assumptions C47_partition.

(** a vector of a branch has the state of the branch when the system function is coherent *)
Lemma between_le lo up x : between lo up x = true -> Forall2 Z.le lo x /\ Forall2 Z.le x up.
Proof.
  revert up x. induction lo as [|l lo IH]; intros [|u up] [|v x] H; try discriminate; auto. cbn [between] in H.
  apply andb_true_iff in H as [H1 H2]. apply andb_true_iff in H1 as [H0 H1]. apply Z.leb_le in H0, H1. destruct (IH _ _ H2). auto.
Qed.
Theorem C47_coherent :
  forall V R (sys_fn : list Z -> res (Z * V * R)) next_comp_fn next_state_fn (arcs : list string) (mx : list Z) (fuel : nat),
    NoDup arcs -> List.length mx = List.length arcs -> (forall m, In m mx -> 1 <= m) ->
    (forall x, vec_ok mx x -> exists r, sys_fn x = Ok r) ->
    (forall x y rx ry, vec_ok mx x -> vec_ok mx y -> Forall2 Z.le x y -> sys_fn x = Ok rx -> sys_fn y = Ok ry -> fst (fst ry) <= fst (fst rx)) ->
    (forall cand rd ru, cand <> [] -> incl cand arcs -> exists c, next_comp_fn cand rd ru = Ok c /\ In c cand) ->
    (forall i c m d u rd ru, nth_error arcs i = Some c -> nth_error mx i = Some m -> 1 <= d < u -> u <= m ->
       exists s, next_state_fn c [d; u] rd ru = Ok s /\ d <= s < u) ->
    (2 * Z.to_nat (fold_right Z.mul 1%Z mx) <= fuel)%nat ->
    exists brs, run_bnb V R sys_fn next_comp_fn next_state_fn arcs fuel mx = Ok brs /\
      forall x r, vec_ok mx x -> sys_fn x = Ok r ->
        lcovered brs x = 1%nat /\ forall b, In b brs -> between (l_down b) (l_up b) x = true -> l_ustate b = fst (fst r).
Proof.
  intros V R sys_fn nc ns arcs mx fuel Na La Hm Hs Hmon Hc Hn Hf.
  destruct (C47_partition V R sys_fn nc ns arcs mx fuel Na La Hm Hs Hc Hn Hf) as (brs & E & Hb & Cv).
  exists brs. split; [exact E|]. intros x r Vx Er. split; [auto|]. intros b H Bt.
  destruct (Hb b H) as (_ & B1 & B2 & _ & s & vd & vu & rd & ru & Ed & Eu & _ & -> & _). apply between_le in Bt as [L1 L2].
  assert (P := Hmon _ _ _ _ B1 Vx L1 Ed Er). assert (Q := Hmon _ _ _ _ Vx B2 L2 Er Eu). cbn [fst] in *. lia.
Qed.
Print Assumptions C47_coherent.

(** three states per component, split below the lowest state; state 0 when the total is at least 4 *)
Definition gx_sys (x : list Z) : res (Z * unit * unit) := Ok (if 4 <=? fold_right Z.add 0 x then 0 else 1, tt, tt).
Definition gx_comp (cand : list string) (_ _ : unit) : res string := py_index cand 0.
Definition gx_state (c : string) (bd : list Z) (_ _ : unit) : res Z := py_index bd 0.
Example C47_partition_ex :
  (forall cand rd ru, cand <> [] -> incl cand ["a"; "b"] -> exists c, gx_comp cand rd ru = Ok c /\ In c cand) /\
  (forall i c m d u rd ru, nth_error ["a"; "b"] i = Some c -> nth_error [3; 3] i = Some m -> 1 <= d < u -> u <= m ->
     exists s, gx_state c [d; u] rd ru = Ok s /\ d <= s < u) /\
  (forall x y rx ry, vec_ok [3; 3] x -> vec_ok [3; 3] y -> Forall2 Z.le x y -> gx_sys x = Ok rx -> gx_sys y = Ok ry -> fst (fst ry) <= fst (fst rx)) /\
  exists brs, run_bnb unit unit gx_sys gx_comp gx_state ["a"; "b"] 18 [3; 3] = Ok brs /\
    map (fun b => (l_down b, l_up b, l_ustate b)) brs = [([1; 1], [1; 1], 1); ([3; 1], [3; 3], 0); ([1; 2], [1; 2], 1); ([1; 3], [1; 3], 0); ([2; 1], [2; 1], 1); ([2; 2], [2; 3], 0)].
Proof.
  split; [intros [|c cand] rd ru N I; [congruence|exists c; split; [reflexivity|cbn; auto]]|]. split.
  - intros i c m d u rd ru _ _ H _. exists d. split; [reflexivity|lia].
  - split.
    + intros x y rx ry Vx Vy L E1 E2. injection E1 as <-. injection E2 as <-. cbn [fst].
      assert (fold_right Z.add 0 x <= fold_right Z.add 0 y) by (clear - L; induction L; cbn; lia).
      destruct (Z.leb_spec 4 (fold_right Z.add 0 x)), (Z.leb_spec 4 (fold_right Z.add 0 y)); lia.
    + eexists. split; [vm_compute; reflexivity|]. reflexivity.
Qed.

(** The functions of bnb_fns.py with two states per arc. *)
Lemma bnb_mono paths times arcs mx x y rx ry : (List.length times <= List.length paths)%nat -> List.length mx = List.length arcs -> (forall m, In m mx -> m = 2) ->
  vec_ok mx x -> vec_ok mx y -> Forall2 Z.le x y -> bnb_sys paths times arcs 2 x = Ok rx -> bnb_sys paths times arcs 2 y = Ok ry -> fst (fst ry) <= fst (fst rx).
Proof.
  intros Hl Lm Hm Vx Vy Hxy Ex Ey. assert (Lx := vec_ok_length _ _ Vx). assert (Ly := vec_ok_length _ _ Vy).
  assert (Av : forall p, available arcs 2 x p -> available arcs 2 y p).
  { intros p H a Ha. destruct (H a Ha) as (i & E1 & E2). exists i. split; auto. destruct (Forall2_nth _ _ _ i 2 Hxy E2) as (v & Ev & Le).
    destruct (nth_error mx i) as [m|] eqn:Em.
    - destruct (Forall2_nth _ _ _ i m Vy Em) as (v' & Ev' & B). rewrite (Hm m) in B by (apply (nth_error_In _ _ Em)). rewrite Ev. f_equal. rewrite Ev in Ev'. injection Ev' as <-. lia.
    - exfalso. apply nth_error_None in Em. assert (i < List.length x)%nat by (apply nth_error_Some; congruence). lia. }
  destruct (bnb_sys_ok paths times arcs 2 y Hl ltac:(lia)) as [(j & q & t' & Eq & Et' & Aq & Mq & E2)|[Nq E2]]; rewrite E2 in Ey; injection Ey as <-; cbn [fst];
  (destruct (bnb_sys_ok paths times arcs 2 x Hl ltac:(lia)) as [(i & p & t & Ep & Et & Ap & Mp & E1)|[Np E1]]; rewrite E1 in Ex; injection Ex as <-; cbn [fst]).
  - assert (~ (i < j)%nat); [|lia]. intros L. apply (Mq i p L); auto. rewrite <- (firstn_skipn (List.length times) paths). rewrite nth_error_app1; auto.
    apply nth_error_Some. congruence.
  - assert (j < List.length (firstn (List.length times) paths))%nat by (apply nth_error_Some; congruence). rewrite firstn_length in H. lia.
  - exfalso. apply (Nq p); [apply (nth_error_In _ _ Ep)|auto].
  - lia.
Qed.
Theorem C47_bnb_fns :
  forall paths times arcs fuel, NoDup arcs -> (List.length times <= List.length paths)%nat -> (2 * 2 ^ List.length arcs <= fuel)%nat ->
    let mx := map (fun _ => 2) arcs in
    exists brs, run_bnb value (list string) (bnb_sys paths times arcs 2) (fun cand _ _ => bnb_next_comp paths arcs cand)
                  (fun c bd _ _ => bnb_next_state c bd) arcs fuel mx = Ok brs /\
      (forall b, In b brs -> l_complete b = true /\ l_dstate b = l_ustate b) /\
      forall x, vec_ok mx x -> lcovered brs x = 1%nat /\ exists s v p, bnb_sys paths times arcs 2 x = Ok (s, v, p) /\
        forall b, In b brs -> between (l_down b) (l_up b) x = true -> l_ustate b = s.
Proof.
  intros paths times arcs fuel Na Hl Hf mx.
  assert (Lm : List.length mx = List.length arcs) by (unfold mx; apply map_length).
  assert (Hm2 : forall m, In m mx -> m = 2) by (unfold mx; intros m H; apply in_map_iff in H as (? & <- & _); auto).
  assert (Hm : forall m, In m mx -> 1 <= m) by (intros m H; rewrite (Hm2 m H); lia).
  assert (Hs : forall x, vec_ok mx x -> exists r, bnb_sys paths times arcs 2 x = Ok r).
  { intros x Vx. assert (Lx := vec_ok_length _ _ Vx). destruct (bnb_sys_ok paths times arcs 2 x Hl ltac:(lia)) as [(i & p & t & _ & _ & _ & _ & E)|[_ E]]; eauto. }
  assert (Hc : forall cand (rd ru : list string), cand <> [] -> incl cand arcs -> exists c, bnb_next_comp paths arcs cand = Ok c /\ In c cand).
  { intros [|c cand] _ _ N I; [congruence|]. exists c. split; [apply next_comp_first; right; apply I; cbn; auto|cbn; auto]. }
  assert (Hn : forall i c m d u (rd ru : list string), nth_error arcs i = Some c -> nth_error mx i = Some m -> 1 <= d < u -> u <= m ->
       exists s, bnb_next_state c [d; u] = Ok s /\ d <= s < u).
  { intros i c m d u _ _ _ Em H1 H2. apply nth_error_In, Hm2 in Em. subst m. exists 1. split; [reflexivity|lia]. }
  assert (Hfu : (2 * Z.to_nat (fold_right Z.mul 1%Z mx) <= fuel)%nat).
  { replace (fold_right Z.mul 1 mx) with (2 ^ Z.of_nat (List.length arcs)).
    - rewrite Z2Nat.inj_pow by lia. rewrite Nat2Z.id. exact Hf.
    - unfold mx. clear. induction arcs as [|a l IH]; [reflexivity|]. cbn [map fold_right List.length]. rewrite <- IH, Nat2Z.inj_succ, Z.pow_succ_r by lia. auto. }
  destruct (C47_partition value (list string) (bnb_sys paths times arcs 2) (fun cand _ _ => bnb_next_comp paths arcs cand) (fun c bd _ _ => bnb_next_state c bd) arcs mx fuel Na Lm Hm Hs Hc Hn Hfu) as (brs & E & Hb & Cv).
  destruct (C47_coherent value (list string) (bnb_sys paths times arcs 2) (fun cand _ _ => bnb_next_comp paths arcs cand) (fun c bd _ _ => bnb_next_state c bd) arcs mx fuel Na Lm Hm Hs
              (fun x y rx ry => bnb_mono paths times arcs mx x y rx ry Hl Lm Hm2) Hc Hn Hfu) as (brs' & E' & Hx).
  assert (brs' = brs) by congruence. subst brs'. exists brs. split; [exact E|]. split.
  - intros b H. destruct (Hb b H) as (B & _ & _ & _ & s & _ & _ & _ & _ & _ & _ & -> & -> & _). auto.
  - intros x Vx. destruct (Hs x Vx) as [[[s v] p] Es]. destruct (Hx x _ Vx Es) as [C B]. split; auto. exists s, v, p. auto.
Qed.
Print Assumptions C47_bnb_fns.

(** the example of tests/test_branch.py 26 with fewer spare arcs *)
Definition lq (n : Z) (d : positive) : Qc := Q2Qc (n # d).
Definition lx_paths := [["2"]; ["3"; "1"]].
Definition lx_times := [lq 901 10000; lq 2401 10000].
Definition lx_arcs := ["1"; "2"; "3"; "4"].
Definition show_lb {V} (b : lbranch V) := (l_down b, l_up b, l_dstate b, l_ustate b).
Definition lx_run fuel := run_bnb value (list string) (bnb_sys lx_paths lx_times lx_arcs 2) (fun cand _ _ => bnb_next_comp lx_paths lx_arcs cand)
                  (fun c bd _ _ => bnb_next_state c bd) lx_arcs fuel (map (fun _ => 2) lx_arcs).
Example C47_ex :
  NoDup lx_arcs /\ (List.length lx_times <= List.length lx_paths)%nat /\ (2 * 2 ^ List.length lx_arcs <= 32)%nat /\
  (r <- lx_run 32 ;; Ok (map show_lb r)) =
    Ok [([1; 1; 1; 1], [1; 1; 2; 2], 2, 2); ([1; 2; 1; 1], [1; 2; 2; 2], 0, 0); ([2; 2; 1; 1], [2; 2; 2; 2], 0, 0);
        ([2; 1; 1; 1], [2; 1; 1; 2], 2, 2); ([2; 1; 2; 1], [2; 1; 2; 2], 1, 1)].
Proof.
  split; [repeat constructor; cbn; intuition congruence|]. split; [cbn; lia|]. split; [cbn; lia|]. vm_compute. reflexivity.
Qed.

(** Three states per arc: [bnb_next_state] always answers 1, which does not split the
    bounds 2 and 3: the search never ends. *)
Theorem C47_three_states_refuted :
  forall fuel, run_bnb value (list string) (bnb_sys [["a"]] [lq 1 1] ["a"] 3) (fun cand _ _ => bnb_next_comp [["a"]] ["a"] cand)
                  (fun c bd _ _ => bnb_next_state c bd) ["a"] fuel [3] = Err OutOfFuel.
Proof.
  set (sf := bnb_sys [["a"]] [lq 1 1] ["a"] 3).
  assert (S1 : exists v r, sf [1] = Ok (1, v, r)) by (do 2 eexists; vm_compute; reflexivity).
  assert (S2 : exists v r, sf [2] = Ok (1, v, r)) by (do 2 eexists; vm_compute; reflexivity).
  assert (S3 : exists v r, sf [3] = Ok (0, v, r)) by (do 2 eexists; vm_compute; reflexivity).
  destruct S1 as (v1 & r1 & S1). destruct S2 as (v2 & r2 & S2). destruct S3 as (v3 & r3 & S3).
  set (NC := fun cand (_ _ : list string) => bnb_next_comp [["a"]] ["a"] cand). set (NS := fun c bd (_ _ : list string) => bnb_next_state c bd).
  set (L := bnb_loop value (list string) sf NC NS ["a"]).
  set (bad := mkLB (V := value) [2] [3] false 1 1 None None).
  assert (G : forall fuel pre, (forall b, In b pre -> l_complete b = true) -> L fuel (pre ++ [bad]) [List.length pre] = Err OutOfFuel).
  { induction fuel as [fuel IH] using lt_wf_ind. intros pre Hp. destruct fuel as [|f]; [reflexivity|].
    unfold L. cbn [bnb_loop]. rewrite (py_index_nth _ _ bad) by (rewrite nth_error_app2, Nat.sub_diag by lia; auto). cbn [bind bad l_down l_up].
    rewrite S2, S3. cbn [bind fst snd Z.eqb]. change (cand_comps ["a"] [2] [3]) with (Ok ["a"]). cbn [bind].
    change (NC ["a"] r2 r3) with (Ok "a"). cbn [bind]. change (py_list_index (String.eqb "a") ["a"]) with (Ok 0). cbn [bind].
    change (py_index [2] 0) with (Ok 2). change (py_index [3] 0) with (Ok 3). cbn [bind]. change (NS "a" [2; 3] r2 r3) with (Ok 1). cbn [bind].
    fold bad. rewrite del_nth_mid, app_nil_r. cbn [Z.to_nat]. rewrite !set_nth_0. change (1 + 1) with 2. cbn [l_complete l_dstate l_ustate l_dval l_uval bad].
    set (inv := mkLB [2] [1] _ _ _ _ _). fold bad.
    assert (Eix : get_idx (pre ++ [inv; bad]) = [List.length pre; S (List.length pre)]).
    { unfold get_idx. rewrite idx_from_app, (idx_from_all pre) by auto. reflexivity. }
    rewrite Eix. destruct f as [|f]; [reflexivity|]. cbn [bnb_loop]. rewrite (py_index_nth _ _ inv) by (rewrite nth_error_app2, Nat.sub_diag by lia; auto).
    cbn [bind inv l_down l_up]. rewrite S2, S1. cbn [bind fst snd]. rewrite Z.eqb_refl. rewrite set_nth_mid. set (ib := mkLB _ _ true _ _ _ _).
    replace (pre ++ [ib; bad]) with ((pre ++ [ib]) ++ [bad]) by (rewrite <- app_assoc; reflexivity).
    replace (S (List.length pre)) with (List.length (pre ++ [ib])) by (rewrite app_length; cbn; lia).
    apply IH; [lia|]. intros b H. apply in_app_iff in H as [H|[<-|[]]]; auto. }
  intros fuel. unfold run_bnb. cbn [List.length Nat.eqb map]. fold L. set (b0 := mkLB [1] [3] _ _ _ _ _). change (get_idx [b0]) with [0%nat].
  destruct fuel as [|f]; [reflexivity|]. unfold L. cbn [bnb_loop]. change (py_index [b0] (Z.of_nat 0)) with (Ok b0). cbn [bind b0 l_down l_up].
  rewrite S1, S3. cbn [bind fst snd Z.eqb]. change (cand_comps ["a"] [1] [3]) with (Ok ["a"]). cbn [bind].
  change (NC ["a"] r1 r3) with (Ok "a"). cbn [bind]. change (py_list_index (String.eqb "a") ["a"]) with (Ok 0). cbn [bind].
  change (py_index [1] 0) with (Ok 1). change (py_index [3] 0) with (Ok 3). cbn [bind]. change (NS "a" [1; 3] r1 r3) with (Ok 1). cbn [bind].
  cbn [Z.to_nat]. rewrite !set_nth_0. change (1 + 1) with 2. cbn [l_complete l_dstate l_ustate l_dval l_uval b0].
  change (del_nth [b0] 0) with (@nil (lbranch value)). cbn [app]. set (b1 := mkLB [1] [1] _ _ _ _ _). fold bad.
  change (get_idx [b1; bad]) with [0%nat; 1%nat]. destruct f as [|f]; [reflexivity|]. cbn [bnb_loop]. change (py_index [b1; bad] (Z.of_nat 0)) with (Ok b1).
  cbn [bind b1 l_down l_up]. rewrite S1. cbn [bind fst snd]. rewrite Z.eqb_refl. change 0%nat with (List.length (@nil (lbranch value))).
  change [b1; bad] with ([] ++ b1 :: [bad]). rewrite set_nth_mid. cbn [app]. set (b2 := mkLB _ _ true _ _ _ _).
  change [b2; bad] with ([b2] ++ [bad]). change [1%nat] with [List.length [b2]]. apply G. intros b [<-|[]]. reflexivity.
Qed.
Print Assumptions C47_three_states_refuted.

(** The order by paths in [bnb_next_comp] has no effect: the answer is always the first
    candidate. *)
Theorem C47_next_comp_first :
  forall paths arcs c rest, In c (List.concat paths) \/ In c arcs -> bnb_next_comp paths arcs (c :: rest) = Ok c.
Proof. exact next_comp_first. Qed.
Print Assumptions C47_next_comp_first.
Example C47_next_comp_first_ex : bnb_next_comp lx_paths lx_arcs ["1"; "2"; "3"; "4"] = Ok "1" /\ In "2" (hd [] lx_paths).
Proof. split; [vm_compute; reflexivity|cbn; auto]. Qed.

(** C48.  The path is the first available one in the order given; the time is the one at
    that position after sorting. *)
Theorem C48_first :
  forall paths times arcs mxs x, List.length times = List.length paths -> List.length x = List.length arcs ->
    (exists i p t, nth_error paths i = Some p /\ nth_error (sort_desc qc_ltb times) i = Some t /\ available arcs mxs x p /\
       (forall j q, (j < i)%nat -> nth_error paths j = Some q -> ~ available arcs mxs x q) /\ bnb_sys paths times arcs mxs x = Ok (Z.of_nat i, VNum t, p)) \/
    ((forall q, In q paths -> ~ available arcs mxs x q) /\ bnb_sys paths times arcs mxs x = Ok (Z.of_nat (List.length paths), VInf, [])).
Proof.
  intros paths times arcs mxs x Hl Hx. assert (B := bnb_sys_ok paths times arcs mxs x ltac:(lia) Hx). cbv zeta in B. rewrite Hl, firstn_all in B. exact B.
Qed.
Print Assumptions C48_first.

(** With the paths supplied in increasing order of time: the shortest available path and
    its own time *)
Theorem C48_sorted_partial :
  forall paths times arcs mxs x, List.length times = List.length paths -> List.length x = List.length arcs -> StronglySorted Qcle times ->
    (exists i p t, In (p, t) (combine paths times) /\ nth_error paths i = Some p /\ available arcs mxs x p /\
       (forall q t', In (q, t') (combine paths times) -> available arcs mxs x q -> (t <= t')%Qc) /\ bnb_sys paths times arcs mxs x = Ok (Z.of_nat i, VNum t, p)) \/
    ((forall q, In q paths -> ~ available arcs mxs x q) /\ bnb_sys paths times arcs mxs x = Ok (Z.of_nat (List.length paths), VInf, [])).
Proof.
  intros paths times arcs mxs x Hl Hx Hs. destruct (C48_first paths times arcs mxs x Hl Hx) as [(i & p & t & Ep & Et & Ap & Mp & E)|H]; [left|right; exact H].
  rewrite (sorted_id times Hs) in Et.
  assert (NC : forall j q t', nth_error paths j = Some q -> nth_error times j = Some t' -> nth_error (combine paths times) j = Some (q, t')).
  { clear. revert times. induction paths as [|p ps IH]; intros [|t ts] [|j] q t' H1 H2; try discriminate; cbn [nth_error combine] in *; [congruence|auto]. }
  exists i, p, t. split; [apply (nth_error_In (combine paths times) i), NC; auto|]. split; [exact Ep|]. split; [exact Ap|]. split; [|exact E].
  intros q t' Hq Aq. apply In_nth_error in Hq as [j Hj].
  assert (Hj2 : nth_error paths j = Some q /\ nth_error times j = Some t').
  { clear - Hj. revert times j Hj. induction paths as [|p ps IH]; intros [|t ts] [|j] H; try discriminate; cbn [nth_error combine] in *; [injection H as -> ->; auto|auto]. }
  destruct Hj2 as [J1 J2]. destruct (Nat.lt_trichotomy j i) as [L|[->|L]].
  - exfalso. apply (Mp j q L J1 Aq).
  - rewrite Et in J2. injection J2 as <-. apply Qcle_refl.
  - clear - Hs Et J2 L. revert i j Et J2 L. induction Hs as [|a l Hs IH Hf]; intros [|i] [|j] Et J2 L; try discriminate; try lia; cbn [nth_error] in *.
    + injection Et as <-. rewrite Forall_forall in Hf. apply Hf, (nth_error_In _ _ J2).
    + apply (IH i j); auto; lia.
Qed.
Print Assumptions C48_sorted_partial.
Example C48_sorted_partial_ex :
  List.length lx_times = List.length lx_paths /\ StronglySorted Qcle lx_times /\
  bnb_sys lx_paths lx_times lx_arcs 2 [2; 1; 2; 1] = Ok (1, VNum (lq 2401 10000), ["3"; "1"]) /\
  bnb_sys lx_paths lx_times lx_arcs 2 [2; 2; 2; 1] = Ok (0, VNum (lq 901 10000), ["2"]) /\
  bnb_sys lx_paths lx_times lx_arcs 2 [1; 1; 2; 1] = Ok (2, VInf, []).
Proof.
  split; [reflexivity|]. split; [repeat constructor; vm_compute; congruence|]. repeat split; vm_compute; reflexivity.
Qed.

(** Paths supplied in another order: the longer path is returned with the time of the
    shorter one, although the shorter path is available. *)
Theorem C48_unsorted_refuted :
  exists paths times arcs x, List.length times = List.length paths /\ List.length x = List.length arcs /\
    (forall p, In p paths -> available arcs 2 x p) /\ NoDup times /\
    exists p q t t', combine paths times = [(p, t'); (q, t)] /\ (t < t')%Qc /\ bnb_sys paths times arcs 2 x = Ok (0, VNum t, p).
Proof.
  exists [["3"; "1"]; ["2"]], [lq 2 1; lq 1 1], ["1"; "2"; "3"], [2; 2; 2]. split; [reflexivity|]. split; [reflexivity|]. split.
  - intros p [<-|[<-|[]]] a Ha; cbn [In] in Ha; repeat (destruct Ha as [<-|Ha]); try destruct Ha; [exists 2%nat|exists 0%nat|exists 1%nat]; auto.
  - split.
    + repeat constructor; cbn; intuition; discriminate.
    + exists ["3"; "1"], ["2"], (lq 1 1), (lq 2 1). split; [reflexivity|]. split; [vm_compute; reflexivity|vm_compute; reflexivity].
Qed.
Print Assumptions C48_unsorted_refuted.

(** C49.  The code of a component: exact precisely when the bounds agree or are the two
    lowest states. *)
Theorem C49_code :
  forall v flag d u, v_B v = Some (gen_B (List.length (v_values v))) -> 1 <= d <= u -> u <= nvals v ->
    exists c, cmat_code v flag d u = Ok c /\
      ((forall z, In z (states_of v c) <-> exists y, d <= y <= u /\ z = lstate (nvals v) flag y) <->
       (d = u \/ (u = d + 1 /\ Z.min (lstate (nvals v) flag d) (lstate (nvals v) flag u) = 0))).
Proof.
  intros v flag d u HB H1 H2. rewrite (cmat_code_ok v flag d u HB H1 H2). eexists. split; [reflexivity|].
  assert (LR : forall z, (exists y, d <= y <= u /\ z = lstate (nvals v) flag y) <-> lo_of (nvals v) flag d u <= z <= hi_of (nvals v) flag d u) by (intros z; apply lstate_range; lia).
  assert (Mn : Z.min (lstate (nvals v) flag d) (lstate (nvals v) flag u) = lo_of (nvals v) flag d u) by (unfold lstate, lo_of; destruct flag; lia).
  assert (Df : hi_of (nvals v) flag d u - lo_of (nvals v) flag d u = u - d) by (unfold hi_of, lo_of; destruct flag; lia).
  assert (Rg : 0 <= lo_of (nvals v) flag d u /\ hi_of (nvals v) flag d u < nvals v) by (unfold hi_of, lo_of; destruct flag; lia).
  rewrite Mn. set (lo := lo_of _ _ _ _) in *. set (hi := hi_of _ _ _ _) in *. destruct (Z.eqb_spec d u) as [->|Ne].
  - split; [auto|]. intros _ z. rewrite LR, (states_basic v hi HB) by lia. cbn [In]. lia.
  - destruct (Z.eqb_spec lo 0) as [L|L]; [destruct (Z.eqb_spec hi 1) as [H|H]|]; cbn [andb].
    + split; [intros _; right; lia|]. intros _ z. rewrite LR, (states_pair v HB) by lia. cbn [In]. lia.
    + split; [|lia]. intros X. exfalso. specialize (X hi). rewrite LR, (states_basic v lo HB) in X by lia. cbn [In] in X. lia.
    + split; [|lia]. intros X. exfalso. specialize (X hi). rewrite LR, (states_basic v lo HB) in X by lia. cbn [In] in X. lia.
Qed.
Print Assumptions C49_code.

(** Components with two states: one row per complete branch, with its state, and each
    code stands for exactly the states between the bounds. *)
Theorem C49_rows_partial :
  forall V (brs : list (lbranch V)) comp_var flag,
    (exists b, In b brs /\ l_complete b = true) ->
    (forall v, In v comp_var -> nvals v = 2 /\ v_B v = Some (gen_B (List.length (v_values v)))) ->
    (forall b, In b brs -> vec_ok (map (fun _ => 2) comp_var) (l_down b) /\ vec_ok (map (fun _ => 2) comp_var) (l_up b) /\ Forall2 Z.le (l_down b) (l_up b)) ->
    exists rows, get_cmat brs comp_var flag = Ok rows /\
      Forall2 (fun b row => exists cs, row = l_ustate b :: cs /\ List.length cs = List.length comp_var /\
        forall j v d u c, nth_error comp_var j = Some v -> nth_error (l_down b) j = Some d -> nth_error (l_up b) j = Some u -> nth_error cs j = Some c ->
          forall z, In z (states_of v c) <-> exists y, d <= y <= u /\ z = lstate 2 flag y)
        (filter (fun b => l_complete b) brs) rows.
Proof.
  intros V brs comp_var flag (b1 & Hb1 & Ec1) Hv Hb. unfold get_cmat.
  assert (HbC : forall b, In b (filter (fun b => l_complete b) brs) -> vec_ok (map (fun _ => 2) comp_var) (l_down b) /\ vec_ok (map (fun _ => 2) comp_var) (l_up b) /\ Forall2 Z.le (l_down b) (l_up b)) by (intros b H; apply filter_In in H as [H _]; auto).
  assert (Hin : In b1 (filter (fun b => l_complete b) brs)) by (apply filter_In; auto).
  set (F := filter (fun b => l_complete b) brs) in *. destruct F as [|b0 F'] eqn:EF; [destruct Hin|].
  assert (L0 : List.length (l_down b0) = List.length comp_var).
  { destruct (HbC b0) as (B & _); [cbn; auto|]. apply vec_ok_length in B. rewrite map_length in B. auto. }
  rewrite L0. rewrite <- EF in HbC |- *. clear Hin. clearbody F. subst F. generalize dependent F'. intros F' HbC. set (F := b0 :: F') in *. clearbody F.
  induction F as [|b F IH]; [exists []; split; [reflexivity|constructor]|].
  destruct IH as (rows & Er & Hr); [intros; apply HbC; cbn; auto|]. cbn [mapM]. destruct (HbC b) as (B1 & B2 & B3); [cbn; auto|].
  assert (Ld := vec_ok_length _ _ B1). assert (Lu := vec_ok_length _ _ B2). rewrite map_length in Ld, Lu.
  set (code := fun j => match cmat_code (nth j comp_var (mkVar "" [] None None)) flag (nth j (l_down b) 0) (nth j (l_up b) 0) with Ok c => c | Err _ => 0 end).
  assert (Rng : forall j, (j < List.length comp_var)%nat -> let v := nth j comp_var (mkVar "" [] None None) in let d := nth j (l_down b) 0 in let u := nth j (l_up b) 0 in
            nvals v = 2 /\ v_B v = Some (gen_B (List.length (v_values v))) /\ 1 <= d <= u /\ u <= 2).
  { intros j Hj v d u. assert (Hvj : In v comp_var) by (apply nth_In; auto). destruct (Hv v Hvj) as [V1 V2]. split; [exact V1|]. split; [exact V2|].
    assert (Ed : nth_error (l_down b) j = Some d) by (apply nth_error_nth'; lia). assert (Eu : nth_error (l_up b) j = Some u) by (apply nth_error_nth'; lia).
    assert (Em : nth_error (map (fun _ => 2) comp_var) j = Some 2) by (rewrite (map_nth_error _ j comp_var (d := v)); auto; apply nth_error_nth'; auto).
    destruct (Forall2_nth _ _ _ j 2 B1 Em) as (d' & Ed' & R1). destruct (Forall2_nth _ _ _ j 2 B2 Em) as (u' & Eu' & R2).
    destruct (Forall2_nth _ _ _ j d B3 Ed) as (u2 & Eu2 & R3). assert (d' = d) by congruence. assert (u' = u) by congruence. assert (u2 = u) by congruence. subst. lia. }
  assert (Ecs : mapM (fun j => d <- py_index (l_down b) (Z.of_nat j) ;; u <- py_index (l_up b) (Z.of_nat j) ;; v <- py_index comp_var (Z.of_nat j) ;; cmat_code v flag d u)
                (seq 0 (List.length comp_var)) = Ok (map code (seq 0 (List.length comp_var)))).
  { apply mapM_ok. intros j Hj. apply in_seq in Hj. rewrite (py_index_nth _ j (nth j (l_down b) 0)) by (apply nth_error_nth'; lia).
    rewrite (py_index_nth _ j (nth j (l_up b) 0)) by (apply nth_error_nth'; lia). rewrite (py_index_nth comp_var j (nth j comp_var (mkVar "" [] None None))) by (apply nth_error_nth'; lia).
    cbn [bind]. unfold code. destruct (Rng j ltac:(lia)) as (R1 & R2 & R3 & R4).
    destruct (C49_code _ flag _ _ R2 R3) as (c & -> & _); [rewrite R1; exact R4|]. auto. }
  rewrite Ecs. cbn [bind]. rewrite Er. cbn [bind]. eexists. split; [reflexivity|]. constructor; [|exact Hr].
  exists (map code (seq 0 (List.length comp_var))). split; [reflexivity|]. split; [rewrite map_length, seq_length; auto|].
  intros j v d u c Ev Ed Eu Ec z. assert (Lj : (j < List.length comp_var)%nat) by (apply nth_error_Some; congruence).
  destruct (Rng j Lj) as (R1 & R2 & R3 & R4). rewrite (nth_error_nth _ _ _ Ev) in R1, R2. rewrite (nth_error_nth _ _ _ Ed), (nth_error_nth _ _ _ Eu) in R3. rewrite (nth_error_nth _ _ _ Eu) in R4.
  assert (c = code j). { rewrite (map_nth_error code j (seq 0 (List.length comp_var)) (d := j)) in Ec; [congruence|]. rewrite (nth_error_nth' _ 0%nat) by (rewrite seq_length; auto). rewrite seq_nth by auto. auto. }
  subst c. unfold code. rewrite (nth_error_nth _ _ _ Ev), (nth_error_nth _ _ _ Ed), (nth_error_nth _ _ _ Eu).
  destruct (C49_code v flag d u R2 R3) as (c & -> & X); [lia|]. rewrite R1 in X. apply X.
  unfold lstate. destruct (Z.eq_dec d u); [auto|]. right. destruct flag; lia.
Qed.
Print Assumptions C49_rows_partial.
Definition lx_var (k : string) : variable := mk_variable k [VStr "Surv"; VStr "Fail"] None.
Example C49_rows_partial_ex :
  (forall v, In v (map lx_var lx_arcs) -> nvals v = 2 /\ v_B v = Some (gen_B (List.length (v_values v)))) /\
  (r <- lx_run 32 ;; get_cmat r (map lx_var lx_arcs) false) = Ok [[2; 1; 1; 2; 2]; [0; 1; 0; 2; 2]; [0; 0; 0; 2; 2]; [2; 0; 1; 1; 2]; [1; 0; 1; 0; 2]] /\
  (r <- lx_run 32 ;; get_cmat r (map lx_var lx_arcs) true) = Ok [[2; 0; 0; 2; 2]; [0; 0; 1; 2; 2]; [0; 1; 1; 2; 2]; [2; 1; 0; 0; 2]; [1; 1; 0; 1; 2]].
Proof.
  split; [intros v H; apply in_map_iff in H as (k & <- & _); split; reflexivity|]. split; vm_compute; reflexivity.
Qed.

(** Three states: a branch over all states of a component is encoded as its lowest state. *)
Theorem C49_three_states_refuted :
  exists (b : lbranch unit) v c, l_complete b = true /\ l_down b = [1] /\ l_up b = [3] /\ nvals v = 3 /\ v_B v = Some (gen_B 3) /\
    get_cmat [b] [v] true = Ok [[l_ustate b; c]] /\ states_of v c = [0].
Proof.
  exists (mkLB [1] [3] true 7 7 None None), (mk_variable "a" [VNum 0%Qc; VNum 1%Qc; VInf] None), 0. repeat split; vm_compute; reflexivity.
Qed.
Print Assumptions C49_three_states_refuted.
