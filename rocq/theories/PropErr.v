(** C103: what the smaller functions accept, what they return, and by which exception
    they reject everything else. *)
From Coq Require Import ZArith List String Bool Arith Lia QArith Qcanon Permutation Sorted.
From Verif Require Import Py Num Vari Cpm Brc Mcs Sample Trans PathModel MsysProd SpecTrans PyFacts VariFacts TransFacts.
Import ListNotations.
Open Scope string_scope.
Open Scope Z_scope.
Open Scope list_scope.

(** * Drawing a row *)
(** numpy draws if there is one weight per row, at least one, and the weights divided by
    their total are proper; otherwise it raises ValueError. *)
Definition drawable (M : cpm) : Prop :=
  List.length (c_p M) = List.length (c_C M) /\ c_p M <> [] /\ qsum (c_p M) <> 0%Qc /\
  forall x, In x (c_p M) -> (0 <= x / qsum (c_p M))%Qc.

Theorem C103_draw M :
  (drawable M -> exists rows, draw M = Ok rows /\
     forall w c x, In (w, (c, x)) rows <-> In (c, x) (combine (c_C M) (c_p M)) /\ x <> 0%Qc /\ w = (x / qsum (c_p M))%Qc) /\
  (~ drawable M -> draw M = Err ValueError).
Proof.
  unfold draw, drawable. destruct (List.length (c_p M) =? List.length (c_C M))%nat eqn:L; cbn [negb].
  2:{ apply Nat.eqb_neq in L. split; [tauto|auto]. }
  apply Nat.eqb_eq in L. destruct (c_p M) as [|p0 ps] eqn:Ep; [split; [intros (_ & X & _); congruence|auto]|].
  destruct (qc_eqb (qsum (p0 :: ps)) 0%Qc) eqn:T; [apply qc_eqb_eq in T; split; [tauto|auto]|].
  assert (T' : qsum (p0 :: ps) <> 0%Qc) by (intros X; apply qc_eqb_eq in X; congruence).
  destruct (forallb _ (p0 :: ps)) eqn:Fb.
  - split.
    + intros _. eexists. split; [reflexivity|]. intros w c x. rewrite in_map_iff. split.
      * intros ([c' x'] & E & H). cbn [fst snd] in E. injection E as <- <- <-. apply filter_In in H as [H1 H2].
        split; [auto|]. split; [|auto]. cbn [snd] in H2. intros X. apply qc_eqb_eq in X. rewrite X in H2. discriminate.
      * intros (H1 & H2 & ->). exists (c, x). split; [reflexivity|]. apply filter_In. split; [auto|]. cbn [snd].
        destruct (qc_eqb x 0%Qc) eqn:X; [apply qc_eqb_eq in X; congruence|auto].
    + intros N. exfalso. apply N. rewrite forallb_forall in Fb. do 2 (split; [auto; discriminate|]). split; [auto|].
      intros x Hx. apply qc_leb_le. auto.
  - split; [|auto]. intros (_ & _ & _ & H). exfalso. apply not_true_iff_false in Fb. apply Fb. apply forallb_forall.
    intros x Hx. apply qc_leb_le. auto.
Qed.

Definition er_v : variable := mkVar "x" [VStr "0"; VStr "1"] (Some [[0]; [1]; [0; 1]]) None.
Example C103_draw_ex : drawable (mkCpm [er_v] 1 [[0]; [1]] [Q2Qc (3#10); Q2Qc (7#10)]).
Proof.
  split; [reflexivity|]. split; [discriminate|]. split; [intros X; discriminate X|].
  intros x [<-|[<-|[]]]; vm_compute; discriminate.
Qed.
Example C103_draw_mixed : draw (mkCpm [er_v] 1 [[0]; [1]] [Q2Qc (-3#10); Q2Qc (7#10)]) = Err ValueError /\
  draw (mkCpm [er_v] 1 [[0]; [1]] [0%Qc; 0%Qc]) = Err ValueError /\ draw (mkCpm [er_v] 1 [] []) = Err ValueError /\
  draw (mkCpm [er_v] 1 [[0]; [1]] [1%Qc]) = Err ValueError.
Proof. do 3 (split; [vm_compute; reflexivity|]). vm_compute. reflexivity. Qed.

(** * Writing to the masked places *)
Definition trues (mask : list bool) : nat := count_occ bool_dec mask true.
Lemma filter_trues mask : List.length (filter (fun b => b) mask) = trues mask.
Proof. unfold trues. induction mask as [|[|] mask IH]; cbn; [auto|rewrite IH; auto|rewrite IH; auto]. Qed.

(** entry [i] of the result is the sample's own, or the value whose number is the number of
    masked places before [i] *)
Theorem C103_put_mask mask vals sample :
  (List.length mask <> List.length sample -> put_mask mask vals sample = Err IndexError) /\
  (List.length mask = List.length sample -> List.length vals <> trues mask -> List.length vals <> 1%nat -> put_mask mask vals sample = Err ValueError) /\
  (List.length mask = List.length sample -> List.length vals = trues mask \/ List.length vals = 1%nat ->
   exists out, put_mask mask vals sample = Ok out /\ List.length out = List.length sample /\
     forall i, (i < List.length sample)%nat ->
       nth_error out i = if nth i mask false
                         then nth_error vals (if (List.length vals =? trues mask)%nat then trues (firstn i mask) else 0%nat)
                         else nth_error sample i).
Proof.
  assert (Fill : forall mask vals sample, List.length mask = List.length sample -> List.length vals = trues mask ->
    List.length (fill_mask mask vals sample) = List.length sample /\
    forall i, (i < List.length sample)%nat ->
      nth_error (fill_mask mask vals sample) i = if nth i mask false then nth_error vals (trues (firstn i mask)) else nth_error sample i).
  { clear. induction mask as [|b mask IH]; intros vals sample L V.
    - destruct sample; [|discriminate]. cbn. split; [auto|]. intros i Hi. inversion Hi.
    - destruct sample as [|x sample]; [discriminate|]. cbn [List.length] in L. injection L as L. destruct b.
      + destruct vals as [|y vals]; [discriminate|]. unfold trues in V. cbn in V. injection V as V.
        destruct (IH vals sample L V) as [I1 I2]. cbn [fill_mask List.length]. split; [auto|].
        intros [|i] Hi; [reflexivity|]. cbn [nth_error nth firstn]. unfold trues. cbn [count_occ].
        destruct (bool_dec true true) as [_|n]; [|congruence]. cbn [nth_error]. apply I2. cbn in Hi. lia.
      + unfold trues in V. cbn in V. destruct (IH vals sample L V) as [I1 I2].
        assert (Ef : fill_mask (false :: mask) vals (x :: sample) = x :: fill_mask mask vals sample) by (destruct vals; reflexivity).
        rewrite Ef. cbn [List.length]. split; [auto|]. intros [|i] Hi; [reflexivity|]. cbn [nth_error nth firstn]. unfold trues. cbn [count_occ].
        destruct (bool_dec false true) as [X|_]; [congruence|]. apply I2. cbn in Hi. lia. }
  assert (Lt : forall i mask, (nth i mask false = true -> trues (firstn i mask) < trues mask)%nat).
  { clear. induction i as [|i IH]; intros [|b mask] H; try discriminate; cbn in H.
    - subst b. unfold trues. cbn. lia.
    - specialize (IH mask H). unfold trues in *. cbn [firstn count_occ]. destruct (bool_dec b true); lia. }
  unfold put_mask. rewrite filter_trues. destruct (List.length mask =? List.length sample)%nat eqn:L; cbn [negb].
  - apply Nat.eqb_eq in L. split; [congruence|]. destruct (List.length vals =? trues mask)%nat eqn:V.
    + apply Nat.eqb_eq in V. split; [congruence|]. intros _ _. eexists. split; [reflexivity|]. apply Fill; auto.
    + apply Nat.eqb_neq in V. split.
      * intros _ _ N. destruct vals as [|x [|y vals]]; auto. cbn in N. congruence.
      * intros _ [N|N]; [congruence|]. destruct vals as [|x [|y vals]]; try discriminate. eexists. split; [reflexivity|].
        destruct (Fill mask (repeat x (trues mask)) sample L (repeat_length _ _)) as [F1 F2]. split; [auto|].
        intros i Hi. rewrite (F2 i Hi). destruct (nth i mask false) eqn:B; [|auto]. cbn [nth_error].
        rewrite (nth_error_nth' _ x) by (rewrite repeat_length; auto). f_equal. apply nth_repeat.
  - apply Nat.eqb_neq in L. split; [auto|]. split; [intros; contradiction|]. intros; contradiction.
Qed.
Example C103_put_mask_ex :
  put_mask [true; false; true] [5; 6] [1; 2; 3] = Ok [5; 2; 6] /\ put_mask [true; false; true] [5] [1; 2; 3] = Ok [5; 2; 5] /\
  put_mask [true; false] [5] [1; 2; 3] = Err IndexError /\ put_mask [true; false; true] [5; 6; 7] [1; 2; 3] = Err ValueError /\
  put_mask [true; false; true] [] [1; 2; 3] = Err ValueError.
Proof. do 4 (split; [vm_compute; reflexivity|]). vm_compute. reflexivity. Qed.

(** * Storing samples in a CPM *)
(** [Cs] is stored if every row has one entry per variable, none above the number of the
    variable's values; [q] and [sample_idx] if they have one entry per row of [Cs] or
    one of the two has none.  Everything else is an AssertionError. *)
Definition fits_samples (vars : list variable) (C : list (list Z)) : Prop :=
  forall row, In row C -> List.length row = List.length vars /\
    forall i v c, nth_error vars i = Some v -> nth_error row i = Some c -> c <= Z.of_nat (List.length (v_values v)).
Theorem C103_Cs M C :
  (fits_samples (sc_vars M) C -> set_Cs_mat M C = Ok (mkScpm (sc_vars M) C (sc_q M) (sc_idx M))) /\
  (~ fits_samples (sc_vars M) C -> set_Cs_mat M C = Err AssertionError).
Proof.
  assert (D : fits_samples (sc_vars M) C <->
    forallb (fun row => (List.length row =? List.length (sc_vars M))%nat) C
     && forallb (cs_col_ok C) (combine (seq 0 (List.length (sc_vars M))) (sc_vars M)) = true).
  { rewrite andb_true_iff, !forallb_forall. unfold fits_samples. split.
    - intros H. split; [intros row Hr; apply Nat.eqb_eq; apply H; auto|]. intros [i v] Hi. unfold cs_col_ok.
      apply forallb_forall. intros row Hr. cbn [fst snd]. apply Z.leb_le. destruct (H row Hr) as [L G].
      apply In_nth_error in Hi as (j & Hj). assert (Hs := Hj).
      assert (Hv : nth_error (sc_vars M) j = Some v /\ i = j).
      { clear -Hj. revert Hj. generalize (sc_vars M) as l. intros l. assert (K : forall l a j, nth_error (combine (seq a (List.length l)) l) j = Some (i, v) -> nth_error l j = Some v /\ i = (a + j)%nat).
        { clear. induction l as [|x l IH]; intros a [|j] H; cbn in H; try discriminate.
          - injection H as <- <-. split; [auto|lia].
          - apply IH in H as [H1 H2]. split; [auto|lia]. }
        intros H. apply (K l 0%nat). auto. }
      destruct Hv as [Hv ->]. assert (Lt : (j < List.length row)%nat) by (rewrite L; apply nth_error_Some; congruence).
      destruct (nth_error row j) as [c|] eqn:Ec; [|apply nth_error_None in Ec; lia].
      unfold at_. rewrite (nth_error_nth _ _ _ Ec). unfold nvals. eapply G; eauto.
    - intros [H1 H2] row Hr. split; [apply Nat.eqb_eq; auto|]. intros i v c Hv Hc.
      assert (Hi : In (i, v) (combine (seq 0 (List.length (sc_vars M))) (sc_vars M))).
      { assert (K : forall l a j, nth_error l j = Some v -> In ((a + j)%nat, v) (combine (seq a (List.length l)) l)).
        { clear. induction l as [|x l IH]; intros a [|j] H; cbn in H; try discriminate.
          - injection H as <-. cbn. left. f_equal. lia.
          - cbn. right. replace (a + S j)%nat with (S a + j)%nat by lia. apply IH. auto. }
        apply (K _ 0%nat i Hv). }
      specialize (H2 _ Hi). unfold cs_col_ok in H2. rewrite forallb_forall in H2. specialize (H2 row Hr). cbn [fst snd] in H2.
      apply Z.leb_le in H2. unfold at_ in H2. rewrite (nth_error_nth _ _ _ Hc) in H2. exact H2. }
  unfold set_Cs_mat. destruct (_ && _) eqn:E; split; intros H; auto.
  - exfalso. apply H. apply D. auto.
  - apply D in H. congruence.
Qed.
(** a vector becomes one column, which is compared with every variable *)
Theorem C103_Cs_vec M col :
  ((forall v c, In v (sc_vars M) -> In c col -> c <= Z.of_nat (List.length (v_values v))) ->
    set_Cs_vec M col = Ok (mkScpm (sc_vars M) (map (fun x => [x]) col) (sc_q M) (sc_idx M))) /\
  ((exists v c, In v (sc_vars M) /\ In c col /\ Z.of_nat (List.length (v_values v)) < c) -> set_Cs_vec M col = Err AssertionError).
Proof.
  unfold set_Cs_vec. split.
  - intros H. assert (X : forallb (fun v => cs_col_ok (map (fun x => [x]) col) (0%nat, v)) (sc_vars M) = true).
    { apply forallb_forall. intros v Hv. apply forallb_forall. intros row Hr. apply in_map_iff in Hr as (c & <- & Hc).
      cbn. apply Z.leb_le. unfold nvals. auto. }
    rewrite X. auto.
  - intros (v & c & Hv & Hc & Lt). destruct (forallb _ _) eqn:X; [|auto]. exfalso.
    rewrite forallb_forall in X. specialize (X v Hv). unfold cs_col_ok in X. rewrite forallb_forall in X.
    assert (Y := X [c] (in_map (fun x => [x]) _ _ Hc)). cbn in Y. apply Z.leb_le in Y. unfold nvals in Y. lia.
Qed.
Definition one_each {A} (l : list A) (Cs : list (list Z)) : Prop := l = [] \/ Cs = [] \/ List.length l = List.length Cs.
Lemma len_ok_iff {A} (l : list A) Cs : len_ok l Cs = true <-> one_each l Cs.
Proof. unfold len_ok, one_each. rewrite !orb_true_iff, !Nat.eqb_eq, !length_zero_iff_nil. tauto. Qed.
Theorem C103_q M q :
  (one_each q (sc_Cs M) -> set_q M q = Ok (mkScpm (sc_vars M) (sc_Cs M) q (sc_idx M))) /\
  (~ one_each q (sc_Cs M) -> set_q M q = Err AssertionError).
Proof.
  unfold set_q. rewrite <- len_ok_iff. destruct (len_ok q (sc_Cs M)); split; auto; congruence.
Qed.
Theorem C103_idx M i :
  (one_each i (sc_Cs M) -> set_idx M i = Ok (mkScpm (sc_vars M) (sc_Cs M) (sc_q M) i)) /\
  (~ one_each i (sc_Cs M) -> set_idx M i = Err AssertionError).
Proof.
  unfold set_idx. rewrite <- len_ok_iff. destruct (len_ok i (sc_Cs M)); split; auto; congruence.
Qed.
Definition er_M : scpm := mkScpm [er_v; mkVar "y" [VStr "0"; VStr "1"; VStr "2"] None None] [[0; 2]; [1; 1]] [] [].
Example C103_store_ex :
  set_Cs_mat er_M [[2; 3]; [0; -1]] = Ok (mkScpm (sc_vars er_M) [[2; 3]; [0; -1]] [] []) /\
  set_Cs_mat er_M [[3; 2]] = Err AssertionError /\ set_Cs_mat er_M [[1; 2]; [1]] = Err AssertionError /\
  set_Cs_vec er_M [3] = Err AssertionError /\ set_q er_M [1%Qc] = Err AssertionError /\ set_idx er_M [0; 1; 2] = Err AssertionError /\
  set_idx er_M [] = Ok er_M /\ set_idx er_M [4; 4] = Ok (mkScpm (sc_vars er_M) (sc_Cs er_M) [] [4; 4]).
Proof. do 7 (split; [vm_compute; reflexivity|]). vm_compute. reflexivity. Qed.

(** * Weights and labels of edges *)
(** What is looked up first fails first: a missing label, variable or state is a KeyError, a
    state outside of the values an IndexError; negative states count from the end. *)
Theorem C103_edge_weight V x e :
  (e_label e = None -> edge_weight V x e = Err KeyError) /\
  (forall l, e_label e = Some l -> ~ (In l (keys V) /\ In l (keys x)) -> edge_weight V x e = Err KeyError) /\
  (forall l v s, e_label e = Some l -> dfind V l = Some v -> dfind x l = Some s ->
     let n := Z.of_nat (List.length (v_values v)) in
     (s < - n \/ n <= s -> edge_weight V x e = Err IndexError) /\
     (0 <= s < n -> exists w, nth_error (v_values v) (Z.to_nat s) = Some w /\ edge_weight V x e = Ok w) /\
     (- n <= s < 0 -> exists w, nth_error (v_values v) (Z.to_nat (s + n)) = Some w /\ edge_weight V x e = Ok w)).
Proof.
  unfold edge_weight. split; [intros ->; reflexivity|]. split.
  - intros l -> N. cbn [bind]. unfold dget. destruct (dfind V l) as [v|] eqn:E1; [|reflexivity]. cbn [bind].
    destruct (dfind x l) as [s|] eqn:E2; [|reflexivity]. exfalso. apply N. split; apply dfind_keys; eauto.
  - intros l v s -> E1 E2. cbn [bind]. unfold dget. rewrite E1. cbn [bind]. rewrite E2. cbn [bind]. cbv zeta. unfold py_index.
    set (n := Z.of_nat (List.length (v_values v))). split; [|split].
    + intros H. destruct (s <? 0) eqn:Es; [apply Z.ltb_lt in Es|apply Z.ltb_ge in Es].
      * assert (X : (0 <=? s + n) = false) by (apply Z.leb_gt; lia). rewrite X. reflexivity.
      * assert (X : (s <? n) = false) by (apply Z.ltb_ge; lia). rewrite X, andb_false_r. reflexivity.
    + intros H. assert (X : (s <? 0) = false) by (apply Z.ltb_ge; lia). rewrite X.
      rewrite (proj2 (Z.leb_le 0 s)), (proj2 (Z.ltb_lt s n)) by lia. cbn [andb].
      destruct (nth_error (v_values v) (Z.to_nat s)) as [w|] eqn:W; [eauto|]. apply nth_error_None in W. lia.
    + intros H. assert (X : (s <? 0) = true) by (apply Z.ltb_lt; lia). rewrite X.
      rewrite (proj2 (Z.leb_le 0 (s + n))), (proj2 (Z.ltb_lt (s + n) n)) by lia. cbn [andb].
      destruct (nth_error (v_values v) (Z.to_nat (s + n))) as [w|] eqn:W; [eauto|]. apply nth_error_None in W. lia.
Qed.
Definition er_V : dict variable := [("a", mkVar "a" [VNum (qz 7); VNum (qz 5)] None None)].
Definition er_e (l : option string) (w : option value) : gedge := mkEdge "m" "n" (KInt 0) l w.
Example C103_edge_weight_ex :
  edge_weight er_V [("a", 1)] (er_e (Some "a") None) = Ok (VNum (qz 5)) /\ edge_weight er_V [("a", -2)] (er_e (Some "a") None) = Ok (VNum (qz 7)) /\
  edge_weight er_V [("a", 2)] (er_e (Some "a") None) = Err IndexError /\ edge_weight er_V [("b", 2)] (er_e (Some "b") None) = Err KeyError /\
  edge_weight er_V [("b", 2)] (er_e (Some "a") None) = Err KeyError /\ edge_weight er_V [("a", 1)] (er_e None None) = Err KeyError.
Proof. do 5 (split; [vm_compute; reflexivity|]). vm_compute. reflexivity. Qed.

(** the edges leading from [a] to [b], in the order of the graph *)
Definition between (G : graph) (a b : string) (es : list gedge) : Prop :=
  exists f, es = filter f (g_edges G) /\ forall e, f e = true <-> leads G e a b.
Definition label_res (e : gedge) : res string := match e_label e with Some l => Ok l | None => Err KeyError end.
Definition lighter (e e' : gedge) : Prop :=
  exists x, e_weight e = Some (VNum x) /\ ((exists y, e_weight e' = Some (VNum y) /\ (x < y)%Qc) \/ e_weight e' = Some VInf).
Definition weighed (e : gedge) : Prop := (exists x, e_weight e = Some (VNum x)) \/ e_weight e = Some VInf.
Definition cmp_w (a b : gedge) : bool := match e_weight a, e_weight b with Some x, Some y => t_ltb x y | _, _ => false end.
Lemma cmp_lighter a b : cmp_w a b = true <-> lighter a b.
Proof.
  unfold cmp_w, lighter. split.
  - destruct (e_weight a) as [[x| |]|]; try discriminate; destruct (e_weight b) as [[y| |]|]; try discriminate; cbn; intros H.
    + exists x. split; [auto|]. left. exists y. split; [auto|]. apply qc_ltb_lt. auto.
    + exists x. auto.
  - intros (x & -> & [(y & -> & L)| ->]); cbn; [apply qc_ltb_lt; auto|auto].
Qed.
(** the head of the stable sort is the first of the least *)
Lemma sort_min l : l <> [] -> Forall weighed l -> exists pre e post r, l = pre ++ e :: post /\ sort_desc cmp_w l = e :: r /\
  (forall e', In e' pre -> lighter e e') /\ (forall e', In e' post -> ~ lighter e' e).
Proof.
  induction l as [|a l IH]; [congruence|]. intros _ F. inversion F as [|? ? Fa Fl]. subst.
  destruct l as [|b l]; [exists [], a, [], []; do 3 (split; [auto; intros ? []|]); intros ? []|].
  destruct IH as (pre & e & post & r & El & Es & Hp & Hq); [discriminate|auto|].
  assert (We : weighed e) by (rewrite Forall_forall in Fl; apply Fl; rewrite El; apply in_or_app; cbn; auto).
  assert (Ec : sort_desc cmp_w (a :: b :: l) = insert_desc cmp_w a (sort_desc cmp_w (b :: l))) by reflexivity.
  rewrite Ec, Es. cbn [insert_desc]. destruct (cmp_w e a) eqn:C.
  - apply cmp_lighter in C. exists (a :: pre), e, post. eexists. split; [rewrite El; auto|]. split; [reflexivity|]. split; [|auto].
    intros e' [<-|H]; auto.
  - assert (Na : ~ lighter e a) by (intros X; apply cmp_lighter in X; congruence).
    exists [], a, (b :: l). eexists. split; [auto|]. split; [reflexivity|]. split; [intros ? []|].
    intros e' He' La. rewrite El in He'.
    assert (T : lighter e' e).
    { destruct La as (x & X1 & X2). destruct We as [[y Wy]|Wi]; [|exists x; auto].
      destruct (Qclt_le_dec x y) as [L|L]; [exists x; split; [auto|]; left; eauto|]. exfalso. apply Na. exists y. split; [auto|].
      destruct X2 as [(z & Z1 & Z2)|Z1]; [|auto]. left. exists z. split; [auto|]. eapply Qcle_lt_trans; eauto. }
    apply in_app_iff in He' as [He'|[<-|He']]; [|auto|apply (Hq e' He'); auto].
    destruct (Hp e' He') as (z & Z1 & Z2), T as (x & X1 & [(t & T1 & T2)|T1]); [|congruence].
    assert (t = z) by congruence. subst t. destruct Z2 as [(u & U1 & U2)|U1]; [|congruence]. assert (u = x) by congruence. subst u.
    apply (Qclt_not_le _ _ U2). apply Qclt_le_weak. auto.
Qed.

(** One edge between the nodes gives its label.  Of several edges of a multigraph it is the
    first of the lightest; without weights they cannot be compared. *)
Theorem C103_edge_between G a b es : between G a b es ->
  (es = [] -> edge_between G (a, b) = Err (if g_multi G then AttributeError else TypeError)) /\
  (forall e r, es = e :: r -> g_multi G = false \/ r = [] -> edge_between G (a, b) = label_res e) /\
  (forall e e' r, es = e :: e' :: r -> g_multi G = true -> (exists e, In e es /\ e_weight e = None) -> edge_between G (a, b) = Err TypeError) /\
  (forall e e' r, es = e :: e' :: r -> g_multi G = true -> Forall weighed es ->
     exists pre m post, es = pre ++ m :: post /\ (forall e, In e pre -> lighter m e) /\ (forall e, In e post -> ~ lighter e m) /\
       edge_between G (a, b) = label_res m).
Proof.
  intros (f & Ef & Hf).
  assert (E : filter (fun e => joins (g_dir G) e a b) (g_edges G) = es).
  { rewrite Ef. apply filter_ext. intros e. destruct (f e) eqn:X.
    - apply Hf in X. apply joins_leads. auto.
    - destruct (joins _ e a b) eqn:Y; [|auto]. apply joins_leads in Y. apply Hf in Y. congruence. }
  unfold edge_between. cbn [fst snd]. rewrite E. clear E Ef Hf. fold cmp_w.
  split; [intros ->; destruct (g_multi G); auto|]. split; [|split].
  - intros e r -> H. change label_of with label_res. destruct (g_multi G); [|auto]. destruct H as [H| ->]; [discriminate|auto].
  - intros e e' r -> M (x & Hx & Wx). rewrite M.
    destruct (existsb _ (e :: e' :: r)) eqn:X; [auto|]. exfalso. apply not_true_iff_false in X. apply X. apply existsb_exists. exists x. split; [auto|].
    rewrite Wx. auto.
  - intros e e' r -> M F. destruct (sort_min (e :: e' :: r)) as (pre & m & post & rest & S1 & S2 & S3 & S4); [discriminate|auto|].
    exists pre, m, post. do 3 (split; [auto|]). rewrite M.
    destruct (existsb _ (e :: e' :: r)) eqn:X.
    { exfalso. apply existsb_exists in X as (x & Hx & Ex). rewrite Forall_forall in F. destruct (F x Hx) as [[y Y]|Y]; rewrite Y in Ex; discriminate. }
    change (fun a b : gedge => match e_weight a with Some x => match e_weight b with Some y => t_ltb x y | None => false end | None => false end) with cmp_w.
    rewrite S2. reflexivity.
Qed.
Definition er_G (multi : bool) (es : list gedge) : graph := mkGraph false multi ["m"; "n"] es.
Example C103_edge_between_ex :
  edge_between (er_G true [er_e (Some "a") (Some VInf); er_e (Some "b") (Some (VNum (qz 2))); er_e (Some "c") (Some (VNum (qz 2)))]) ("n", "m") = Ok "b" /\
  edge_between (er_G true [er_e (Some "a") None]) ("m", "n") = Ok "a" /\ edge_between (er_G true []) ("m", "n") = Err AttributeError /\
  edge_between (er_G false []) ("m", "n") = Err TypeError /\ edge_between (er_G true [er_e (Some "a") None; er_e (Some "b") (Some VInf)]) ("m", "n") = Err TypeError /\
  edge_between (er_G false [er_e None None]) ("m", "n") = Err KeyError.
Proof. do 5 (split; [vm_compute; reflexivity|]). vm_compute. reflexivity. Qed.

(** * Codes and probabilities of components *)
Lemma find_idx_iff {A} (f : A -> bool) l i : find_idx f l = Some i <->
  exists a, nth_error l i = Some a /\ f a = true /\ forall j b, (j < i)%nat -> nth_error l j = Some b -> f b = false.
Proof.
  split; [apply find_idx_some|]. revert i. induction l as [|x l IH]; intros i (a & H1 & H2 & H3); [destruct i; discriminate|]. cbn [find_idx].
  destruct i as [|i]; cbn in H1.
  - injection H1 as ->. rewrite H2. auto.
  - rewrite (H3 0%nat x) by (auto; lia). rewrite (IH i); [auto|]. exists a. do 2 (split; [auto|]). intros j b Hj Hb. apply (H3 (S j) b); [lia|auto].
Qed.
(** The code of a branch's interval: the position of the union of the two states. *)
Theorem C103_join_code v lo up :
  (v_B v = None -> join_code v lo up = Err TypeError) /\
  (forall B, v_B v = Some B -> 0 <= lo -> 0 <= up ->
    (Z.of_nat (List.length B) <= lo \/ Z.of_nat (List.length B) <= up -> join_code v lo up = Err IndexError) /\
    (forall x y, nth_error B (Z.to_nat lo) = Some x -> nth_error B (Z.to_nat up) = Some y ->
      (forall k, join_code v lo up = Ok k <-> exists n u, k = Z.of_nat n /\ nth_error B n = Some u /\ (forall z, In z u <-> In z x \/ In z y) /\
         forall m w, (m < n)%nat -> nth_error B m = Some w -> ~ (forall z, In z w <-> In z x \/ In z y)) /\
      ((forall u, In u B -> ~ (forall z, In z u <-> In z x \/ In z y)) -> join_code v lo up = Err ValueError))).
Proof.
  assert (S : forall a u, set_eqb a u = true <-> forall z, In z u <-> In z a).
  { intros a u. unfold set_eqb. rewrite andb_true_iff, !forallb_forall. split.
    - intros [H1 H2] z. split; intros Hz; [apply mem_Z_In, H2; auto|apply mem_Z_In, H1; auto].
    - intros H. split; intros z Hz; apply mem_Z_In; apply H; auto. }
  unfold join_code. split; [intros ->; auto|]. intros B -> L1 L2. split.
  - intros H. destruct (Z_lt_le_dec lo (Z.of_nat (List.length B))) as [C|C].
    + destruct (nth_error B (Z.to_nat lo)) as [x|] eqn:X; [|apply nth_error_None in X; lia].
      assert (X' := proj2 (py_index_ok_nonneg B lo x L1) X). rewrite X'. cbn [bind]. rewrite py_index_out by (destruct H; lia). auto.
    + rewrite py_index_out by lia. auto.
  - intros x y Hx Hy. apply (py_index_ok_nonneg B lo x L1) in Hx. apply (py_index_ok_nonneg B up y L2) in Hy.
    rewrite Hx, Hy. cbn [bind]. unfold py_list_index. split.
    + intros k. split.
      * destruct (find_idx _ B) as [n|] eqn:F; [|discriminate]. intros K. injection K as <-.
        apply find_idx_iff in F as (u & U1 & U2 & U3). exists n, u. split; [auto|]. split; [auto|]. split.
        { intros z. rewrite (proj1 (S _ _) U2 z). apply in_app_iff. }
        intros m w Hm Hw X. assert (Y : set_eqb (x ++ y) w = true) by (apply S; intros z; rewrite in_app_iff; auto).
        rewrite (U3 m w) in Y by auto. discriminate.
      * intros (n & u & -> & U1 & U2 & U3).
        assert (F : find_idx (set_eqb (x ++ y)) B = Some n).
        { apply find_idx_iff. exists u. split; [auto|]. split; [apply S; intros z; rewrite in_app_iff; auto|].
          intros m w Hm Hw. destruct (set_eqb (x ++ y) w) eqn:Y; [|auto]. exfalso. apply (U3 m w Hm Hw).
          intros z. rewrite (proj1 (S _ _) Y z). apply in_app_iff. }
        rewrite F. auto.
    + intros H. assert (F : find_idx (set_eqb (x ++ y)) B = None).
      { apply find_idx_none. intros u Hu. destruct (set_eqb (x ++ y) u) eqn:Y; [|auto]. exfalso. apply (H u Hu).
        intros z. rewrite (proj1 (S _ _) Y z). apply in_app_iff. }
      rewrite F. auto.
Qed.
Example C103_join_code_ex :
  join_code er_v 0 1 = Ok 2 /\ join_code er_v 1 1 = Ok 1 /\ join_code er_v 0 3 = Err IndexError /\
  join_code (mkVar "x" [VStr "0"; VStr "1"] None None) 0 1 = Err TypeError /\
  join_code (mkVar "x" [VStr "0"; VStr "1"] (Some [[0]; [1]]) None) 0 1 = Err ValueError.
Proof. do 4 (split; [vm_compute; reflexivity|]). vm_compute. reflexivity. Qed.

(** The probability of a component's code: the sum over its basic states of the
    probability of the first row with that state. *)
Definition first_row (m : cpm) (k : Z) (r : nat) : Prop :=
  (exists c, nth_error (c_C m) r = Some c /\ nth 0 c 0 = k) /\ forall j c, (j < r)%nat -> nth_error (c_C m) j = Some c -> nth 0 c 0 <> k.
Theorem C103_comp_prob m st :
  (c_vars m = [] -> comp_prob m st = Err IndexError) /\
  (forall v vs, c_vars m = v :: vs ->
    (v_B v = None -> comp_prob m st = Err TypeError) /\
    (forall B, v_B v = Some B -> 0 <= st ->
      (Z.of_nat (List.length B) <= st -> comp_prob m st = Err IndexError) /\
      (forall u, nth_error B (Z.to_nat st) = Some u ->
        (forall rows ps, Forall2 (first_row m) u rows -> Forall2 (fun r x => nth_error (c_p m) r = Some x) rows ps -> comp_prob m st = Ok (qsum ps)) /\
        (forall k u1 u2, u = u1 ++ k :: u2 -> (forall j, In j u1 -> exists r x, first_row m j r /\ nth_error (c_p m) r = Some x) ->
           ((forall c, In c (c_C m) -> nth 0 c 0 <> k) -> comp_prob m st = Err ValueError) /\
           (forall r, first_row m k r -> (List.length (c_p m) <= r)%nat -> comp_prob m st = Err IndexError))))).
Proof.
  assert (FR : forall k r, first_row m k r <-> find_idx (fun c => at_ c 0 =? k) (c_C m) = Some r).
  { intros k r. rewrite find_idx_iff. unfold first_row, at_. split.
    - intros ((c & H1 & H2) & H3). exists c. split; [auto|]. split; [apply Z.eqb_eq; auto|]. intros j y Hj Hy. apply Z.eqb_neq. eauto.
    - intros (c & H1 & H2 & H3). split; [exists c; split; [auto|]; apply Z.eqb_eq; auto|]. intros j y Hj Hy. apply Z.eqb_neq. eapply H3; eauto. }
  unfold comp_prob. split; [intros ->; auto|]. intros v vs ->. split; [intros ->; auto|]. intros B -> L. split.
  { intros H. rewrite py_index_out by auto. auto. }
  intros u Hu. apply (py_index_ok_nonneg B st u L) in Hu. rewrite Hu. cbn [bind]. clear Hu.
  set (g := fun k : Z => match find_idx (fun c : list Z => at_ c 0 =? k) (c_C m) with
                         | Some r => match nth_error (c_p m) r with Some x => Ok x | None => Err IndexError end
                         | None => Err ValueError end).
  assert (G : forall k r x, first_row m k r -> nth_error (c_p m) r = Some x -> g k = Ok x).
  { intros k r x H1 H2. unfold g. apply FR in H1. rewrite H1, H2. auto. }
  split.
  - intros rows ps H1. revert ps. assert (K : forall ps, Forall2 (fun r x => nth_error (c_p m) r = Some x) rows ps -> mapM g u = Ok ps).
    { induction H1 as [|k r u rows R H1 IH]; intros ps H2; inversion H2; subst; [auto|]. cbn [mapM]. rewrite (G k r y) by auto. cbn [bind].
      rewrite (IH l') by auto. auto. }
    intros ps H2. rewrite (K ps H2). auto.
  - intros k u1 u2 -> Pre.
    assert (K : forall e, g k = Err e -> mapM g (u1 ++ k :: u2) = Err e).
    { intros e Ge. induction u1 as [|j u1 IH]; cbn [app mapM]; [rewrite Ge; auto|].
      destruct (Pre j) as (r & x & R1 & R2); [cbn; auto|]. rewrite (G j r x) by auto. cbn [bind]. rewrite IH; [auto|]. intros; apply Pre; cbn; auto. }
    split.
    + intros H. rewrite (K ValueError); [auto|]. unfold g.
      assert (F : find_idx (fun c : list Z => at_ c 0 =? k) (c_C m) = None) by (apply find_idx_none; intros c Hc; apply Z.eqb_neq; apply H; auto).
      rewrite F. auto.
    + intros r R Lr. rewrite (K IndexError); [auto|]. unfold g. apply FR in R. rewrite R. apply nth_error_None in Lr. rewrite Lr. auto.
Qed.
Definition er_c (C : list (list Z)) (p : list Qc) : cpm := mkCpm [er_v] 1 C p.
Example C103_comp_prob_ex :
  (exists x, comp_prob (er_c [[0]; [1]; [0]] [Q2Qc (1#5); Q2Qc (3#10); Q2Qc (1#2)]) 2 = Ok x /\ x = Q2Qc (1#2)) /\
  comp_prob (er_c [[0]] [1%Qc]) 2 = Err ValueError /\ comp_prob (er_c [[0]; [1]] [1%Qc]) 2 = Err IndexError /\
  comp_prob (er_c [[0]; [1]] [1%Qc]) 3 = Err IndexError /\ comp_prob (mkCpm [mkVar "x" [] None None] 1 [] []) 0 = Err TypeError /\
  comp_prob (mkCpm [] 0 [] []) 0 = Err IndexError.
Proof.
  split; [eexists; split; [reflexivity|apply Qc_is_canon; vm_compute; reflexivity]|].
  do 4 (split; [vm_compute; reflexivity|]). vm_compute. reflexivity.
Qed.

(** * Rules *)
(** The highest state of a distribution: only of a dictionary that is not empty. *)
Theorem C103_max_state :
  (forall l, max_state (PList l) = Err AttributeError) /\ max_state (PDict []) = Err ValueError /\
  (forall d, d <> [] -> exists m, max_state (PDict d) = Ok m /\ In m (map fst d) /\ forall k, In k (map fst d) -> k <= m).
Proof.
  split; [auto|]. split; [auto|]. intros [|[k x] d] N; [congruence|]. eexists. split; [reflexivity|].
  cbn [map fst]. generalize (map fst d) as l. clear.
  assert (K : forall l k, In (fold_left Z.max l k) (k :: l) /\ forall j, In j (k :: l) -> j <= fold_left Z.max l k).
  { induction l as [|a l IH]; intros k0.
    - cbn. split; [auto|]. intros j [<-|[]]. lia.
    - destruct (IH (Z.max k0 a)) as [I1 I2]. cbn [fold_left]. split.
      + destruct I1 as [I1|I1]; [|cbn; auto]. rewrite <- I1. destruct (Z.max_dec k0 a) as [->| ->]; cbn; auto.
      + assert (X := I2 (Z.max k0 a) (or_introl eq_refl)). intros j [<-|[<-|Hj]]; [lia|lia|]. apply I2. cbn. auto. }
  intros l. apply K.
Qed.
Example C103_max_state_ex : max_state (PDict [(0, 1%Qc); (2, 0%Qc); (1, 0%Qc)]) = Ok 2 /\ max_state (PList [1%Qc]) = Err AttributeError.
Proof. split; reflexivity. Qed.

(** A rule is for survival or for failure; a third state has no list. *)
Theorem C103_third_state rules r : update_rule_set rules r U_ = Err KeyError.
Proof. reflexivity. Qed.
Print Assumptions C103_draw.
Print Assumptions C103_put_mask.
Print Assumptions C103_Cs.
Print Assumptions C103_edge_between.
Print Assumptions C103_join_code.
Print Assumptions C103_comp_prob.
Print Assumptions C103_max_state.
