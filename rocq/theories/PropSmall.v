(** C106: further small functions: what they return and how they reject. *)
From Coq Require Import ZArith List String Bool Arith Lia QArith Qcanon Permutation.
From Verif Require Import Py Num Vari Cpm Brc Mcs WriteNet Hybrid Ctor Legacy Small PyFacts VariFacts.
Import ListNotations.
Open Scope string_scope.
Open Scope Z_scope.
Open Scope list_scope.

(** * utils.all_equal *)
Theorem C106_all_equal {A} (eqb : A -> A -> bool) (l : list A) : (forall x y, eqb x y = true <-> x = y) ->
  (all_equal eqb l = true <-> forall x y, In x l -> In y l -> x = y).
Proof.
  intros H. destruct l as [|a l]; [split; [intros _ x y []|auto]|]. unfold all_equal. destruct (filter _ l) as [|b r] eqn:E.
  - split; [intros _|auto].
    assert (G : forall x, In x (a :: l) -> x = a).
    { intros x [<-|Hx]; [auto|]. destruct (eqb a x) eqn:X; [apply H in X; auto|]. exfalso.
      assert (In x []) by (rewrite <- E; apply filter_In; rewrite X; auto). auto. }
    intros x y Hx Hy. rewrite (G x Hx), (G y Hy). auto.
  - split; [discriminate|]. intros G. exfalso. assert (B : In b (b :: r)) by (cbn; auto). rewrite <- E in B. apply filter_In in B as [B1 B2].
    assert (X : a = b) by (apply G; cbn; auto). apply H in X. rewrite X in B2. discriminate.
Qed.
Example C106_all_equal_ex : all_equal Z.eqb [0; 0; 0] = true /\ all_equal Z.eqb [0; 0; 1; 0] = false /\ all_equal Z.eqb [] = true.
Proof. auto. Qed.

(** * cpm.flip *)
(** The positions found by [ismember] are flipped to "not found"; position 0, which Python
    takes for False in comparisons, counts as found. *)
Theorem C106_flip (A B : list variable) :
  flip (marks (ismember A B)) = map (fun v => negb (mem_str (v_name v) (names B))) A /\
  forall l, List.length (flip l) = List.length l /\ forall i, nth_error (flip l) i = Some true <-> nth_error l i = Some (MBool false).
Proof.
  split.
  - unfold flip, marks, ismember. rewrite !map_map. apply map_ext. intros v.
    assert (G : match find_idx (v_eqb v) B with Some _ => true | None => false end = mem_str (v_name v) (names B)).
    { unfold mem_str, names. induction B as [|w B IH]; cbn; auto. unfold v_eqb at 1. destruct (String.eqb (v_name v) (v_name w)) eqn:E; cbn; auto.
      rewrite <- IH. destruct (find_idx (v_eqb v) B); auto. }
    rewrite <- G. destruct (find_idx (v_eqb v) B); auto.
  - intros l. unfold flip. split; [apply map_length|]. intros i. revert i. induction l as [|x l IH]; intros [|i]; cbn; [split; discriminate|split; discriminate| |apply IH].
    destruct x as [[|]|n]; split; intros X; try discriminate; auto.
Qed.
Example C106_flip_ex : flip [MInt 0; MBool false; MBool true; MInt 3] = [false; true; false; false].
Proof. reflexivity. Qed.

(** * operation.get_var_idx *)
(** Each name must belong to exactly one variable; its position is returned. *)
Definition only_at (varis : list variable) (n : string) (i : nat) : Prop :=
  forall j v, nth_error varis j = Some v -> (v_name v = n <-> j = i).
Lemma enum_filter (f : variable -> bool) vs : forall k,
  (forall i v, In (i, v) (filter (fun ik => f (snd ik)) (combine (seq k (List.length vs)) vs)) <->
    (k <= i)%nat /\ nth_error vs (i - k) = Some v /\ f v = true) /\
  NoDup (map fst (filter (fun ik => f (snd ik)) (combine (seq k (List.length vs)) vs))).
Proof.
  induction vs as [|w vs IH]; intros k; cbn [List.length seq combine filter snd].
  - split; [|constructor]. intros i v. split; [intros []|]. intros (_ & X & _). destruct (i - k)%nat; discriminate.
  - destruct (IH (S k)) as [I1 I2].
    assert (G : forall i v, In (i, v) (filter (fun ik => f (snd ik)) (combine (seq (S k) (List.length vs)) vs)) <-> (S k <= i)%nat /\ nth_error (w :: vs) (i - k) = Some v /\ f v = true).
    { intros i v. rewrite I1. split; intros (A & B & C); (split; [auto|]); split; auto.
      - replace (i - k)%nat with (S (i - S k)) by lia. auto.
      - replace (i - k)%nat with (S (i - S k)) in B by lia. auto. }
    destruct (f w) eqn:E.
    + split.
      * intros i v. cbn [In]. rewrite G. split.
        { intros [X|(A & B & C)]; [injection X as <- <-; rewrite Nat.sub_diag; auto|]. split; [lia|auto]. }
        { intros (A & B & C). destruct (Nat.eq_dec i k) as [->|N]; [rewrite Nat.sub_diag in B; cbn in B; injection B as ->; auto|]. right. split; [lia|auto]. }
      * cbn [map fst]. constructor; [|auto]. intros X. apply in_map_iff in X as ([i v] & X & Y). cbn in X. subst i. apply G in Y as [Y _]. lia.
    + split; [|auto]. intros i v. rewrite G. split; intros (A & B & C); [split; [lia|auto]|].
      destruct (Nat.eq_dec i k) as [->|N]; [rewrite Nat.sub_diag in B; cbn in B; injection B as <-; congruence|]. split; [lia|auto].
Qed.
Theorem C106_get_var_idx varis names :
  match get_var_idx varis names with
  | Ok idx => Forall2 (fun n i => (i < List.length varis)%nat /\ only_at varis n i) names idx
  | Err e => e = AssertionError /\ exists n, In n names /\ ~ exists i, (i < List.length varis)%nat /\ only_at varis n i
  end.
Proof.
  induction names as [|n names IH]; cbn [get_var_idx]; [constructor|].
  destruct (enum_filter (fun v => String.eqb (v_name v) n) varis 0) as [I N].
  set (fl := filter (fun ik : nat * variable => String.eqb (v_name (snd ik)) n) (combine (seq 0 (List.length varis)) varis)) in *. clearbody fl.
  assert (I' : forall i v, In (i, v) fl <-> nth_error varis i = Some v /\ v_name v = n).
  { intros i v. rewrite I, Nat.sub_0_r. rewrite String.eqb_eq. split; [intros (_ & A & B); auto|intros [A B]; split; [lia|auto]]. }
  clear I. destruct fl as [|[i v] [|[i' v'] r]].
  - split; [auto|]. exists n. split; [cbn; auto|]. intros (i & Hi & O). apply nth_error_Some in Hi. destruct (nth_error varis i) as [v|] eqn:E; [|congruence].
    apply (I' i v). split; [auto|]. apply (O i v E). auto.
  - destruct (get_var_idx varis names) as [idx|e]; cbn [bind].
    + constructor; [|auto]. cbn [fst]. destruct (proj1 (I' i v) (or_introl eq_refl)) as [E En]. split; [apply nth_error_Some; congruence|].
      intros j w Hj. split; [intros Hn|intros ->; congruence]. assert (X : In (j, w) [(i, v)]) by (apply I'; auto). destruct X as [X|[]]. congruence.
    + destruct IH as (-> & m & Hm & X). split; [auto|]. exists m. split; [cbn; auto|auto].
  - split; [auto|]. exists n. split; [cbn; auto|]. intros (k & Hk & O).
    destruct (proj1 (I' i v) (or_introl eq_refl)) as [E En]. destruct (proj1 (I' i' v') (or_intror (or_introl eq_refl))) as [E' En'].
    apply (O i v E) in En. apply (O i' v' E') in En'. cbn in N. inversion N as [|? ? X _]. apply X. left. congruence.
Qed.
Definition sm_a := mkVar "a" [VStr "0"; VStr "1"] None None.
Definition sm_b := mkVar "b" [VStr "0"; VStr "1"] None None.
Example C106_get_var_idx_ex : get_var_idx [sm_a; sm_b] ["b"; "a"; "b"] = Ok [1; 0; 1]%nat /\
  get_var_idx [sm_a; sm_b; sm_a] ["b"; "a"] = Err AssertionError /\ get_var_idx [sm_a; sm_b] ["c"] = Err AssertionError.
Proof. auto. Qed.

(** * Branch.to_dict and Branch.from_dict *)
(** A branch is read back from its dictionary, with further entries or in another order; a
    missing entry is a KeyError, vectors of different lengths an AssertionError. *)
Theorem C106_round_trip b data : List.length (b_down b) = List.length (b_up b) ->
  (forall k v, dfind (to_dict b) k = Some v -> dfind data k = Some v) -> from_dict data = Ok b.
Proof.
  intros L H. unfold from_dict, dget. rewrite (H "down" _ eq_refl), (H "up" _ eq_refl), (H "down_state" _ eq_refl), (H "up_state" _ eq_refl), (H "p" _ eq_refl).
  cbn [bind]. unfold mk_branch. rewrite (proj2 (Nat.eqb_eq _ _) L). destruct b; auto.
Qed.
Theorem C106_from_dict data :
  (forall k, In k ["down"; "up"; "down_state"; "up_state"; "p"] -> dfind data k = None -> from_dict data = Err KeyError) /\
  (forall d u ds us p, dfind data "down" = Some (BVec d) -> dfind data "up" = Some (BVec u) -> dfind data "down_state" = Some (BState ds) ->
    dfind data "up_state" = Some (BState us) -> dfind data "p" = Some (BNum p) ->
    (List.length d = List.length u -> exists b, from_dict data = Ok b /\ to_dict b = [("down", BVec d); ("up", BVec u); ("down_state", BState ds); ("up_state", BState us); ("p", BNum p)]) /\
    (List.length d <> List.length u -> from_dict data = Err AssertionError)).
Proof.
  split.
  - intros k Hk N. unfold from_dict, dget. cbn in Hk.
    destruct Hk as [<-|[<-|[<-|[<-|[<-|[]]]]]]; rewrite N; repeat (match goal with |- context [dfind data ?x] => destruct (dfind data x) end; cbn [bind]; auto).
  - intros d u ds us p E1 E2 E3 E4 E5. unfold from_dict, dget. rewrite E1, E2, E3, E4, E5. cbn [bind]. unfold mk_branch. split; intros L.
    + rewrite (proj2 (Nat.eqb_eq _ _) L). eexists. split; [reflexivity|reflexivity].
    + apply Nat.eqb_neq in L. rewrite L. auto.
Qed.
Definition sm_br := mkBr [("x", 0); ("y", 1)] [("x", 2); ("y", 1)] U_ S_ (Q2Qc (1 # 3)).
Example C106_dict_ex : from_dict (("note", BNum 0%Qc) :: rev (to_dict sm_br)) = Ok sm_br /\ List.length (b_down sm_br) = List.length (b_up sm_br) /\
  from_dict (tl (to_dict sm_br)) = Err KeyError /\ from_dict (to_dict (mkBr [] [("x", 1)] U_ U_ 0%Qc)) = Err AssertionError.
Proof. auto. Qed.

(** * Vectors of basic states *)
(** A vector whose entries add up to 0 gives -1, whatever they are.  Otherwise as many
    entries must be 1 as the sum says, and the code is a number of the table; all else is
    a ValueError. *)
Lemma sub_filter {A} (f : A -> bool) l : sublist (filter f l) l.
Proof. induction l as [|a l IH]; cbn; [constructor|]. destruct (f a); constructor; auto. Qed.
Lemma sub_map {A B} (g : A -> B) c l : sublist c l -> sublist (map g c) (map g l).
Proof. induction 1; cbn; constructor; auto. Qed.
Lemma zrange_len n : List.length (zrange 0 (Z.of_nat n)) = n.
Proof. unfold zrange. rewrite map_length, seq_length. lia. Qed.
Lemma one_sub vec : sublist (one_positions vec) (zrange 0 (Z.of_nat (List.length vec))).
Proof.
  unfold one_positions. set (r := zrange 0 _). assert (L : List.length r = List.length vec) by apply zrange_len.
  assert (E : map fst (combine r vec) = r).
  { clearbody r. revert r L. induction vec as [|x vec IH]; intros [|i r] L; cbn in *; try discriminate; auto. f_equal. apply IH. lia. }
  rewrite <- E at 2. apply sub_map. apply sub_filter.
Qed.
Lemma one_count vec : List.length (one_positions vec) = count_occ Z.eq_dec vec 1.
Proof.
  unfold one_positions. rewrite map_length. assert (L : List.length (zrange 0 (Z.of_nat (List.length vec))) = List.length vec) by apply zrange_len.
  revert L. generalize (zrange 0 (Z.of_nat (List.length vec))). induction vec as [|x vec IH]; intros [|i r] L; cbn in L; try discriminate; auto.
  cbn [combine filter snd count_occ]. destruct (Z.eqb_spec x 1) as [->|N].
  - destruct (Z.eq_dec 1 1); [|congruence]. cbn. rewrite IH; auto.
  - destruct (Z.eq_dec x 1); [congruence|]. apply IH. auto.
Qed.
Theorem C106_vector vec :
  (zsum vec = 0 -> find_state_from_vector vec = Ok (-1)) /\
  (zsum vec <> 0 -> zsum vec = Z.of_nat (count_occ Z.eq_dec vec 1) -> exists c, find_state_from_vector vec = Ok c /\ 0 <= c) /\
  (zsum vec <> 0 -> zsum vec <> Z.of_nat (count_occ Z.eq_dec vec 1) -> find_state_from_vector vec = Err ValueError).
Proof.
  unfold find_state_from_vector. split; [intros ->; reflexivity|]. split; intros N E; destruct (zsum vec =? 0) eqn:Z0; try (apply Z.eqb_eq in Z0; congruence).
  - destruct (zsum vec <? 0) eqn:Lt; [apply Z.ltb_lt in Lt; lia|]. unfold py_list_index.
    destruct (find_idx _ _) as [i|] eqn:F; cbn [bind].
    + eexists. split; [reflexivity|]. assert (G : forall ks acc, 0 <= acc -> 0 <= fold_left (fun acc j => acc + Z.of_nat (List.length (combinations (zrange 0 (Z.of_nat (List.length vec))) j))) ks acc).
      { induction ks as [|k ks IH]; cbn; intros acc Ha; [auto|]. apply IH. lia. }
      unfold group_offset. specialize (G (seq 1 (Z.to_nat (zsum vec) - 1)) 0 ltac:(lia)). lia.
    + exfalso. assert (In (one_positions vec) (combinations (zrange 0 (Z.of_nat (List.length vec))) (Z.to_nat (zsum vec)))).
      { apply combinations_spec. split; [apply one_sub|]. rewrite one_count, E. lia. }
      pose proof (proj1 (find_idx_none _ _) F _ H) as X. rewrite (proj2 (tuple_eqb_spec _ _) eq_refl) in X. discriminate.
  - destruct (zsum vec <? 0) eqn:Lt; [auto|]. apply Z.ltb_ge in Lt. unfold py_list_index.
    destruct (find_idx _ _) as [i|] eqn:F; [|auto]. exfalso. apply find_idx_some in F as (c & Hc & Ec & _). apply tuple_eqb_spec in Ec. subst c.
    apply nth_error_In in Hc. apply combinations_spec in Hc as [_ Hc]. rewrite one_count in Hc. lia.
Qed.
(** An array of vectors, vector by vector; no vectors is a ValueError. *)
Theorem C106_Bst :
  (forall B, List.concat B = [] -> get_Bst_from_Bvec B = Err ValueError) /\
  (forall B, List.concat B <> [] ->
    match get_Bst_from_Bvec B with
    | Ok sts => Forall2 (Forall2 (fun vec c => find_state_from_vector vec = Ok c)) B sts
    | Err e => e = ValueError /\ exists vec, In vec (List.concat B) /\ find_state_from_vector vec = Err ValueError
    end).
Proof.
  split; intros B H; unfold get_Bst_from_Bvec; [rewrite H; auto|]. destruct (List.concat B) as [|v0 vs0] eqn:E; [congruence|]. rewrite <- E. clear E H.
  assert (V : forall vec, match find_state_from_vector vec with Ok _ => True | Err e => e = ValueError end).
  { intros vec. destruct (C106_vector vec) as (A & B' & C). destruct (Z.eq_dec (zsum vec) 0) as [X|X]; [rewrite A; auto|].
    destruct (Z.eq_dec (zsum vec) (Z.of_nat (count_occ Z.eq_dec vec 1))) as [Y|Y]; [destruct (B' X Y) as (c & -> & _); auto|rewrite C; auto]. }
  assert (R : forall row, match mapM find_state_from_vector row with
    | Ok sts => Forall2 (fun vec c => find_state_from_vector vec = Ok c) row sts
    | Err e => e = ValueError /\ exists vec, In vec row /\ find_state_from_vector vec = Err ValueError end).
  { induction row as [|vec row IH]; cbn [mapM]; [constructor|]. specialize (V vec). destruct (find_state_from_vector vec) as [c|e] eqn:E; cbn [bind].
    - destruct (mapM _ row) as [sts|e]; cbn [bind]; [constructor; auto|]. destruct IH as (-> & w & Hw & Ew). split; [auto|]. exists w. cbn. auto.
    - subst e. split; [auto|]. exists vec. cbn. auto. }
  induction B as [|row B IH]; cbn [mapM]; [constructor|]. specialize (R row). destruct (mapM find_state_from_vector row) as [sts|e]; cbn [bind].
  - destruct (mapM _ B) as [T|e]; cbn [bind]; [constructor; auto|]. destruct IH as (-> & w & Hw & Ew). split; [auto|]. exists w. cbn. split; [apply in_or_app; auto|auto].
  - destruct R as (-> & w & Hw & Ew). split; [auto|]. exists w. cbn. split; [apply in_or_app; auto|auto].
Qed.
Example C106_Bst_ex : get_Bst_from_Bvec [[[1; 0; 0]; [0; 1; 1]]; [[0; 0; 0]; [1; 1; 1]]] = Ok [[0; 5]; [-1; 6]] /\
  find_state_from_vector [1; -1; 0] = Ok (-1) /\ find_state_from_vector [2; 0] = Err ValueError /\ find_state_from_vector [0; -1] = Err ValueError /\
  get_Bst_from_Bvec [[]; []] = Err ValueError.
Proof. do 4 (split; [vm_compute; reflexivity|]). vm_compute. reflexivity. Qed.

(** * config.convert_csv_to_json *)
(** Every row of a table has the same columns.  The entry of a label has the cells of its last
    row and, in other fields, the template; nothing of other rows gets into it.  The
    template itself is left with the cells of the last row. *)
Section Csv.
Context {V : Type}.
Lemma dupdate_find (row d : dict V) k : NoDup (keys row) ->
  dfind (dupdate d row) k = match dfind row k with Some v => Some v | None => dfind d k end.
Proof.
  unfold dupdate. revert d. induction row as [|[k' v] row IH]; intros d N; cbn [fold_left dfind fst snd]; [auto|].
  inversion N as [|? ? N1 N2]. subst. rewrite IH by auto. rewrite dfind_dset. destruct (String.eqb k k') eqn:E; [|auto].
  apply String.eqb_eq in E. subst k'. destruct (dfind row k) eqn:F; [|auto]. exfalso. apply N1. clear - F. induction row as [|[a b] row IH]; cbn in *; [discriminate|].
  destruct (String.eqb k a) eqn:E; [apply String.eqb_eq in E; auto|auto].
Qed.
Definition with_row (t row d : dict V) : Prop := forall k, dfind d k = match dfind row k with Some v => Some v | None => dfind t k end.
Lemma with_row_keep (c : list string) t row row' d d' : (forall k, dfind row k <> None <-> In k c) -> (forall k, dfind row' k <> None <-> In k c) ->
  with_row t row d -> with_row d row' d' -> with_row t row' d'.
Proof.
  intros H H' W W' k. rewrite W'. specialize (W k). destruct (dfind row' k) eqn:E; [auto|]. rewrite W. destruct (dfind row k) eqn:F; [|auto].
  exfalso. assert (X : dfind row' k <> None) by (apply H'; apply H; congruence). congruence.
Qed.
Theorem C106_csv (rows : list (string * dict V)) template cols :
  (forall k row, In (k, row) rows -> NoDup (keys row) /\ forall c, dfind row c <> None <-> In c cols) ->
  let '(data, t) := convert_csv_to_json rows template [] in
  (forall k, dfind data k = None <-> ~ In k (map fst rows)) /\
  (forall k d, dfind data k = Some d -> exists pre row post, rows = pre ++ (k, row) :: post /\ ~ In k (map fst post) /\ with_row template row d) /\
  (forall k row pre, rows = pre ++ [(k, row)] -> with_row template row t).
Proof.
  intros H.
  (* the template before row [rest]: untouched or with some row *)
  assert (G : forall rest pre t data, rows = pre ++ rest ->
    (t = template /\ pre = [] \/ exists k row pre', pre = pre' ++ [(k, row)] /\ with_row template row t) ->
    ((forall k, dfind data k = None <-> ~ In k (map fst pre)) /\
     (forall k d, dfind data k = Some d -> exists p row post, pre = p ++ (k, row) :: post /\ ~ In k (map fst post) /\ with_row template row d)) ->
    let '(data', t') := convert_csv_to_json rest t data in
    ((forall k, dfind data' k = None <-> ~ In k (map fst rows)) /\
     (forall k d, dfind data' k = Some d -> exists p row post, rows = p ++ (k, row) :: post /\ ~ In k (map fst post) /\ with_row template row d)) /\
    (t' = template /\ rows = [] \/ exists k row pre', rows = pre' ++ [(k, row)] /\ with_row template row t')).
  { induction rest as [|[k v] rest IH]; intros pre t data E T D; cbn [convert_csv_to_json].
    - rewrite app_nil_r in E. subst pre. auto.
    - assert (Hin : In (k, v) rows) by (rewrite E; apply in_or_app; cbn; auto). destruct (H k v Hin) as [Nd Hc].
      assert (W : with_row template v (dupdate t v)).
      { assert (W0 : with_row t v (dupdate t v)) by (intros x; apply dupdate_find; auto).
        destruct T as [[-> _]|(k' & row' & pre' & Ep & W')]; [exact W0|].
        apply (with_row_keep cols template row' v t (dupdate t v)); auto. apply (H k' row'). rewrite E, Ep. apply in_or_app. left. apply in_or_app. cbn. auto. }
      apply (IH (pre ++ [(k, v)])); [rewrite <- app_assoc; auto|right; exists k, v, pre; auto|]. destruct D as [D1 D2]. split.
      + intros x. rewrite dfind_dset. rewrite map_app, in_app_iff. cbn [map fst In]. destruct (String.eqb x k) eqn:Ex.
        * apply String.eqb_eq in Ex. subst x. split; [discriminate|]. intros X. exfalso. apply X. auto.
        * apply String.eqb_neq in Ex. rewrite D1. split; [intros X [Y|[Y|[]]]; auto|auto].
      + intros x d. rewrite dfind_dset. destruct (String.eqb x k) eqn:Ex.
        * apply String.eqb_eq in Ex. subst x. intros X. injection X as <-. exists pre, v, []. auto.
        * apply String.eqb_neq in Ex. intros X. destruct (D2 x d X) as (p & row & post & -> & N & Wd). exists p, row, (post ++ [(k, v)]).
          split; [rewrite <- app_assoc; auto|]. split; [|auto]. rewrite map_app, in_app_iff. cbn. intros [Y|[Y|[]]]; auto. }
  specialize (G rows [] template [] eq_refl (or_introl (conj eq_refl eq_refl))).
  match type of G with ?P -> _ => assert (G0 : P) by (split; [intros k; cbn; split; auto|intros k d X; discriminate X]) end.
  specialize (G G0). clear G0.
  destruct (convert_csv_to_json rows template []) as [data t]. destruct G as [[G1 G2] G3]. split; [auto|]. split; [auto|].
  intros k row pre E. destruct G3 as [[_ X]|(k' & row' & pre' & E' & W)]; [rewrite X in E; destruct pre; discriminate|].
  rewrite E in E'. apply app_inj_tail in E' as [_ Y]. injection Y as _ ->. auto.
Qed.
End Csv.
Example C106_csv_ex :
  convert_csv_to_json [("1", [("x", 3); ("y", 4)]); ("2", [("x", 5); ("y", 6)])] [("x", 0); ("z", 9)] [] =
    ([("1", [("x", 3); ("z", 9); ("y", 4)]); ("2", [("x", 5); ("z", 9); ("y", 6)])], [("x", 5); ("z", 9); ("y", 6)]).
Proof. reflexivity. Qed.

(** * config.dict_to_json *)
(** There are as many scenarios as the first entry has; every other entry must have as many (or
    more, which are not written), each with a first number p; written is p and 1 - p. *)
Theorem C106_dict_to_json name out d : d <> [] ->
  exists r, dict_to_json name out d = Some r /\
  forall k0 first d', d = (k0, first) :: d' ->
  match r with
  | Ok sc => Forall2 (fun i s => fst s = name i /\
      Forall2 (fun kv e => fst e = fst kv /\ exists x l, nth_error (snd kv) i = Some (x :: l) /\ snd e = (out x, out (1 - x)%Qc)) d (snd s)) (seq 0 (List.length first)) sc
  | Err e => e = IndexError /\ exists k v i, In (k, v) d /\ (i < List.length first)%nat /\ (nth_error v i = None \/ nth_error v i = Some [])
  end.
Proof.
  intros N. destruct d as [|[k0 first] d']; [congruence|]. eexists. split; [reflexivity|]. intros k1 f1 d1 E. injection E as <- <- <-.
  set (d := (k0, first) :: d'). clearbody d.
  assert (R : forall i d0, match mapM (fun kv : string * list (list Qc) => match nth_error (snd kv) i with Some (x :: _) => Ok (fst kv, (out x, out (1 - x)%Qc)) | _ => Err IndexError end) d0 with
    | Ok l => Forall2 (fun kv e => fst e = fst kv /\ exists x l, nth_error (snd kv) i = Some (x :: l) /\ snd e = (out x, out (1 - x)%Qc)) d0 l
    | Err e => e = IndexError /\ exists k v, In (k, v) d0 /\ (nth_error v i = None \/ nth_error v i = Some []) end).
  { intros i. induction d0 as [|[k v] d0 IH]; cbn [mapM]; [constructor|]. cbn [fst snd]. destruct (nth_error v i) as [[|x l]|] eqn:E; cbn [bind].
    - split; [auto|]. exists k, v. cbn. auto.
    - destruct (mapM _ d0) as [r|e]; cbn [bind].
      + constructor; [cbn; split; [auto|eauto]|auto].
      + destruct IH as (-> & k' & v' & Hin & X). split; [auto|]. exists k', v'. cbn. auto.
    - split; [auto|]. exists k, v. cbn. auto. }
  assert (G : forall l, (forall i, In i l -> (i < List.length first)%nat) -> match mapM (fun i => l0 <- mapM (fun kv : string * list (list Qc) => match nth_error (snd kv) i with Some (x :: _) => Ok (fst kv, (out x, out (1 - x)%Qc)) | _ => Err IndexError end) d ;; Ok (name i, l0)) l with
    | Ok sc => Forall2 (fun i s => fst s = name i /\ Forall2 (fun kv e => fst e = fst kv /\ exists x l, nth_error (snd kv) i = Some (x :: l) /\ snd e = (out x, out (1 - x)%Qc)) d (snd s)) l sc
    | Err e => e = IndexError /\ exists k v i, In (k, v) d /\ (i < List.length first)%nat /\ (nth_error v i = None \/ nth_error v i = Some []) end).
  { induction l as [|i l IH]; intros Hl; cbn [mapM]; [constructor|]. specialize (R i d). destruct (mapM _ d) as [r|e]; cbn [bind].
    - specialize (IH ltac:(intros; apply Hl; cbn; auto)). destruct (mapM _ l) as [sc|e]; cbn [bind]; [constructor; auto|auto].
    - destruct R as (-> & k & v & Hin & X). split; [auto|]. exists k, v, i. split; [auto|]. split; [apply Hl; cbn; auto|auto]. }
  apply G. intros i Hi. apply in_seq in Hi. lia.
Qed.
Example C106_dict_to_json_ex :
  dict_to_json (fun i => match i with O => "s1" | _ => "s2" end) (fun x => x) [("e1", [[Q2Qc (1 # 4)]; [Q2Qc (1 # 2)]]); ("e2", [[0%Qc]; [1%Qc; 0%Qc]; []])] =
    Some (Ok [("s1", [("e1", (Q2Qc (1 # 4), (1 - Q2Qc (1 # 4))%Qc)); ("e2", (0%Qc, (1 - 0)%Qc))]);
              ("s2", [("e1", (Q2Qc (1 # 2), (1 - Q2Qc (1 # 2))%Qc)); ("e2", (1%Qc, (1 - 1)%Qc))])]) /\
  dict_to_json (fun _ => "s") (fun x => x) [("e1", [[0%Qc]; [0%Qc]]); ("e2", [[0%Qc]])] = Some (Err IndexError) /\
  dict_to_json (fun _ => "s") (fun x => x) [] = None.
Proof. split; [reflexivity|]. split; reflexivity. Qed.
