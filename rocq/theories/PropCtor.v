(** C94: what the constructor of CPMs lets pass.  C95: [Cpm.sort]. *)
From Coq Require Import ZArith List String Bool Arith Lia QArith Qcanon Permutation Sorted.
From Verif Require Import Py Num Vari Cpm Hybrid Ctor SpecCpm SpecCtor PyFacts VariFacts CpmFacts CpmProb CtorFacts.
Import ListNotations.
Open Scope string_scope.
Open Scope Z_scope.
Open Scope list_scope.

(** * C94 *)
(** A CPM is accepted exactly if there are no more children than variables, every row has
    one entry per variable, none above [2^n - 1], and there is one probability per row or
    none at all.  It is stored as given. *)
Theorem C94_accepts vars nch C p M : mk_cpm vars nch C p = Ok M <->
  M = mkCpm vars nch C p /\ (nch <= List.length vars)%nat /\ (forall row, In row C -> fits vars row) /\ (p = [] \/ List.length p = List.length C).
Proof. apply mk_cpm_iff. Qed.

(** Such a CPM over distinct variables is well-formed exactly if no entry is negative
    and none is [2^n - 1], the number of sets of basic states. *)
Theorem C94_well_formed vars nch C p M : NoDup (names vars) -> Forall full vars -> mk_cpm vars nch C p = Ok M ->
  (wf_cpm M <-> forall row v c, In row C -> In (v, c) (combine vars row) -> 0 <= c /\ c <> codes_of v).
Proof. apply accepted_wf. Qed.

(** Negative entries are counted from the end of the table: probabilities are those of
    the CPM with the lifted codes. *)
Theorem C94_negative vars nch C p M vs sts flag : NoDup (names vars) -> Forall full vars -> incl vs vars -> mk_cpm vars nch C p = Ok M ->
  get_prob M (Vars vs) sts flag = get_prob (lift M) (Vars vs) sts flag.
Proof.
  intros N F I H. apply mk_cpm_iff in H as (-> & L & R & P). symmetry. apply get_prob_lift; auto.
Qed.

(** An entry [2^n - 1] (or one below the negative range) makes every probability of an
    event of its variable an IndexError. *)
Theorem C94_above vars nch C p M row v c s flag : NoDup (names vars) -> In v vars -> full v -> s <= codes_of v -> mk_cpm vars nch C p = Ok M ->
  In row C -> In (v, c) (combine vars row) -> (codes_of v <= c \/ c < - codes_of v) ->
  get_prob M (Vars [v]) [SI s] flag = Err IndexError.
Proof.
  intros N I F Hs H Hr Hc R. apply mk_cpm_iff in H as (-> & L & G & P). eapply get_prob_above; eauto.
  intros r Hr'. apply G in Hr'. apply fits_nth in Hr' as [Hr' _]. auto.
Qed.

(** Assigning [C] later does not look at the probabilities. *)
Theorem C94_assign M C M' : set_C M C = Ok M' <-> M' = mkCpm (c_vars M) (c_nch M) C (c_p M) /\ forall row, In row C -> fits (c_vars M) row.
Proof.
  unfold set_C. destruct (check_C_iff (c_vars M) C) as [H D]. rewrite <- H. destruct D as [D|D]; rewrite D; cbn [bind].
  - split; [intros [= <-]; auto|intros (-> & _); auto].
  - split; [discriminate|intros (_ & X); discriminate].
Qed.

(** A one-dimensional [C] becomes a column, whatever the number of variables. *)
Theorem C94_flat vars nch C p M : mk_flat vars nch C p = Ok M <->
  M = mkCpm vars nch (map (fun c => [c]) C) p /\ (nch <= List.length vars)%nat /\
  (forall v c, In v vars -> In c C -> c <= codes_of v) /\ (p = [] \/ List.length p = List.length C).
Proof.
  unfold mk_flat, flat_C. destruct (Nat.leb_spec nch (List.length vars)) as [L|L]; [|split; [discriminate|intros (_ & H & _); lia]].
  assert (X : forallb (fun v => forallb (fun c => c <=? 2 ^ nvals v - 1) C) vars = true <-> forall v c, In v vars -> In c C -> c <= codes_of v).
  { rewrite forallb_forall. split.
    - intros H v c Hv Hc. specialize (H v Hv). rewrite forallb_forall in H. apply Z.leb_le, H; auto.
    - intros H v Hv. apply forallb_forall. intros c Hc. apply Z.leb_le. apply (H v c); auto. }
  destruct (forallb _ vars).
  - cbn [bind]. assert (Y := check_p_iff (map (fun c => [c]) C) p). rewrite map_length in Y. destruct (check_p _ p) as [[]|e]; cbn [bind].
    + split; [intros [= <-]; repeat split; auto; [apply X|apply Y]; auto|intros (-> & _); auto].
    + split; [discriminate|intros (_ & _ & _ & Z); apply Y in Z; discriminate].
  - cbn [bind]. split; [discriminate|intros (_ & _ & Z & _); apply X in Z; discriminate].
Qed.

(** Samples: entries up to the number of values, which is not a basic state. *)
Theorem C94_samples c Cs q ps idx M : mk_h c Cs q ps idx = Ok M <->
  M = mkH c Cs q ps idx /\
  (forall row, In row Cs -> Forall2 (fun v s => s <= Z.of_nat (List.length (v_values v))) (c_vars c) row) /\
  (q = [] \/ Cs = [] \/ List.length q = List.length Cs) /\ (ps = [] \/ Cs = [] \/ List.length ps = List.length Cs) /\
  (idx = [] \/ Cs = [] \/ List.length idx = List.length Cs).
Proof.
  assert (L : forall A (l : list A), check_len Cs l = Ok tt <-> l = [] \/ Cs = [] \/ List.length l = List.length Cs).
  { intros A l. unfold check_len. destruct l as [|x l]; [split; auto|]. destruct Cs as [|r Cs']; [split; auto|].
    destruct (Nat.eqb_spec (List.length (x :: l)) (List.length (r :: Cs'))) as [E|E]; [split; auto|].
    split; [discriminate|]. intros [H|[H|H]]; [discriminate|discriminate|contradiction]. }
  assert (K : check_Cs (c_vars c) Cs = Ok tt <-> forall row, In row Cs -> Forall2 (fun v s => s <= Z.of_nat (List.length (v_values v))) (c_vars c) row).
  { assert (NT : forall vars row, Forall2 (fun v s => s <= Z.of_nat (List.length (v_values v))) vars row <->
        List.length row = List.length vars /\ forall i v, nth_error vars i = Some v -> at_ row i <= nvals v).
    { unfold nvals, at_. intros vars row. split.
      - intros H. induction H as [|v s vars' row' H1 H2 [IH1 IH2]]; [split; auto; intros [|i] v; discriminate|].
        split; [cbn; lia|]. intros [|i] w E; cbn in *; [injection E as <-; auto|apply IH2; auto].
      - revert row. induction vars as [|v vars' IH]; intros [|s row'] [Hl H]; cbn in Hl; try lia; constructor.
        + apply (H O v); auto.
        + apply IH. split; [lia|]. intros i w E. apply (H (S i)); auto. }
    unfold check_Cs. destruct Cs as [|r Cs']; [split; auto; intros _ row []|]. set (rs := r :: Cs').
    destruct (forallb (fun row => (List.length row =? List.length (c_vars c))%nat) rs) eqn:Er; cbn [negb].
    - rewrite forallb_forall in Er. match goal with |- context [if ?b then _ else _] => destruct b eqn:M1 end.
      + split; auto. intros _ row Hr. apply NT. split; [apply Nat.eqb_eq; auto|]. intros i v E. rewrite forallb_forall in M1.
        specialize (M1 (i, v)). cbn [fst snd] in M1. rewrite forallb_forall in M1. apply Z.leb_le, M1; auto.
        apply in_seq_combine. rewrite Nat.sub_0_r. split; auto. lia.
      + split; [discriminate|]. intros H. exfalso. apply not_true_iff_false in M1. apply M1. apply forallb_forall. intros [i v] Hi.
        apply in_seq_combine in Hi as [_ Hi]. rewrite Nat.sub_0_r in Hi. cbn [fst snd]. apply forallb_forall. intros row Hr. apply Z.leb_le.
        apply H in Hr. apply NT in Hr as [_ Hr]. auto.
    - split; [discriminate|]. intros H. exfalso. apply not_true_iff_false in Er. apply Er. apply forallb_forall. intros row Hr. apply Nat.eqb_eq.
      apply H in Hr. apply NT in Hr as [Hr _]. auto. }
  unfold mk_h. rewrite <- K, <- !L. destruct (check_Cs _ _) as [[]|e]; cbn [bind]; [|split; [discriminate|intros (_ & X & _); discriminate]].
  destruct (check_len Cs q) as [[]|e]; cbn [bind]; [|split; [discriminate|intros (_ & _ & X & _); discriminate]].
  destruct (check_len Cs ps) as [[]|e]; cbn [bind]; [|split; [discriminate|intros (_ & _ & _ & X & _); discriminate]].
  destruct (check_len Cs idx) as [[]|e]; cbn [bind]; [|split; [discriminate|intros (_ & _ & _ & _ & X); discriminate]].
  split; [intros [= <-]; auto|intros (-> & _); auto].
Qed.

(** ** Example: a variable of two values has the codes 0, 1 and 2 *)
Definition cx_v : variable := mk_variable "x" [VStr "f"; VStr "s"] None.
Definition cx_half : Qc := Q2Qc (1 # 2).
Lemma cx_full : full cx_v.
Proof. exists "x", [VStr "f"; VStr "s"], None. split; [reflexivity|discriminate]. Qed.

(** accepted and well-formed, rejected for a code, rejected for the length of [p] *)
Example C94_ex :
  (exists M, mk_cpm [cx_v] 1 [[0]; [1]] [cx_half; cx_half] = Ok M /\ wf_cpm M /\ get_prob M (Vars [cx_v]) [SI 1] true = Ok cx_half) /\
  mk_cpm [cx_v] 1 [[0]; [4]] [cx_half; cx_half] = Err AssertionError /\ mk_cpm [cx_v] 1 [[0]; [1]] [cx_half] = Err AssertionError.
Proof.
  split; [|split; reflexivity]. eexists. split; [reflexivity|]. split; [|vm_compute; reflexivity].
  apply (C94_well_formed [cx_v] 1 [[0]; [1]] [cx_half; cx_half]); [| |reflexivity|].
  - repeat constructor. intros [].
  - repeat constructor. apply cx_full.
  - intros row v c [<-|[<-|[]]] [[= <- <-]|[]]; vm_compute; split; congruence.
Qed.

(** Every accepted CPM is well-formed: refuted by the code -1, read as "any state"; by
    the code 3 of a variable of two values; by a variable entered twice; and by a flat
    list with two variables. *)
Theorem C94_accepts_refuted :
  (exists M, mk_cpm [cx_v] 1 [[-1]; [1]] [cx_half; cx_half] = Ok M /\ ~ wf_cpm M /\ get_prob M (Vars [cx_v]) [SI 0] true = Ok cx_half /\
             get_prob M (Vars [cx_v]) [SI 1] true = Ok 1%Qc) /\
  (exists M, mk_cpm [cx_v] 1 [[0]; [3]] [cx_half; cx_half] = Ok M /\ ~ wf_cpm M /\ get_prob M (Vars [cx_v]) [SI 0] true = Err IndexError) /\
  (exists M, mk_cpm [cx_v; cx_v] 2 [[0; 1]] [1%Qc] = Ok M /\ ~ wf_cpm M) /\
  (exists M, mk_flat [cx_v; mk_variable "y" [VStr "f"; VStr "s"] None] 2 [0; 1] [cx_half; cx_half] = Ok M /\ ~ wf_cpm M).
Proof.
  assert (N : forall row c, In (cx_v, c) (combine [cx_v] row) -> code_ok cx_v c -> 0 <= c < 3).
  { intros row c _ H. apply (full_code cx_v c cx_full) in H. exact H. }
  split; [|split; [|split]].
  - eexists. split; [reflexivity|]. split; [|split; vm_compute; [reflexivity|f_equal; apply Qc_is_canon; reflexivity]]. intros (_ & _ & _ & W & _).
    specialize (W [-1] (or_introl eq_refl)). inversion W as [|? ? ? ? H _]; subst. apply (full_code cx_v) in H; [|apply cx_full]. lia.
  - eexists. split; [reflexivity|]. split; [|vm_compute; reflexivity]. intros (_ & _ & _ & W & _).
    specialize (W [3] (or_intror (or_introl eq_refl))). inversion W as [|? ? ? ? H _]; subst. apply (full_code cx_v) in H; [|apply cx_full].
    vm_compute in H. destruct H as [_ H]. discriminate.
  - eexists. split; [reflexivity|]. intros (W & _). inversion W as [|? ? W1 _]; subst. apply W1. left. reflexivity.
  - eexists. split; [reflexivity|]. intros (_ & _ & _ & W & _). specialize (W [0] (or_introl eq_refl)). apply Forall2_length in W. discriminate.
Qed.

(** Samples are basic states: refuted; state 2 of a variable of two values is accepted. *)
Theorem C94_samples_refuted : exists M, mk_h (mkCpm [cx_v] 1 [] []) [[2]] [1%Qc] [] [0] = Ok M /\ ~ (2 < Z.of_nat (List.length (v_values cx_v))).
Proof. eexists. split; [reflexivity|]. cbn. lia. Qed.

(** * C95 *)
Definition same_row (row : list Z) (rp : list Z * Qc) : bool := if list_eq_dec Z.eq_dec row (fst rp) then true else false.

Lemma sort_plain c (H : forall row, In row (c_C c) -> fits (c_vars c) row) (P : c_p c = [] \/ List.length (c_p c) = List.length (c_C c)) :
  h_sort (mkH c [] [] [] []) =
  Ok (mkH (mkCpm (c_vars c) (c_nch c) (sort_rows (fun r => r) (c_C c)) (match c_p c with [] => [] | p => map snd (sort_rows fst (combine (c_C c) p)) end)) [] [] [] []).
Proof.
  unfold h_sort. cbn [h_c h_idx h_q h_ps h_Cs]. cbv zeta. rewrite argsort_tagged. rewrite take_tagged. cbn [bind].
  assert (E : sort_desc (fun y x => lex_ltb (rev y) (rev x)) (c_C c) = sort_rows (fun r => r) (c_C c)) by reflexivity. rewrite E.
  assert (Pe : Permutation (sort_rows (fun r => r) (c_C c)) (c_C c)) by apply sort_desc_perm.
  unfold set_C. assert (Ck : check_C (c_vars c) (sort_rows (fun r => r) (c_C c)) = Ok tt).
  { apply check_C_iff. intros row Hr. apply H. eapply Permutation_in; eauto. }
  rewrite Ck. cbn [bind]. destruct (c_p c) as [|q0 p0] eqn:Ep; [reflexivity|]. destruct P as [P|P]; [discriminate|]. rewrite <- Ep in P.
  cbn [take_some]. rewrite <- Ep.
  assert (K : map snd (tagged (fun a b => lex_ltb a b) (@rev Z) (c_C c)) = map snd (tagged lex_ltb (fun rp : list Z * Qc => rev (fst rp)) (combine (c_C c) (c_p c)))).
  { rewrite <- !argsort_tagged. f_equal. rewrite <- (map_map fst (@rev Z)). f_equal. clear -P. revert P. generalize (c_p c).
    induction (c_C c) as [|r C IH]; intros [|q p] P; cbn in P; try lia; auto. cbn. f_equal. apply IH. lia. }
  rewrite K. assert (S : c_p c = map snd (combine (c_C c) (c_p c))).
  { clear -P. revert P. generalize (c_p c). induction (c_C c) as [|r C IH]; intros [|q p] P; cbn in P; try lia; auto. cbn. f_equal. apply IH. lia. }
  assert (T := take_tagged lex_ltb (fun rp : list Z * Qc => rev (fst rp)) (combine (c_C c) (c_p c))).
  apply (take_map snd) in T. rewrite <- S in T. rewrite T. cbn [bind]. unfold set_p. cbn [c_C c_vars c_nch].
  assert (Cp : check_p (sort_rows (fun r => r) (c_C c)) (map snd (sort_desc (fun y x => lex_ltb (rev (fst y)) (rev (fst x))) (combine (c_C c) (c_p c)))) = Ok tt).
  { apply check_p_iff. right. rewrite map_length. rewrite (Permutation_length Pe), (Permutation_length (sort_desc_perm _ _)), combine_length. lia. }
  rewrite Cp. reflexivity.
Qed.

Lemma sort_pairs C (p : list Qc) : List.length p = List.length C ->
  combine (sort_rows (fun r => r) C) (map snd (sort_rows fst (combine C p))) = sort_rows fst (combine C p).
Proof.
  intros L. assert (E : sort_rows (fun r => r) C = map fst (sort_rows fst (combine C p))).
  { unfold sort_rows. rewrite <- (sort_desc_map fst (fun y x => lex_ltb (rev y) (rev x))). f_equal.
    revert p L. induction C as [|r C IH]; intros [|q p] L; cbn in L; try lia; auto. cbn. f_equal. apply IH. lia. }
  rewrite E. generalize (sort_rows fst (combine C p)). clear. induction l as [|[a b] l IH]; auto. cbn. f_equal. auto.
Qed.

Lemma rows_ordered n C : (forall r, In r C -> List.length r = n) -> StronglySorted (fun a b => a = b \/ before a b) (sort_rows (fun r => r) C).
Proof.
  intros L. assert (S : StronglySorted (fun x y => lex_ltb (rev y) (rev x) = false) (sort_rows (fun r => r) C)).
  { apply (CpmMarg.sort_desc_sorted (fun y x => lex_ltb (rev y) (rev x))); [intros x y; apply lex_asym|intros x y z; apply lex_trans]. }
  assert (P : Permutation (sort_rows (fun r => r) C) C) by apply sort_desc_perm.
  assert (L' : forall r, In r (sort_rows (fun r => r) C) -> List.length r = n) by (intros r Hr; apply L; eapply Permutation_in; eauto).
  clear P. revert L'. induction S as [|x l S IH F]; intros L'; constructor.
  - apply IH. intros r Hr. apply L'. right; auto.
  - rewrite Forall_forall in *. intros y Hy. apply lex_before; auto. rewrite (L' x), (L' y); auto; [right|left]; auto.
Qed.

(** Without samples: the rows with their probabilities in ascending order, from the last
    entry of a row backwards; equal rows stay in order.  Values are unchanged. *)
Theorem C95_sort c : (forall row, In row (c_C c) -> fits (c_vars c) row) -> (c_p c = [] \/ List.length (c_p c) = List.length (c_C c)) ->
  exists c', h_sort (mkH c [] [] [] []) = Ok (mkH c' [] [] [] []) /\ c_vars c' = c_vars c /\ c_nch c' = c_nch c /\
    Permutation (c_C c') (c_C c) /\ StronglySorted (fun a b => a = b \/ before a b) (c_C c') /\
    List.length (c_p c') = List.length (c_p c) /\ Permutation (combine (c_C c') (c_p c')) (combine (c_C c) (c_p c)) /\
    (forall row, filter (same_row row) (combine (c_C c') (c_p c')) = filter (same_row row) (combine (c_C c) (c_p c))) /\
    (forall a, mass c' a = mass c a).
Proof.
  intros H P. rewrite sort_plain by auto. eexists. split; [reflexivity|]. cbn [c_vars c_nch c_C c_p]. split; [auto|]. split; [auto|].
  assert (Pe : Permutation (sort_rows (fun r => r) (c_C c)) (c_C c)) by apply sort_desc_perm.
  split; [auto|]. split.
  { apply (rows_ordered (List.length (c_vars c))). intros r Hr. apply H in Hr. apply fits_nth in Hr as [Hr _]. auto. }
  unfold mass, weights. cbn [c_vars c_nch c_C c_p].
  destruct (c_p c) as [|q0 p0] eqn:Ep.
  - split; [auto|]. assert (X : forall l : list (list Z), combine l (@nil Qc) = []) by (intros [|]; auto). rewrite !X. split; [constructor|]. split; [auto|].
    intros a. rewrite !qsum_filter. apply qsum_perm. apply Permutation_map.
    assert (Y : forall l : list (list Z), combine l (map (fun _ => 1%Qc) l) = map (fun r => (r, 1%Qc)) l) by (induction l; cbn; f_equal; auto).
    rewrite !Y. apply Permutation_map. auto.
  - destruct P as [P|P]; [discriminate|]. rewrite <- Ep in *. set (s := sort_rows fst (combine (c_C c) (c_p c))).
    assert (Ps : Permutation s (combine (c_C c) (c_p c))) by apply sort_desc_perm.
    assert (Ls : List.length s = List.length (c_C c)) by (rewrite (Permutation_length Ps), combine_length; lia).
    assert (Em : match map snd s with [] => map (fun _ => 1%Qc) (sort_rows (fun r => r) (c_C c)) | q :: l => q :: l end = map snd s).
    { destruct s as [|t s']; [|reflexivity]. cbn in Ls. rewrite <- P in Ls. rewrite Ep in Ls. discriminate. }
    split; [rewrite map_length; lia|]. rewrite Em.
    assert (Ec := sort_pairs (c_C c) (c_p c) P). fold s in Ec. rewrite Ec. split; [auto|]. split.
    + intros row. unfold s, sort_rows. apply sort_desc_stable. intros x y Hx Hy. unfold same_row in *.
      destruct (list_eq_dec Z.eq_dec row (fst x)) as [<-|]; [|discriminate]. destruct (list_eq_dec Z.eq_dec row (fst y)) as [<-|]; [|discriminate].
      destruct (lex_ltb (rev row) (rev row)) eqn:E; auto. assert (X := lex_asym _ _ E). congruence.
    + intros a. rewrite Ep at 1. rewrite <- Ep. rewrite !qsum_filter. apply qsum_perm. apply Permutation_map. auto.
Qed.

(** The rows of a product are put in order by this method. *)
Theorem C95_product vars n rows ps : (forall row, In row rows -> fits vars row) -> List.length ps = List.length rows -> rows <> [] ->
  h_sort (mkH (mkCpm vars n rows ps) [] [] [] []) =
  Ok (mkH (mkCpm vars n (map fst (sort_rows fst (combine rows ps))) (map snd (sort_rows fst (combine rows ps)))) [] [] [] []).
Proof.
  intros H L N. rewrite sort_plain by auto. cbn [c_vars c_nch c_C c_p]. do 2 f_equal. f_equal.
  - rewrite <- (sort_pairs rows ps L) at 1. assert (X : List.length (map snd (sort_rows fst (combine rows ps))) = List.length (sort_rows (fun r => r) rows)).
    { rewrite map_length. unfold sort_rows. rewrite !(Permutation_length (sort_desc_perm _ _)), combine_length. lia. }
    revert X. generalize (sort_rows (fun r => r) rows) (map snd (sort_rows fst (combine rows ps))). clear.
    induction l as [|a l IH]; intros [|b m] X; cbn in *; try lia; auto. f_equal. apply IH. lia.
  - destruct ps; [destruct rows; [congruence|discriminate]|reflexivity].
Qed.

Lemma get_at_err {A} (l : list A) i e : get_at l i = Err e -> e = IndexError.
Proof. unfold get_at. destruct (nth_error l i); congruence. Qed.
Lemma skipn_nth {A} (l : list A) k x : nth_error l k = Some x -> skipn k l = x :: skipn (S k) l.
Proof.
  revert k. induction l as [|y l IH]; intros [|k] E; try discriminate; cbn in E; [injection E as ->; auto|]. cbn [skipn]. rewrite IH by auto. reflexivity.
Qed.
Lemma take_seq {A} (l : list A) n : (n <= List.length l)%nat -> take l (seq 0 n) = Ok (firstn n l).
Proof.
  intros H. unfold take. assert (G : forall k m, (k + m <= List.length l)%nat -> mapM (get_at l) (seq k m) = Ok (firstn m (skipn k l))).
  { intros k m. revert k. induction m as [|m IH]; intros k Hk; auto. cbn [seq mapM]. unfold get_at at 1. destruct (nth_error l k) as [x|] eqn:E; [|apply nth_error_None in E; lia].
    cbn [bind]. rewrite IH by lia. cbn [bind]. rewrite (skipn_nth l k x E). reflexivity. }
  rewrite G by lia. reflexivity.
Qed.
Lemma argsort_perm {A} (lt : A -> A -> bool) l : Permutation (argsort lt l) (seq 0 (List.length l)).
Proof.
  unfold argsort. eapply perm_trans; [apply Permutation_map, sort_desc_perm|]. generalize 0%nat. induction l as [|x l IH]; intros n; auto. cbn. constructor. auto.
Qed.

(** With samples in ascending order of their numbers: only as many rows of [C] and
    probabilities are left as there are samples. *)
Theorem C95_cut c Cs q ps idx : idx <> [] -> StronglySorted Z.le idx -> List.length Cs = List.length idx -> List.length q = List.length idx ->
  (forall row, In row (c_C c) -> fits (c_vars c) row) -> List.length (c_p c) = List.length (c_C c) -> (List.length idx <= List.length (c_C c))%nat ->
  h_sort (mkH c Cs q ps idx) =
  Ok (mkH (mkCpm (c_vars c) (c_nch c) (firstn (List.length idx) (c_C c)) (firstn (List.length idx) (c_p c))) Cs q ps idx).
Proof.
  intros N S L1 L2 H P L. unfold h_sort. cbn [h_c h_idx h_q h_ps h_Cs]. cbv zeta.
  assert (A : argsort Z.ltb idx = seq 0 (List.length idx)).
  { unfold argsort. rewrite sort_desc_id.
    - generalize 0%nat. clear. induction idx as [|x l IH]; intros n; auto. cbn. f_equal. auto.
    - clear -S. generalize 0%nat. induction S as [|x l S IH F]; intros n; cbn; constructor; auto. rewrite Forall_forall in *.
      intros [y i] Hy. cbn [fst]. apply in_combine_l in Hy. apply F in Hy. apply Z.ltb_ge. auto. }
  assert (E : match idx with [] => argsort (fun a b => lex_ltb a b) (map (@rev Z) (c_C c)) | _ => argsort Z.ltb idx end = seq 0 (List.length idx)).
  { rewrite A. destruct idx; [contradiction|reflexivity]. }
  destruct idx as [|k0 idx0] eqn:Ei; [contradiction|]. rewrite <- Ei in *. rewrite E.
  rewrite take_seq by auto. cbn [bind]. unfold set_C.
  assert (Ck : check_C (c_vars c) (firstn (List.length idx) (c_C c)) = Ok tt).
  { apply check_C_iff. intros row Hr. apply H. rewrite <- (firstn_skipn (List.length idx) (c_C c)). apply in_or_app. auto. }
  rewrite Ck. cbn [bind]. assert (TP : forall A (l : list A), (List.length idx <= List.length l)%nat -> take_some l (seq 0 (List.length idx)) = Ok (firstn (List.length idx) l)).
  { intros T l Hl. unfold take_some. destruct l as [|x l0] eqn:El; [rewrite Ei in Hl; cbn in Hl; lia|]. rewrite <- El in *. apply take_seq. auto. }
  rewrite TP by lia. cbn [bind]. unfold set_p. cbn [c_C c_vars c_nch].
  assert (Cp : check_p (firstn (List.length idx) (c_C c)) (firstn (List.length idx) (c_p c)) = Ok tt) by (apply check_p_iff; right; rewrite !firstn_length; lia).
  rewrite Cp. cbn [bind]. rewrite !TP by lia. cbn [bind]. rewrite !firstn_all2 by lia.
  assert (K : forall A (l : list A), List.length l = List.length idx -> check_len Cs l = Ok tt).
  { intros T l Hl. unfold check_len. destruct l as [|x l]; auto. destruct Cs as [|r Cs']; auto. rewrite Hl, <- L1, Nat.eqb_refl. auto. }
  rewrite !K by auto. reflexivity.
Qed.

(** With more samples than rows in [C]: an IndexError. *)
Theorem C95_more M : (List.length (c_C (h_c M)) < List.length (h_idx M))%nat -> h_sort M = Err IndexError.
Proof.
  intros L. assert (A := argsort_perm Z.ltb (h_idx M)).
  assert (X : take (c_C (h_c M)) (argsort Z.ltb (h_idx M)) = Err IndexError).
  { unfold take. apply (mapM_index_err _ _ (List.length (c_C (h_c M)))).
    - apply (Permutation_in _ (Permutation_sym A)). apply in_seq. lia.
    - unfold get_at. rewrite (proj2 (nth_error_None _ _)); auto.
    - intros y e _. apply get_at_err. }
  unfold h_sort. cbv zeta. destruct (h_idx M) as [|k0 l0]; [cbn in L; lia|]. rewrite X. reflexivity.
Qed.

(** ** Examples *)
Definition sx_y : variable := mk_variable "y" [VStr "f"; VStr "s"] None.
Definition sx_q (a b : Z) : Qc := (qz a / qz b)%Qc.
Definition sx_c : cpm := mkCpm [cx_v; sx_y] 2 [[0; 1]; [1; 0]; [0; 0]; [1; 1]] [sx_q 1 10; sx_q 2 10; sx_q 3 10; sx_q 4 10].
Lemma sx_fits row : In row (c_C sx_c) -> fits (c_vars sx_c) row.
Proof. intros [<-|[<-|[<-|[<-|[]]]]]; repeat constructor; cbn; lia. Qed.

(** as in test_cpm.py 632-648: the first column varies fastest *)
Example C95_ex : h_sort (mkH sx_c [] [] [] []) =
  Ok (mkH (mkCpm [cx_v; sx_y] 2 [[0; 0]; [1; 0]; [0; 1]; [1; 1]] [sx_q 3 10; sx_q 2 10; sx_q 1 10; sx_q 4 10]) [] [] [] []) /\
  exists c', h_sort (mkH sx_c [] [] [] []) = Ok (mkH c' [] [] [] []) /\ Permutation (c_C c') (c_C sx_c) /\ forall a, mass c' a = mass sx_c a.
Proof.
  split; [reflexivity|]. destruct (C95_sort sx_c) as (c' & E & _ & _ & P & _ & _ & _ & _ & M); [intros row; apply sx_fits|right; reflexivity|].
  exists c'. auto.
Qed.

(** [sort] keeps a CPM with samples as it is up to the order: refuted.  With one sample,
    three of the four rows of [C] are lost; with samples numbered 1 and 0, the weights and
    numbers change places, the sampled states do not. *)
Theorem C95_samples_refuted :
  (exists M, h_sort (mkH sx_c [[0; 0]] [1%Qc] [] [0]) = Ok M /\ c_p (h_c M) = [sx_q 1 10]) /\
  (exists M, h_sort (mkH (mkCpm [cx_v] 1 [[0]; [1]] [sx_q 1 4; sx_q 3 4]) [[0]; [1]] [sx_q 1 4; sx_q 3 4] [] [1; 0]) = Ok M /\
     h_Cs M = [[0]; [1]] /\ h_q M = [sx_q 3 4; sx_q 1 4] /\ h_idx M = [0; 1]).
Proof.
  split.
  - rewrite (C95_cut sx_c [[0; 0]] [1%Qc] [] [0]).
    + eexists. split; reflexivity.
    + discriminate.
    + repeat constructor.
    + reflexivity.
    + reflexivity.
    + intros row. apply sx_fits.
    + reflexivity.
    + cbn. lia.
  - eexists. split; [reflexivity|]. auto.
Qed.

Print Assumptions C94_accepts. Print Assumptions C94_well_formed. Print Assumptions C94_negative. Print Assumptions C94_above.
Print Assumptions C94_assign. Print Assumptions C94_flat. Print Assumptions C94_samples. Print Assumptions C94_accepts_refuted. Print Assumptions C94_samples_refuted.
Print Assumptions C95_sort. Print Assumptions C95_product. Print Assumptions C95_cut. Print Assumptions C95_more. Print Assumptions C95_samples_refuted.
