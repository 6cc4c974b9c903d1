(** Final theorems about maximum and minimum system nodes (C39, C40). *)
From Coq Require Import ZArith List String Bool Arith Lia Permutation QArith Qcanon Sorting.Sorted.
From Verif Require Import Py PyFacts Num Vari VariFacts Cpm CpmFacts SpecCpm SysVal SpecSys SysValFacts.
Import ListNotations.
Open Scope string_scope.
Open Scope Z_scope.
Open Scope list_scope.

(** ** from the order of the model to that of the specification *)
Lemma asc_ascending l : (forall v w, In v l -> In w l -> kind v = kind w) -> asc l -> ascending l.
Proof.
  induction l as [|x l IH]; intros K S; cbn; auto. apply StronglySorted_inv in S as [S F]. split.
  - intros w Hw. rewrite Forall_forall in F. specialize (F w Hw). split.
    + apply vle_ltb; [apply K; [left; auto|right; auto]|]. destruct (v_ltb w x) eqn:E; auto. destruct (lt_asym _ v_order _ _ F E).
    + intros ->. rewrite (proj1 v_order) in F. discriminate.
  - apply IH; auto. intros v w Hv Hw. apply K; right; auto.
Qed.
Lemma value_in a p v : value_at a p = Some v -> In v (v_values p).
Proof. apply nth_error_In. Qed.
Lemma best_largest vars a m : parents_ok vars -> (best v_ltb vars a m <-> largest vars a m).
Proof.
  intros (_ & _ & _ & K). split; intros [(p & Hp & Em) H]; (split; [eauto|]); intros q v Hq Ev; specialize (H q v Hq Ev).
  - apply vle_ltb; auto. apply (K q p v m); auto; eapply value_in; eauto.
  - apply vle_ltb in H; auto. apply (K q p v m); auto; eapply value_in; eauto.
Qed.
Lemma best_smallest vars a m : parents_ok vars -> (best v_gtb vars a m <-> smallest vars a m).
Proof.
  unfold v_gtb. intros (_ & _ & _ & K). split; intros [(p & Hp & Em) H]; (split; [eauto|]); intros q v Hq Ev; specialize (H q v Hq Ev).
  - apply vle_ltb; auto. apply (K p q m v); auto; eapply value_in; eauto.
  - apply vle_ltb in H; auto. apply (K p q m v); auto; eapply value_in; eauto.
Qed.
Lemma key_min vars p m : parents_ok vars -> In p vars -> (key_of v_ltb (v_values p) m <-> min_of (v_values p) m).
Proof.
  intros (_ & _ & _ & K) Hp. split; intros [H1 H2]; (split; [auto|]); intros v Hv; specialize (H2 v Hv).
  - apply vle_ltb; auto. eapply (K p p); eauto.
  - apply vle_ltb in H2; auto. eapply (K p p); eauto.
Qed.
Lemma key_max vars p m : parents_ok vars -> In p vars -> (key_of v_gtb (v_values p) m <-> max_of (v_values p) m).
Proof.
  unfold key_of, v_gtb. intros (_ & _ & _ & K) Hp. split; intros [H1 H2]; (split; [auto|]); intros v Hv; specialize (H2 v Hv).
  - apply vle_ltb; auto. eapply (K p p); eauto.
  - apply vle_ltb in H2; auto. eapply (K p p); eauto.
Qed.
Lemma first_by_ext (k k' : list value -> value -> Prop) vars p : (forall q m, In q vars -> k' (v_values q) m -> k (v_values q) m) ->
  first_by k vars p -> first_by k' vars p.
Proof.
  intros H (l1 & l2 & -> & H1 & H2). exists l1, l2. split; auto.
  split; intros q m mq Hq Km Kq; [apply (H1 q)|apply (H2 q)]; auto; apply H; auto; apply in_app_iff; cbn; auto.
Qed.
Lemma gt_order : order v_gtb.
Proof. exact (flip_order _ v_order). Qed.

(** the part that the two functions share *)
Lemma sys_val_props key lt name vars (ext : list variable -> joint -> value -> Prop) :
  order key -> order lt -> parents_ok vars -> (forall a m, best lt vars a m <-> ext vars a m) ->
  exists M w raw p, sys_val key lt name vars = Ok (M, w) /\ c_vars M = w :: vars /\ c_nch M = 1%nat /\
    c_p M = map (fun _ => 1%Qc) (c_C M) /\ w = mk_variable name (v_values w) (Some FStore) /\ (forall row, In row (c_C M) -> row <> []) /\
    ascending (v_values w) /\ (forall v, In v (v_values w) <-> exists a, states_in vars a /\ ext vars a v) /\
    Permutation raw (v_values w) /\
    (forall a, states_in vars a -> exists s r m, filter (fun row => row_match vars (tl row) a) (c_C M) = [s :: r] /\
        ext vars a m /\ 0 <= s /\ nth_error raw (Z.to_nat s) = Some m) /\
    first_by (key_of key) vars p /\
    ((forall a m, states_in vars a -> ext vars a m -> In m (v_values p)) -> v_values w = raw) /\
    (lt = v_ltb -> nested_b vars -> v_values w = raw) /\
    (forall s r, In (s :: r) (c_C M) -> 0 <= s < nvals w /\ Forall2 code_ok vars r).
Proof.
  intros Hkey Hlt OK HE. destruct (sys_val_main key lt name vars Hkey Hlt OK) as (raw & C & p & E & ND & RAW & HL & HR & HF & HS & HT & HC).
  eexists _, _, raw, p. split; [exact E|]. cbn [c_vars c_nch c_p c_C]. split; [auto|]. split; [auto|]. split; [auto|].
  cbn [v_values mk_variable]. split; [auto|]. split; [intros row Hr ->; apply HL in Hr; discriminate|].
  assert (IN : forall v, In v (sort_vals raw) <-> exists a, states_in vars a /\ ext vars a v).
  { intros v. rewrite sort_vals_In, RAW. split; intros (a & H1 & H2); exists a; split; auto; apply HE; auto. }
  split; [|split; [exact IN|split; [apply Permutation_sym, sort_desc_perm|split; [|split; [exact HF|split; [|split; [exact HT|]]]]]]].
  - apply asc_ascending; [|apply sort_vals_asc; auto].
    assert (G : forall v, In v (sort_vals raw) -> exists q, In q vars /\ In v (v_values q)).
    { intros v Hv. apply IN in Hv as (a & _ & H). apply HE in H as [(q & Hq & H) _]. exists q. split; auto. eapply value_in; eauto. }
    intros v w Hv Hw. apply G in Hv as (q & Q1 & Q2), Hw as (q' & P1 & P2). destruct OK as (_ & _ & _ & K). eauto.
  - intros a Ha. destruct (HR a Ha) as (row & m & F & B & S1 & S2). assert (Hrow : In row C).
    { assert (X : In row (filter (fun row => row_match vars (tl row) a) C)) by (rewrite F; left; auto). apply filter_In in X. tauto. }
    apply HL in Hrow. destruct row as [|s r]; [discriminate|]. exists s, r, m. split; auto. split; [apply HE; auto|]. auto.
  - intros H. apply HS. intros a m Ha Hm. apply (H a m); auto. apply HE. auto.
  - intros s r H. unfold nvals. cbn [v_values mk_variable]. replace (List.length (sort_vals raw)) with (List.length raw) by (symmetry; apply Permutation_length, sort_desc_perm). auto.
Qed.

Lemma ext_unique vars a m m' : parents_ok vars -> (largest vars a m /\ largest vars a m' \/ smallest vars a m /\ smallest vars a m') -> m = m'.
Proof.
  intros OK H. assert (G : forall lt, order lt -> best lt vars a m -> best lt vars a m' -> m = m').
  { intros lt (_ & _ & T) [(q & Q1 & Q2) Q3] [(q' & P1 & P2) P3].
    destruct (T m m') as [X|[X|X]]; auto; [rewrite (Q3 q' m' P1 P2) in X|rewrite (P3 q m Q1 Q2) in X]; discriminate. }
  destruct H as [[H1 H2]|[H1 H2]]; [eapply (G v_ltb v_order)|eapply (G v_gtb gt_order)]; (apply best_largest || apply best_smallest); auto.
Qed.

(** a CPM whose rows match like this is the indicator of its system state *)
Lemma mass_indicator M w vars a s r m : (forall row, In row (c_C M) -> row <> []) -> c_vars M = w :: vars -> c_p M = map (fun _ => 1%Qc) (c_C M) ->
  w = mk_variable (v_name w) (v_values w) (Some FStore) -> filter (fun row => row_match vars (tl row) a) (c_C M) = [s :: r] ->
  0 <= s -> nth_error (v_values w) (Z.to_nat s) = Some m -> NoDup (v_values w) -> 0 <= a (v_name w) < nvals w ->
  mass M a = if val_eqb m (nth (Z.to_nat (a (v_name w))) (v_values w) m) then 1%Qc else 0%Qc.
Proof.
  intros HR HV HP HW HF Hs Hm ND Ha.
  assert (Ls : (Z.to_nat s < List.length (v_values w))%nat) by (apply nth_error_Some; congruence).
  assert (HB : v_B w = Some (gen_B (List.length (v_values w)))).
  { rewrite HW. cbn [v_B v_values mk_variable]. unfold stores_B. replace (0 <? List.length (v_values w))%nat with true by (symmetry; apply Nat.ltb_lt; lia).
    rewrite orb_true_r. auto. }
  assert (HS : states_of w s = [s]).
  { unfold states_of. rewrite HB. replace (s <? 0) with false by (symmetry; apply Z.ltb_ge; lia).
    rewrite (nth_error_nth _ _ _ (gen_B_basic _ _ Ls)). f_equal. lia. }
  assert (HWt : weights M = map (fun _ => 1%Qc) (c_C M)).
  { unfold weights. rewrite HP. destruct (c_C M); auto. }
  unfold mass. rewrite HWt, HV.
  assert (G : forall C : list (list Z), (forall row, In row C -> row <> []) ->
    qsum (map snd (filter (fun rp => row_match (w :: vars) (fst rp) a) (combine C (map (fun _ => 1%Qc) C)))) =
    qsum (map (fun _ => 1%Qc) (filter (fun row => mem_Z (a (v_name w)) (states_of w (at_ row 0))) (filter (fun row => row_match vars (tl row) a) C)))).
  { induction C as [|row C IH]; intros HN; cbn [map combine filter qsum]; auto. cbn [fst].
    destruct row as [|c row]; [exfalso; apply (HN []); [left; auto|auto]|].
    assert (E : row_match (w :: vars) (c :: row) a = mem_Z (a (v_name w)) (states_of w c) && row_match vars row a) by reflexivity.
    rewrite E. cbn [tl]. destruct (row_match vars row a); cbn [filter andb].
    - rewrite andb_true_r. change (at_ (c :: row) 0) with c. destruct (mem_Z (a (v_name w)) (states_of w c)); cbn [map qsum snd];
        rewrite IH; auto; intros; apply HN; right; auto.
    - rewrite andb_false_r. apply IH. intros; apply HN; right; auto. }
  rewrite G, HF; [|exact HR]. cbn [filter]. change (at_ (s :: r) 0) with s. rewrite HS. unfold mem_Z. cbn [existsb]. rewrite orb_false_r.
  assert (E : Z.eqb (a (v_name w)) s = val_eqb m (nth (Z.to_nat (a (v_name w))) (v_values w) m)).
  { destruct (Z.eqb_spec (a (v_name w)) s) as [X|X].
    - rewrite X, (nth_error_nth _ _ _ Hm). symmetry. apply val_eqb_eq. auto.
    - destruct (val_eqb m _) eqn:Y; auto. exfalso. apply X. apply val_eqb_eq in Y.
      assert (Z.to_nat (a (v_name w)) = Z.to_nat s); [|lia].
      apply (NoDup_nth_error_inj (v_values w) _ _ m); auto. unfold nvals in Ha. rewrite (nth_error_nth' _ m) by lia. f_equal. auto. }
  rewrite E. destruct (val_eqb m _); cbn [map qsum]; ring.
Qed.

Definition mv (n : string) (l : list Z) : variable := mk_variable n (map (fun z => VNum (qz z)) l) (Some FStore).
Lemma qz_inj x y : qz x = qz y -> x = y.
Proof.
  intros H. apply (f_equal this) in H. unfold qz, Q2Qc in H. cbn [this] in H. 
  assert (E : (inject_Z x == inject_Z y)%Q) by (rewrite <- (Qred_correct (inject_Z x)), H; apply Qred_correct).
  unfold Qeq in E. cbn in E. lia.
Qed.
Lemma parents_ok_b (l : list (string * list Z)) : l <> [] -> NoDup (map fst l) -> (forall n vs, In (n, vs) l -> vs <> [] /\ NoDup vs) ->
  parents_ok (map (fun nv => mv (fst nv) (snd nv)) l).
Proof.
  intros Hne Hd Hv. split; [destruct l; [congruence|discriminate]|]. split; [|split].
  - unfold names. rewrite map_map. exact Hd.
  - intros p Hp. apply in_map_iff in Hp as ([n vs] & <- & Hp). destruct (Hv n vs Hp) as [H1 H2]. cbn [fst snd].
    assert (Hvs : v_values (mv n vs) = map (fun z => VNum (qz z)) vs) by reflexivity. rewrite Hvs. split; [|split].
    + unfold mv, mk_variable, stores_B. cbn [v_B]. destruct vs as [|v0 vs]; [congruence|]. cbn [map List.length Nat.ltb Nat.leb andb].
      rewrite orb_true_r. reflexivity.
    + destruct vs; [congruence|discriminate].
    + apply FinFun.Injective_map_NoDup; auto. intros x y E. apply qz_inj.
      apply (f_equal (fun v => match v with VNum q => q | _ => 0%Qc end)) in E. exact E.
  - intros p q v w Hp Hq Hvv Hw. apply in_map_iff in Hp as ([n vs] & <- & _), Hq as ([n' vs'] & <- & _).
    cbn in Hvv, Hw. apply in_map_iff in Hvv as (x & <- & _), Hw as (y & <- & _). reflexivity.
Qed.
Definition show (r : res (cpm * variable)) : option (list (list Z) * list (option Q)) :=
  match r with
  | Ok (M, w) => Some (c_C M, map (fun v => match v with VNum q => Some (this q) | _ => None end) (v_values w))
  | Err _ => None
  end.
Definition e_a (l : list (string * Z)) : joint := fun n => match find (fun x => String.eqb n (fst x)) l with Some x => snd x | None => 0 end.

(** * C39 *)

(** every combination of parent states matches exactly one row *)
Theorem C39_partition :
  forall name vars, parents_ok vars ->
  exists M w, sys_max_val name vars = Ok (M, w) /\ c_vars M = w :: vars /\ c_nch M = 1%nat /\
    c_p M = map (fun _ => 1%Qc) (c_C M) /\
    forall a, states_in vars a -> exists row, filter (fun row => row_match vars (tl row) a) (c_C M) = [row].
Proof.
  intros name vars OK. destruct (sys_val_props v_ltb v_ltb name vars largest v_order v_order OK (fun a m => best_largest vars a m OK))
    as (M & w & raw & p & E & H1 & H2 & H3 & _ & _ & _ & _ & _ & HR & _).
  exists M, w. repeat (split; [auto|]). intros a Ha. destruct (HR a Ha) as (s & r & m & F & _). eauto.
Qed.
Print Assumptions C39_partition.

(** the values of the new variable are the attainable maxima in ascending order *)
Theorem C39_values :
  forall name vars M w, parents_ok vars -> sys_max_val name vars = Ok (M, w) ->
    v_name w = name /\ ascending (v_values w) /\ forall v, In v (v_values w) <-> exists a, states_in vars a /\ largest vars a v.
Proof.
  intros name vars M w OK HE. destruct (sys_val_props v_ltb v_ltb name vars largest v_order v_order OK (fun a m => best_largest vars a m OK))
    as (M' & w' & raw & p & E & H1 & H2 & H3 & H4 & _ & H5 & H6 & _). unfold sys_max_val in HE. rewrite E in HE. injection HE as <- <-.
  split; [rewrite H4; auto|]. auto.
Qed.
Print Assumptions C39_values.

(** the system states stand for the maxima, but only up to one renumbering (the
    codes count the values in the order in which they were found) *)
Theorem C39_renumbered :
  forall name vars M w, parents_ok vars -> sys_max_val name vars = Ok (M, w) ->
    exists raw, Permutation raw (v_values w) /\
      forall a s r m, states_in vars a -> In (s :: r) (c_C M) -> row_match vars r a = true -> largest vars a m ->
        nth_error raw (Z.to_nat s) = Some m.
Proof.
  intros name vars M w OK HE. destruct (sys_val_props v_ltb v_ltb name vars largest v_order v_order OK (fun a m => best_largest vars a m OK))
    as (M' & w' & raw & p & E & H1 & H2 & H3 & H4 & H0 & H5 & H6 & H7 & HR & _). unfold sys_max_val in HE. rewrite E in HE. injection HE as <- <-.
  exists raw. split; auto. intros a s r m Ha Hin HM Hm. destruct (HR a Ha) as (s' & r' & m' & F & L & S1 & S2).
  assert (X : In (s :: r) (filter (fun row => row_match vars (tl row) a) (c_C M'))) by (apply filter_In; auto).
  rewrite F in X. destruct X as [[= -> ->]|[]]. rewrite S2. f_equal. eapply (ext_unique vars a); eauto.
Qed.
Print Assumptions C39_renumbered.

Lemma max_states name vars M w : parents_ok vars -> sys_max_val name vars = Ok (M, w) ->
    (forall p a m, first_by min_of vars p -> states_in vars a -> largest vars a m -> In m (v_values p)) \/ nested_b vars ->
    (forall a s r m, states_in vars a -> In (s :: r) (c_C M) -> row_match vars r a = true -> largest vars a m ->
       0 <= s /\ nth_error (v_values w) (Z.to_nat s) = Some m) /\
    (forall a m, states_in (w :: vars) a -> largest vars a m ->
       (value_at a w = Some m -> mass M a = 1%Qc) /\ (value_at a w <> Some m -> mass M a = 0%Qc)).
Proof.
  intros OK HE HI. destruct (sys_val_props v_ltb v_ltb name vars largest v_order v_order OK (fun a m => best_largest vars a m OK))
    as (M' & w' & raw & p & E & H1 & H2 & H3 & H4 & H0 & H5 & H6 & H7 & HR & HF & HS & HT & _). unfold sys_max_val in HE. rewrite E in HE. injection HE as <- <-.
  assert (HF' : first_by min_of vars p) by (eapply first_by_ext; [|exact HF]; intros q m Hq; apply (key_min vars q m OK Hq)).
  assert (HW : v_values w' = raw) by (destruct HI as [HI|HI]; [apply HS; intros a m Ha Hm; apply (HI p a m); auto|apply HT; auto]).
  rewrite <- HW in HR.
  split.
  - intros a s r m Ha Hin HM Hm. destruct (HR a Ha) as (s' & r' & m' & F & L & S1 & S2).
    assert (X : In (s :: r) (filter (fun row => row_match vars (tl row) a) (c_C M'))) by (apply filter_In; auto).
    rewrite F in X. destruct X as [[= -> ->]|[]]. split; auto. rewrite S2. f_equal. eapply (ext_unique vars a); eauto.
  - intros a m Ha Hm. assert (Ha' : states_in vars a) by (intros q Hq; apply Ha; right; auto).
    destruct (HR a Ha') as (s & r & m' & F & L & S1 & S2). assert (m' = m) by (eapply (ext_unique vars a); eauto). subst m'.
    assert (ND : NoDup (v_values w')).
    { clear -H5. induction (v_values w') as [|x l IH]; [constructor|]. destruct H5 as [A B]. constructor; [|auto].
      intros X. destruct (A x X) as [_ Y]. auto. }
    rewrite (mass_indicator M' w' vars a s r m); auto; [|rewrite H4; auto|apply Ha; left; auto].
    specialize (Ha w' (or_introl eq_refl)). unfold value_at, nvals in *. rewrite (nth_error_nth' _ m) by lia.
    destruct (val_eqb m _) eqn:Y; [apply val_eqb_eq in Y; rewrite <- Y|]; split; auto; try congruence.
    intros X. injection X as X. rewrite X, (proj2 (val_eqb_eq m m)) in Y; congruence.
Qed.

(** The states are right when every attainable maximum is a value of the parent that
    the code treats first (the one with the least minimum, the first of these in the
    list).  Missing: other parents, for which the claim is false (see below). *)
Theorem C39_states_partial :
  forall name vars M w, parents_ok vars -> sys_max_val name vars = Ok (M, w) ->
    (forall p a m, first_by min_of vars p -> states_in vars a -> largest vars a m -> In m (v_values p)) ->
    (forall a s r m, states_in vars a -> In (s :: r) (c_C M) -> row_match vars r a = true -> largest vars a m ->
       0 <= s /\ nth_error (v_values w) (Z.to_nat s) = Some m) /\
    (forall a m, states_in (w :: vars) a -> largest vars a m ->
       (value_at a w = Some m -> mass M a = 1%Qc) /\ (value_at a w <> Some m -> mass M a = 0%Qc)).
Proof. intros name vars M w OK HE HI. apply (max_states name vars M w OK HE). auto. Qed.
Print Assumptions C39_states_partial.

(** They are also right when the values of the parents are nested: each parent has all values
    below its largest that any parent has (for instance 0, ..., k with different k). *)
Theorem C39_nested :
  forall name vars M w, parents_ok vars -> sys_max_val name vars = Ok (M, w) ->
    (forall p q v u, In p vars -> In q vars -> In v (v_values p) -> In u (v_values q) -> vlt v u -> In v (v_values q)) ->
    (forall a s r m, states_in vars a -> In (s :: r) (c_C M) -> row_match vars r a = true -> largest vars a m ->
       0 <= s /\ nth_error (v_values w) (Z.to_nat s) = Some m) /\
    (forall a m, states_in (w :: vars) a -> largest vars a m ->
       (value_at a w = Some m -> mass M a = 1%Qc) /\ (value_at a w <> Some m -> mass M a = 0%Qc)).
Proof.
  intros name vars M w OK HE HI. apply (max_states name vars M w OK HE). right. intros p q v u Hp Hq Hv Hu L. apply (HI p q v u); auto.
  assert (K : kind u = kind v) by (destruct OK as (_ & _ & _ & K); apply (K q p); auto). destruct v_order as (Irr & Tr & Tot). split.
  - apply vle_ltb; [auto|]. destruct (v_ltb u v) eqn:X; auto. specialize (Irr v). rewrite (Tr v u v L X) in Irr. discriminate.
  - intros ->. rewrite Irr in L. discriminate.
Qed.
Print Assumptions C39_nested.

(** for instance when all parents have the same values *)
Theorem C39_same_values :
  forall name vars M w, parents_ok vars -> sys_max_val name vars = Ok (M, w) ->
    (forall p q v, In p vars -> In q vars -> In v (v_values p) -> In v (v_values q)) ->
    forall a s r m, states_in vars a -> In (s :: r) (c_C M) -> row_match vars r a = true -> largest vars a m ->
       0 <= s /\ nth_error (v_values w) (Z.to_nat s) = Some m.
Proof.
  intros name vars M w OK HE HV. destruct (C39_states_partial name vars M w OK HE) as [H _]; auto.
  intros p a m (l1 & l2 & -> & _) Ha [(q & Hq & Em) _]. apply (HV q p); auto; [apply in_app_iff; right; left; auto|]. eapply value_in; eauto.
Qed.
Print Assumptions C39_same_values.

(** * C40 *)

(** every combination of parent states matches exactly one row *)
Theorem C40_partition :
  forall name vars, parents_ok vars ->
  exists M w, sys_min_val name vars = Ok (M, w) /\ c_vars M = w :: vars /\ c_nch M = 1%nat /\
    c_p M = map (fun _ => 1%Qc) (c_C M) /\
    forall a, states_in vars a -> exists row, filter (fun row => row_match vars (tl row) a) (c_C M) = [row].
Proof.
  intros name vars OK. destruct (sys_val_props v_gtb v_gtb name vars smallest gt_order gt_order OK (fun a m => best_smallest vars a m OK))
    as (M & w & raw & p & E & H1 & H2 & H3 & _ & _ & _ & _ & _ & HR & _).
  exists M, w. repeat (split; [auto|]). intros a Ha. destruct (HR a Ha) as (s & r & m & F & _). eauto.
Qed.
Print Assumptions C40_partition.

(** the values of the new variable are the attainable minima in ascending order *)
Theorem C40_values :
  forall name vars M w, parents_ok vars -> sys_min_val name vars = Ok (M, w) ->
    v_name w = name /\ ascending (v_values w) /\ forall v, In v (v_values w) <-> exists a, states_in vars a /\ smallest vars a v.
Proof.
  intros name vars M w OK HE. destruct (sys_val_props v_gtb v_gtb name vars smallest gt_order gt_order OK (fun a m => best_smallest vars a m OK))
    as (M' & w' & raw & p & E & H1 & H2 & H3 & H4 & _ & H5 & H6 & _). unfold sys_min_val in HE. rewrite E in HE. injection HE as <- <-.
  split; [rewrite H4; auto|]. auto.
Qed.
Print Assumptions C40_values.

(** the system states stand for the minima, but only up to one renumbering (the
    codes count the values in the order in which they were found) *)
Theorem C40_renumbered :
  forall name vars M w, parents_ok vars -> sys_min_val name vars = Ok (M, w) ->
    exists raw, Permutation raw (v_values w) /\
      forall a s r m, states_in vars a -> In (s :: r) (c_C M) -> row_match vars r a = true -> smallest vars a m ->
        nth_error raw (Z.to_nat s) = Some m.
Proof.
  intros name vars M w OK HE. destruct (sys_val_props v_gtb v_gtb name vars smallest gt_order gt_order OK (fun a m => best_smallest vars a m OK))
    as (M' & w' & raw & p & E & H1 & H2 & H3 & H4 & H0 & H5 & H6 & H7 & HR & _). unfold sys_min_val in HE. rewrite E in HE. injection HE as <- <-.
  exists raw. split; auto. intros a s r m Ha Hin HM Hm. destruct (HR a Ha) as (s' & r' & m' & F & L & S1 & S2).
  assert (X : In (s :: r) (filter (fun row => row_match vars (tl row) a) (c_C M'))) by (apply filter_In; auto).
  rewrite F in X. destruct X as [[= -> ->]|[]]. rewrite S2. f_equal. eapply (ext_unique vars a); eauto.
Qed.
Print Assumptions C40_renumbered.

(** The states are right when every attainable minimum is a value of the parent that
    the code treats first (the one with the least maximum, the first of these in the
    list).  Missing: other parents, for which the claim is false (see below). *)
Theorem C40_states_partial :
  forall name vars M w, parents_ok vars -> sys_min_val name vars = Ok (M, w) ->
    (forall p a m, first_by max_of vars p -> states_in vars a -> smallest vars a m -> In m (v_values p)) ->
    (forall a s r m, states_in vars a -> In (s :: r) (c_C M) -> row_match vars r a = true -> smallest vars a m ->
       0 <= s /\ nth_error (v_values w) (Z.to_nat s) = Some m) /\
    (forall a m, states_in (w :: vars) a -> smallest vars a m ->
       (value_at a w = Some m -> mass M a = 1%Qc) /\ (value_at a w <> Some m -> mass M a = 0%Qc)).
Proof.
  intros name vars M w OK HE HI. destruct (sys_val_props v_gtb v_gtb name vars smallest gt_order gt_order OK (fun a m => best_smallest vars a m OK))
    as (M' & w' & raw & p & E & H1 & H2 & H3 & H4 & H0 & H5 & H6 & H7 & HR & HF & HS & _). unfold sys_min_val in HE. rewrite E in HE. injection HE as <- <-.
  assert (HF' : first_by max_of vars p) by (eapply first_by_ext; [|exact HF]; intros q m Hq; apply (key_max vars q m OK Hq)).
  rewrite <- (HS (fun a m Ha Hm => HI p a m HF' Ha Hm)) in HR.
  split.
  - intros a s r m Ha Hin HM Hm. destruct (HR a Ha) as (s' & r' & m' & F & L & S1 & S2).
    assert (X : In (s :: r) (filter (fun row => row_match vars (tl row) a) (c_C M'))) by (apply filter_In; auto).
    rewrite F in X. destruct X as [[= -> ->]|[]]. split; auto. rewrite S2. f_equal. eapply (ext_unique vars a); eauto.
  - intros a m Ha Hm. assert (Ha' : states_in vars a) by (intros q Hq; apply Ha; right; auto).
    destruct (HR a Ha') as (s & r & m' & F & L & S1 & S2). assert (m' = m) by (eapply (ext_unique vars a); eauto). subst m'.
    assert (ND : NoDup (v_values w')).
    { clear -H5. induction (v_values w') as [|x l IH]; [constructor|]. destruct H5 as [A B]. constructor; [|auto].
      intros X. destruct (A x X) as [_ Y]. auto. }
    rewrite (mass_indicator M' w' vars a s r m); auto; [|rewrite H4; auto|apply Ha; left; auto].
    specialize (Ha w' (or_introl eq_refl)). unfold value_at, nvals in *. rewrite (nth_error_nth' _ m) by lia.
    destruct (val_eqb m _) eqn:Y; [apply val_eqb_eq in Y; rewrite <- Y|]; split; auto; try congruence.
    intros X. injection X as X. rewrite X, (proj2 (val_eqb_eq m m)) in Y; congruence.
Qed.
Print Assumptions C40_states_partial.

(** for instance when all parents have the same values *)
Theorem C40_same_values :
  forall name vars M w, parents_ok vars -> sys_min_val name vars = Ok (M, w) ->
    (forall p q v, In p vars -> In q vars -> In v (v_values p) -> In v (v_values q)) ->
    forall a s r m, states_in vars a -> In (s :: r) (c_C M) -> row_match vars r a = true -> smallest vars a m ->
       0 <= s /\ nth_error (v_values w) (Z.to_nat s) = Some m.
Proof.
  intros name vars M w OK HE HV. destruct (C40_states_partial name vars M w OK HE) as [H _]; auto.
  intros p a m (l1 & l2 & -> & _) Ha [(q & Hq & Em) _]. apply (HV q p); auto; [apply in_app_iff; right; left; auto|]. eapply value_in; eauto.
Qed.
Print Assumptions C40_same_values.

(** ** examples and refutations *)
(** parents with 2, 4 and 3 values *)
Definition p_nest : list variable := map (fun nv => mv (fst nv) (snd nv)) [("x", [0; 1]); ("y", [0; 1; 2; 3]); ("z", [2; 1; 0])].
Example C39_nested_ex :
  parents_ok p_nest /\
  (forall p q v u, In p p_nest -> In q p_nest -> In v (v_values p) -> In u (v_values q) -> vlt v u -> In v (v_values q)) /\
  show (sys_max_val "s" p_nest) = Some ([[0; 0; 0; 2]; [1; 1; 4; 5]; [1; 0; 1; 5]; [2; 2; 2; 6]; [3; 2; 3; 6]; [1; 0; 0; 1]; [2; 2; 4; 0]], [Some 0; Some 1; Some 2; Some 3]%Q).
Proof.
  split; [|split].
  - apply parents_ok_b; [discriminate|repeat constructor; cbn; intuition discriminate|].
    intros n vs [[= <- <-]|[[= <- <-]|[[= <- <-]|[]]]]; (split; [discriminate|repeat constructor; cbn; intuition discriminate]).
  - intros p q v u Hp Hq Hv Hu L.
    assert (B : forallb (fun p => forallb (fun q => forallb (fun v => forallb (fun u => negb (v_ltb v u) || existsb (val_eqb v) (v_values q))
      (v_values q)) (v_values p)) p_nest) p_nest = true) by (vm_compute; reflexivity).
    rewrite forallb_forall in B. specialize (B p Hp). rewrite forallb_forall in B. specialize (B q Hq). rewrite forallb_forall in B. specialize (B v Hv).
    rewrite forallb_forall in B. specialize (B u Hu). apply orb_true_iff in B as [B|B]; [|apply existsb_val; auto].
    assert (K : kind v = kind u).
    { assert (G : forall p v, In p p_nest -> In v (v_values p) -> kind v = false).
      { clear. intros p v [<-|[<-|[<-|[]]]] Hv; cbn in Hv; repeat (destruct Hv as [<-|Hv]; [reflexivity|]); destruct Hv. }
      rewrite (G p v Hp Hv), (G q u Hq Hu). auto. }
    destruct L as [L1 L2]. apply (vle_ltb v u K) in L1. destruct v_order as (_ & _ & T). destruct (T v u) as [X|[X|X]]; [|congruence|congruence].
    rewrite X in B. discriminate.
  - vm_compute. reflexivity.
Qed.
Definition p_good : list variable := map (fun nv => mv (fst nv) (snd nv)) [("x", [3; 0; 1]); ("y", [1; 0; 3])].
Definition p_bad : list variable := map (fun nv => mv (fst nv) (snd nv)) [("x", [0; 5]); ("y", [1; 3])].
Lemma p_good_ok : parents_ok p_good.
Proof.
  apply parents_ok_b; [discriminate|repeat constructor; cbn; intuition discriminate|].
  intros n vs [[= <- <-]|[[= <- <-]|[]]]; (split; [discriminate|repeat constructor; cbn; intuition discriminate]).
Qed.
Lemma p_bad_ok : parents_ok p_bad.
Proof.
  apply parents_ok_b; [discriminate|repeat constructor; cbn; intuition discriminate|].
  intros n vs [[= <- <-]|[[= <- <-]|[]]]; (split; [discriminate|repeat constructor; cbn; intuition discriminate]).
Qed.
Lemma p_good_same p q v : In p p_good -> In q p_good -> In v (v_values p) -> In v (v_values q).
Proof.
  intros [<- |[<- |[]]] [<- |[<- |[]]] H; auto; destruct H as [H|[H|[H|[]]]]; rewrite <- H;
    solve [left; reflexivity|right; left; reflexivity|right; right; left; reflexivity].
Qed.
(** all combinations, with maximum 3 in state 2 etc. *)
Example C39_ex :
  parents_ok p_good /\ (forall p q v, In p p_good -> In q p_good -> In v (v_values p) -> In v (v_values q)) /\
  show (sys_max_val "s" p_good) = Some ([[0; 1; 1]; [1; 2; 3]; [2; 0; 6]; [1; 1; 0]; [2; 5; 2]], [Some 0; Some 1; Some 3]%Q).
Proof. split; [apply p_good_ok|]. split; [apply p_good_same|]. vm_compute. reflexivity. Qed.
Example C40_ex :
  parents_ok p_good /\ (forall p q v, In p p_good -> In q p_good -> In v (v_values p) -> In v (v_values q)) /\
  show (sys_min_val "s" p_good) = Some ([[0; 1; 6]; [1; 2; 4]; [2; 0; 2]; [0; 4; 1]; [1; 0; 0]], [Some 0; Some 1; Some 3]%Q).
Proof. split; [apply p_good_ok|]. split; [apply p_good_same|]. vm_compute. reflexivity. Qed.

(** parents with values 0, 5 and 1, 3: the only row for the maximum 5 has system state
    0, which stands for the value 1 *)
Theorem C39_states_refuted :
  exists vars M w a s r m, parents_ok vars /\ sys_max_val "s" vars = Ok (M, w) /\ states_in vars a /\
    In (s :: r) (c_C M) /\ row_match vars r a = true /\ largest vars a m /\ nth_error (v_values w) (Z.to_nat s) <> Some m.
Proof.
  destruct (C39_partition "s" p_bad p_bad_ok) as (M & w & E & _). 
  exists p_bad, M, w, (e_a [("x", 1); ("y", 0)]), 0, [1; 2], (VNum (qz 5)).
  assert (S : show (sys_max_val "s" p_bad) = Some ([[0; 1; 2]; [1; 0; 0]; [2; 0; 1]], [Some 1; Some 3; Some 5]%Q)) by (vm_compute; reflexivity).
  rewrite E in S. cbn [show] in S. injection S as S1 S2. 
  split; [apply p_bad_ok|]. split; [exact E|]. split; [|split; [rewrite S1; left; auto|split; [reflexivity|split]]].
  - intros p [<- |[<- |[]]]; vm_compute; split; [discriminate|reflexivity|discriminate|reflexivity].
  - split; [exists (mv "x" [0; 5]); split; [left; auto|reflexivity]|].
    intros p v [<- |[<- |[]]] Hv; vm_compute in Hv; injection Hv as <-; vm_compute; discriminate.
  - intros X. cbn in X. destruct (v_values w) as [|[q| |] l]; try discriminate. cbn [map] in S2. injection S2 as S2 _.
    injection X as X. apply (f_equal this) in X. rewrite S2 in X. discriminate X.
Qed.
Print Assumptions C39_states_refuted.

Theorem C40_states_refuted :
  exists vars M w a s r m, parents_ok vars /\ sys_min_val "s" vars = Ok (M, w) /\ states_in vars a /\
    In (s :: r) (c_C M) /\ row_match vars r a = true /\ smallest vars a m /\ nth_error (v_values w) (Z.to_nat s) <> Some m.
Proof.
  destruct (C40_partition "s" p_bad p_bad_ok) as (M & w & E & _). 
  exists p_bad, M, w, (e_a [("x", 1); ("y", 0)]), 0, [1; 0], (VNum (qz 1)).
  assert (S : show (sys_min_val "s" p_bad) = Some ([[0; 1; 0]; [1; 1; 1]; [2; 0; 2]], [Some 0; Some 1; Some 3]%Q)) by (vm_compute; reflexivity).
  rewrite E in S. cbn [show] in S. injection S as S1 S2. 
  split; [apply p_bad_ok|]. split; [exact E|]. split; [|split; [rewrite S1; left; auto|split; [reflexivity|split]]].
  - intros p [<- |[<- |[]]]; vm_compute; split; [discriminate|reflexivity|discriminate|reflexivity].
  - split; [exists (mv "y" [1; 3]); split; [right; left; auto|reflexivity]|].
    intros p v [<- |[<- |[]]] Hv; vm_compute in Hv; injection Hv as <-; vm_compute; discriminate.
  - intros X. cbn in X. destruct (v_values w) as [|[q| |] l]; try discriminate. cbn [map] in S2. injection S2 as S2 _.
    injection X as X. apply (f_equal this) in X. rewrite S2 in X. discriminate X.
Qed.
Print Assumptions C40_states_refuted.

(** a value given twice: the second state of x with the value 1 matches no row, the
    first one two *)
Theorem C39_repeated_refuted :
  exists vars M w, sys_max_val "s" vars = Ok (M, w) /\
    (exists a, states_in vars a /\ filter (fun row => row_match vars (tl row) a) (c_C M) = []) /\
    (exists a, states_in vars a /\ List.length (filter (fun row => row_match vars (tl row) a) (c_C M)) = 2%nat).
Proof.
  set (vars := [mv "x" [0; 1; 1]; mv "y" [0]]).
  destruct (sys_max_val "s" vars) as [[M w]|e] eqn:E; [|vm_compute in E; discriminate].
  exists vars, M, w. split; auto.
  assert (S : show (sys_max_val "s" vars) = Some ([[0; 0; 0]; [1; 1; 0]; [1; 1; 0]], [Some 0; Some 1]%Q)) by (vm_compute; reflexivity).
  rewrite E in S. cbn [show] in S. injection S as S1 S2. rewrite S1.
  split; [exists (e_a [("x", 2)])|exists (e_a [("x", 1)])]; (split; [|reflexivity]);
    intros p [<- |[<- |[]]]; vm_compute; split; [discriminate|reflexivity|discriminate|reflexivity|discriminate|reflexivity|discriminate|reflexivity].
Qed.
Print Assumptions C39_repeated_refuted.

(** other exceptions: no values, values of different kinds, no stored table *)
Example C39_exceptions :
  sys_max_val "s" [mk_variable "x" [] None] = Err ValueError /\
  sys_max_val "s" [mk_variable "x" [VStr "a"; VNum 0%Qc] None] = Err TypeError /\
  sys_max_val "s" [mk_variable "x" [VStr "a"] None; mk_variable "y" [VInf] None] = Err TypeError /\
  sys_max_val "s" [mv "x" [0]; mk_variable "y" [VNum 0%Qc] (Some FFly)] = Err AttributeError.
Proof. repeat split; vm_compute; reflexivity. Qed.
