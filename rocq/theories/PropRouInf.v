(** C108: the inference functions of demos/routine. *)
From Coq Require Import ZArith List String Bool Arith Lia QArith Qcanon.
From Verif Require Import Py PyFacts Num Vari VariFacts Cpm CpmFacts SpecCpm CpmCond CpmSum CpmMarg CpmElim CpmProb CpmMean MsysProd SpecProd MsysProdFacts CalFacts RouInf PropCpm PropProd.
Import ListNotations.
Open Scope string_scope.
Open Scope Z_scope.
Open Scope list_scope.

(** * The product *)
(** the dictionary has for the parent [v] the component that the list [Ms] has for it, and the variables have its table *)
Definition same_comp (Ms : list cpm) (Mc : dict cpm) (varis : dict variable) (v : variable) : Prop :=
  exists m w, dfind Mc (v_name v) = Some m /\ comp_for Ms v = Some m /\ dfind varis (v_name v) = Some w /\ v_B w = v_B v.

Lemma rt_cell_comp m v w st : hd_error (c_vars m) = Some v -> v_B w = v_B v -> rt_cell m w st = comp_prob m st.
Proof. unfold rt_cell, comp_prob. intros H E. destruct (c_vars m) as [|v' l]; [discriminate|]. injection H as ->. rewrite E. auto. Qed.

Lemma rt_fold Msys Ms Mc varis C :
  Forall comp_ok Ms -> (forall m, In m Ms -> agree (c_vars Msys) (c_vars m)) ->
  forall l k p, incl l (c_vars Msys) -> (forall v, In v l -> same_comp Ms Mc varis v) -> List.length p = List.length C ->
  (forall row i v, In row C -> nth_error l i = Some v -> code_ok v (at_ row (pos (c_vars Msys) v)) /\ at_ row (k + i) = at_ row (pos (c_vars Msys) v)) ->
  foldM (rt_col Mc varis C) (combine (seq k (List.length l)) l) p
  = Ok (map (fun rp => (snd rp * qprod (map (fun v => comp_factor Ms v (at_ (fst rp) (pos (c_vars Msys) v))) l))%Qc) (combine C p)).
Proof.
  intros H A. induction l as [|v l IH]; intros k p Hi Hm L Hg.
  - cbn. f_equal. clear - L. revert p L. induction C as [|r C IH]; intros [|q p] L; cbn in L; try lia; auto.
    cbn [combine map snd]. rewrite <- IH by lia. f_equal. ring.
  - destruct (Hm v (or_introl eq_refl)) as (m & w & D1 & D2 & D3 & D4). cbn [List.length seq combine foldM]. unfold rt_col at 1. cbn [fst snd].
    unfold dget at 1. rewrite D1. cbn [bind].
    destruct (comp_for_ok Msys Ms v m) as (Hin & Hok & Hch); auto; [apply Hi; left; auto|].
    assert (Hv : hd_error (c_vars m) = Some v) by (rewrite (comp_vars m v Hch); [auto|apply Hok]).
    rewrite (mapM_ok _ (fun rp => (snd rp * comp_total m (states_of v (at_ (fst rp) k)))%Qc)).
    + cbn [bind]. rewrite IH; auto.
      * f_equal. clear IH.
        assert (Hg0 : forall row, In row C -> at_ row k = at_ row (pos (c_vars Msys) v)).
        { intros row Hr. destruct (Hg row 0%nat v Hr eq_refl) as [_ Y]. rewrite Nat.add_0_r in Y. auto. }
        clear Hg. revert p L. induction C as [|r C IH]; intros [|q p] L; cbn in L; try lia; auto.
        cbn [map combine fst snd]. rewrite IH by (try lia; intros; apply Hg0; right; auto). f_equal.
        unfold comp_factor at 2. rewrite D2. rewrite Hg0 by (left; auto). cbn [map qprod fold_right]. unfold qprod. ring.
      * intros x Hx. apply Hi. right; auto.
      * intros x Hx. apply Hm. right; auto.
      * rewrite map_length, combine_length. lia.
      * intros row j x Hr Hj. destruct (Hg row (S j) x Hr Hj) as [Y1 Y2]. split; auto. rewrite <- Y2. f_equal. lia.
    + intros [row q] Hrq. cbn [fst snd]. apply in_combine_l in Hrq as Hr. unfold dget. rewrite D3. cbn [bind].
      destruct (Hg row 0%nat v Hr eq_refl) as [Y1 Y2]. rewrite Nat.add_0_r in Y2. rewrite (rt_cell_comp m v w) by auto. rewrite Y2.
      rewrite (comp_prob_ok m v) by auto. reflexivity.
Qed.

(** With a component for every parent, the older product gives what prod_Msys_and_Mcomps gives:
    all variables become children, in their order. *)
Theorem C108_product Msys Ms Mc varis : prod_ok Msys Ms [] ->
  (forall v, In v (parents Msys) -> same_comp Ms Mc varis v) ->
  rt_prod Msys Mc varis = prod_sys Msys Ms /\
  exists p, prod_sys Msys Ms = Ok (mkCpm (c_vars Msys) (List.length (c_vars Msys)) (c_C Msys) p).
Proof.
  intros OK HM. pose proof (prod_sys_spec _ _ _ OK) as E. destruct OK as (W & P & NC & NM & HO & HC & HA).
  assert (IM : forall v, In v (parents Msys) -> in_comps Ms v = true).
  { intros v Hv. destruct (HM v Hv) as (m & w & _ & X & _). unfold in_comps. rewrite X. auto. }
  assert (M1 : mult_of Msys Ms = parents Msys).
  { unfold mult_of. revert IM. generalize (parents Msys). induction l as [|v l IH]; intros G; [auto|]. cbn [filter]. rewrite G by (left; auto). f_equal. apply IH. intros; apply G; right; auto. }
  assert (M2 : rest_of Msys Ms = []).
  { unfold rest_of. revert IM. generalize (parents Msys). induction l as [|v l IH]; intros G; [auto|]. cbn [filter]. rewrite G by (left; auto). apply IH. intros; apply G; right; auto. }
  assert (M3 : part_vars Msys Ms = c_vars Msys) by (unfold part_vars; rewrite M1, M2, app_nil_r; symmetry; apply vars_split).
  assert (Hrow : forall row, In row (c_C Msys) -> List.length row = List.length (c_vars Msys)) by (intros row Hr; apply (wf_rows Msys row W Hr)).
  assert (M4 : map (new_row Msys Ms []) (c_C Msys) = c_C Msys).
  { rewrite <- (map_id (c_C Msys)) at 2. apply map_ext_in. intros row Hr. unfold new_row. rewrite M3. cbn. rewrite app_nil_r. apply proj_self; [apply W|auto]. }
  rewrite M4, M3, M1 in E. cbn [new_conds filter map] in E. rewrite app_nil_r, <- vars_split in E.
  assert (L : List.length (children Msys) = c_nch Msys) by (unfold children; apply firstn_length_le, W).
  split; [|rewrite E; eauto]. rewrite E. unfold rt_prod. rewrite (rt_fold Msys Ms); auto.
  - cbn [bind]. apply mk_cpm_ok; [apply W|auto|apply W|]. right. rewrite map_length, combine_length. unfold has_p in P. lia.
  - intros v Hv. apply parents_incl. auto.
  - intros row i v Hr Hi. pose proof (nth_error_In _ _ Hi) as Hv. apply parents_incl in Hv. split; [apply wf_cell; auto|].
    f_equal. symmetry. apply pos_nth; [apply W|]. rewrite vars_split, nth_error_app2 by lia. rewrite L. replace (c_nch Msys + i - c_nch Msys)%nat with i by lia. auto.
Qed.
(** It rejects a parent without a component (KeyError), whatever the rows. *)
Theorem C108_missing Msys Mc varis v l : parents Msys = v :: l -> dfind Mc (v_name v) = None -> rt_prod Msys Mc varis = Err KeyError.
Proof. intros E D. unfold rt_prod. rewrite E. cbn [List.length seq combine foldM]. unfold rt_col at 1. cbn [fst snd]. unfold dget at 1. rewrite D. auto. Qed.

(** * Queries *)
Lemma filter_map {A B} (h : A -> B) g l : filter g (map h l) = map h (filter (fun x => g (h x)) l).
Proof. induction l as [|a l IH]; cbn; [auto|]. destruct (g (h a)); cbn; rewrite IH; auto. Qed.
Lemma combine_seq {A B} (da : A) (db : B) : forall (C : list A) (p : list B), List.length p = List.length C ->
  combine C p = map (fun j => (nth j C da, nth j p db)) (seq 0 (List.length C)).
Proof.
  induction C as [|r C IH]; intros [|x p] L; cbn in L; try discriminate; auto. cbn [combine List.length seq map nth]. f_equal.
  rewrite <- seq_shift, map_map. apply IH. lia.
Qed.
(** [get_prob] is the total of the rows whose code is exactly [st]. *)
Theorem C108_prob M v st : NoDup (names (c_vars M)) -> has_p M -> In v (c_vars M) ->
  rt_get_prob M (v_name v) st = Ok (total (fun row => at_ row (pos (c_vars M) v) =? st) M).
Proof.
  intros N P Hv. unfold rt_get_prob, rt_rows. rewrite (name_index_pos M v) by auto. cbn [bind]. unfold total. rewrite (combine_seq [] 0%Qc) by exact P.
  rewrite filter_map. cbn [fst]. rewrite map_map. cbn [snd]. set (js := filter _ _).
  assert (J : forall j, In j js -> (j < List.length (c_p M))%nat) by (intros j Hj; apply filter_In in Hj as [Hj _]; apply in_seq in Hj; unfold has_p in P; lia).
  clearbody js. assert (G : forall acc, foldM (fun acc j => x <- rt_p M j ;; Ok (acc + x)%Qc) js acc = Ok (acc + qsum (map (fun j => nth j (c_p M) 0%Qc) js))%Qc).
  { induction js as [|j js IH]; intros acc; cbn [foldM map].
    - f_equal. unfold qsum. cbn. ring.
    - unfold rt_p at 1. rewrite (nth_error_nth' _ 0%Qc) by (apply J; left; auto). cbn [bind]. rewrite IH by (intros; apply J; right; auto). f_equal. unfold qsum. cbn. ring. }
  rewrite G. f_equal. ring.
Qed.
(** For a column of basic states this is Cpm.get_prob. *)
Theorem C108_same M v st : wf_cpm M -> has_p M -> In v (c_vars M) -> code_ok v st -> st < 2 ^ nvals v ->
  states_of v st = [st] -> (forall row, In row (c_C M) -> states_of v (at_ row (pos (c_vars M) v)) = [at_ row (pos (c_vars M) v)]) ->
  rt_get_prob M (v_name v) st = get_prob M (Vars [v]) [SI st] true.
Proof.
  intros W P Hv Hc Hs S1 S2. pose proof (proj1 W) as N. rewrite C108_prob by auto.
  change [SI st] with (map SI [st]). rewrite get_prob_spec; auto; [|repeat split|discriminate|].
  - f_equal. rewrite !total_weighted. apply weighted_ext. intros row Hr. destruct (wf_rows M row W Hr) as [L _].
    unfold hits. cbn [combine forallb fst snd]. rewrite andb_true_r.
    assert (X : forallb (fun wr : variable * Z => negb (String.eqb (v_name (fst wr)) (v_name v)) || existsb (fun x => mem_Z x (states_of v st)) (states_of (fst wr) (snd wr))) (combine (c_vars M) row) = (at_ row (pos (c_vars M) v) =? st)).
    { apply eq_true_iff_eq. rewrite forallb_forall. rewrite S1. split.
      - intros H. specialize (H (v, at_ row (pos (c_vars M) v))). cbn [fst snd] in H. rewrite String.eqb_refl, S2 in H by auto. cbn in H. rewrite !orb_false_r in H.
        apply H. apply In_combine_at; auto.
      - intros H [w r] Hw. cbn [fst snd]. apply In_combine_at in Hw as [Hw ->]; auto. destruct (String.eqb_spec (v_name w) (v_name v)) as [E|E]; [|auto].
        assert (w = v) by (apply (NoDup_names_inj (c_vars M)); auto). subst w. rewrite S2 by auto. cbn. rewrite H. auto. }
    rewrite X. destruct (_ =? _); auto.
  - constructor; [intros []|constructor].
  - intros a b [<-|[]] Hb E. apply (NoDup_names_inj (c_vars M)); auto.
  - intros a b [[= <- <-]|[]] _. auto.
  - intros a b [[= <- <-]|[]]. auto.
Qed.
(** [get_Msub] keeps exactly the rows of that code, with their probabilities; they add up to [get_prob]. *)
Theorem C108_sub M v st : wf_cpm M -> has_p M -> In v (c_vars M) ->
  exists R, rt_get_Msub M (v_name v) st = Ok R /\ c_vars R = c_vars M /\ c_nch R = c_nch M /\ has_p R /\
    combine (c_C R) (c_p R) = filter (fun rp => at_ (fst rp) (pos (c_vars M) v) =? st) (combine (c_C M) (c_p M)) /\
    rt_get_prob M (v_name v) st = Ok (qsum (c_p R)).
Proof.
  intros W P Hv. pose proof (proj1 W) as N. pose proof (C108_prob M v st N P Hv) as Q. unfold rt_get_Msub, rt_rows. rewrite (name_index_pos M v) by auto. cbn [bind].
  set (js := filter _ _).
  assert (J : forall j, In j js -> (j < List.length (c_C M))%nat) by (intros j Hj; apply filter_In in Hj as [Hj _]; apply in_seq in Hj; lia).
  assert (E : mapM (rt_p M) js = Ok (map (fun j => nth j (c_p M) 0%Qc) js)).
  { apply mapM_ok. intros j Hj. unfold rt_p. rewrite (nth_error_nth' _ 0%Qc); [auto|]. unfold has_p in P. rewrite P. apply J. auto. }
  rewrite E. cbn [bind].
  assert (F : combine (map (fun j => nth j (c_C M) []) js) (map (fun j => nth j (c_p M) 0%Qc) js) = filter (fun rp => at_ (fst rp) (pos (c_vars M) v) =? st) (combine (c_C M) (c_p M))).
  { rewrite (combine_seq [] 0%Qc (c_C M) (c_p M)) by exact P. rewrite filter_map. cbn [fst]. fold js. clearbody js. clear. induction js as [|j js IH]; cbn; [auto|]. rewrite IH. auto. }
  exists (mkCpm (c_vars M) (c_nch M) (map (fun j => nth j (c_C M) []) js) (map (fun j => nth j (c_p M) 0%Qc) js)). split; [|split; [auto|split; [auto|split; [unfold has_p; cbn; rewrite !map_length; auto|split; [exact F|]]]]].
  - apply mk_cpm_ok; [apply W|apply W| |right; rewrite !map_length; auto]. intros row Hr. apply in_map_iff in Hr as (j & <- & Hj).
    apply W. apply nth_In. auto.
  - rewrite Q. f_equal. unfold total. rewrite <- F. cbn [c_p]. clear. f_equal. induction js as [|j js IH]; cbn; [auto|]. rewrite IH. auto.
Qed.
(** without a variable of that name all three are a ValueError *)
Theorem C108_no_name M n st : ~ In n (names (c_vars M)) -> rt_get_prob M n st = Err ValueError /\ rt_get_Msub M n st = Err ValueError.
Proof.
  intros H. unfold rt_get_prob, rt_get_Msub, rt_rows, name_index.
  replace (find_idx _ _) with (@None nat); [auto|]. symmetry. apply find_idx_none. intros v Hv. apply String.eqb_neq. intros E. apply H. subst n. apply in_map. auto.
Qed.

Definition rt_Mc : dict cpm := [("y", Py); ("x", Px)].
Definition rt_varis : dict variable := [("x", vx); ("y", vy)].
Example C108_ex :
  prod_ok Ms [Py; Px] [] /\ (forall v, In v (parents Ms) -> same_comp [Py; Px] rt_Mc rt_varis v) /\
  view (rt_prod Ms rt_Mc rt_varis) = Ok ([vs; vx; vy], 3%nat, [[0; 0; 6]; [0; 1; 0]; [1; 1; 5]], [1 # 10; 9 # 50; 18 # 25]%Q) /\
  match rt_prod Ms rt_Mc rt_varis with
  | Ok R => (q <- rt_get_prob R "s" 0 ;; Ok (this q)) = Ok (7 # 25)%Q /\ view (rt_get_Msub R "y" 0) = Ok ([vs; vx; vy], 3%nat, [[0; 1; 0]], [(9 # 50)%Q]) /\ rt_get_Msub R "z" 0 = Err ValueError
  | Err _ => False
  end /\
  rt_prod Ms [("x", Px)] rt_varis = Err KeyError.
Proof.
  split; [apply ex_prod|]. split; [|split; [vm_compute; reflexivity|split; [|vm_compute; reflexivity]]].
  - intros v Hv. assert (E : parents Ms = [vx; vy]) by reflexivity. rewrite E in Hv. destruct Hv as [<-|[<-|[]]].
    + exists Px, vx. repeat split.
    + exists Py, vy. repeat split.
  - vm_compute. repeat split.
Qed.
Example C108_same_ex :
  wf_cpm Px /\ has_p Px /\ In vx (c_vars Px) /\ code_ok vx 1 /\ 1 < 2 ^ nvals vx /\ states_of vx 1 = [1] /\
  (forall row, In row (c_C Px) -> states_of vx (at_ row (pos (c_vars Px) vx)) = [at_ row (pos (c_vars Px) vx)]) /\
  (q <- rt_get_prob Px "x" 1 ;; Ok (this q)) = Ok (9 # 10)%Q.
Proof.
  destruct ex_prod as (_ & _ & _ & _ & H & _). pose proof (proj1 (Forall_forall _ _) H Px (or_intror (or_introl eq_refl))) as (W & P & _).
  split; [exact W|]. split; [exact P|]. split; [left; reflexivity|]. split; [eexists; split; [reflexivity|]; vm_compute; split; [discriminate|reflexivity]|]. split; [reflexivity|]. split; [reflexivity|].
  split; [|vm_compute; reflexivity]. intros row [<-|[<-|[]]]; reflexivity.
Qed.
