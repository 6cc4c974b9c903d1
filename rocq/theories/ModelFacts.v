(** Lemmas about Model.v: elimination of the components from the system CPM. *)
From Coq Require Import ZArith List String Bool QArith Qcanon Lia Permutation Sorting.
From Verif Require Import Py PyFacts Num Vari VariFacts Brc SpecBrc BrcFacts BrcProb BrcDecomp BrcRules BrcRun BrcMisc BrcMain BrcProper.
From Verif Require Import Cpm SpecCpm CpmFacts CpmCond CpmProd CpmList CpmSum CpmMarg CpmElim CpmProb Model.
Import ListNotations.
Open Scope string_scope.
Open Scope Z_scope.
Open Scope list_scope.

(** the table of all sets is stored *)
Definition stored (v : variable) : Prop := v_B v = Some (gen_B (List.length (v_values v))).

Lemma stored_composite v states : stored v -> states <> [] -> (forall x, In x states -> 0 <= x < nvals v) ->
  exists c, get_composite_state v states = Ok (v, c).
Proof.
  intros S Hn Hr. unfold get_composite_state. rewrite S.
  set (added := py_set states). set (B := gen_B _).
  assert (Hd : NoDup added) by apply py_set_NoDup.
  assert (Hn' : added <> []).
  { destruct states as [|a l]; [congruence|]. intros E.
    assert (In a added) by (apply py_set_In; left; auto). rewrite E in H. destruct H. }
  destruct (stored_state (List.length (v_values v)) added Hd Hn') as (i & H1 & H2).
  { intros x Hx. apply Hr. apply py_set_In. auto. }
  fold B in H1, H2.
  assert (existsb (set_eqb added) B = true) as ->.
  { apply existsb_exists. exists (sort_Z added). split; [eapply nth_error_In; eauto|].
    apply set_eqb_spec. intros. symmetry. apply sort_Z_In. }
  rewrite H1. cbn [bind]. exists (Z.of_nat i). unfold B. rewrite <- S. destruct v; reflexivity.
Qed.

Lemma stored_basic v : stored v -> basic_table v.
Proof.
  intros S. eexists. split; [exact S|]. intros s Hs. exists [s]. split; [|intros x; cbn; intuition].
  rewrite gen_B_basic by (unfold nvals in Hs; lia). rewrite Z2Nat.id by lia. auto.
Qed.

Lemma stored_ok v : 1 <= nvals v -> stored v -> var_ok v.
Proof.
  intros Hn S. destruct v as [nm vals B fl]. unfold stored, nvals in *. cbn [v_B v_values] in *. subst B.
  assert (V : var_ok (mk_variable nm vals (Some FStore))).
  { apply (mk_variable_ok nm vals (Some FStore) (gen_B (List.length vals))). unfold mk_variable, stores_B. cbn [v_B].
    assert (E : (0 <? List.length vals)%nat = true) by (apply Nat.ltb_lt; lia). rewrite E. rewrite orb_true_r. auto. }
  destruct V as (B & HB & V). unfold mk_variable, stores_B in HB. cbn [v_B] in HB.
  assert (E : (0 <? List.length vals)%nat = true) by (apply Nat.ltb_lt; lia). rewrite E, orb_true_r in HB. cbn [andb] in HB.
  exists B. split; auto.
Qed.

Lemma dset_same {A} (d : dict A) k a : dfind d k = Some a -> dset d k a = d.
Proof.
  induction d as [|[k' a'] d IH]; cbn; [congruence|]. destruct (String.eqb_spec k k') as [E|]; intros H.
  - injection H as ->. subst. auto.
  - f_equal. auto.
Qed.

Section Stored.
Context (varis : dict variable) (Hw : wf_varis varis) (Hst : forall k v, In (k, v) varis -> stored v).

Lemma stored_tables : tables varis.
Proof. intros k v Hv. apply stored_basic. apply (Hst k). apply dfind_In. auto. Qed.

Lemma get_c_loop_same br names : forall cst v' c, 
  (forall k v, In k names -> dfind varis k = Some v -> In k (keys (b_down br)) /\ In k (keys (b_up br)) /\
     0 <= coord (b_down br) k /\ coord (b_up br) k < nvals v) ->
  get_c_loop br names varis cst = Ok (v', c) -> v' = varis.
Proof.
  induction names as [|k names IH]; intros cst v' c Hn H; cbn [get_c_loop] in H; [injection H as <- _; auto|].
  destruct (dget (b_down br) k) as [dn|] eqn:Ed; cbn [bind] in H; [|congruence].
  destruct (dget (b_up br) k) as [up|] eqn:Eu; cbn [bind] in H; [|congruence].
  destruct (dn <? up) eqn:El.
  - destruct (dget varis k) as [v|] eqn:Ev; cbn [bind] in H; [|congruence].
    assert (Fv : dfind varis k = Some v) by (unfold dget in Ev; destruct (dfind varis k); congruence).
    destruct (Hn k v (or_introl eq_refl) Fv) as (K1 & K2 & R1 & R2).
    rewrite (dget_coord _ k K1) in Ed. rewrite (dget_coord _ k K2) in Eu. injection Ed as <-. injection Eu as <-.
    apply Z.ltb_lt in El.
    destruct (stored_composite v (zrange (coord (b_down br) k) (coord (b_up br) k + 1))) as (c1 & Ec).
    + apply (Hst k). apply dfind_In. auto.
    + rewrite zrange_cons by lia. congruence.
    + intros x Hx. apply In_zrange in Hx. lia.
    + rewrite Ec in H. cbn [bind] in H. rewrite (dset_same varis k v Fv) in H. eapply IH; [|exact H].
      intros k1 v1 X. apply Hn. right; auto.
  - eapply IH; [|exact H]. intros k1 v1 X. apply Hn. right; auto.
Qed.

Lemma get_csys_same conv brs rows v' : (forall b, In b brs -> wf_br varis b) ->
  get_csys brs varis conv = Ok (rows, v') -> v' = varis.
Proof.
  intros Hb H. unfold get_csys in H. destruct brs as [|b0 bs] eqn:Ebs; [congruence|].
  destruct (get_csys_loop _ varis conv []) as [[rw vv]|] eqn:E; cbn [bind] in H; [|congruence].
  destruct (forallb _ rw); [|congruence]. injection H as _ <-. revert E Hb. generalize (@nil (list Z)) as acc. clear Ebs.
  generalize (b0 :: bs) as l. induction l as [|b l IH]; intros acc E Hb; cbn [get_csys_loop] in E; [injection E as _ <-; auto|].
  unfold get_c in E. destruct (conv _) as [s|]; cbn [bind] in E; [|congruence].
  destruct (get_c_loop b _ varis [s]) as [[v1 c1]|] eqn:E1; cbn [bind] in E; [|congruence].
  assert (v1 = varis) as ->.
  { destruct (Hb b (or_introl eq_refl)) as (D & U & L). eapply get_c_loop_same; [|exact E1].
    intros k v Hk Fv. rewrite (sp_keys varis _ U) in *. rewrite (sp_keys varis _ D). split; auto. split; auto.
    pose proof (sp_coord varis Hw _ k v D (dfind_In _ _ _ Fv)). pose proof (sp_coord varis Hw _ k v U (dfind_In _ _ _ Fv)). lia. }
  eapply IH; [exact E|]. intros b1 X. apply Hb. right; auto.
Qed.
End Stored.

(** ** sums over joint states and over component vectors *)
Definition over (x : dict Z) (a : joint) : joint := fun n => match dfind x n with Some s => s | None => a n end.

Lemma over_cons k s x a n : ~ In k (keys x) -> over x (fun m => if String.eqb m k then s else a m) n = over ((k, s) :: x) a n.
Proof.
  intros H. unfold over. cbn [dfind]. destruct (String.eqb_spec n k) as [E|]; [subst|auto].
  apply dfind_none in H. rewrite H, ?String.eqb_refl. auto.
Qed.

Lemma marg_space (vd : dict variable) f : ext f -> NoDup (keys vd) -> (forall k v, In (k, v) vd -> v_name v = k) ->
  forall a, marg (map snd vd) f a = qsum (map (fun x => f (over x a)) (space (comps_of vd))).
Proof.
  intros Hf. induction vd as [|[k v] vd IH]; intros Hn Hk a.
  - cbn. rewrite Qcplus_0_r. apply Hf. intros n. reflexivity.
  - cbn [map snd fst marg comps_of space]. inversion_clear Hn as [|? ? N1 N2].
    rewrite qsum_flat_map. apply qsum_map_ext. intros s _. rewrite map_map.
    rewrite IH by (auto; intros; apply Hk; right; auto). apply qsum_map_ext. intros x Hx. apply Hf. intros n.
    assert (E : v_name v = k) by (apply Hk; left; auto).
    rewrite <- over_cons.
    + unfold over. destruct (dfind x n); auto. unfold set_joint. rewrite E. auto.
    + rewrite (space_keys _ _ Hx). fold (comps_of vd). rewrite keys_comps_of. auto.
Qed.

(** ** the CPMs of the components and of the system *)
Section System.
Context (varis : dict variable) (probs : prob_dict) (Hw : wf_varis varis) (Hp : wf_probs varis probs).
Context (Hst : forall k v, In (k, v) varis -> v_name v = k /\ stored v).
Context (vsys : variable) (conv : st -> Z).
Context (Hsn : ~ In (v_name vsys) (keys varis)) (Hsb : basic_table vsys) (Hsv : var_ok vsys).
Context (Hcr : forall s, 0 <= conv s < nvals vsys) (Hci : forall s t, conv s = conv t -> s = t).

Definition comp_M (kv : string * variable) : cpm :=
  mkCpm [snd kv] 1 (map (fun s => [s]) (zrange 0 (nvals (snd kv)))) (map (pr probs (fst kv)) (zrange 0 (nvals (snd kv)))).
Definition sys_M (rows : list (list Z)) : cpm := mkCpm (vsys :: map snd varis) 1 rows (map (fun _ => 1%Qc) rows).

Lemma vnames : names (map snd varis) = keys varis.
Proof.
  unfold names, keys. rewrite map_map. apply map_ext_in. intros [k v] Hin. cbn. apply (Hst k v Hin).
Qed.
Lemma vars_nodup : NoDup (names (vsys :: map snd varis)).
Proof. cbn [names map]. fold (names (map snd varis)). rewrite vnames. constructor; [auto|apply Hw]. Qed.
Lemma comp_var_ok k v : In (k, v) varis -> var_ok v.
Proof. intros H. apply stored_ok; [apply (proj2 Hw k v H)|apply (Hst k v H)]. Qed.
Lemma all_var_ok : Forall var_ok (vsys :: map snd varis).
Proof.
  constructor; auto. apply Forall_forall. intros v Hv. apply in_map_iff in Hv as ([k w] & <- & Hin). apply (comp_var_ok k w Hin).
Qed.

Lemma basic_code v s : basic_table v -> 0 <= s < nvals v -> code_ok v s /\ forall x, In x (states_of v s) <-> x = s.
Proof.
  intros (B & HB & Hb) Hs. destruct (Hb s Hs) as (e & He & Hx). split.
  - exists B. split; auto. split; [lia|]. assert (Z.to_nat s < List.length B)%nat by (apply nth_error_Some; congruence). lia.
  - unfold states_of. rewrite HB. destruct (s <? 0) eqn:E; [lia|]. rewrite (nth_error_nth _ _ _ He). auto.
Qed.

Lemma comp_M_wf kv : In kv varis -> wf_cpm (comp_M kv).
Proof.
  destruct kv as [k v]. intros Hin. split; [|split; [|split; [|split]]]; cbn [comp_M c_vars c_nch c_C c_p snd fst].
  - cbn. constructor; [intros []|constructor].
  - constructor; [apply (comp_var_ok k v Hin)|constructor].
  - cbn. lia.
  - intros row Hr. apply in_map_iff in Hr as (s & <- & Hs). apply In_zrange in Hs.
    constructor; [|constructor]. apply basic_code; auto. apply stored_basic. apply (Hst k v Hin).
  - right. rewrite !map_length. auto.
Qed.

Lemma comp_M_make kv : In kv varis -> component_cpm probs (fst kv) (snd kv) = Ok (comp_M kv).
Proof.
  destruct kv as [k v]. intros Hin. unfold component_cpm. cbn [fst snd].
  destruct (Hp k v Hin) as [(d & Ed & Hd) _]. unfold dget. rewrite Ed. cbn [bind].
  rewrite (mapM_ok _ (pr probs k)).
  2:{ intros x Hx. apply In_zrange in Hx. destruct (Hd x Hx) as (q & Eq & _). unfold pr. rewrite Ed, Eq. auto. }
  cbn [bind]. destruct (comp_M_wf (k, v) Hin) as (W1 & W2 & W3 & W4 & W5). cbn [comp_M c_vars c_nch c_C c_p snd fst] in *.
  apply mk_cpm_ok; auto.
Qed.

Lemma comp_M_mass kv a : In kv varis -> mass (comp_M kv) a =
  (if (0 <=? a (fst kv)) && (a (fst kv) <? nvals (snd kv)) then pr probs (fst kv) (a (fst kv)) else 0)%Qc.
Proof.
  destruct kv as [k v]. intros Hin. destruct (Hst k v Hin) as [Hn Hs]. rewrite mass_if. cbn [comp_M c_vars c_C snd fst].
  rewrite weights_p.
  2:{ cbn [comp_M c_p fst snd]. pose proof (proj2 Hw k v Hin). rewrite zrange_cons by lia. cbn. congruence. }
  cbn [comp_M c_p fst snd].
  assert (E : forall l, combine (map (fun s : Z => [s]) l) (map (pr probs k) l) = map (fun s => ([s], pr probs k s)) l).
  { induction l; cbn; congruence. }
  rewrite E, map_map. cbn [fst snd].
  rewrite (qsum_map_ext _ (fun s => if s =? a k then pr probs k (a k) else 0%Qc)).
  - destruct ((0 <=? a k) && (a k <? nvals v)) eqn:B.
    + apply qsum_single; [apply zrange_NoDup|]. apply In_zrange. lia.
    + apply qsum_map_zero. intros s Hx. apply In_zrange in Hx. destruct (Z.eqb_spec s (a k)); auto. lia.
  - intros s Hx. apply In_zrange in Hx. unfold row_match. cbn [combine forallb fst snd]. rewrite andb_true_r, Hn.
    destruct (basic_code v s (stored_basic v Hs) Hx) as [_ X].
    destruct (Z.eqb_spec s (a k)) as [->|Hne].
    + assert (mem_Z (a k) (states_of v (a k)) = true) as -> by (apply mem_Z_In, X; auto). auto.
    + destruct (mem_Z (a k) (states_of v s)) eqn:Y; auto. apply mem_Z_In, X in Y. congruence.
Qed.

Context (brs : list branch) (rows : list (list Z)).
Context (Hne : brs <> []) (Hbr : forall b, In b brs -> wf_br varis b) (Hrow : Forall2 (row_ok varis conv varis) brs rows).

Lemma row_codes b row : row_ok varis conv varis b row -> Forall2 code_ok (vsys :: map snd varis) row.
Proof.
  intros (cs & -> & F). constructor; [apply basic_code; auto|].
  assert (G : forall vd cs, (forall k v, In (k, v) vd -> dfind varis k = Some v) ->
    Forall2 (fun k c => means varis k c (coord (b_down b) k) (coord (b_up b) k)) (keys vd) cs -> Forall2 code_ok (map snd vd) cs).
  { clear. induction vd as [|[k v] vd IH]; intros cs Hd F; inversion_clear F; constructor.
    - destruct H as (v' & B & e & E1 & E2 & E3 & E4 & _). rewrite (Hd k v (or_introl eq_refl)) in E1. injection E1 as <-.
      exists B. split; auto. split; auto. assert (Z.to_nat y < List.length B)%nat by (apply nth_error_Some; congruence). cbn. lia.
    - apply IH; auto. intros. apply Hd. right; auto. }
  apply G; auto. intros k v Hin. apply In_dfind; [apply Hw|auto].
Qed.

Lemma sys_M_wf : wf_cpm (sys_M rows).
Proof.
  split; [exact vars_nodup|]. split; [exact all_var_ok|]. split; [cbn; lia|]. split.
  - intros row Hr. destruct (Forall2_in_r _ _ _ _ Hrow Hr) as (b & _ & R). apply (row_codes b). auto.
  - right. cbn [sys_M c_p c_C]. apply map_length.
Qed.
Lemma sys_M_make : system_cpm vsys varis rows = Ok (sys_M rows).
Proof.
  destruct sys_M_wf as (W1 & W2 & W3 & W4 & W5). unfold system_cpm. apply mk_cpm_ok; auto. 
Qed.

Lemma row_match_branch b row x a : wf_br varis b -> In x (sp varis) -> row_ok varis conv varis b row ->
  (forall k, In k (keys varis) -> a k = coord x k) ->
  row_match (vsys :: map snd varis) row a = (a (v_name vsys) =? conv (br_label b)) && in_branch b x.
Proof.
  intros Wb Hx R Ha. destruct (row_ok_in_branch varis Hw conv varis b row x Wb Hx R) as (c & cs & -> & -> & Hl & I).
  unfold row_match. cbn [combine forallb fst snd]. f_equal.
  - destruct (basic_code vsys (conv (br_label b)) Hsb (Hcr _)) as [_ X]. destruct (Z.eqb_spec (a (v_name vsys)) (conv (br_label b))) as [E|E].
    + apply mem_Z_In, X. auto.
    + destruct (mem_Z _ _) eqn:Y; auto. apply mem_Z_In, X in Y. congruence.
  - apply eq_true_iff_eq. rewrite I, forallb_forall.
    assert (G : forall vd cs, (forall k v, In (k, v) vd -> In (k, v) varis) -> List.length cs = List.length (keys vd) ->
      ((forall vc, In vc (combine (map snd vd) cs) -> mem_Z (a (v_name (fst vc))) (states_of (fst vc) (snd vc)) = true) <->
       Forall2 (fun k c => coded varis k c (coord x k)) (keys vd) cs)).
    { induction vd as [|[k v] vd IH]; intros cs' Hd Hl'; destruct cs' as [|c cs']; try discriminate.
      - split; [constructor|intros _ ? []].
      - cbn [map keys fst snd combine] in *. assert (Hin := Hd k v (or_introl eq_refl)).
        assert (Fk : dfind varis k = Some v) by (apply In_dfind; [apply Hw|auto]).
        assert (C : mem_Z (a (v_name v)) (states_of v c) = true <-> coded varis k c (coord x k)).
        { rewrite mem_Z_In. rewrite (proj1 (Hst k v Hin)), (Ha k) by (eapply In_keys; eauto). unfold states_of, coded. split.
          - intros H. destruct (v_B v) as [B|] eqn:EB; [|destruct H]. destruct (c <? 0) eqn:Ec; [destruct H|].
            exists v, B, (nth (Z.to_nat c) B []). split; auto. split; auto. split; [lia|]. split; auto.
            apply nth_error_nth'. destruct (Nat.lt_ge_cases (Z.to_nat c) (List.length B)); auto.
            rewrite nth_overflow in H by auto. destruct H.
          - intros (v' & B & e & E1 & E2 & E3 & E4 & E5). rewrite Fk in E1. injection E1 as <-. rewrite E2.
            destruct (c <? 0) eqn:Ec; [lia|]. rewrite (nth_error_nth _ _ _ E4). auto. }
        specialize (IH cs' (fun k' v' X => Hd k' v' (or_intror X)) ltac:(cbn in Hl'; unfold keys; lia)). split.
        + intros H. constructor; [apply C, (H (v, c)); left; auto|]. apply IH. intros vc X. apply H. right; auto.
        + intros H. inversion_clear H as [|? ? ? ? H1 H2]. intros vc [<-|X]; [apply C; auto|]. apply IH; auto. }
    apply (G varis cs); auto.
Qed.

Lemma sys_M_mass x a : In x (sp varis) -> (forall k, In k (keys varis) -> a k = coord x k) ->
  mass (sys_M rows) a = qsum (map (fun b => if (a (v_name vsys) =? conv (br_label b)) && in_branch b x then 1%Qc else 0%Qc) brs).
Proof.
  intros Hx Ha. rewrite mass_if. cbn [sys_M c_vars c_C].
  assert (Ew : weights (sys_M rows) = map (fun _ => 1%Qc) rows) by (unfold weights; cbn [sys_M c_p c_C]; destruct rows; reflexivity).
  rewrite Ew.
  assert (E : combine rows (map (fun _ => 1%Qc) rows) = map (fun r => (r, 1%Qc)) rows) by (clear; induction rows; cbn; congruence).
  rewrite E, map_map. cbn [fst snd]. clear Ew E. revert Hbr. clear Hne. induction Hrow as [|b row bs rws R F IH]; intros Hb; auto.
  cbn [map qsum]. rewrite (row_match_branch b row x a) by (auto; apply Hb; left; auto). f_equal. apply IH; auto.
  intros; apply Hb; right; auto.
Qed.

Definition all_M : list cpm := map comp_M varis ++ [sys_M rows].

Lemma in_all_M M : In M all_M <-> (exists kv, In kv varis /\ M = comp_M kv) \/ M = sys_M rows.
Proof.
  unfold all_M. rewrite in_app_iff, in_map_iff. cbn. split.
  - intros [(kv & <- & H)|[<-|[]]]; eauto.
  - intros [(kv & H & ->)| ->]; eauto.
Qed.

Lemma all_pairwise : pairwise fit all_M.
Proof.
  assert (D := vars_nodup). unfold all_M.
  assert (G : forall vd, (forall kv, In kv vd -> In kv varis) -> NoDup (map fst vd) -> pairwise fit (map comp_M vd ++ [sys_M rows])).
  { induction vd as [|kv vd IH]; intros Hd Hn.
    - cbn. split; auto. intros ? [].
    - cbn [map app pairwise]. cbn [map] in Hn. inversion_clear Hn as [|? ? N1 N2]. split; [|apply IH; auto; intros; apply Hd; right; auto].
      assert (Hin : In kv varis) by (apply Hd; left; auto). destruct kv as [k v]. destruct (Hst k v Hin) as [Hnk _].
      intros M' HM. apply in_app_or in HM as [HM|[<-|[]]].
      + apply in_map_iff in HM as ([k' v'] & <- & Hin'). assert (Hv' : In (k', v') varis) by (apply Hd; right; auto).
        destruct (Hst k' v' Hv') as [Hnk' _].
        assert (k <> k'). { intros ->. apply N1. apply in_map_iff. exists (k', v'). auto. }
        split; intros w1 w2; cbn; intros [<-|[]] [<-|[]]; congruence.
      + split; intros w1 w2; cbn [comp_M sys_M c_vars children c_nch firstn fst snd].
        * intros [<-|[]] H2 E. apply (NoDup_names_inj (vsys :: map snd varis)); auto. right. apply in_map_iff. exists (k, v). auto.
        * intros [<-|[]] [<-|[]] E. apply Hsn. rewrite <- E, Hnk. eapply In_keys; eauto. }
  apply G; auto. apply Hw.
Qed.

Lemma all_ve_ok : ve_ok all_M (map snd varis).
Proof.
  split; [split; [|exact all_pairwise]|split; [|split; [|split]]].
  - apply Forall_forall. intros M HM. apply in_all_M in HM as [(kv & H & ->)| ->]; [apply comp_M_wf; auto|apply sys_M_wf].
  - apply Forall_forall. intros M HM. apply in_all_M in HM as [(kv & H & ->)| ->]; unfold has_p; cbn [comp_M sys_M c_p c_C]; rewrite !map_length; auto.
  - intros v Hv. apply in_map_iff in Hv as ([k w] & E & Hin). cbn in E. subst w. exists (comp_M (k, v)).
    split; [apply in_all_M; eauto|]. split; [left; auto|].
    intros row c Hr Hc. cbn [comp_M c_C c_vars fst snd] in *. apply in_map_iff in Hr as (s & <- & Hs). apply In_zrange in Hs.
    cbn in Hc. destruct Hc as [Hc|[]]. injection Hc as <-. exists s. split; auto.
    apply basic_code; auto. apply stored_basic. apply (Hst k v Hin).
  - intros v Hv. apply in_map_iff in Hv as ([k w] & E & Hin). cbn in E. subst w. exists (comp_M (k, v)).
    split; [apply in_all_M; eauto|]. left; auto.
  - rewrite vnames. apply Hw.
Qed.

Lemma pmass_all x a : In x (sp varis) -> (forall k, In k (keys varis) -> a k = coord x k) ->
  pmass all_M a = (prob_of probs x * qsum (map (fun b => if (a (v_name vsys) =? conv (br_label b)) && in_branch b x then 1%Qc else 0%Qc) brs))%Qc.
Proof.
  intros Hx Ha. unfold pmass, all_M. rewrite map_app, qprod_app. cbn [map qprod]. rewrite (sys_M_mass x a Hx Ha), Qcmult_1_r. f_equal.
  unfold prob_of. rewrite map_map.
  assert (Ek : x = map (fun k => (k, coord x k)) (keys varis)).
  { rewrite <- (sp_keys varis x Hx). pose proof (sp_nodup varis Hw x Hx) as N. clear - N.
    assert (G : forall l, (forall k v, In (k, v) l -> coord x k = v) -> l = map (fun k => (k, coord x k)) (keys l)).
    { induction l as [|[k v] l IH]; intros H; auto. cbn. rewrite (H k v) by (left; auto). f_equal. apply IH. intros. apply H. right; auto. }
    apply G. intros k v Hin. apply coord_In; auto. }
  transitivity (qprod (map (fun k => pr probs k (coord x k)) (keys varis))).
  2:{ rewrite <- (map_map (fun k => (k, coord x k)) (fun kv => pr probs (fst kv) (snd kv))), <- Ek. auto. }
  unfold keys. rewrite map_map. f_equal. apply map_ext_in. intros [k v] Hin. rewrite comp_M_mass by auto. cbn [fst snd].
  rewrite Ha by (eapply In_keys; eauto). pose proof (sp_coord varis Hw x k v Hx Hin).
  destruct ((0 <=? coord x k) && (coord x k <? nvals v)) eqn:B; auto. lia.
Qed.

Context (Hpart : partition varis brs) (Hex : exact_probs varis probs brs).

Lemma over_coord x a k : In x (sp varis) -> In k (keys varis) -> over x a k = coord x k.
Proof.
  intros Hx Hk. unfold over, coord. rewrite <- (sp_keys varis x Hx) in Hk. apply dfind_keys in Hk as [s ->]. auto.
Qed.

Lemma elim_mass l a : a (v_name vsys) = conv l ->
  marg (map snd varis) (pmass all_M) a = qsum (map b_p (filter (fun b => st_eqb (br_label b) l) brs)).
Proof.
  intros Ha. rewrite (marg_space varis) by (try apply pmass_ext; try apply Hw; intros k v H; apply (Hst k v H)).
  rewrite (qsum_map_ext _ (fun x => qsum (map (fun b => if st_eqb (br_label b) l && in_branch b x then prob_of probs x else 0%Qc) brs))).
  - rewrite qsum_swap. rewrite qsum_filter. apply qsum_map_ext. intros b Hb. rewrite (Hex b Hb). unfold prob_event.
    rewrite qsum_filter. destruct (st_eqb (br_label b) l).
    + apply qsum_map_ext. intros x _. auto.
    + apply qsum_map_zero. auto.
  - intros x Hx. change (space (comps_of varis)) with (sp varis) in Hx.
    rewrite (pmass_all x) by (auto; intros; apply over_coord; auto).
    rewrite <- qsum_map_scale. apply qsum_map_ext. intros b _.
    assert (Es : over x a (v_name vsys) = conv l).
    { unfold over. assert (N : dfind x (v_name vsys) = None) by (apply dfind_none; rewrite (sp_keys varis x Hx); auto). rewrite N. auto. }
    rewrite Es. assert (El : (conv l =? conv (br_label b)) = st_eqb (br_label b) l).
    { destruct (Z.eqb_spec (conv l) (conv (br_label b))) as [E|E].
      - apply Hci in E. subst l. destruct (br_label b); auto.
      - destruct (st_eqb (br_label b) l) eqn:E2; auto. destruct (br_label b), l; cbn in E2; congruence. }
    rewrite El. destruct (st_eqb (br_label b) l && in_branch b x); ring.
Qed.

Lemma positive_vector : exists x, In x (sp varis) /\ (0 < prob_of probs x)%Qc.
Proof.
  pose proof (prob_total varis probs Hp) as T. unfold prob_event in T.
  assert (E : filter (fun _ : dict Z => true) (space (comps_of varis)) = sp varis) by (generalize (sp varis); induction l; cbn; congruence).
  rewrite E in T.
  assert (G : forall l, (forall x, In x l -> In x (sp varis)) -> (0 < qsum (map (prob_of probs) l))%Qc -> exists x, In x l /\ (0 < prob_of probs x)%Qc).
  { induction l as [|x l IH]; intros Hl H; cbn in H.
    - exfalso. apply (Qclt_not_eq _ _ H). auto.
    - destruct (qc_leb (prob_of probs x) 0) eqn:B.
      + apply qc_leb_le in B. destruct IH as (y & Hy & Hpy); [intros; apply Hl; right; auto| |exists y; split; [right|]; auto]. qc_lra.
      + apply qc_leb_gt in B. exists x. split; [left; auto|auto]. }
  destruct (G (sp varis)) as (x & Hx & Hq); auto; [|eauto].
  rewrite T. reflexivity.
Qed.

Lemma factor_pos x kv : In x (sp varis) -> (0 < prob_of probs x)%Qc -> In kv varis -> (0 < pr probs (fst kv) (coord x (fst kv)))%Qc.
Proof.
  intros Hx Hq Hin. destruct kv as [k v]. cbn [fst].
  destruct (pget_pr varis probs Hp k v (coord x k) Hin (sp_coord varis Hw x k v Hx Hin)) as [_ Hnn].
  destruct (qc_leb (pr probs k (coord x k)) 0) eqn:B; [|apply qc_leb_gt in B; auto].
  exfalso. apply qc_leb_le in B. assert (Z0 : pr probs k (coord x k) = 0%Qc) by (apply Qcle_antisym; auto).
  assert (prob_of probs x = 0%Qc); [|rewrite H in Hq; apply (Qclt_not_eq _ _ Hq); auto].
  unfold prob_of. assert (Hk : In (k, coord x k) x).
  { apply coord_pair. rewrite (sp_keys varis x Hx). eapply In_keys; eauto. }
  rewrite <- Z0. clear - Hk Z0. revert Hk Z0. generalize (coord x k) as c. intros c. induction x as [|kv x IH]; intros Hk E; [destruct Hk|]. destruct Hk as [->|Hin]; cbn [map qprod fst snd].
  - rewrite E. ring.
  - rewrite (IH Hin E), E. ring.
Qed.

Lemma elim_has_p l vars M : ve_ok l vars -> variable_elim l vars = Ok M -> has_p M.
Proof.
  intros V H. unfold variable_elim in H. destruct (variable_elim_list l vars) as [l'|] eqn:E; cbn [bind] in H; [|congruence].
  destruct (elim_list_ok vars l l' V E) as (V' & _). apply (product_list_keep l' M vsys (proj1 V') H). apply V'.
Qed.

(** a joint state at which all CPMs are positive *)
Lemma all_alive : exists a, alive all_M a.
Proof.
  destruct positive_vector as (x & Hx & Hq).
  assert (C : exists b, In b brs /\ in_branch b x = true).
  { pose proof (Hpart x Hx) as H. destruct (filter (fun b => in_branch b x) brs) as [|b l] eqn:E; [discriminate|].
    exists b. apply (proj1 (filter_In (fun b => in_branch b x) b brs)). rewrite E. left; auto. }
  destruct C as (b & Hb & Hin).
  set (a := over x (fun _ => conv (br_label b))). exists a.
  assert (Ha : forall k, In k (keys varis) -> a k = coord x k) by (intros; apply over_coord; auto).
  assert (As : a (v_name vsys) = conv (br_label b)).
  { unfold a, over. assert (N : dfind x (v_name vsys) = None) by (apply dfind_none; rewrite (sp_keys varis x Hx); auto). rewrite N. auto. }
  assert (Nn : forall M c, (forall q, In q (weights M) -> 0 <= q)%Qc -> (0 <= mass M c)%Qc).
  { intros M c H. rewrite mass_if. apply qsum_nonneg. intros q Hq'. apply in_map_iff in Hq' as ([r p] & <- & HI). cbn [fst snd].
    destruct (row_match _ _ _); [apply H; eapply in_combine_r; eauto|qc_lra]. }
  intros M HM. apply in_all_M in HM as [(kv & H & ->)| ->].
  - split; [|split; [|cbn; congruence]].
    + intros c. apply Nn. intros q Hq'. destruct kv as [k v]. rewrite weights_p in Hq'.
      * cbn [comp_M c_p fst snd] in Hq'. apply in_map_iff in Hq' as (s & <- & Hs). apply In_zrange in Hs. apply (pget_pr varis probs Hp k v s H Hs).
      * cbn [comp_M c_p fst snd]. pose proof (proj2 Hw k v H). rewrite zrange_cons by lia. cbn. congruence.
    + rewrite comp_M_mass by auto. destruct kv as [k v]. cbn [fst snd]. rewrite Ha by (eapply In_keys; eauto).
      pose proof (sp_coord varis Hw x k v Hx H).
      destruct ((0 <=? coord x k) && (coord x k <? nvals v)) eqn:B; [|lia]. apply (factor_pos x (k, v)); auto.
  - split; [|split; [|cbn; congruence]].
    + intros c. apply Nn. intros q Hq'. unfold weights in Hq'. cbn [sys_M c_p c_C] in Hq'.
      assert (E : q = 1%Qc); [|subst q; qc_lra]. destruct rows as [|r rs]; [destruct Hq'|]. cbn [map] in Hq'. destruct Hq' as [<-|Hq']; auto.
      apply in_map_iff in Hq' as (? & <- & _). auto.
    + rewrite (sys_M_mass x a Hx Ha). clear - Hb Hin As. induction brs as [|b0 l IH]; [destruct Hb|]. cbn [map qsum].
      assert (N : forall l, (0 <= qsum (map (fun b1 => if (a (v_name vsys) =? conv (br_label b1))%Z && in_branch b1 x then 1 else 0) l))%Qc).
      { intros l0. apply qsum_nonneg. intros q Hq. apply in_map_iff in Hq as (b1 & <- & _). destruct (_ && _); qc_lra. }
      destruct Hb as [->|Hb].
      * rewrite As at 1. rewrite Z.eqb_refl, Hin. cbn [andb]. specialize (N l). qc_lra.
      * specialize (IH Hb). destruct (_ && _); qc_lra.
Qed.

Lemma elim_result : exists M, variable_elim all_M (map snd varis) = Ok M /\ c_vars M = [vsys] /\ wf_cpm M /\ has_p M /\
  forall l a, a (v_name vsys) = conv l -> mass M a = qsum (map b_p (filter (fun b => st_eqb (br_label b) l) brs)).
Proof.
  destruct all_alive as [a Ha]. destruct (variable_elim_total all_M (map snd varis) a vsys (sys_M rows)) as [M HM]; auto.
  - apply all_ve_ok.
  - apply in_all_M. auto.
  - left; auto.
  - rewrite vnames. auto.
  - intros v Hv. right; auto.
  - exists M. split; auto. destruct (variable_elim_ok _ _ _ all_ve_ok HM) as (W & Ma & Sc & _).
    split; [|split; [auto|split; [apply (elim_has_p _ _ _ all_ve_ok HM)|]]].
    + assert (X : forall w, In w (c_vars M) <-> w = vsys).
      { intros w. rewrite Sc. split.
        - intros [(N & HN & Hv) Hn]. apply in_all_M in HN as [(kv & Hk & ->)| ->].
          + exfalso. apply Hn. destruct Hv as [<-|[]]. apply in_map. auto.
          + destruct Hv as [<-|Hv]; [auto|tauto].
        - intros ->. split; [exists (sys_M rows); split; [apply in_all_M; auto|left; auto]|].
          intros H. apply Hsn. rewrite <- vnames. apply names_In. auto. }
      pose proof (proj1 W) as N. clear - X N. destruct (c_vars M) as [|w [|w2 l]].
      * exfalso. apply (X vsys). auto.
      * f_equal. apply X. left; auto.
      * exfalso. assert (w = vsys) by (apply X; left; auto). assert (w2 = vsys) by (apply X; right; left; auto). subst.
        inversion_clear N as [|? ? N1 N2]. apply N1. left; auto.
    + intros l b Hb. rewrite Ma. apply elim_mass. auto.
Qed.

Lemma state_prob M l flag : wf_cpm M -> has_p M -> c_vars M = [vsys] ->
  get_prob M (Vars [vsys]) [SI (conv l)] flag =
    Ok (if flag then mass M (fun _ => conv l) else (qsum (c_p M) - mass M (fun _ => conv l))%Qc).
Proof.
  intros W P Hv. destruct (basic_code vsys (conv l) Hsb (Hcr l)) as [Hc Hs].
  assert (E : get_prob M (Vars [vsys]) (map SI [conv l]) flag = Ok (total (fun row => Bool.eqb (hits (c_vars M) row [vsys] [conv l]) flag) M)).
  { apply get_prob_spec; auto; try congruence.
    - rewrite Hv. split; auto. split; [cbn; constructor; [intros []|constructor]|]. split.
      + intros v1 v2 [<-|[]] [<-|[]]; auto.
      + intros v c [H|[]] _. injection H as <- <-. auto.
    - intros v c [H|[]]. injection H as <- <-. destruct Hsv as (B & HB & Hlen & _). destruct Hc as (B' & HB' & Hc).
      rewrite HB in HB'. injection HB' as <-. lia. }
  cbn [map] in E. rewrite E. apply (f_equal Ok). clear E.
  assert (T : total (fun row => Bool.eqb (hits (c_vars M) row [vsys] [conv l]) true) M = mass M (fun _ => conv l)).
  { rewrite total_weighted, mass_weighted.
    assert (Wt : weights M = c_p M).
    { unfold weights, has_p in *. destruct (c_p M) eqn:Ep; auto. destruct (c_C M); [auto|discriminate]. }
    rewrite Wt. apply weighted_ext. intros r Hr. destruct W as (_ & _ & _ & W4 & _). specialize (W4 r Hr). rewrite Hv in *.
    inversion_clear W4 as [|? c ? r' W1 W2]. inversion_clear W2. unfold hits, row_match. cbn [combine forallb fst snd].
    rewrite String.eqb_refl. cbn [negb orb]. rewrite !andb_true_r.
    match goal with |- Bool.eqb ?x true = ?y => replace (Bool.eqb x true) with x by (destruct x; auto); apply eq_true_iff_eq end.
    rewrite existsb_exists, mem_Z_In. split.
    - intros (x & Hx & Hm). apply mem_Z_In, Hs in Hm. subst x. auto.
    - intros Hx. exists (conv l). split; auto. apply mem_Z_In, Hs. auto. }
  destruct flag; auto. pose proof (total_complement (fun row => hits (c_vars M) row [vsys] [conv l]) M W) as TC.
  cbv beta in TC. rewrite T in TC. rewrite <- TC. ring.
Qed.

Lemma build_ok : build_cpms vsys varis probs rows = Ok (map (fun kv => (fst kv, comp_M kv)) varis ++ [(v_name vsys, sys_M rows)]).
Proof.
  unfold build_cpms. rewrite (mapM_ok _ (fun kv => (fst kv, comp_M kv))).
  2:{ intros kv Hin. rewrite comp_M_make by auto. auto. }
  cbn [bind]. rewrite sys_M_make. auto.
Qed.

Lemma lookup_all : mapM (dget (map (fun kv => (fst kv, comp_M kv)) varis ++ [(v_name vsys, sys_M rows)])) (keys varis ++ [v_name vsys]) = Ok all_M.
Proof.
  set (D := map _ varis ++ _).
  assert (ND : NoDup (keys D)).
  { unfold D, keys. rewrite map_app, map_map. cbn [map fst]. apply NoDup_app_intro; [apply Hw|constructor; [intros []|constructor]|].
    intros k Hk [<-|[]]. apply Hsn. exact Hk. }
  assert (G : forall k M, In (k, M) D -> dget D k = Ok M) by (intros k M H; unfold dget; rewrite (In_dfind _ _ _ ND H); auto).
  assert (E : forall l, (forall kv, In kv l -> In kv D) -> mapM (dget D) (map fst l) = Ok (map snd l)).
  { induction l as [|[k M] l IH]; intros H; auto. cbn [map fst snd mapM]. rewrite (G k M) by (apply H; left; auto). cbn [bind].
    rewrite IH by (intros; apply H; right; auto). auto. }
  specialize (E D (fun _ H => H)). unfold D at 2 3 in E. rewrite !map_app, !map_map in E. exact E.
Qed.

Lemma lookup_vars (vd : dict variable) : NoDup (keys (varis ++ [(v_name vsys, vsys)])) -> 
  mapM (dget (varis ++ [(v_name vsys, vsys)])) (keys varis) = Ok (map snd varis) /\ dget (varis ++ [(v_name vsys, vsys)]) (v_name vsys) = Ok vsys.
Proof.
  set (D := varis ++ _). intros ND.
  assert (G : forall k M, In (k, M) D -> dget D k = Ok M) by (intros k M H; unfold dget; rewrite (In_dfind _ _ _ ND H); auto).
  split.
  - assert (E : forall l, (forall kv, In kv l -> In kv D) -> mapM (dget D) (map fst l) = Ok (map snd l)).
    { induction l as [|[k M] l IH]; intros H; auto. cbn [map fst snd mapM]. rewrite (G k M) by (apply H; left; auto). cbn [bind].
      rewrite IH by (intros; apply H; right; auto). auto. }
    apply E. intros kv H. unfold D. apply in_or_app. auto.
  - apply G. unfold D. apply in_or_app. right. left. auto.
Qed.

Lemma compute_ok : exists M, forall l,
  compute_prob (map (fun kv => (fst kv, comp_M kv)) varis ++ [(v_name vsys, sys_M rows)]) (varis ++ [(v_name vsys, vsys)])
    (keys varis) (v_name vsys) (SI (conv l)) true =
  Ok (qsum (map b_p (filter (fun b => st_eqb (br_label b) l) brs)), M).
Proof.
  destruct elim_result as (M & E & V & W & P & Ma). exists M. intros l. unfold compute_prob.
  assert (ND : NoDup (keys (varis ++ [(v_name vsys, vsys)]))).
  { unfold keys. rewrite map_app. cbn [map fst]. apply NoDup_app_intro; [apply Hw|constructor; [intros []|constructor]|].
    intros k Hk [<-|[]]. apply Hsn. exact Hk. }
  destruct (lookup_vars varis ND) as [L1 L2].
  rewrite lookup_all. cbn [bind]. rewrite L1. cbn [bind]. rewrite E. cbn [bind]. rewrite L2. cbn [bind].
  rewrite (state_prob M l true W P V). cbn [bind]. rewrite (Ma l) by auto. auto.
Qed.
End System.

(** C25 for a list of branches *)
Lemma system_event varis probs vsys conv brs :
  wf_varis varis -> wf_probs varis probs -> (forall k v, In (k, v) varis -> v_name v = k /\ stored v) ->
  ~ In (v_name vsys) (keys varis) -> basic_table vsys -> var_ok vsys ->
  (forall s, 0 <= conv s < nvals vsys) -> (forall s t, conv s = conv t -> s = t) ->
  boxes varis brs -> exact_probs varis probs brs -> partition varis brs -> proper_labels brs ->
  exists rows cpms M, get_csys brs varis (fun s => Ok (conv s)) = Ok (rows, varis) /\
    build_cpms vsys varis probs rows = Ok cpms /\
    let q l := compute_prob cpms (varis ++ [(v_name vsys, vsys)]) (keys varis) (v_name vsys) (SI (conv l)) true in
    let pf := qsum (map b_p (filter (fun b => st_eqb (b_up_state b) F_) brs)) in
    let ps := qsum (map b_p (filter (fun b => st_eqb (b_down_state b) S_) brs)) in
    q F_ = Ok (pf, M) /\ q S_ = Ok (ps, M) /\ q U_ = Ok ((1 - pf - ps)%Qc, M).
Proof.
  intros Hw Hp Hst Hsn Hsb Hsv Hcr Hci Hb Hex Hpart Hpr.
  assert (Hbr : forall b, In b brs -> wf_br varis b) by exact Hb.
  assert (Hne : brs <> []).
  { intros ->. pose proof (Hpart _ (worst_sp varis Hw)) as H. cbn in H. discriminate. }
  assert (Hst' : forall k v, In (k, v) varis -> stored v) by (intros k v H; apply (Hst k v H)).
  destruct (get_csys_ok varis Hw (stored_tables varis Hst') conv brs Hne Hbr) as (rows & varis' & E & _ & F).
  assert (varis' = varis) by (eapply (get_csys_same varis Hw Hst'); eauto). subst varis'.
  destruct (compute_ok varis probs Hw Hp Hst vsys conv Hsn Hsb Hsv Hcr Hci brs rows Hbr F Hpart Hex) as (M & HM).
  exists rows, (map (fun kv => (fst kv, comp_M probs kv)) varis ++ [(v_name vsys, sys_M varis vsys rows)]), M.
  split; auto. split; [apply (build_ok varis probs Hw Hp Hst vsys conv Hsn Hsb Hsv Hcr brs rows F)|].
  cbv zeta.
  assert (LF : filter (fun b => st_eqb (br_label b) F_) brs = filter (fun b => st_eqb (b_up_state b) F_) brs).
  { apply filter_ext_in'. intros b Hin. destruct (Hpr b Hin) as [P1 P2]. unfold br_label.
    destruct (b_down_state b), (b_up_state b); cbn; auto; try (specialize (P1 eq_refl); congruence); try (specialize (P2 eq_refl); congruence). }
  assert (LS : filter (fun b => st_eqb (br_label b) S_) brs = filter (fun b => st_eqb (b_down_state b) S_) brs).
  { apply filter_ext_in'. intros b Hin. destruct (Hpr b Hin) as [P1 P2]. unfold br_label.
    destruct (b_down_state b), (b_up_state b); cbn; auto; try (specialize (P1 eq_refl); congruence); try (specialize (P2 eq_refl); congruence). }
  split; [rewrite HM, LF; auto|]. split; [rewrite HM, LS; auto|]. rewrite HM, <- LF, <- LS. f_equal. f_equal.
  assert (T : qsum (map b_p brs) = 1%Qc).
  { rewrite (qsum_disjoint_event varis probs brs (fun _ => true)); auto.
    - apply prob_total; auto.
    - congruence. }
  rewrite <- T. clear. induction brs as [|b l IH]; cbn [map qsum filter]; [ring|].
  destruct (br_label b); cbn [st_eqb map qsum]; rewrite IH; ring.
Qed.
