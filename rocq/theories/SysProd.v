(** The product of a system CPM with the CPMs of two-state components, for any system variable
    (RouRun.v has it for the demo routine). *)
From Coq Require Import ZArith List String Bool Arith QArith Qcanon Lia Permutation.
From Verif Require Import Py PyFacts Num Vari VariFacts Brc SpecBrc BrcFacts BrcDecomp BrcProb BrcRun BrcMisc BrcMain BrcProper.
From Verif Require Import Cpm SpecCpm CpmFacts CpmMarg CpmSum CpmCond CpmElim CpmProb Model ModelFacts SysEvent SysJoint MsysProd SpecProd PropProd.
Import ListNotations.
Open Scope string_scope.
Open Scope Z_scope.
Open Scope list_scope.

(** * The probability of a state of the first variable *)
Section Head.
Context (vsys : variable) (vs : list variable) (R : cpm) (Ev : c_vars R = vsys :: vs) (WR : wf_cpm R) (Hsb : basic_table vsys) (Hsv : var_ok vsys).
Lemma head_prob c : 0 <= c < nvals vsys -> get_prob R (Names [v_name vsys]) [SI c] true = Ok (mass_on [vsys] R (fun _ => c)).
Proof.
  intros Hc0. destruct (basic_code vsys c Hsb Hc0) as [Hc Hs]. pose proof (proj1 WR) as ND. rewrite Ev in ND. cbn [names map] in ND. inversion_clear ND as [|? ? Nv _].
  assert (Nn : forall w, In w vs -> v_name w <> v_name vsys) by (intros w Hw E; apply Nv; rewrite <- E; apply in_map; auto).
  assert (E : get_prob R (Vars [vsys]) (map SI [c]) true = Ok (total (fun row => Bool.eqb (hits (c_vars R) row [vsys] [c]) true) R)).
  { apply get_prob_spec; auto; try congruence.
    - rewrite Ev. split; auto. split; [cbn; constructor; [intros []|constructor]|]. split.
      + intros v2 v1 [<-|[]] H1 En. destruct H1 as [<-|H1]; auto. exfalso. apply (Nn v1 H1). auto.
      + intros v c' [H|[]] _. injection H as <- <-. auto.
    - intros v c' [H|[]]. injection H as <- <-. destruct Hsv as (B & HB & Hlen & _). destruct Hc as (B' & HB' & Hc).
      rewrite HB in HB'. injection HB' as <-. lia. }
  assert (EN : get_prob R (Names [v_name vsys]) [SI c] true = get_prob R (Vars [vsys]) [SI c] true).
  { unfold get_prob. cbn [resolve mapM]. unfold get_variable. rewrite Ev. cbn [find]. rewrite String.eqb_refl. reflexivity. }
  cbn [map] in E. rewrite EN, E. apply (f_equal Ok). unfold mass_on, total. clear E EN.
  apply (f_equal qsum). apply (f_equal (map snd)). apply filter_ext_in. intros [r p] Hr. apply in_combine_l in Hr. cbn [fst].
  destruct WR as (_ & _ & _ & W4 & _). specialize (W4 r Hr). rewrite Ev in *. destruct r as [|c' r]; [inversion W4|].
  unfold hits. cbn [combine forallb fst snd]. rewrite String.eqb_refl. cbn [negb orb].
  assert (E1 : mem_str (v_name vsys) (names [vsys]) = true) by (unfold mem_str; cbn; rewrite String.eqb_refl; auto). rewrite E1. cbn [negb orb].
  assert (Rest : forall ws (cs : list Z), incl ws vs ->
    forallb (fun wr => negb (String.eqb (v_name (fst wr)) (v_name vsys)) || existsb (fun x => mem_Z x (states_of vsys c)) (states_of (fst wr) (snd wr))) (combine ws cs) = true /\
    forallb (fun vc => negb (mem_str (v_name (fst vc)) (names [vsys])) || mem_Z c (states_of (fst vc) (snd vc))) (combine ws cs) = true).
  { intros ws cs Hv. assert (Y : forall vc, In vc (combine ws cs) -> String.eqb (v_name (fst vc)) (v_name vsys) = false).
    { intros [v c2] Hvc. apply in_combine_l in Hvc. apply String.eqb_neq. cbn [fst]. apply Nn, Hv. auto. }
    split; apply forallb_forall; intros vc Hvc; specialize (Y vc Hvc).
    - rewrite Y. reflexivity.
    - unfold mem_str, names. cbn [map existsb]. rewrite Y. reflexivity. }
  destruct (Rest vs r (fun _ h => h)) as [R1 R2]. rewrite R1, R2, !andb_true_r.
  match goal with |- Bool.eqb ?x true = ?y => replace (Bool.eqb x true) with x by (destruct x; auto); apply eq_true_iff_eq end.
  rewrite existsb_exists, mem_Z_In. split.
  - intros (x & Hx & Hm). apply mem_Z_In, Hs in Hm. subst x. auto.
  - intros Hx. exists c. split; auto. apply mem_Z_In, Hs. auto.
Qed.
(** when the codes of the first column name basic states *)
Lemma head_mass c : 0 <= c < nvals vsys -> (forall row, In row (c_C R) -> 0 <= hd 0 row < nvals vsys) ->
  mass_on [vsys] R (fun _ => c) = qsum (map snd (filter (fun rp => hd 0 (fst rp) =? c) (combine (c_C R) (c_p R)))).
Proof.
  intros Hc0 Hr. pose proof (proj1 WR) as ND. rewrite Ev in ND. cbn [names map] in ND. inversion_clear ND as [|? ? Nv _].
  unfold mass_on, total. apply (f_equal qsum). apply (f_equal (map snd)).
  apply filter_ext_in. intros [r p] Hi. apply in_combine_l in Hi. cbn [fst]. destruct WR as (_ & _ & _ & W4 & _). specialize (W4 r Hi). specialize (Hr r Hi).
  rewrite Ev in *. destruct r as [|c' r]; [inversion W4|]. cbn [hd] in *. cbn [combine forallb fst snd].
  assert (E1 : mem_str (v_name vsys) (names [vsys]) = true) by (unfold mem_str; cbn; rewrite String.eqb_refl; auto). rewrite E1. cbn [negb orb].
  assert (E2 : forallb (fun vc => negb (mem_str (v_name (fst vc)) (names [vsys])) || mem_Z c (states_of (fst vc) (snd vc))) (combine vs r) = true).
  { apply forallb_forall. intros [v c2] Hvc. apply in_combine_l in Hvc. cbn [fst snd]. unfold mem_str, names. cbn [map existsb].
    destruct (String.eqb_spec (v_name v) (v_name vsys)) as [X|X]; auto. exfalso. apply Nv. rewrite <- X. apply in_map. auto. }
  rewrite E2, andb_true_r. destruct (basic_code vsys c' Hsb Hr) as [_ Hs]. apply eq_true_iff_eq. rewrite mem_Z_In, Hs, Z.eqb_eq. intuition.
Qed.
End Head.

(** * The product *)
Section Prod.
Context (varis : dict variable) (probs : prob_dict) (Hw : wf_varis varis) (Hp : wf_probs varis probs) (NE : varis <> []).
Context (Hst : forall k v, In (k, v) varis -> v_name v = k /\ stored v) (H2 : forall k v, In (k, v) varis -> nvals v = 2).
Context (vsys : variable) (conv : st -> Z).
Context (Hsn : ~ In (v_name vsys) (keys varis)) (Hsb : basic_table vsys) (Hsv : var_ok vsys).
Context (Hcr : forall s, 0 <= conv s < nvals vsys) (Hci : forall s t, conv s = conv t -> s = t).
Context (brs : list branch) (rows : list (list Z)) (Hbx : boxes varis brs) (Hrow : Forall2 (row_ok varis conv varis) brs rows) (Hex : exact_probs varis probs brs) (Nb : brs <> []).
Notation sysM := (sys_M varis vsys rows).
Notation comps := (map (comp_M probs) varis).

Lemma sp_code row : In row rows -> Forall2 code_ok (vsys :: map snd varis) row.
Proof. intros Hr. destruct (Forall2_in_r _ _ _ _ Hrow Hr) as (b & Hb & R). apply (row_codes varis Hw vsys conv Hsb Hcr b row R). Qed.
Lemma sp_find k v : In (k, v) varis -> comp_for comps v = Some (comp_M probs (k, v)).
Proof.
  intros Hv. destruct (Hst k v Hv) as [En _]. unfold comp_for. rewrite En.
  assert (G : forall l, incl l varis -> In (k, v) l -> find (fun m => mem_str k (names (children m))) (map (comp_M probs) l) = Some (comp_M probs (k, v))).
  { induction l as [|[k' v'] l IH]; intros Hl Hi; [destruct Hi|]. destruct (Hst k' v' (Hl _ (or_introl eq_refl))) as [En' _]. cbn [map find].
    change (names (children (comp_M probs (k', v')))) with [v_name v']. rewrite En'. unfold mem_str. cbn [existsb]. rewrite orb_false_r.
    destruct (String.eqb_spec k k') as [<-|N].
    - do 2 f_equal. f_equal. assert (N := proj1 Hw). assert (A := In_dfind varis k v N Hv). assert (B := In_dfind varis k v' N (Hl _ (or_introl eq_refl))). congruence.
    - destruct Hi as [Hi|Hi]; [congruence|]. apply IH; auto. intros x Hx. apply Hl. right; auto. }
  apply G; auto. intros x Hx; auto.
Qed.
Lemma sp_mult : mult_of sysM comps = map snd varis /\ rest_of sysM comps = [] /\ comps_for comps (map snd varis) = comps.
Proof.
  assert (P : parents sysM = map snd varis) by reflexivity. unfold mult_of, rest_of. rewrite P.
  assert (H : forall l, incl l varis -> filter (in_comps comps) (map snd l) = map snd l /\ filter (fun v => negb (in_comps comps v)) (map snd l) = [] /\
    comps_for comps (map snd l) = map (comp_M probs) l).
  { induction l as [|[k v] l IH]; intros Hl; auto. destruct IH as (I1 & I2 & I3); [intros w Hw'; apply Hl; right; auto|].
    assert (F := sp_find k v (Hl _ (or_introl eq_refl))). assert (F' : in_comps comps v = true) by (unfold in_comps; rewrite F; auto).
    unfold comps_for in *. cbn [filter flat_map map snd]. rewrite F', F. cbn [negb]. rewrite I1, I2, I3. auto. }
  apply H. intros x Hx; auto.
Qed.
Lemma two_table v : stored v -> nvals v = 2 -> v_B v = Some [[0]; [1]; [0; 1]].
Proof. intros S N. unfold stored in S. rewrite S. unfold nvals in N. replace (List.length (v_values v)) with 2%nat by lia. reflexivity. Qed.
Lemma comp_two_ok k v : In (k, v) varis -> comp_ok (comp_M probs (k, v)) /\ basic_child (comp_M probs (k, v)).
Proof.
  intros Hk. assert (W := comp_M_wf varis probs Hw Hst (k, v) Hk). destruct (Hst k v Hk) as [En Sv]. pose proof (H2 k v Hk) as N2. pose proof (two_table v Sv N2) as B2.
  assert (EC : c_C (comp_M probs (k, v)) = [[0]; [1]]) by (cbn [comp_M c_C snd]; rewrite N2; reflexivity).
  split.
  - split; auto. split; [unfold has_p; cbn [comp_M c_p c_C fst snd]; rewrite !map_length; reflexivity|]. split; [reflexivity|]. exists v. split; [reflexivity|]. rewrite EC.
    split; [discriminate|]. cbn [map hd]. split; [repeat constructor; cbn; intuition lia|]. split.
    + intros z. rewrite N2. cbn. lia.
    + intros c. rewrite N2. unfold states_of. rewrite B2. destruct (c <? 0); [split; [constructor|intros x []]|].
      destruct (Z.to_nat c) as [|[|[|[|n]]]]; cbn [nth]; (split; [repeat constructor; cbn; intuition lia|cbn; intros x Hx; lia]).
  - intros w row x Hv Hr. rewrite EC in Hr. destruct Hv as [<-|[]]. destruct Hr as [<-|[<-|[]]]; cbn [hd]; unfold states_of; cbn [snd]; rewrite B2; cbn; (split; [intros [X|[]]; auto|intros X; left; auto]).
Qed.
Lemma sp_ok : prod_ok sysM comps [].
Proof.
  assert (Wv := se_wf varis Hw Hst vsys Hsn Hsv rows sp_code).
  split; auto. split; [unfold has_p; cbn [sys_M c_p c_C]; rewrite map_length; auto|]. split.
  { cbn [sys_M c_C]. intros X. rewrite X in Hrow. inversion Hrow; congruence. }
  split; [intros X; apply NE; destruct varis; auto; discriminate|]. split; [|split].
  - apply Forall_forall. intros m Hm. apply in_map_iff in Hm as ((k & v) & <- & Hv). apply (comp_two_ok k v Hv).
  - left. split; auto. intros m Hm. apply in_map_iff in Hm as (kv & <- & _). reflexivity.
  - intros m Hm. apply in_map_iff in Hm as ((k & v) & <- & Hv). cbn [sys_M c_vars comp_M snd]. intros v1 v2 G1 [<-|[]] En. destruct (Hst k v Hv) as [Ek _]. destruct G1 as [<-|G1].
    + exfalso. apply Hsn. rewrite En, Ek. eapply In_keys; eauto.
    + apply in_map_iff in G1 as ((k1 & w) & <- & G1). cbn [snd] in *. destruct (Hst k1 w G1) as [Ek1 _]. assert (K1 : k1 = k) by congruence. rewrite K1 in G1.
      assert (N := proj1 Hw). assert (A := In_dfind varis k v N Hv). assert (B := In_dfind varis k w N G1). congruence.
Qed.
Lemma sp_result : exists R, prod_sys sysM comps = Ok R /\
  forall l, get_prob R (Names [v_name vsys]) [SI (conv l)] true = Ok (qsum (map b_p (filter (fun b => st_eqb (br_label b) l) brs))).
Proof.
  pose proof sp_ok as OK. destruct sp_mult as (M1 & M2 & M3). destruct (C41_rows sysM comps [] OK) as (R & ER & Ch & Pa & _ & HP & _).
  assert (WR : wf_cpm R) by (apply (C41_wf sysM comps [] R OK); [intros y s v []|auto]).
  assert (Ev : c_vars R = vsys :: map snd varis).
  { assert (E : c_vars R = children R ++ parents R) by (unfold children, parents; rewrite firstn_skipn; auto). rewrite E, Ch, Pa, M1, M2. cbn [new_conds filter map app].
    rewrite app_nil_r. reflexivity. }
  exists R. split; auto. intros l. rewrite (head_prob vsys (map snd varis) R Ev WR Hsb Hsv (conv l) (Hcr l)). apply (f_equal Ok).
  assert (X := C41_product sysM comps [] R (fun _ => conv l) OK). rewrite M1, M2, M3 in X. cbn [map app] in X. change (children sysM ++ []) with [vsys] in X.
  rewrite X; auto.
  - rewrite <- (elim_mass varis probs Hw Hst vsys conv Hsn Hsb Hcr Hci brs rows Hbx Hrow Hex l (fun _ => conv l)) by auto.
    apply marg_ext. intros b. unfold all_M. unfold pmass. rewrite map_app. cbn [map]. rewrite qprod_app. cbn [qprod]. ring.
  - apply Forall_forall. intros m Hm. apply in_map_iff in Hm as ((k & v) & <- & Hv). apply (comp_two_ok k v Hv).
  - intros y s [].
Qed.
End Prod.
