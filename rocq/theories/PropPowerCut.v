(** C118: [main] of demos/power_house and the mean number of days without power. *)
From Coq Require Import ZArith List String Bool Arith Lia Permutation Sorted QArith Qcanon.
From Verif Require Import Py PyFacts Num Vari VariFacts Cpm CpmFacts SpecCpm CpmElim CpmMarg CpmMean CpmProb SysVal Bnb VeCond Power SpecPower BnetFacts PowerNodes PowerFacts PowerMain PowerDist PropPower PowerCut.
Import ListNotations.
Open Scope string_scope.
Open Scope Z_scope.
Open Scope list_scope.

(** * What an elimination keeps *)
Lemma elim_keeps vars : forall rest l l', ve_ok l (vars ++ rest) -> variable_elim_list l vars = Ok l' -> ve_ok l' rest.
Proof.
  unfold variable_elim_list. induction vars as [|v vars IH]; intros rest l l' V H; cbn [foldM app] in *.
  - injection H as <-. auto.
  - destruct (elim_step l v) as [l1|] eqn:E; cbn [bind] in H; [|congruence].
    destruct (elim_step_ok l v (vars ++ rest) l1 V E) as (V1 & _). apply (IH rest l1); auto.
Qed.
Lemma elim_result vars v l M : ve_ok l (vars ++ [v]) -> variable_elim l vars = Ok M -> has_p M /\ basic_in M v.
Proof.
  intros V H. unfold variable_elim in H. destruct (variable_elim_list l vars) as [l'|] eqn:E; cbn [bind] in H; [|congruence].
  destruct (elim_keeps _ _ _ _ V E) as (F & P & B & _). destruct (product_list_keep l' M v F H) as [K1 K2]. split; [apply K1; auto|].
  apply K2. destruct (B v (or_introl eq_refl)) as (N & H1 & H2 & H3). exists N. auto.
Qed.
(** in a complete table the code of a set with one state is the state *)
Lemma basic_code v c s : v_B v = Some (gen_B (List.length (v_values v))) -> code_ok v c -> 0 <= s < nvals v -> (forall x, In x (states_of v c) <-> x = s) -> c = s.
Proof.
  intros EB (B & EB' & R) Hs Hx. rewrite EB in EB'. injection EB' as <-. unfold states_of in Hx. rewrite EB in Hx.
  destruct (Z.ltb_spec c 0); [lia|]. set (n := List.length (v_values v)) in *.
  assert (Hc : nth_error (gen_B n) (Z.to_nat c) = Some (nth (Z.to_nat c) (gen_B n) [])) by (apply nth_error_nth'; lia).
  assert (In_ := nth_error_In _ _ Hc). apply gen_B_spec in In_ as (St & _ & _).
  assert (E : nth (Z.to_nat c) (gen_B n) [] = [s]).
  { apply sorted_lt_ext; auto. - repeat constructor. - intros x. rewrite Hx. cbn. intuition. }
  rewrite E in Hc. assert (Hb := gen_B_basic n (Z.to_nat s) ltac:(unfold nvals in Hs; lia)). rewrite Z2Nat.id in Hb by lia.
  assert (X := NoDup_nth_error_inj (gen_B n) _ _ _ (gen_B_NoDup n) Hc Hb). lia.
Qed.

(** * Sums of averages *)
Lemma expect_sum (l : list (string * Qc)) (zs : list Z) (g : Z -> pattern -> Qc) : forall f,
  qsum (map (fun z => expect l (g z) f) zs) = expect l (fun f => qsum (map (fun z => g z f) zs)) f.
Proof.
  induction l as [|[s p] l IH]; intros f; cbn [expect]; [reflexivity|]. rewrite <- !IH. clear IH. induction zs as [|z zs IHz]; cbn [map qsum]; [ring|]. rewrite IHz. ring.
Qed.
Lemma expect_scale (l : list (string * Qc)) (c : Qc) g : forall f, expect l (fun f => c * g f)%Qc f = (c * expect l g f)%Qc.
Proof. induction l as [|[s p] l IH]; intros f; cbn [expect]; [reflexivity|]. rewrite !IH. ring. Qed.
Lemma expect_eq (l : list (string * Qc)) g g' : (forall f, g f = g' f) -> forall f, expect l g f = expect l g' f.
Proof. intros H. induction l as [|[s p] l IH]; intros f; cbn [expect]; [auto|]. rewrite !IH. auto. Qed.
Lemma average_sum haz pfs (zs : list Z) (c : Z -> Qc) (g : Z -> pattern -> Qc) (h : pattern -> Qc) :
  (forall f, qsum (map (fun z => c z * g z f)%Qc zs) = h f) -> qsum (map (fun z => c z * average haz pfs (g z))%Qc zs) = average haz pfs h.
Proof.
  intros H. unfold average. generalize (combine (seq 0 (List.length haz)) (map snd haz)). intros L.
  induction L as [|[k p] L IH]; cbn [map qsum fst snd].
  - clear. induction zs as [|z zs IH]; cbn [map qsum]; [reflexivity|]. rewrite IH. ring.
  - rewrite <- IH. clear IH. transitivity (p * qsum (map (fun z => expect (scenario pfs k) (fun f => c z * g z f)%Qc (fun _ => false)) zs) +
      qsum (map (fun z => c z * qsum (map (fun kp => snd kp * expect (scenario pfs (fst kp)) (g z) (fun _ => false))%Qc L))%Qc zs))%Qc.
    + clear. induction zs as [|z zs IH]; cbn [map qsum]; [ring|]. rewrite IH, expect_scale. ring.
    + f_equal. f_equal. rewrite (expect_sum _ zs (fun z f => c z * g z f)%Qc). apply expect_eq. auto.
Qed.
Lemma sum_days n d : 0 <= d < Z.of_nat n -> qsum (map (fun z => qz z * indicator (d =? z))%Qc (zrange 0 (Z.of_nat n))) = qz d.
Proof.
  intros Hd. rewrite (zrange_app 0 d (Z.of_nat n)), (zrange_cons d) by lia. rewrite map_app. cbn [map].
  assert (Z0 : forall a b, (b <= d \/ d < a) -> qsum (map (fun z => qz z * indicator (d =? z))%Qc (zrange a b)) = 0%Qc).
  { intros a b Hab. assert (H : forall l, (forall z, In z l -> z <> d) -> qsum (map (fun z => qz z * indicator (d =? z))%Qc l) = 0%Qc).
    { induction l as [|z l IH]; intros H; cbn [map qsum]; [reflexivity|]. rewrite IH by (intros; apply H; right; auto). destruct (Z.eqb_spec d z) as [->|]; [exfalso; apply (H z); [left|]; auto|]. unfold indicator. ring. }
    apply H. intros z Hz. apply In_zrange in Hz. lia. }
  assert (QA : forall l1 l2, qsum (l1 ++ l2) = (qsum l1 + qsum l2)%Qc) by (induction l1 as [|x l1 IH]; intros l2; cbn [qsum app]; [ring|]; rewrite IH; ring).
  rewrite QA. cbn [qsum]. rewrite !Z0 by lia. rewrite Z.eqb_refl. unfold indicator. ring.
Qed.

(** ** The mean *)
(** Eliminating all variables but that of the house, in any order, leaves a CPM whose mean, as [get_means]
    computes it, is the average number of days until the house has power again. *)
Theorem C118_mean haz pfs rep lins st h sets : power_ok haz pfs rep lins -> quant_cpms haz pfs rep lins = Ok st -> In (h, sets) lins ->
  exists vh, dget (snd st) h = Ok vh /\ forall ord, Permutation (vh :: ord) (map snd (snd st)) ->
    exists M, variable_elim (map snd (fst st)) ord = Ok M /\ get_means M [h] = Ok [average haz pfs (fun f => qz (Z.of_nat (cut_days f rep sets)))].
Proof.
  intros H E Hh. destruct (quant_main _ _ _ _ H) as (N & E' & PN). rewrite E in E'. injection E' as ->.
  destruct (power_dist _ _ _ _ N H PN h sets Hh) as (vh & D & Nv & _ & Bd & El). exists vh. split; auto.
  intros ord P. destruct (El ord P) as (M & EM & Ev & W & Mm). exists M. split; auto.
  assert (T := net_topo haz pfs rep lins N PN). assert (ND := topo_nodup N T).
  destruct (house_bound _ _ _ _ N H PN h sets Hh (fun _ => true)) as (d & Hd & Nd & Cd & _). assert (HdN : In d N) by (apply filter_In in Hd; tauto).
  assert (Ed : nd_v d = vh).
  { assert (Y : dget (snd (st_of N)) (nd_name d) = Ok (nd_v d)) by (apply dget_node; auto). rewrite Nd in Y. congruence. }
  rewrite Ed in Cd. destruct Cd as (k & flag & Hk & Ek & Fu).
  unfold st_of in P, EM. cbn [fst snd] in P, EM. rewrite map_map in P, EM. cbn [snd] in P, EM. change (map (fun x => nd_v x) N) with (nvars N) in P. change (map (fun x => nd_M x) N) with (ncpms N) in EM.
  assert (P' : Permutation (ord ++ [vh]) (nvars N)) by (rewrite <- P; apply Permutation_app_comm).
  assert (V : ve_ok (ncpms N) (ord ++ [vh])).
  { apply topo_ve_ok; auto. - intros v Hv. apply (Permutation_in _ P' Hv). - apply (Permutation_NoDup (l := names (nvars N))); [apply Permutation_sym, Permutation_map; auto|]. rewrite names_nvars. auto. }
  destruct (elim_result ord vh (ncpms N) M V EM) as [Hp Bm].
  assert (Ls : lists_states M).
  { intros row v c Hr Hc. assert (Hv := in_combine_l _ _ _ _ Hc). rewrite Ev in Hv. destruct Hv as [<-|[]].
    destruct (Bm row c Hr Hc) as (s & Rs & Es). assert (Co : code_ok vh c).
    { destruct W as (_ & _ & _ & Wc & _). specialize (Wc row Hr). rewrite Ev in Wc, Hc. inversion Wc as [|? c' ? r' W1 W2]; subst. inversion W2; subst. destruct Hc as [[= <-]|[]]. auto. }
    assert (c = s) by (eapply basic_code; eauto). subst s. auto. }
  assert (GM := means_main M [vh] W Hp Ls ltac:(repeat constructor; intros []) ltac:(rewrite Ev; apply incl_refl) (fun _ => 0)).
  cbn [names map] in GM. rewrite Nv in GM. rewrite GM. f_equal. f_equal. rewrite Ev. cbn [marg].
  transitivity (qsum (map (fun z => (qz z * average haz pfs (fun f => indicator (Z.of_nat (cut_days f rep sets) =? z)))%Qc) (zrange 0 (nvals vh)))).
  - f_equal. apply map_ext. intros z. rewrite Mm. unfold set_joint. rewrite Nv, String.eqb_refl. reflexivity.
  - apply average_sum. intros f. unfold nvals. apply sum_days. specialize (Bd f). lia.
Qed.
Print Assumptions C118_mean.

(** ** The order of elimination *)
Lemma flat3 rep : Permutation (flat_map (fun s => ["x" +s s; "n" +s s; "c" +s s]) rep) (map (append "x") rep ++ map (append "n") rep ++ map (append "c") rep).
Proof.
  induction rep as [|s rep IH]; cbn [flat_map map app]; [auto|]. apply perm_skip. rewrite IH.
  apply Permutation_cons_app. rewrite !app_assoc. rewrite <- app_assoc. apply Permutation_cons_app. rewrite <- !app_assoc. auto.
Qed.
(** If all structures are repaired, the order has every node once. *)
Theorem C118_order pfs rep lins : Permutation rep (keys pfs) -> Permutation (ve_ord rep lins) (node_names pfs rep lins).
Proof.
  intros P. unfold ve_ord, node_names. apply perm_skip. rewrite flat3. rewrite <- !app_assoc. apply Permutation_app; [apply Permutation_map; auto|].
  apply Permutation_app_head. apply Permutation_app_head.
  replace (flat_map house_names lins) with (flat_map (fun hp : string * list (list string) => if (List.length (snd hp) <? 2)%nat then [fst hp] else map (fun i => fst hp +s num_str i) (seq 0 (List.length (snd hp))) ++ [fst hp]) lins); [auto|].
  apply flat_map_ext. intros [h [|s [|s' sets]]]; reflexivity.
Qed.
Print Assumptions C118_order.

(** With this order, without the house itself, the elimination gives the mean number of days. *)
Theorem C118_main_order haz pfs rep lins st h sets : power_ok haz pfs rep lins -> Permutation rep (keys pfs) -> quant_cpms haz pfs rep lins = Ok st -> In (h, sets) lins ->
  exists ord M, mapM (dget (snd st)) (filter (fun n => negb (String.eqb n h)) (ve_ord rep lins)) = Ok ord /\ variable_elim (map snd (fst st)) ord = Ok M /\
    get_means M [h] = Ok [average haz pfs (fun f => qz (Z.of_nat (cut_days f rep sets)))].
Proof.
  intros H Pr E Hh. destruct (C78_network _ _ _ _ H) as (st' & E' & K1 & K2). rewrite E in E'. injection E' as <-.
  destruct (C118_mean _ _ _ _ _ _ _ H E Hh) as (vh & D & El).
  assert (ND : NoDup (keys (snd st))) by (rewrite K2; apply H).
  assert (MM : forall l, incl l (keys (snd st)) -> exists ord, mapM (dget (snd st)) l = Ok ord /\ Forall2 (fun n v => dfind (snd st) n = Some v) l ord).
  { induction l as [|n l IH]; intros I; [exists []; auto|]. destruct IH as (ord & E1 & F1); [intros x Hx; apply I; right; auto|].
    assert (Hn : In n (keys (snd st))) by (apply I; left; auto). apply dfind_keys in Hn as [v Hv]. exists (v :: ord). cbn [mapM]. unfold dget at 1. rewrite Hv. cbn [bind]. rewrite E1. auto. }
  assert (Po : Permutation (ve_ord rep lins) (keys (snd st))) by (rewrite K2; apply C118_order; auto).
  destruct (MM (filter (fun n => negb (String.eqb n h)) (ve_ord rep lins))) as (ord & E1 & F1).
  { intros x Hx. apply filter_In in Hx as [Hx _]. apply (Permutation_in _ Po Hx). }
  exists ord. assert (Hd : dfind (snd st) h = Some vh) by (unfold dget in D; destruct (dfind (snd st) h); congruence).
  assert (Ph : Permutation (h :: filter (fun n => negb (String.eqb n h)) (ve_ord rep lins)) (keys (snd st))).
  { rewrite <- Po. apply NoDup_Permutation.
    - constructor; [rewrite filter_In, String.eqb_refl; intros [_ X]; discriminate|]. apply NoDup_filter. apply (Permutation_NoDup (Permutation_sym Po)). auto.
    - apply (Permutation_NoDup (Permutation_sym Po)). auto.
    - intros x. cbn [In]. rewrite filter_In. split.
      + intros [<-|[X _]]; auto. apply (Permutation_in _ (Permutation_sym Po)). apply dfind_keys. eauto.
      + intros X. destruct (String.eqb_spec x h) as [->|]; auto. }
  set (g := fun n => match dfind (snd st) n with Some v => v | None => vh end).
  assert (Eg : map g (keys (snd st)) = map snd (snd st)).
  { unfold keys. rewrite map_map. apply map_ext_in. intros [n v] Hv. cbn [fst snd]. unfold g. rewrite (In_dfind (snd st) n v); auto. }
  assert (Eo : map g (filter (fun n => negb (String.eqb n h)) (ve_ord rep lins)) = ord).
  { clear -F1. induction F1 as [|n v l o Hv F IH]; cbn [map]; [auto|]. rewrite IH. unfold g at 1. rewrite Hv. auto. }
  assert (Pv : Permutation (vh :: ord) (map snd (snd st))).
  { rewrite <- Eg, <- Eo. replace vh with (g h) by (unfold g; rewrite Hd; auto). apply (Permutation_map g Ph). }
  destruct (El ord Pv) as (M & E2 & E3). exists M. auto.
Qed.
Print Assumptions C118_main_order.

(** ** The loops of [main] *)
Lemma dset_all {A} (l : list (string * A)) : forall (d : dict A) k, ~ In k (keys l) -> dfind (fold_left (fun d hM => dset d (fst hM) (snd hM)) l d) k = dfind d k.
Proof.
  induction l as [|[h a] l IH]; intros d k N; cbn [fold_left fst snd]; auto. rewrite IH by (intros H; apply N; right; auto).
  rewrite dfind_dset. destruct (String.eqb_spec k h) as [->|]; auto. exfalso. apply N. left. auto.
Qed.
Lemma dset_in {A} (g : string -> A) l : forall (d : dict A) k, In k l -> dfind (fold_left (fun d hM => dset d (fst hM) (snd hM)) (map (fun h => (h, g h)) l) d) k = Some (g k).
Proof.
  induction l as [|h l IH]; intros d k []; cbn [map fold_left fst snd].
  - subst h. destruct (in_dec string_dec k l) as [I|I]; [apply IH; auto|].
    rewrite dset_all; [rewrite dfind_dset, String.eqb_refl; auto|]. unfold keys. rewrite map_map. cbn [fst]. rewrite map_id. auto.
  - apply IH; auto.
Qed.
Lemma mapM_each {A} (F : string -> res A) (a0 : A) l : let g h := match F h with Ok a => a | Err _ => a0 end in
  (exists r, mapM (fun h => M <- F h ;; Ok (h, M)) l = Ok r) -> (forall h, In h l -> F h = Ok (g h)) /\ mapM (fun h => M <- F h ;; Ok (h, M)) l = Ok (map (fun h => (h, g h)) l).
Proof.
  cbv zeta. induction l as [|h l IH]; intros (r & E); [split; auto; intros h []|]. cbn [mapM map] in *. destruct (F h) as [a|] eqn:Eh; [|discriminate]. cbn [bind] in *.
  destruct (mapM (fun h => M <- F h ;; Ok (h, M)) l) as [r'|]; [|discriminate]. destruct IH as [I1 I2]; [eauto|]. injection I2 as ->. split; auto.
  intros h' [<-|H]; [rewrite Eh; auto|auto].
Qed.
(** For whatever functions calculate the CPMs and the means: the inference succeeds if and only if both do for
    all houses asked for, and then its dictionaries hold the CPM and the mean of each. *)
Theorem C118_loops cal mean st ord hs :
  ((exists r, inference cal mean st ord hs = Ok r) <-> (forall h, In h hs -> exists M x, cal (fst st) (snd st) ["haz"] ord h = Ok M /\ mean M h = Ok x)) /\
  (forall Mhs av, inference cal mean st ord hs = Ok (Mhs, av) -> forall h, In h hs ->
     exists M x, cal (fst st) (snd st) ["haz"] ord h = Ok M /\ dget Mhs h = Ok M /\ mean M h = Ok x /\ dget av h = Ok x).
Proof.
  set (F := cal (fst st) (snd st) ["haz"] ord). set (g := fun h => match F h with Ok a => a | Err _ => mkCpm [] 0 [] [] end).
  set (m := fun h => match mean (g h) h with Ok a => a | Err _ => 0%Qc end).
  set (D := fold_left (fun d hM => dset d (fst hM) (snd hM)) (map (fun h => (h, g h)) hs) []).
  assert (Dg : forall h, In h hs -> dget D h = Ok (g h)) by (intros h Hh; apply dget_ok; unfold D; apply dset_in; auto).
  assert (One : (forall h, In h hs -> F h = Ok (g h) /\ mean (g h) h = Ok (m h)) ->
                inference cal mean st ord hs = Ok (D, fold_left (fun d hx => dset d (fst hx) (snd hx)) (map (fun h => (h, m h)) hs) [])).
  { intros H. unfold inference. fold F. rewrite (mapM_ok _ (fun h => (h, g h))) by (intros h Hh; rewrite (proj1 (H h Hh)); auto). cbn [bind]. cbv zeta. fold D.
    rewrite (mapM_ok _ (fun h => (h, m h))) by (intros h Hh; rewrite (Dg h Hh); cbn [bind]; rewrite (proj2 (H h Hh)); auto). reflexivity. }
  assert (Two : forall r, inference cal mean st ord hs = Ok r -> forall h, In h hs -> F h = Ok (g h) /\ mean (g h) h = Ok (m h)).
  { intros r E. unfold inference in E. fold F in E. destruct (mapM (fun h => M <- F h ;; Ok (h, M)) hs) as [ms|] eqn:E1; [|discriminate].
    destruct (mapM_each F (mkCpm [] 0 [] []) hs) as [H1 H2]; [eauto|]. fold g in H1, H2. rewrite E1 in H2. injection H2 as ->. cbn [bind] in E. cbv zeta in E. fold D in E.
    match type of E with bind ?x _ = _ => destruct x as [av|] eqn:E2 end; [|discriminate]. intros h Hh. split; [apply H1; auto|].
    assert (Y : forall l avl, mapM (fun h => M <- dget D h ;; x <- mean M h ;; Ok (h, x)) l = Ok avl -> incl l hs -> forall h, In h l -> mean (g h) h = Ok (m h)).
    { induction l as [|k l IH]; intros avl El I h' []; cbn [mapM] in El; rewrite (Dg k) in El by (apply I; left; auto); cbn [bind] in El;
        (destruct (mean (g k) k) as [x|] eqn:Ex; [|discriminate]); cbn [bind] in El; (destruct (mapM (fun h => M <- dget D h ;; x <- mean M h ;; Ok (h, x)) l) as [avl'|] eqn:El'; [|discriminate]).
      - subst h'. unfold m. rewrite Ex. auto.
      - apply (IH avl'); auto. intros y Hy. apply I. right. auto. }
    apply (Y hs av E2); auto. apply incl_refl. }
  split; [split|].
  - intros (r & E) h Hh. destruct (Two r E h Hh). eauto.
  - intros H. eexists. apply One. intros h Hh. destruct (H h Hh) as (M & x & E1 & E2). unfold m, g. rewrite E1, E2. auto.
  - intros Mhs av E h Hh. destruct (Two _ E h Hh) as [H1 H2]. rewrite (One (Two _ E)) in E. injection E as <- <-. exists (g h), (m h). repeat (split; auto).
    apply dget_ok. apply (dset_in m). auto.
Qed.
Print Assumptions C118_loops.

(** ** [main] *)
(** Without houses [main] returns nothing for them. *)
Theorem C118_main_partial haz pfs rep paths houses st : quant_cpms haz pfs rep (house_lins houses paths) = Ok st ->
  power_main haz pfs rep paths houses [] = Ok ([], []).
Proof. intros E. unfold power_main. cbv zeta. rewrite E. reflexivity. Qed.
Print Assumptions C118_main_partial.
(** With houses it fails, whatever the network: the function is looked up in the wrong module. *)
Theorem C118_main_refuted haz pfs rep paths houses st h hs : quant_cpms haz pfs rep (house_lins houses paths) = Ok st ->
  power_main haz pfs rep paths houses (h :: hs) = Err AttributeError.
Proof. intros E. unfold power_main. cbv zeta. rewrite E. reflexivity. Qed.
Print Assumptions C118_main_refuted.
(** With the function of the module operation it would fail too, for every house of a good network: the closure times
    of two structures depend on each other, and the function wants components with one child each. *)
Theorem C118_operation_refuted :
  power_ok ex_haz ex_pfs ex_rep (house_lins ex_houses ex_paths) /\
  forall h, In h (keys ex_houses) -> power_main_op ex_haz ex_pfs ex_rep ex_paths ex_houses [h] = Err AssertionError.
Proof. split; [exact C78_ex_ok|]. intros h [<-|[<-|[]]]; vm_compute; reflexivity. Qed.
Print Assumptions C118_operation_refuted.

(** The hypotheses hold for the network of C78: house h1 is without power for 39/80 days on average. *)
Example C118_ex :
  power_ok ex_haz ex_pfs ex_rep ex_lins /\ Permutation ex_rep (keys ex_pfs) /\ In ("h1", [["s0"; "p0"; "p1"]; ["s0"; "p2"; "p1"]]) ex_lins /\
  ve_ord ex_rep ex_lins = ["haz"; "xs0"; "ns0"; "cs0"; "xp2"; "np2"; "cp2"; "xp0"; "np0"; "cp0"; "xp1"; "np1"; "cp1"; "h0"; "h10"; "h11"; "h1"] /\
  this (average ex_haz ex_pfs (fun f => qz (Z.of_nat (cut_days f ex_rep [["s0"; "p0"; "p1"]; ["s0"; "p2"; "p1"]])))) = (39 # 80)%Q /\
  power_main ex_haz ex_pfs ex_rep ex_paths ex_houses ["h1"] = Err AttributeError.
Proof.
  split; [exact C78_ex_ok|]. split. { unfold ex_rep, ex_pfs. cbn. apply perm_skip. transitivity ["p0"; "p2"; "p1"]; [apply perm_swap|]. apply perm_skip. apply perm_swap. }
  split; [rewrite C78_ex_lins; right; left; reflexivity|]. do 2 (split; [vm_compute; reflexivity|]). vm_compute. reflexivity.
Qed.
(** a house that is asked for twice, and one for which the calculation fails *)
Definition toy_cal (_ : dict cpm) (_ : dict variable) (_ _ : list string) (h : string) : res cpm :=
  if String.eqb h "h3" then Err KeyError else Ok (mkCpm [mk_variable h [VNum 0%Qc; VNum 1%Qc] None] 1 [[0]; [1]] [Q2Qc (1 # 4); Q2Qc (3 # 4)]).
Definition toy_mean (M : cpm) (h : string) : res Qc := l <- get_means M [h] ;; match l with x :: _ => Ok x | [] => Err IndexError end.
Example C118_loops_ex :
  match inference toy_cal toy_mean ([], []) [] ["h1"; "h2"; "h1"] with Ok (Ms, av) => (keys Ms, map (fun kx => (fst kx, this (snd kx))) av) | Err _ => ([], []) end =
    (["h1"; "h2"], [("h1", 3 # 4); ("h2", 3 # 4)]%Q) /\
  inference toy_cal toy_mean ([], []) [] ["h1"; "h3"] = Err KeyError.
Proof. split; vm_compute; reflexivity. Qed.
