(** C46: system probabilities from the path-based model. *)
From Coq Require Import ZArith List String Bool Arith QArith Qcanon Lia Permutation Sorting.
From Verif Require Import Py PyFacts Num Vari VariFacts Brc SpecBrc BrcFacts Cpm SpecCpm Model ModelFacts SysEvent SysNot.
From Verif Require Import Bnb SpecBnb BnbFacts PathModel PathFacts PathModelFacts PropBnb.
Import ListNotations.
Open Scope string_scope.
Open Scope Z_scope.
Open Scope list_scope.

(** arc states whose system state is [s] *)
Definition in_state (pti : list path_entry) (s : Z) (x : dict Z) : bool :=
  match eval_sys_state pti x 1 with Ok t => t =? s | Err _ => false end.

(** One OD with at most five paths, two damage states per edge, independent edges *)
Lemma path_model_both :
  forall edges ds (scen : dict (list Qc)) od (path_times : dict od_paths) (pt : od_paths) key d fuel,
    NoDup edges -> List.length ds = 2%nat ->
    NoDup (keys scen) -> incl edges (keys scen) -> ~ In od (keys scen) ->
    (forall k p, In (k, p) scen -> List.length p = 2%nat /\ (forall q, In q p -> 0 <= q)%Qc /\ qsum p = 1%Qc) ->
    dfind path_times od = Some pt -> pt <> [] -> (List.length pt <= 5)%nat ->
    (forall p t, In (p, t) pt -> p <> [] /\ NoDup p /\ incl p edges) ->
    NoDup (keys d) -> (forall f, In f d -> glob_match key (fst f) = false) -> (List.length edges < fuel)%nat ->
    exists pti brs d' cpms varis M,
      od_idx od pt = Ok pti /\ get_branches fuel edges [od] path_times key d = Ok ([(od, brs)], d') /\
      model_given_od_scen edges ds scen od pt brs = Ok (cpms, varis) /\
      forall s, 0 <= s <= Z.of_nat (List.length pt) ->
        compute_prob cpms varis edges od (SI s) true = Ok (event_prob edges scen (in_state pti s), M) /\
        compute_prob cpms varis edges od (SI s) false = Ok (event_prob edges scen (fun x => negb (in_state pti s x)), M).
Proof.
  intros edges ds scen od path_times pt key d fuel Nn Hds Ns I Hod Hp Ed Np L5 H Nd Hd Hf.
  destruct (C44_get_branches_partial edges od path_times pt key d fuel Nn Ed Np H Nd Hd Hf) as (pti & brs & d' & Ei & Eb & Bok & Cov).
  assert (Epti : pti = od_list pt) by (rewrite od_idx_ok in Ei; congruence).
  assert (PO : paths_ok edges pti) by (rewrite Epti; apply od_paths_ok; auto).
  assert (Hpn : pti <> []) by (rewrite Epti; discriminate).
  assert (Hs : scen_ok scen) by (split; auto).
  assert (Bx : forall b, In b brs -> box_ok edges b).
  { intros b Hb. destruct (Bok b Hb) as [(B1 & B2 & B3 & _) E]. split; auto. }
  assert (Len : List.length (v_values (od_var od pt)) = S (List.length pt)).
  { unfold od_var, mk_variable. cbn [v_values]. rewrite od_values_eq. cbn [List.length]. rewrite map_length. unfold times.
    rewrite (Permutation_length (sort_desc_perm _ _)), map_length. auto. }
  assert (Nv : nvals (od_var od pt) = Z.of_nat (List.length pt) + 1) by (unfold nvals; rewrite Len; lia).
  assert (St : stored (od_var od pt)).
  { unfold stored. rewrite Len. unfold od_var, mk_variable. cbn [v_B]. unfold od_var, mk_variable in Len. cbn [v_values] in Len. rewrite Len.
    unfold stores_B. assert (E1 : (0 <? S (List.length pt))%nat = true) by (apply Nat.ltb_lt; lia).
    assert (E2 : (S (List.length pt) <=? 6)%nat = true) by (apply Nat.leb_le; lia). rewrite E1, E2. auto. }
  assert (Sb := stored_basic _ St). assert (Sv : var_ok (od_var od pt)) by (apply stored_ok; auto; lia).
  assert (Rg : forall x, In x (arc_states edges) -> 0 <= ev 1 pti x < nvals (od_var od pt)).
  { intros x Hx. rewrite Nv. rewrite Epti in *. destruct (ev_cases edges (od_list pt) PO x) as [(e & He & _ & ->)|(e & He & ->)].
    - apply od_tail_In in He as (p & t & Hi & ->). destruct (code_spec pt p t Hi) as (n & v & _ & E2 & _ & _ & _ & _ & L).
      unfold pe_state. cbn [snd]. rewrite E2. assert (List.length (od_values pt) = S (List.length pt)) by exact Len. lia.
    - injection He as <-. unfold pe_state. cbn [snd]. lia. }
  assert (Ev : forall x, In x (arc_states edges) -> eval_sys_state pti x 1 = Ok (ev 1 pti x)).
  { intros x Hx. apply (eval_as edges); auto. rewrite Epti. intros e [<-|He]; [intros k []|]. apply (od_tail_In pt) in He as (p & t & Hi & ->). apply (H p t Hi). }
  assert (Ph : forall x b, In x (arc_states edges) -> In b brs -> in_bb b x = true -> ev 1 pti x = fl b).
  { intros x b Hx Hb In0. destruct (Cov x Hx) as [_ C]. specialize (C b Hb In0). rewrite Ev in C by auto. congruence. }
  assert (Hfl : forall b, In b brs -> 0 <= fl b < nvals (od_var od pt)).
  { intros b Hb. destruct (Bx b Hb) as (B1 & B2 & B3 & _). rewrite <- (Ph (lower b) b B1 Hb); [apply Rg; auto|].
    unfold in_bb. apply (in_box_spec edges); auto. intros k Hk. specialize (B3 k Hk). lia. }
  destruct (cmat_ok edges ds Nn Hds brs Bx) as (rows & Ec & Pr).
  set (vd0 := arc_vars edges ds).
  assert (Hst : forall k v, In (k, v) vd0 -> v_name v = k /\ stored v).
  { intros k v Hk. apply arc_in in Hk as [_ ->]. split; [reflexivity|apply arc_stored; auto]. }
  assert (Hsn : ~ In (v_name (od_var od pt)) (keys vd0)).
  { unfold vd0. rewrite arc_keys. intros X. apply Hod, I, X. }
  assert (Hw := arc_wf edges ds Nn Hds). assert (Hpb := scen_probs scen Hs ds Hds edges I).
  assert (Hcode := rows_code edges ds Nn Hds (od_var od pt) Sb brs Bx Hfl rows Pr).
  assert (Hm := rows_mass edges ds Nn Hds (od_var od pt) Sb brs Bx Hfl rows Pr (ev 1 pti) (fun x Hx => proj1 (Cov x Hx)) Ph).
  assert (Hmk := se_make vd0 Hw Hst (od_var od pt) Hsn Sv rows Hcode).
  destruct (model_ok scen Hs ds Hds edges I od Hod pt brs rows _ Ec Hmk) as (cpms & vd & Emod & L1 & L2 & L3).
  assert (Hbs : forall c row, In (c :: row) rows -> 0 <= c < nvals (od_var od pt)).
  { intros c row Hr. apply (Permutation_in _ Pr) in Hr. apply in_map_iff in Hr as (b & Eb0 & Hb). unfold brow in Eb0. injection Eb0 as <- _. auto. }
  destruct (sn_compute vd0 (probs_of scen) Hw Hpb Hst (od_var od pt) Hsn Sb Sv rows (ev 1 pti) Hcode) with (cpms := cpms) (vd := vd) as (M & HM).
  - unfold vd0. rewrite (arc_space edges ds Hds). exact Rg.
  - unfold vd0. exact Hm.
  - exact Hbs.
  - unfold vd0 at 1. rewrite arc_keys. exact L1.
  - unfold vd0 at 1. rewrite arc_keys. exact L2.
  - exact L3.
  - exists pti, brs, d', cpms, vd, M. split; auto. split; auto. split; auto. intros s Rs.
    assert (Ek : keys vd0 = edges) by apply arc_keys. rewrite Ek in HM. change (v_name (od_var od pt)) with od in HM. destruct (HM s) as [H1 H2]; [rewrite Nv; lia|]. rewrite H1, H2.
    unfold vd0. rewrite !(event_eq scen Hs ds Hds edges) by auto. split; do 2 f_equal; unfold event_prob; f_equal; f_equal;
    apply filter_ext_in; intros x Hx; unfold in_state; rewrite Ev by auto; auto.
Qed.

(** One OD with at most five paths, two damage states per edge, independent edges *)
Theorem C46_path_model_partial :
  forall edges ds (scen : dict (list Qc)) od (path_times : dict od_paths) (pt : od_paths) key d fuel,
    NoDup edges -> List.length ds = 2%nat ->
    NoDup (keys scen) -> incl edges (keys scen) -> ~ In od (keys scen) ->
    (forall k p, In (k, p) scen -> List.length p = 2%nat /\ (forall q, In q p -> 0 <= q)%Qc /\ qsum p = 1%Qc) ->
    dfind path_times od = Some pt -> pt <> [] -> (List.length pt <= 5)%nat ->
    (forall p t, In (p, t) pt -> p <> [] /\ NoDup p /\ incl p edges) ->
    NoDup (keys d) -> (forall f, In f d -> glob_match key (fst f) = false) -> (List.length edges < fuel)%nat ->
    exists pti brs d' cpms varis M,
      od_idx od pt = Ok pti /\ get_branches fuel edges [od] path_times key d = Ok ([(od, brs)], d') /\
      model_given_od_scen edges ds scen od pt brs = Ok (cpms, varis) /\
      forall s, 0 <= s <= Z.of_nat (List.length pt) ->
        compute_prob cpms varis edges od (SI s) true = Ok (event_prob edges scen (in_state pti s), M).
Proof.
  intros edges ds scen od path_times pt key d fuel Nn Hds Ns I Hod Hp Ed Np L5 H Nd Hd Hf.
  destruct (path_model_both edges ds scen od path_times pt key d fuel Nn Hds Ns I Hod Hp Ed Np L5 H Nd Hd Hf) as (pti & brs & d' & cpms & varis & M & H1 & H2 & H3 & H4).
  exists pti, brs, d', cpms, varis, M. split; auto. split; auto. split; auto. intros s Rs. apply (H4 s Rs).
Qed.
Print Assumptions C46_path_model_partial.

(** The same with flag=False: the probability of all other states *)
Theorem C46_other_states_partial :
  forall edges ds (scen : dict (list Qc)) od (path_times : dict od_paths) (pt : od_paths) key d fuel,
    NoDup edges -> List.length ds = 2%nat ->
    NoDup (keys scen) -> incl edges (keys scen) -> ~ In od (keys scen) ->
    (forall k p, In (k, p) scen -> List.length p = 2%nat /\ (forall q, In q p -> 0 <= q)%Qc /\ qsum p = 1%Qc) ->
    dfind path_times od = Some pt -> pt <> [] -> (List.length pt <= 5)%nat ->
    (forall p t, In (p, t) pt -> p <> [] /\ NoDup p /\ incl p edges) ->
    NoDup (keys d) -> (forall f, In f d -> glob_match key (fst f) = false) -> (List.length edges < fuel)%nat ->
    exists pti brs d' cpms varis M,
      od_idx od pt = Ok pti /\ get_branches fuel edges [od] path_times key d = Ok ([(od, brs)], d') /\
      model_given_od_scen edges ds scen od pt brs = Ok (cpms, varis) /\
      forall s, 0 <= s <= Z.of_nat (List.length pt) ->
        compute_prob cpms varis edges od (SI s) false = Ok (event_prob edges scen (fun x => negb (in_state pti s x)), M).
Proof.
  intros edges ds scen od path_times pt key d fuel Nn Hds Ns I Hod Hp Ed Np L5 H Nd Hd Hf.
  destruct (path_model_both edges ds scen od path_times pt key d fuel Nn Hds Ns I Hod Hp Ed Np L5 H Nd Hd Hf) as (pti & brs & d' & cpms & varis & M & H1 & H2 & H3 & H4).
  exists pti, brs, d', cpms, varis, M. split; auto. split; auto. split; auto. intros s Rs. apply (H4 s Rs).
Qed.
Print Assumptions C46_other_states_partial.

Definition ex_scen : dict (list Qc) := [("e1", [q1 1 10; q1 9 10]); ("e2", [q1 1 5; q1 4 5]); ("e3", [q1 1 4; q1 3 4])].
Definition ex_ds : list value := [VNum (q1 0 1); VNum (q1 1 1)].
Definition path_probs (flag : bool) (n : nat) (ods : list string) (pts : dict od_paths) (od : string) : res (list Q) :=
  r <- get_branches 8 ex_edges ods pts "a" [] ;;
  brs <- dget (fst r) od ;;
  pt <- dget pts od ;;
  m <- model_given_od_scen ex_edges ex_ds ex_scen od pt brs ;;
  mapM (fun s => p <- compute_prob (fst m) (snd m) ex_edges od (SI s) flag ;; Ok (this (fst p))) (zrange 0 (Z.of_nat n)).
Example C46_path_model_partial_ex :
  NoDup ex_edges /\ List.length ex_ds = 2%nat /\ NoDup (keys ex_scen) /\ incl ex_edges (keys ex_scen) /\ ~ In "od1" (keys ex_scen) /\
  (forall k p, In (k, p) ex_scen -> List.length p = 2%nat /\ (forall q, In q p -> 0 <= q)%Qc /\ qsum p = 1%Qc) /\
  (forall p t, In (p, t) ex_pt -> p <> [] /\ NoDup p /\ incl p ex_edges) /\
  path_probs true 3 ["od1"] [("od1", ex_pt)] "od1" = Ok [1 # 25; 3 # 50; 9 # 10]%Q /\
  path_probs false 3 ["od1"] [("od1", ex_pt)] "od1" = Ok [24 # 25; 47 # 50; 1 # 10]%Q /\
  map (fun s => this (event_prob ex_edges ex_scen (in_state ex_pti s))) [0; 1; 2] = [1 # 25; 3 # 50; 9 # 10]%Q.
Proof.
  split; [apply ex_edges_nodup|]. split; [reflexivity|]. split; [apply ex_edges_nodup|]. split; [intros k Hk; exact Hk|].
  split; [cbn; intuition congruence|]. split.
  { intros k p H. split; [destruct H as [H|[H|[H|[]]]]; injection H as <- <-; reflexivity|]. split.
    - intros q Hq. destruct H as [H|[H|[H|[]]]]; injection H as <- <-; destruct Hq as [<-|[<-|[]]]; vm_compute; congruence.
    - destruct H as [H|[H|[H|[]]]]; injection H as <- <-; apply Qc_is_canon; vm_compute; reflexivity. }
  split; [intros p t H; destruct (ex_pt_ok p t H) as (? & ? & ? & _); auto|].
  split; [|split]; vm_compute; reflexivity.
Qed.

(** An OD with six paths has a variable with seven values, which stores no table: the
    CPMs are built, and the elimination raises. *)
Definition six_edges := ["a1"; "a2"; "a3"; "a4"; "a5"; "a6"].
Definition six_pt : od_paths :=
  [(["a1"], q1 1 1); (["a2"], q1 2 1); (["a3"], q1 3 1); (["a4"], q1 4 1); (["a5"], q1 5 1); (["a6"], q1 6 1)].
Theorem C46_six_paths_refuted :
  exists brs d', get_branches 7 six_edges ["od"] [("od", six_pt)] "a" [] = Ok ([("od", brs)], d') /\
    (forall p t, In (p, t) six_pt -> p <> [] /\ NoDup p /\ incl p six_edges) /\
    exists m, model_given_od_scen six_edges ex_ds (map (fun k => (k, [q1 1 10; q1 9 10])) six_edges) "od" six_pt brs = Ok m /\
      forall b, compute_prob (fst m) (snd m) six_edges "od" (SI 0) b = Err AttributeError.
Proof.
  eexists. eexists. split; [vm_compute; reflexivity|]. split.
  - intros p t H. cbn in H. repeat (destruct H as [H|H]; [injection H as <- <-; split; [discriminate|split;
      [repeat constructor; cbn; tauto|intros k [<-|[]]; cbn; tauto]]|]). destruct H.
  - eexists. split; [vm_compute; reflexivity|]. intros [|]; vm_compute; reflexivity.
Qed.
Print Assumptions C46_six_paths_refuted.

(** The second OD of a configuration gets the files of the first as well (C45): its
    probabilities are wrong.  Alone it has 1/10, 9/10; after the other OD the total exceeds one. *)
Theorem C46_second_od_refuted :
  exists (pts : dict od_paths), (forall od pt p t, In (od, pt) pts -> In (p, t) pt -> p <> [] /\ NoDup p /\ incl p ex_edges) /\
    path_probs true 2 ["od2"] pts "od2" = Ok [1 # 10; 9 # 10]%Q /\
    exists p0 p1, path_probs true 2 ["od1"; "od2"] pts "od2" = Ok [p0; p1] /\ (1 < p0 + p1)%Q.
Proof.
  exists [("od1", ex_pt); ("od2", [(["e1"], q1 1 1)])]. split.
  - intros od pt p t [H|[H|[]]]; injection H as <- <-.
    + intros H. destruct (ex_pt_ok p t H) as (? & ? & ? & _). auto.
    + intros [H|[]]. injection H as <- <-. split; [discriminate|]. split; [repeat constructor; cbn; tauto|]. intros k [<-|[]]. cbn. auto.
  - split; [vm_compute; reflexivity|]. eexists. eexists. split; [vm_compute; reflexivity|]. vm_compute. reflexivity.
Qed.
Print Assumptions C46_second_od_refuted.
