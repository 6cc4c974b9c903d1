(** The demo rbd from end to end: lemmas. *)
From Coq Require Import ZArith List String Bool Arith QArith Qcanon Lia Permutation.
From Verif Require Import Py PyFacts Num Vari VariFacts Brc SpecBrc BrcFacts BrcDecomp BrcProb BrcRun BrcMisc BrcMain BrcProper.
From Verif Require Import Cpm SpecCpm CpmFacts CpmMarg CpmSum CpmElim CpmProb Model ModelFacts SysEvent SysJoint.
From Verif Require Import Bnb SpecBnb PathModel PathModelFacts Trans SpecTrans NetSys Config SpecConfig ConfigFacts.
From Verif Require Import PropBrc PfMapRun DemoNet SpecDemo TwoNet.
Import ListNotations.
Open Scope string_scope.
Open Scope Z_scope.
Open Scope list_scope.

(** * Lists *)
Lemma remove_ok x l : NoDup l -> In x l -> py_remove x l = Ok (filter (fun y => negb (String.eqb y x)) l).
Proof.
  induction l as [|y l IH]; intros N I; [destruct I|]. inversion_clear N as [|? ? N1 N2]. cbn [py_remove filter]. rewrite String.eqb_sym.
  destruct (String.eqb_spec y x) as [->|Ne]; cbn [negb].
  - f_equal. clear - N1. induction l as [|z l IH]; auto. cbn [filter]. destruct (String.eqb_spec z x) as [->|]; [exfalso; apply N1; left; auto|].
    cbn [negb]. f_equal. apply IH. intros H. apply N1. right; auto.
  - destruct I as [->|I]; [congruence|]. rewrite (IH N2 I). auto.
Qed.
Lemma filter_two {A} (f g : A -> bool) l : filter f (filter g l) = filter (fun x => g x && f x) l.
Proof. induction l as [|a l IH]; auto. cbn [filter]. destruct (g a); cbn [filter andb]; [destruct (f a)|]; rewrite IH; auto. Qed.
Lemma inner_ok o d l : NoDup l -> In o l -> In d l -> o <> d -> foldM (fun l x => py_remove x l) [o; d] l = Ok (inner o d l).
Proof.
  intros N Io Id Ne. cbn [foldM]. rewrite remove_ok by auto. cbn [bind]. rewrite remove_ok.
  - cbn [bind]. unfold inner. rewrite filter_two. f_equal. apply filter_ext. intros y. rewrite negb_orb. auto.
  - apply NoDup_filter. auto.
  - apply filter_In. split; auto. apply negb_true_iff, String.eqb_neq. auto.
Qed.

(** * The order of two variables *)
Lemma ltb_asym a b : String.ltb a b = true -> String.ltb b a = false.
Proof. unfold String.ltb. rewrite (String.compare_antisym b a). destruct (String.compare a b); cbn; congruence. Qed.
Lemma ltb_total a b : a <> b -> String.ltb a b = false -> String.ltb b a = true.
Proof.
  unfold String.ltb. rewrite (String.compare_antisym b a). destruct (String.compare a b) eqn:E; cbn; try congruence.
  intros Ne. apply String.compare_eq_iff in E. congruence.
Qed.
Lemma sort_two a b X : Permutation X [a; b] -> String.ltb (v_name a) (v_name b) = true -> sort_vars X = [a; b].
Proof.
  intros P L. pose proof (ltb_asym _ _ L) as L'. destruct (perm_two a b X P) as [->| ->]; unfold sort_vars, sort_desc; cbn [fold_right insert_desc].
  - rewrite L'. reflexivity.
  - rewrite L. reflexivity.
Qed.

(** * Sums over the rows of a CPM of two variables *)
Notation tv := (arc_var fs2).
Lemma two_states k c s : s = 0 \/ s = 1 -> c = 0 \/ c = 1 -> mem_Z s (states_of (tv k) c) = (s =? c).
Proof. unfold states_of. rewrite arc_B by reflexivity. intros [->| ->] [->| ->]; reflexivity. Qed.
Lemma one_state k c s : c = 0 \/ c = 1 -> mem_Z s (states_of (tv k) c) = (s =? c).
Proof.
  intros H. assert (E : states_of (tv k) c = [c]) by (unfold states_of; rewrite arc_B by reflexivity; destruct H as [->| ->]; reflexivity).
  rewrite E. apply eq_true_iff_eq. rewrite mem_Z_In, Z.eqb_eq. cbn. intuition.
Qed.
Lemma basic_two k c : code_ok (tv k) c -> (exists s, 0 <= s < nvals (tv k) /\ forall x, In x (states_of (tv k) c) <-> x = s) -> c = 0 \/ c = 1.
Proof.
  intros (B & EB & R) (s & _ & Hs). rewrite arc_B in EB by reflexivity. injection EB as <-. cbn in R.
  assert (X : c = 0 \/ c = 1 \/ c = 2) by lia. destruct X as [->|[->| ->]]; auto. exfalso.
  assert (E0 : 0 = s) by (apply Hs; unfold states_of; rewrite arc_B by reflexivity; left; auto).
  assert (E1 : 1 = s) by (apply Hs; unfold states_of; rewrite arc_B by reflexivity; right; left; auto). lia.
Qed.
Definition jt2 (a : string) (i j : Z) : joint := fun n => if String.eqb n a then i else j.

Lemma two_sums M a b : wf_cpm M -> has_p M -> c_vars M = [tv a; tv b] -> a <> b -> basic_in M (tv a) -> basic_in M (tv b) ->
  both_one M = mass M (jt2 a 1 1) /\ first_one M = (mass M (jt2 a 1 0) + mass M (jt2 a 1 1))%Qc.
Proof.
  intros W P Ev Ne Ba Bb. unfold both_one, first_one. rewrite !qsum_filter, !mass_if, Ev.
  assert (Ew : weights M = c_p M).
  { unfold weights, has_p in *. destruct (c_p M) eqn:Ep; auto. destruct (c_C M); [auto|discriminate]. }
  rewrite Ew.
  assert (Rw : forall r, In r (c_C M) -> exists c c', r = [c; c'] /\ (c = 0 \/ c = 1) /\ (c' = 0 \/ c' = 1)).
  { intros r Hr. destruct W as (_ & _ & _ & W4 & _). specialize (W4 r Hr). rewrite Ev in W4.
    destruct r as [|c [|c' [|c'' r2]]]; [inversion W4|inversion W4; subst; match goal with H : Forall2 _ [_] [] |- _ => inversion H end| |
      inversion W4; subst; match goal with H : Forall2 _ [_] (_ :: _ :: _) |- _ => inversion H; subst; match goal with H' : Forall2 _ [] _ |- _ => inversion H' end end].
    inversion_clear W4 as [|? ? ? ? C1 W5]. inversion_clear W5 as [|? ? ? ? C2 W6]. exists c, c'. split; auto. split.
    - apply (basic_two a c C1). apply (Ba [c; c'] c Hr). rewrite Ev. left; auto.
    - apply (basic_two b c' C2). apply (Bb [c; c'] c' Hr). rewrite Ev. right; left; auto. }
  assert (Mt : forall i j c c', (i = 0 \/ i = 1) -> (j = 0 \/ j = 1) -> (c = 0 \/ c = 1) -> (c' = 0 \/ c' = 1) ->
    row_match [tv a; tv b] [c; c'] (jt2 a i j) = (i =? c) && (j =? c')).
  { intros i j c c' Hi Hj Hc Hc'. unfold row_match. cbn [combine forallb fst snd]. change (v_name (tv a)) with a. change (v_name (tv b)) with b.
    unfold jt2 at 1 2. rewrite String.eqb_refl. destruct (String.eqb_spec b a) as [X|_]; [congruence|].
    rewrite !two_states by auto. rewrite andb_true_r. auto. }
  split.
  - apply qsum_map_ext. intros [r p] Hr. apply in_combine_l in Hr. destruct (Rw r Hr) as (c & c' & -> & Hc & Hc'). cbn [fst snd].
    rewrite Mt by auto. rewrite (Z.eqb_sym c), (Z.eqb_sym c'). auto.
  - assert (G : forall l : list (list Z * Qc), (forall rp, In rp l -> exists c c', fst rp = [c; c'] /\ (c = 0 \/ c = 1) /\ (c' = 0 \/ c' = 1)) ->
      qsum (map (fun rp => if match fst rp with [] => false | c :: _ => c =? 1 end then snd rp else 0%Qc) l) =
      (qsum (map (fun rp => if row_match [tv a; tv b] (fst rp) (jt2 a 1 0) then snd rp else 0%Qc) l) +
       qsum (map (fun rp => if row_match [tv a; tv b] (fst rp) (jt2 a 1 1) then snd rp else 0%Qc) l))%Qc).
    { induction l as [|[r p] l IH]; intros H; [cbn; ring|]. cbn [map qsum]. rewrite IH by (intros; apply H; right; auto).
      destruct (H (r, p) (or_introl eq_refl)) as (c & c' & E & Hc & Hc'). cbn [fst snd] in *. rewrite E, !Mt by auto.
      destruct Hc as [->| ->], Hc' as [->| ->]; cbn [Z.eqb andb Pos.eqb]; ring. }
    apply G. intros [r p] Hr. apply in_combine_l in Hr. apply Rw. auto.
Qed.

Lemma qdiv_spec a b : match qdiv a b with Some r => b <> 0%Qc /\ (r * b)%Qc = a | None => b = 0%Qc end.
Proof.
  unfold qdiv. destruct (qc_eqb b 0) eqn:E; [apply qc_eqb_eq in E; auto|]. assert (N : b <> 0%Qc) by (intros X; apply qc_eqb_eq in X; congruence).
  split; auto. field. auto.
Qed.

(** * The system CPM of two-state branches *)
Section SysTwo.
Context (K : list string) (NK : NoDup K) (Hsys : ~ In "sys" K).
Notation V := (arc_vars K fs2).
Notation vsys := (tv "sys").
Context (brs : list branch) (rows : list (list Z)) (Hbx : boxes V brs) (Hrow : Forall2 (row_ok V conv3 V) brs rows) (Hpt : partition V brs).

Lemma vsys_basic : basic_table vsys.
Proof. apply stored_basic. apply arc_stored. reflexivity. Qed.
Lemma vsys_ok : var_ok vsys.
Proof. apply stored_ok; [cbn; lia|apply arc_stored; reflexivity]. Qed.

Lemma row_other b row c : row_ok V conv3 V b row -> exists cs, row = conv3 (br_label b) :: cs /\ row_ok V (fun _ => c) V b (c :: cs).
Proof. intros (cs & -> & F). exists cs. split; auto. exists cs. auto. Qed.

Lemma st_code row : In row rows -> Forall2 code_ok (vsys :: map snd V) row.
Proof.
  intros Hr. destruct (Forall2_in_r _ _ _ _ Hrow Hr) as (b & Hb & R). destruct (row_other b row 0 R) as (cs & -> & R').
  assert (H := row_codes V (V_wf K NK) vsys (fun _ => 0)).
  specialize (H vsys_basic ltac:(intros; change (nvals vsys) with 2; lia) b (0 :: cs) R'). inversion_clear H as [|? ? ? ? H1 H2]. constructor; auto.
  exists [[0]; [1]; [0; 1]]. split; [apply arc_B; reflexivity|]. destruct (br_label b); cbn; lia.
Qed.

Lemma st_match b row x a : In b brs -> row_ok V conv3 V b row -> In x (arc_states K) -> (forall k, In k K -> a k = coord x k) ->
  row_match (vsys :: map snd V) row a = mem_Z (a "sys") (states_of vsys (conv3 (br_label b))) && in_branch b x.
Proof.
  intros Hb R Hx Ha. assert (S0 : a "sys" = 0 \/ a "sys" = 1 \/ (a "sys" <> 0 /\ a "sys" <> 1)) by lia.
  assert (Std : forall s, s = 0 \/ s = 1 -> a "sys" = s -> row_match (vsys :: map snd V) row a = mem_Z (a "sys") (states_of vsys (conv3 (br_label b))) && in_branch b x).
  { intros s Hs Es; clear S0. destruct (row_other b row s R) as (cs & -> & R').
    assert (H := row_match_branch V (V_wf K NK) (fun k v H => V_stored K k v H) vsys (fun _ => s)).
    specialize (H vsys_basic ltac:(clear - Hs; intros; change (nvals vsys) with 2; lia) b (s :: cs) x a (Hbx b Hb)).
    rewrite V_keys in H. specialize (H ltac:(rewrite V_space; auto) R' Ha).
    unfold row_match in *. cbn [combine forallb fst snd] in *. change (v_name vsys) with "sys" in *. rewrite Es in H |- *. rewrite two_states, Z.eqb_refl in H by auto. cbn [andb] in H. rewrite H. auto. }
  destruct S0 as [E|[E|[N0 N1]]]; [apply (Std 0); auto|apply (Std 1); auto|].
  destruct R as (cs & -> & _). unfold row_match. cbn [combine forallb fst snd]. change (v_name vsys) with "sys".
  assert (Z : mem_Z (a "sys") (states_of vsys (conv3 (br_label b))) = false); [|rewrite Z; auto].
  apply not_true_iff_false. rewrite mem_Z_In.
  assert (X : states_of vsys (conv3 (br_label b)) = [0] \/ states_of vsys (conv3 (br_label b)) = [1] \/ states_of vsys (conv3 (br_label b)) = [0; 1]).
  { unfold states_of. rewrite arc_B by reflexivity. destruct (br_label b); auto. }
  intros H. destruct X as [X|[X|X]]; rewrite X in H; cbn in H; lia.
Qed.

Lemma sum_rows bs rs x a : In x (arc_states K) -> (forall k, In k K -> a k = coord x k) -> (forall b, In b bs -> In b brs) -> Forall2 (row_ok V conv3 V) bs rs ->
  qsum (map (fun r => if row_match (vsys :: map snd V) r a then 1 else 0)%Qc rs) =
  qsum (map (fun b => if mem_Z (a "sys") (states_of vsys (conv3 (br_label b))) then 1 else 0)%Qc (filter (fun b => in_branch b x) bs)).
Proof.
  intros Hx Ha Hin F. induction F as [|b r bs rs R F IH]; auto. cbn [map qsum filter]. rewrite IH by (intros; apply Hin; right; auto).
  rewrite (st_match b r x a (Hin b (or_introl eq_refl)) R Hx Ha). destruct (in_branch b x); cbn [map qsum].
  - rewrite andb_true_r. auto.
  - rewrite andb_false_r. ring.
Qed.

Lemma st_mass x : In x (arc_states K) -> exists b, In b brs /\ in_branch b x = true /\ forall a, (forall k, In k K -> a k = coord x k) ->
  mass (sys_M V vsys rows) a = (if mem_Z (a "sys") (states_of vsys (conv3 (br_label b))) then 1 else 0)%Qc.
Proof.
  intros Hx. assert (P := Hpt x ltac:(rewrite V_space; auto)). destruct (filter (fun b => in_branch b x) brs) as [|b [|b' l]] eqn:E; try discriminate.
  assert (Ib : In b (filter (fun b => in_branch b x) brs)) by (rewrite E; left; auto). apply filter_In in Ib as [Ib Bx].
  exists b. split; auto. split; auto. intros a Ha. rewrite mass_if. cbn [sys_M c_vars c_C].
  assert (Ew : weights (sys_M V vsys rows) = map (fun _ => 1%Qc) rows) by (unfold weights; cbn [sys_M c_p c_C]; destruct rows; reflexivity).
  rewrite Ew.
  assert (Ec : combine rows (map (fun _ => 1%Qc) rows) = map (fun r => (r, 1%Qc)) rows) by (clear; induction rows; cbn; congruence).
  rewrite Ec, map_map. cbn [fst snd].
  transitivity (qsum (map (fun b => if mem_Z (a "sys") (states_of vsys (conv3 (br_label b))) then 1%Qc else 0%Qc) (filter (fun b => in_branch b x) brs))).
  2:{ rewrite E. cbn [map qsum]. ring. }
  clear E P Ib Bx Ew Ec. rewrite <- (sum_rows brs rows x a Hx Ha (fun b H => H) Hrow). auto.
Qed.
End SysTwo.

(** * CPMs of the components, made name by name *)
Lemma comp_cpms scen (pf : string -> list Qc) K : scen_ok scen -> (forall k, In k K -> In (k, pf k) scen) ->
  mapM (fun k => M <- mk_cpm [two_state k] 1 [[0]; [1]] (pf k) ;; Ok (k, M)) K =
  Ok (map (fun kv => (fst kv, comp_M (probs_of scen) kv)) (arc_vars K fs2)).
Proof.
  intros So Hin. unfold arc_vars. rewrite map_map. cbn [fst]. apply mapM_ok. intros k Hk.
  pose proof (scen_M scen So fs2 eq_refl k (pf k) (Hin k Hk)) as E. destruct So as [_ So]. destruct (So k (pf k) (Hin k Hk)) as (L & _).
  unfold arc_cpm in E. cbn [fst snd] in E. rewrite L in E. change (map (fun s => [s]) (zrange 0 (Z.of_nat 2))) with [[0]; [1]] in E.
  change (mk_variable k fs2 None) with (two_state k) in E. rewrite E. reflexivity.
Qed.

(** * The joint table of the system and a kept component *)
Section Dset.
Context (K : list string) (NK : NoDup K) (Hsys : ~ In "sys" K).
Notation V := (arc_vars K fs2).
Lemma dset_names {A} (D : dict A) a : keys D = K -> mapM (dget (dset D "sys" a)) (K ++ ["sys"]) = Ok (map snd D ++ [a]) /\ 
  mapM (dget (dset D "sys" a)) ("sys" :: K) = Ok (a :: map snd D) /\ (forall l : list string, incl l K -> mapM (dget (dset D "sys" a)) l = mapM (dget D) l).
Proof.
  intros EK. rewrite dset_new by (rewrite EK; auto). set (D' := D ++ [("sys", a)]).
  assert (EK' : keys D' = K ++ ["sys"]) by (unfold D', keys in *; rewrite map_app, EK; auto).
  assert (ND : NoDup (keys D')).
  { rewrite EK'. apply NoDup_app_intro; auto; [constructor; [intros []|constructor]|]. intros k Hk [<-|[]]. auto. }
  assert (E1 : mapM (dget D') (K ++ ["sys"]) = Ok (map snd D ++ [a])).
  { rewrite <- EK', mapM_snd by auto. unfold D'. rewrite map_app. auto. }
  assert (Es : dget D' "sys" = Ok a) by (apply dget_ok, In_dfind; auto; unfold D'; apply in_or_app; right; left; auto).
  assert (G : forall k, In k K -> dget D' k = dget D k).
  { intros k Hk. rewrite <- EK in Hk. apply in_map_iff in Hk as ((k' & b) & <- & Hb). cbn [fst].
    assert (X : dget D' k' = Ok b) by (apply dget_ok, In_dfind; auto; unfold D'; apply in_or_app; auto).
    assert (Y : dget D k' = Ok b) by (apply dget_ok, In_dfind; [rewrite EK; auto|auto]). congruence. }
  assert (E3 : forall l : list string, incl l K -> mapM (dget D') l = mapM (dget D) l).
  { intros l Hl. apply mapM_ext_in. intros k Hk. apply G. auto. }
  split; auto. split; auto. cbn [mapM]. rewrite Es. cbn [bind]. rewrite (E3 K (fun _ H => H)). rewrite <- EK at 1. rewrite mapM_snd by (rewrite EK; auto). auto.
Qed.
Lemma others_names kept : map (fun k => tv k) (filter (fun y => negb (String.eqb y kept)) K) = map snd (other_varis V kept).
Proof.
  unfold other_varis, arc_vars. clear. induction K as [|k l IH]; auto. cbn [filter map fst]. destruct (negb (String.eqb k kept)); cbn [map snd]; rewrite IH; auto.
Qed.
End Dset.

Section Rbd.
Context (nx_path : graph -> string -> string -> option (list string)) (nx_wpath : graph -> string -> string -> res (list string))
  (nx_wlen : graph -> string -> string -> res value) (Hn : nx_path_ok nx_path).
Context (f : netfile) (dir multi : bool) (Hk : kind_of (graph_type f) dir multi) (NL : NoDup (keys (node_conn_df f)))
  (Np : multi = false -> no_parallel dir (node_conn_df f)) (Nc : NoDup (component_list f)).
Context (o d kept : string) (Io : In o (component_list f)) (Id : In d (component_list f)) (Ne : o <> d).
Notation K := (inner o d (component_list f)).
Context (Hsys : ~ In "sys" K) (Ik : In kept K) (mb : Z) (Hm : 1 <= mb).
Notation V := (arc_vars K fs2).
Notation vsys := (tv "sys").
Notation sc := (alike K (Q2Qc (1 # 10)) (Q2Qc (9 # 10))).
Notation sc2 := (alike K (Q2Qc (1 # 2)) (Q2Qc (1 # 2))).

Lemma inner_nodup : NoDup K.
Proof. apply NoDup_filter. auto. Qed.
Lemma alike_ok p q : (0 <= p)%Qc -> (0 <= q)%Qc -> (p + q = 1)%Qc -> scen_ok (alike K p q).
Proof.
  intros Hp Hq E. split.
  - unfold alike, keys. rewrite map_map. cbn [fst]. rewrite map_id. apply inner_nodup.
  - intros k l Hl. unfold alike in Hl. apply in_map_iff in Hl as (k' & X & _). injection X as <- <-. split; auto. split.
    + intros q' [<-|[<-|[]]]; auto.
    + cbn [qsum]. rewrite <- E. ring.
Qed.
Lemma alike_keys p q : keys (alike K p q) = K.
Proof. unfold alike, keys. rewrite map_map. cbn [fst]. apply map_id. Qed.
Lemma sc_ok : scen_ok sc.
Proof. apply alike_ok; [unfold Qcle; cbn; discriminate|unfold Qcle; cbn; discriminate|apply Qc_is_canon; reflexivity]. Qed.
Lemma sc2_ok : scen_ok sc2.
Proof. apply alike_ok; [unfold Qcle; cbn; discriminate|unfold Qcle; cbn; discriminate|apply Qc_is_canon; reflexivity]. Qed.
Lemma sc_probs : wf_probs V (probs_of sc).
Proof. apply scen_probs; auto. - apply sc_ok. - rewrite alike_keys. intros k; auto. Qed.
Lemma sc2_probs : wf_probs V (probs_of sc2).
Proof. apply scen_probs; auto. - apply sc2_ok. - rewrite alike_keys. intros k; auto. Qed.
Lemma sc2_pos : positive K (probs_of sc2).
Proof.
  intros k x Hk' Hx. assert (E : dfind (probs_of sc2) k = Some (PList [Q2Qc (1 # 2); Q2Qc (1 # 2)])).
  { apply In_dfind.
    - unfold probs_of, keys. rewrite map_map. cbn [fst]. change (NoDup (keys sc2)). rewrite alike_keys. apply inner_nodup.
    - unfold probs_of, alike. rewrite map_map. apply in_map_iff. exists k. auto. }
  unfold pr. rewrite E. destruct Hx as [->| ->]; reflexivity.
Qed.

Lemma rbd_run : exists brs M, rbd_main nx_path nx_wpath nx_wlen f o d kept mb = Ok (mkRbd brs M (qdiv (both_one M) (first_one M))) /\
  (2 * 2 ^ Z.of_nat (List.length K) <= mb -> all_known brs) /\
  (all_known brs -> forall jb, (forall x, In x (arc_states K) -> (jb x = true <-> joined dir (node_conn_df f) x o d)) ->
   wf_cpm M /\ has_p M /\ exists X, Permutation X [vsys; tv kept] /\ c_vars M = sort_vars X /\ basic_in M vsys /\ basic_in M (tv kept) /\
   forall a, 0 <= a kept < 2 -> mass M a = event_prob K sc (fun x => (coord x kept =? a kept) && ((if jb x then 1 else 0) =? a "sys"))).
Proof.
  pose proof inner_nodup as NK. destruct (file_wf f dir multi NL) as (Wg & Lk & _).
  assert (Hconn : forall x, conn (file_graph f dir multi) x o d <-> joined dir (node_conn_df f) x o d).
  { intros x. apply conn_joined; auto. apply file_nodes. auto. }
  destruct (two_run nx_path nx_wpath nx_wlen Hn (file_graph f dir multi) Wg Lk o d K NK (probs_of sc2) sc2_probs mb mb Hm)
    as (s & brs & rows & Er & Eb & Nb & Bx & Exb & Pt & Pl & Ec & Fr & Lab & _ & _ & _ & Sz).
  assert (Hcode : forall row, In row rows -> Forall2 code_ok (vsys :: map snd V) row) by (intros row; apply (st_code K NK brs rows Fr)).
  assert (Hms : forall x, In x (arc_states K) -> exists b, In b brs /\ in_branch b x = true /\ forall a, (forall k, In k K -> a k = coord x k) ->
     mass (sys_M V vsys rows) a = (if mem_Z (a "sys") (states_of vsys (conv3 (br_label b))) then 1 else 0)%Qc).
  { intros x. apply (st_mass K NK brs rows Bx Fr Pt). }
  assert (Hsn : ~ In (v_name vsys) (keys V)) by (rewrite V_keys; auto).
  destruct (tot_elim V (probs_of sc) (V_wf K NK) sc_probs (fun k v H => V_stored K k v H) vsys Hsn vsys_ok rows Hcode) with (kept := kept) as [M HM].
  { intros x Hx. change (In x (space (comps_of V))) in Hx. rewrite V_space in Hx. destruct (Hms x Hx) as (b & Hb & Ib & Hb').
    exists (match br_label b with S_ => 1 | _ => 0 end). intros a Ha Es. rewrite V_keys in Ha. rewrite (Hb' a Ha). change (v_name vsys) with "sys" in Es. rewrite Es.
    destruct (br_label b); reflexivity. }
  exists brs, M. split; [|split].
  - unfold rbd_main. rewrite (read_ok f dir multi Hk). cbn [bind fst snd]. rewrite inner_ok by auto. cbn [bind].
    rewrite (comp_cpms sc (fun _ => [Q2Qc (1 # 10); Q2Qc (9 # 10)])).
    2:{ apply sc_ok. } 2:{ intros k Hk'. unfold alike. apply in_map_iff. exists k. auto. }
    cbn [bind]. cbv zeta. rewrite two_arcs.
    replace (map (fun k => (k, PList [Q2Qc (1 # 2); Q2Qc (1 # 2)])) K) with (probs_of sc2) by (unfold probs_of, alike; rewrite map_map; reflexivity).
    change (as_sysfun _) with (net_sys nx_path nx_wpath nx_wlen (file_graph f dir multi) o d K). rewrite Er. cbn [bind]. rewrite Eb, Ec. cbn [bind fst snd].
    change (mk_variable "sys" [VStr "f"; VStr "s"] None) with vsys.
    destruct (dset_names K NK Hsys V vsys (V_keys K)) as (_ & D2 & D3). rewrite D2. cbn [bind].
    rewrite (se_make V (V_wf K NK) (fun k v H => V_stored K k v H) vsys Hsn vsys_ok rows Hcode). cbn [bind].
    set (D := map _ V). assert (ED : keys D = K). { unfold D, keys. rewrite map_map. cbn [fst]. apply V_keys. }
    destruct (dset_names K NK Hsys D (sys_M V vsys rows) ED) as (D1 & _ & _). rewrite D1. cbn [bind].
    rewrite (remove_ok kept K NK Ik). cbn [bind]. rewrite D3 by (intros k Hk'; apply filter_In in Hk'; apply Hk').
    rewrite (mapM_ok _ (fun k => tv k)).
    2:{ intros k Hk'. apply filter_In in Hk' as [Hk' _]. apply dget_ok, In_dfind; [rewrite V_keys; auto|apply arc_in; auto]. }
    cbn [bind]. rewrite others_names. unfold D. rewrite map_map. cbn [snd]. change (map (fun x => comp_M (probs_of sc) x) V) with (map (comp_M (probs_of sc)) V). rewrite HM. reflexivity.
  - intros Z1 b Hb. assert (P2 : 0 < 2 ^ Z.of_nat (List.length K)) by (apply Z.pow_pos_nonneg; lia). assert (L := Sz Z1 ltac:(lia) sc2_pos b Hb).
    destruct (br_label b) eqn:E; try congruence.
    all: first [apply (label_F b (proj1 (Pl b Hb))) in E; left; exact E|apply (label_S b (proj2 (Pl b Hb))) in E; right; exact E].
  - intros Kn jb Hj.
    assert (Hm1 : forall x a, In x (space (comps_of V)) -> (forall k, In k (keys V) -> a k = coord x k) ->
      mass (sys_M V vsys rows) a = (if a (v_name vsys) =? (if jb x then 1 else 0) then 1 else 0)%Qc).
    { intros x a Hx Ha. rewrite V_space in Hx. rewrite V_keys in Ha. destruct (Hms x Hx) as (b & Hb & Ib & Hb'). rewrite (Hb' a Ha).
      change (v_name vsys) with "sys". destruct (Lab b x Hb Hx Ib) as [L1 L2]. rewrite Hconn in L1, L2.
      assert (X : br_label b = F_ \/ br_label b = S_).
      { destruct (Kn b Hb) as [X|X]; [left; apply (label_F b (proj1 (Pl b Hb)))|right; apply (label_S b (proj2 (Pl b Hb)))]; auto. }
      assert (J := Hj x Hx). destruct X as [X|X]; rewrite X.
      - specialize (L2 X). destruct (jb x); [exfalso; apply L2, J; auto|]. rewrite one_state by auto. reflexivity.
      - specialize (L1 X). rewrite (proj2 J L1). rewrite one_state by auto. reflexivity. }
    destruct (sj_result V (probs_of sc) (V_wf K NK) sc_probs (fun k v H => V_stored K k v H) vsys Hsn vsys_basic vsys_ok rows _ Hcode Hm1) with (kept := kept) (vk := tv kept)
      as (M' & X & HM' & W & P & PX & Ev & B1 & B2 & Ms).
    + intros c row Hr. destruct (Forall2_in_r _ _ _ _ Fr Hr) as (b & Hb & (cs & E & _)). injection E as -> _. change (nvals vsys) with 2.
      destruct (Kn b Hb) as [X|X]; [rewrite (proj2 (label_F b (proj1 (Pl b Hb))) X)|rewrite (proj2 (label_S b (proj2 (Pl b Hb))) X)]; cbn; lia.
    + apply arc_in; auto.
    + rewrite HM in HM'. injection HM' as <-. split; auto. split; auto. exists X. split; auto. split; auto. split; auto. split; auto.
      intros a Ha. rewrite Ms by (change (nvals (tv kept)) with 2; auto). rewrite event_eq; auto; [apply sc_ok|rewrite alike_keys; intros k; auto].
Qed.
End Rbd.
