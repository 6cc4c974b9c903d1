(** Several destinations; the network functions as system functions of the search. *)
From Coq Require Import ZArith List String Bool Arith QArith Qcanon Lia.
From Verif Require Import Py PyFacts Num Vari VariFacts Brc SpecBrc BrcFacts Trans SpecTrans TransFacts.
Import ListNotations.
Open Scope string_scope.
Open Scope Z_scope.
Open Scope list_scope.

(** * Undirected graphs *)
Lemma t_add_comm a b : t_add a b = t_add b a.
Proof. destruct a, b; cbn; auto. f_equal. ring. Qed.
Lemma t_add_assoc a b c : t_add (t_add a b) c = t_add a (t_add b c).
Proof. destruct a, b, c; cbn; auto. f_equal. ring. Qed.
Lemma t_add_0 a : t_le (VNum 0%Qc) a -> t_add (VNum 0%Qc) a = a.
Proof. destruct a; cbn; try tauto. intros. f_equal. ring. Qed.
Lemma leads_sym G e a b : g_dir G = false -> leads G e a b -> leads G e b a.
Proof. unfold leads. intros D [[X Y]|(_ & X & Y)]; [right|left]; auto. Qed.
Lemma walk_snoc G a p b e c : walk G a p b -> In e (g_edges G) -> leads G e b c -> In c (g_nodes G) -> walk G a (p ++ [c]) c.
Proof.
  intros W He L Hc. induction W as [a H1|a x b e' p H1 H2 H3 H4 IH]; cbn [app].
  - apply (walk_cons G a c c e [c]); auto. constructor. auto.
  - apply (walk_cons G a x c e' (p ++ [c])); auto.
Qed.
Lemma walk_rev G a p b : g_dir G = false -> walk G a p b -> walk G b (rev p) a.
Proof.
  intros D W. induction W as [a H1|a x b e p H1 H2 H3 H4 IH]; cbn [rev app].
  - constructor; auto.
  - apply (walk_snoc G b (rev p) x e a); auto. apply leads_sym; auto.
Qed.
Lemma step_sym G a b w : g_dir G = false -> step_time G a b w -> step_time G b a w.
Proof.
  intros D [(e & E1 & E2 & E3) M]. split; [exists e; split; auto; split; auto; apply leads_sym; auto|].
  intros e' w' H1 H2 H3. apply (M e' w' H1); auto. apply leads_sym; auto.
Qed.
Lemma wt_snoc G q b a w T : walk_time G (q ++ [b]) T -> step_time G b a w -> walk_time G (q ++ [b; a]) (t_add T w).
Proof.
  revert T. induction q as [|x q IH]; intros T W S; cbn [app] in *.
  - inversion W; subst. rewrite t_add_comm. constructor; auto. constructor.
  - destruct q as [|y q]; cbn [app] in *; inversion W as [|? ? ? w' T' S' W']; subst; rewrite t_add_assoc; constructor; auto; apply IH; auto.
Qed.
Lemma wt_rev G p T : g_dir G = false -> walk_time G p T -> walk_time G (rev p) T.
Proof.
  intros D W. induction W as [a|a b p w T S W IH]; cbn [rev app]; [constructor|].
  rewrite <- app_assoc. cbn [app]. rewrite t_add_comm. apply wt_snoc; [exact IH|apply step_sym; auto].
Qed.

Section Multi.
Variable G : graph.
Hypothesis Hwf : wf_graph G.
Hypothesis Hsim : g_multi G = false.
Hypothesis Hund : g_dir G = false.
Variable varis : dict variable.
Hypothesis Ht : times_ok G varis.
Variable nx_multi : graph -> list string -> string -> res (value * list string).
Hypothesis Hnx : nx_multi_ok nx_multi.

Lemma within_trans x a b c T1 T2 : states_ok varis x -> within G (edge_time varis x) a b T1 -> within G (edge_time varis x) b c T2 ->
  within G (edge_time varis x) a c (t_add T1 T2).
Proof.
  intros Hx W1 W2. induction W1 as [a H1|a y b e l T H1 H2 H3 H4 H5 IH].
  - rewrite t_add_0; auto. apply (within_pos G varis Ht x a c T2 Hx W2).
  - rewrite t_add_assoc. apply (wi_step G _ a y c e l); auto.
Qed.
Lemma within_node time a b T : within G time a b T -> In a (g_nodes G) /\ In b (g_nodes G).
Proof. induction 1 as [|a b c e l T H1 H2 H3 H4 H5 [I1 I2]]; auto. Qed.
Lemma within_rev x a b T : states_ok varis x -> within G (edge_time varis x) a b T -> within G (edge_time varis x) b a T.
Proof.
  intros Hx. induction 1 as [a H1|a b c e l T H1 H2 H3 H4 H5 IH]; [constructor; auto|].
  rewrite t_add_comm. apply (within_trans x c b a); auto.
  replace (edge_time varis x l) with (t_add (edge_time varis x l) (VNum 0%Qc)).
  - apply (wi_step G _ b a a e l); [apply (within_node _ _ _ _ H5)|auto|apply leads_sym; auto|auto|constructor; auto].
  - rewrite t_add_comm. apply t_add_0. apply (edge_time_ok G varis Ht x e l); auto.
Qed.

Lemma allM_states2 x : states_ok varis x -> keys x = keys varis ->
  allM (fun kv => v <- dget varis (fst kv) ;; Ok (snd kv <? nvals v)) x = Ok true.
Proof.
  intros [Nv Hx] Kx. unfold allM. rewrite (mapM_ok _ (fun _ => true)).
  - cbn [bind]. f_equal. clear. induction x as [|? l IH]; cbn; auto.
  - intros [k s] Hk. assert (X : In k (keys varis)). { rewrite <- Kx. apply in_map_iff. exists (k, s). auto. }
    apply in_map_iff in X as ([k' v] & E & X). cbn in E. subst k'. destruct (Hx k v X) as (s' & Es & R).
    assert (E : dfind x k = Some s) by (apply In_dfind; auto; rewrite Kx; auto).
    cbn [fst snd]. unfold dget. rewrite (In_dfind varis k v Nv X). cbn [bind]. f_equal. apply Z.ltb_lt. assert (s' = s) by congruence. lia.
Qed.

Lemma sf_multi x o dests t : states_ok varis x -> keys x = keys varis -> varis <> [] -> t <> 0%Qc -> (0 <= t)%Qc -> dests <> [] -> incl dests (g_nodes G) ->
  exists T st m, sf_min_path_multi nx_multi x G o dests varis (Some (VNum t)) = Ok (Some T, st, m) /\
    ((exists d, In d dests /\ within G (edge_time varis x) o d T) \/ (T = VInf /\ forall d T', In d dests -> ~ within G (edge_time varis x) o d T')) /\
    (forall d T', In d dests -> within G (edge_time varis x) o d T' -> t_le T T') /\
    NoDup (keys m) /\ (forall k s, dfind m k = Some s -> dfind x k = Some s) /\
    ((st = S_ /\ t_le T (VNum t) /\
      (forall y, states_ok varis y -> (forall k s, dfind m k = Some s -> exists s', dfind y k = Some s' /\ s <= s') ->
        exists d T', In d dests /\ within G (edge_time varis y) o d T' /\ t_le T' (VNum t))) \/
     (st = F_ /\ m = [] /\ ~ t_le T (VNum t))).
Proof.
  intros Hx Kx Nv Nt Pt Nd Hd. unfold sf_min_path_multi.
  assert (Tt : truthy (VNum t) = true). { cbn. destruct (qc_eqb t 0%Qc) eqn:Q; auto. apply qc_eqb_eq in Q. congruence. }
  rewrite Tt. unfold get_time_and_path_multi_dest. rewrite allM_states2 by auto. cbn [bind]. rewrite Hund.
  assert (UG : update_G G x varis = Ok (wgraph G varis x)).
  { rewrite <- (update_weights_ok G Hwf Hsim varis Ht x) by auto. unfold update_G. destruct varis; [contradiction|auto]. }
  rewrite UG. cbn [bind].
  assert (C := Hnx (wgraph G varis x) dests o (good_w G Hwf varis Ht x Hx) Nd Hd).
  destruct (nx_multi (wgraph G varis x) dests o) as [[T p]|er].
  - destruct C as ((d & Id & W) & WT & Mn). assert (W' := walk_rev (wgraph G varis x) _ _ _ Hund W). assert (WT' := wt_rev (wgraph G varis x) _ _ Hund WT).
    destruct (path_edges_ok (wgraph G varis x) o (rev p) d W') as (ls & Els & L1 & L2).
    { intros e He. cbn [wgraph g_edges] in He. apply in_map_iff in He as (e0 & <- & He). cbn. destruct Hwf as (_ & X & _). apply X; auto. }
    { cbn [wgraph g_multi]. rewrite Hsim. discriminate. }
    rewrite Els. cbn [bind]. assert (WI : within G (edge_time varis x) o d T) by (apply (within_walk G Hwf Hsim varis Ht); eauto).
    assert (TL := t_ltb_le T (VNum t) (within_pos G varis Ht x o d T Hx WI) Pt).
    assert (Min : forall d T', In d dests -> within G (edge_time varis x) o d T' -> t_le T T').
    { intros d' T' I' H'. apply (within_walk G Hwf Hsim varis Ht) in H' as (q & Q1 & Q2); auto.
      apply (Mn d' (rev q) T' I'); [apply walk_rev; auto|apply wt_rev; auto]. }
    destruct (t_ltb (VNum t) T) eqn:TT.
    + exists T, F_, []. split; [reflexivity|]. split; [left; eauto|]. split; [exact Min|].
      split; [constructor|]. split; [discriminate|]. right. split; auto. split; auto. intros X. apply TL in X. discriminate.
    + set (m := comps_on x (comps_on x [] ls) (rev p)). exists T, S_, m. split; [reflexivity|]. split; [left; eauto|]. split; [exact Min|].
      assert (Dm : forall k, dfind m k = if mem_str k (rev p) || mem_str k ls then dfind x k else None).
      { intros k. unfold m. rewrite !comps_on_spec. cbn [dfind]. destruct (mem_str k (rev p)), (mem_str k ls), (dfind x k); auto. }
      split; [apply comps_on_nodup, comps_on_nodup; constructor|]. split.
      { intros k s E. rewrite Dm in E. destruct (mem_str k (rev p) || mem_str k ls); congruence. }
      left. split; auto. assert (TL2 : t_le T (VNum t)) by (apply TL; auto). split; auto. intros y Hy My.
      destruct (rewithin G Hwf Hsim varis Ht x y o (rev p) d T ls Hx Hy W' WT' L2) as (T' & I1 & I2).
      { intros l Hl. destruct (L1 l Hl) as (e & E1 & E2). cbn [wgraph g_edges] in E1. apply in_map_iff in E1 as (e0 & <- & E0). cbn in E2.
        destruct (Ht e0 l E0 E2) as (v & Ev & _). destruct (proj2 Hx l v) as (s & Es & _); [apply dfind_In; auto|].
        destruct (My l s) as (s' & Es' & L). { rewrite Dm. rewrite (proj2 (orb_true_iff _ _)); auto. right. apply mem_str_In. auto. }
        apply (edge_time_mono G varis Ht x y e0 l s s'); auto. }
      exists d, T'. split; auto. split; auto. apply (t_le_trans _ T); auto.
  - destruct C as [-> C].
    assert (NW : forall d T', In d dests -> ~ within G (edge_time varis x) o d T').
    { intros d T' I H. apply (within_walk G Hwf Hsim varis Ht) in H as (q & Q & _); auto. apply (C d (rev q) I). apply walk_rev; auto. }
    exists VInf, F_, []. split; [reflexivity|]. split; [right; auto|]. split; [intros d T' I H; destruct (NW d T' I H)|].
    split; [constructor|]. split; [discriminate|]. right. auto.
Qed.
End Multi.

(** * System functions *)
Lemma space_states varis x : wf_varis varis -> In x (space (comps_of varis)) -> states_ok varis x /\ keys x = keys varis.
Proof.
  intros [Nv P] Hx. assert (K : keys x = keys varis).
  { rewrite (space_keys _ _ Hx). unfold keys, comps_of. rewrite map_map. auto. }
  split; auto. split; auto. intros k v Hk.
  assert (R := space_coord (comps_of varis) x k (nvals v)). unfold coord in R.
  assert (I : In k (keys x)). { rewrite K. apply in_map_iff. exists (k, v). auto. }
  destruct (dfind x k) as [s|] eqn:E; [|apply dfind_none in E; contradiction]. exists s. split; auto. apply R; auto.
  - unfold keys, comps_of. rewrite map_map. auto.
  - unfold comps_of. apply in_map_iff. exists (k, v). auto.
Qed.

Lemma found_key {A} (d : dict A) k a : dfind d k = Some a -> In k (keys d).
Proof. intros H. apply dfind_keys. eauto. Qed.
Lemma net_sys_ok varis phi f : wf_varis varis ->
  (forall x, In x (space (comps_of varis)) -> exists T s m, f x = Ok (T, s, m) /\ NoDup (keys m) /\
     (forall k z, dfind m k = Some z -> dfind x k = Some z) /\
     ((s = S_ /\ phi x = true /\ (forall y, In y (space (comps_of varis)) ->
         (forall k z, dfind m k = Some z -> exists z', dfind y k = Some z' /\ z <= z') -> phi y = true)) \/
      (s = F_ /\ phi x = false /\ m = []))) ->
  sys_ok varis phi (as_sysfun f).
Proof.
  intros Wv H.
  assert (Lift : forall x y m, In x (space (comps_of varis)) -> In y (space (comps_of varis)) ->
    (forall k z, dfind m k = Some z -> dfind x k = Some z) -> (forall k z, dfind m k = Some z -> z <= coord y k) ->
    forall k z, dfind m k = Some z -> exists z', dfind y k = Some z' /\ z <= z').
  { intros x y m Hx Hy Mx Le k z E. specialize (Le k z E). apply Mx in E. apply found_key in E.
    rewrite (proj2 (space_states varis x Wv Hx)), <- (proj2 (space_states varis y Wv Hy)) in E. unfold coord in Le.
    destruct (dfind y k) as [z'|] eqn:F; [eauto|apply dfind_none in F; contradiction]. }
  split.
  - intros x y Hx Hy L Px. destruct (H x Hx) as (T & s & m & _ & _ & Mx & [(_ & _ & S)|(_ & P & _)]); [|congruence].
    apply S; auto. apply (Lift x y m Hx Hy Mx). intros k z E. apply Mx in E. assert (K := found_key _ _ _ E).
    rewrite (proj2 (space_states varis x Wv Hx)) in K. specialize (L k K). unfold coord in *. rewrite E in L. auto.
  - intros x Hx. destruct (H x Hx) as (T & s & m & E & Nm & Mx & C). unfold as_sysfun. rewrite E. eexists _, (Some m).
    split. { destruct C as [(-> & -> & _)|(-> & -> & _)]; reflexivity. }
    intros r [= <-] Nr. split.
    + split; auto. intros k K. rewrite <- (proj2 (space_states varis x Wv Hx)). destruct (dfind m k) as [z|] eqn:F; [|apply dfind_none in F; contradiction].
      apply Mx in F. apply found_key in F. auto.
    + destruct C as [(-> & P & S)|(-> & P & ->)]; [|contradiction]. split; [|congruence]. intros _. split.
      * unfold sat_s. apply forallb_forall. intros [k z] I. apply In_dfind in I; auto. apply Mx in I. cbn [fst snd]. unfold coord. rewrite I. apply Z.leb_refl.
      * intros y Hy Sy. apply S; auto. apply (Lift x y m Hx Hy Mx). intros k z F. unfold sat_s in Sy. rewrite forallb_forall in Sy.
        apply dfind_In in F. specialize (Sy _ F). apply Z.leb_le in Sy. auto.
Qed.

(** * Connectivity and travel time as system functions *)
Definition surv (r : res (option value * st * dict Z)) : bool := match r with Ok (_, S_, _) => true | _ => false end.

Lemma conn_sys_ok nx_path nx_wpath nx_wlen G o d varis phi : nx_path_ok nx_path -> wf_graph G -> label_keys G -> wf_varis varis ->
  (forall x, In x (space (comps_of varis)) -> (phi x = true <-> conn G x o d)) ->
  sys_ok varis phi (as_sysfun (fun x => sf_min_path nx_path nx_wpath nx_wlen x G o d varis None)).
Proof.
  intros Hn Wg Lk Wv Hp. apply net_sys_ok; auto. intros x Hx. destruct (space_states varis x Wv Hx) as [Sx Kx].
  destruct (sf_conn nx_path nx_wpath nx_wlen Hn G Wg Lk x o d varis) as (s & m & E & C).
  - intros k z F. assert (K := found_key _ _ _ F). rewrite Kx in K. apply in_map_iff in K as ([k' v] & <- & K). cbn in F.
    destruct (proj2 Sx k' v K) as (z' & Z1 & Z2). assert (z' = z) by congruence. lia.
  - exists None, s, m. split; auto. destruct C as [(-> & C & Nm & Mm & R)|(-> & -> & C)].
    + split; auto. split; [intros k z F; apply Mm; auto|]. left. split; auto. split; [apply Hp; auto|].
      intros y Hy My. apply Hp; auto. apply R. split; auto. intros k F. apply dfind_none. apply dfind_none in F.
      rewrite (proj2 (space_states varis y Wv Hy)), <- Kx. auto.
    + split; [constructor|]. split; [discriminate|]. right. split; auto. split; auto. destruct (phi x) eqn:P; auto. apply Hp in P; auto. contradiction.
Qed.

Lemma time_sys_ok nx_path nx_wpath nx_wlen G o d varis t phi : nx_wpath_ok nx_wpath nx_wlen -> wf_graph G -> g_multi G = false -> wf_varis varis ->
  times_ok G varis -> varis <> [] -> t <> VNum 0%Qc -> t_le (VNum 0%Qc) t -> (exists p, walk G o p d) ->
  (forall x, In x (space (comps_of varis)) -> (phi x = true <-> exists T, within G (edge_time varis x) o d T /\ t_le T t)) ->
  sys_ok varis phi (as_sysfun (fun x => sf_min_path nx_path nx_wpath nx_wlen x G o d varis (Some t))).
Proof.
  intros Hn Wg Sg Wv Ht Nv Nt Pt Hw Hp. apply net_sys_ok; auto. intros x Hx. destruct (space_states varis x Wv Hx) as [Sx Kx].
  destruct (sf_time G Wg Sg varis Ht nx_path nx_wpath nx_wlen Hn x o d t Sx Nv Nt Pt Hw) as (T & s & m & E & W & Mn & Nm & Mm & C).
  exists (Some T), s, m. split; auto. split; auto. split; auto. destruct C as [(-> & C & R)|(-> & -> & C)].
  - left. split; auto. split; [apply Hp; eauto|]. intros y Hy My. apply Hp; auto. apply R; auto. apply (space_states varis y Wv Hy).
  - right. split; auto. split; auto. destruct (phi x) eqn:P; auto. apply Hp in P as (T' & P1 & P2); auto. exfalso. apply C. apply (t_le_trans _ T'); auto.
Qed.

Lemma multi_sys_ok nx_multi G o dests varis t phi : nx_multi_ok nx_multi -> wf_graph G -> g_multi G = false -> g_dir G = false -> wf_varis varis ->
  times_ok G varis -> varis <> [] -> t <> 0%Qc -> (0 <= t)%Qc -> dests <> [] -> incl dests (g_nodes G) ->
  (forall x, In x (space (comps_of varis)) -> (phi x = true <-> exists d T, In d dests /\ within G (edge_time varis x) o d T /\ t_le T (VNum t))) ->
  sys_ok varis phi (as_sysfun (fun x => sf_min_path_multi nx_multi x G o dests varis (Some (VNum t)))).
Proof.
  intros Hn Wg Sg Ug Wv Ht Nv Nt Pt Nd Hd Hp. apply net_sys_ok; auto. intros x Hx. destruct (space_states varis x Wv Hx) as [Sx Kx].
  destruct (sf_multi G Wg Sg Ug varis Ht nx_multi Hn x o dests t Sx Kx Nv Nt Pt Nd Hd) as (T & s & m & E & W & Mn & Nm & Mm & C).
  exists (Some T), s, m. split; auto. split; auto. split; auto. destruct C as [(-> & C & R)|(-> & -> & C)].
  - left. split; auto. split.
    + apply Hp; auto. destruct W as [(d & I & W)|(-> & _)]; [eauto|destruct C].
    + intros y Hy My. apply Hp; auto. apply R; auto. apply (space_states varis y Wv Hy).
  - right. split; auto. split; auto. destruct (phi x) eqn:P; auto. apply Hp in P as (d & T' & I & P1 & P2); auto. exfalso. apply C.
    apply (t_le_trans _ T'); eauto.
Qed.

Lemma time_and_path G (Wg : wf_graph G) (Sg : g_multi G = false) varis (Ht : times_ok G varis) nx_wpath nx_wlen (Hn : nx_wpath_ok nx_wpath nx_wlen) x o d :
  states_ok varis x -> varis <> [] -> (exists p, walk G o p d) ->
  exists T p es, get_time_and_path_given_comps nx_wpath nx_wlen x G o d varis = Ok (T, p, es) /\
    within G (edge_time varis x) o d T /\ (forall T', within G (edge_time varis x) o d T' -> t_le T T').
Proof.
  intros Hx Nv Hw.
  destruct (sf_time G Wg Sg varis Ht (fun _ _ _ => None) nx_wpath nx_wlen Hn x o d VInf Hx Nv) as (T & s & m & E & W & Mn & _); [discriminate|exact I|auto|].
  unfold sf_min_path in E. cbn [truthy] in E. destruct (get_time_and_path_given_comps nx_wpath nx_wlen x G o d varis) as [[[T' p] es]|]; [|discriminate].
  cbn [bind] in E. unfold min_comps in E. injection E as -> _ _. exists T, p, es. auto.
Qed.

(** * Uniform probabilities *)
Lemma qz_this z : (this (qz z) == inject_Z z)%Q.
Proof. apply Qred_correct. Qed.
Lemma qz_succ n : qz (Z.of_nat (S n)) = (1 + qz (Z.of_nat n))%Qc.
Proof.
  apply Qc_is_canon. rewrite qc_this_plus, qc_this_1, !qz_this. rewrite Nat2Z.inj_succ.
  unfold Z.succ. rewrite inject_Z_plus. ring.
Qed.
Lemma qsum_const {A} (c : Qc) (l : list A) : qsum (map (fun _ => c) l) = (qz (Z.of_nat (List.length l)) * c)%Qc.
Proof. induction l as [|a l IH]; [cbn; change (qz 0) with 0%Qc; ring|]. cbn [map List.length]. rewrite qz_succ. cbn [qsum fold_right] in *. unfold qsum in *. rewrite IH. ring. Qed.
Lemma qz_pos n : 1 <= n -> (0 < qz n)%Qc.
Proof.
  intros H. unfold Qclt, qz. cbn [this Q2Qc]. assert (E := Qred_correct (inject_Z n)). assert (L : (inject_Z 0 < inject_Z n)%Q) by (rewrite <- Zlt_Qlt; lia).
  rewrite <- E in L. exact L.
Qed.
Lemma inv_nonneg q : (0 < q)%Qc -> (0 <= 1 / q)%Qc.
Proof.
  intros H. unfold Qcdiv. rewrite Qcmult_1_l. unfold Qcle, Qcinv. cbn [this Q2Qc]. assert (E := Qred_correct (/ q)%Q).
  assert (L : (0 <= / q)%Q) by (apply Qinv_le_0_compat, Qlt_le_weak; exact H). rewrite <- E in L. exact L.
Qed.
Lemma uniform_ok varis : wf_varis varis ->
  wf_probs varis (map (fun kv => (fst kv, PList (map (fun _ => (1 / qz (nvals (snd kv)))%Qc) (v_values (snd kv))))) varis).
Proof.
  intros [Nv P] k v Hk. set (c := (1 / qz (nvals v))%Qc). set (l := map (fun _ : value => c) (v_values v)).
  assert (F : dfind (map (fun kv => (fst kv, PList (map (fun _ => (1 / qz (nvals (snd kv)))%Qc) (v_values (snd kv))))) varis) k = Some (PList l)).
  { apply In_dfind.
    - unfold keys. rewrite map_map. exact Nv.
    - apply in_map_iff. exists (k, v). auto. }
  assert (G : forall x, 0 <= x < nvals v -> pget (PList l) x = Ok c).
  { intros x Hx. cbn [pget]. destruct (py_index_nth2 l x) as (a & E & N); [unfold l; rewrite map_length; exact Hx|]. rewrite E. f_equal.
    apply nth_error_In in N. apply in_map_iff in N as (? & <- & _). auto. }
  assert (Q := qz_pos (nvals v) (P k v Hk)).
  split.
  - exists (PList l). split; auto. intros x Hx. exists c. split; [auto|]. apply inv_nonneg. auto.
  - rewrite (qsum_map_ext _ (fun _ => c)).
    + rewrite qsum_const, zrange_length, Z2Nat.id by (specialize (P k v Hk); lia). rewrite Z.sub_0_r. unfold c. unfold Qcdiv. rewrite Qcmult_1_l, Qcmult_inv_r; auto.
      intros E. rewrite E in Q. apply (Qclt_not_eq _ _ Q). auto.
    + intros x Hx. apply In_zrange in Hx. unfold pr. rewrite F, G; auto.
Qed.
