(** The distribution of the cut days. *)
From Coq Require Import ZArith List String Bool Arith Lia Permutation QArith Qcanon.
From Verif Require Import Py PyFacts Num Vari VariFacts Cpm CpmFacts SpecCpm CpmSum CpmMarg CpmElim CpmProb SysVal SpecSys SysValFacts CpmCond PropSys HybEst VeFacts Bnb Power SpecPower BnetFacts PowerNodes PowerFacts PowerHouse.
Import ListNotations.
Open Scope string_scope.
Open Scope Z_scope.
Open Scope list_scope.

Lemma nodup_app_l {A} (l1 l2 : list A) : NoDup (l1 ++ l2) -> NoDup l1.
Proof. induction l2 as [|x l2 IH]; [rewrite app_nil_r; auto|]. intros H. apply IH. eapply NoDup_remove_1; eauto. Qed.
Lemma nodup_app_r {A} (l1 l2 : list A) : NoDup (l1 ++ l2) -> NoDup l2.
Proof. induction l1 as [|x l1 IH]; auto. intros H. inversion H; auto. Qed.
Lemma nodup_app_d {A} (l1 l2 : list A) x : NoDup (l1 ++ l2) -> In x l1 -> ~ In x l2.
Proof. induction l1 as [|y l1 IH]; intros H H1 H2; [destruct H1|]. cbn in H. inversion H as [|? ? N1 N2]; subst. destruct H1 as [->|H1]; [apply N1, in_app_iff; auto|apply IH; auto]. Qed.

Lemma chain_names i old l Nn : Forall2 n_node (chain i old l) Nn -> map nd_name Nn = map (append "n") l.
Proof.
  revert i old Nn. induction l as [|s l IH]; intros i old Nn F; cbn [chain] in F; inversion F as [|? d ? N' H1 H2]; subst; auto. cbn [map].
  rewrite (IH _ _ _ H2). f_equal. unfold nd_name. destruct H1 as [-> _]. auto.
Qed.
Lemma c_names i l Nc : Forall2 c_node (combine (seq i (List.length l)) l) Nc -> map nd_name Nc = map (append "c") l.
Proof.
  revert i Nc. induction l as [|s l IH]; intros i Nc F; cbn [List.length seq combine] in F; inversion F as [|? d ? N' H1 H2]; subst; auto. cbn [map].
  rewrite (IH _ _ H2). f_equal. unfold nd_name. destruct H1 as [-> _]. auto.
Qed.
Lemma chain_in i old l k s : In (k, s) (combine (seq i (List.length l)) l) -> exists o, In (k, o, s) (chain i old l) /\ (o = old \/ exists j t p, o = Some t /\ In (j, p, t) (chain i old l)).
Proof.
  revert i old. induction l as [|t l IH]; intros i old H; [destruct H|]. cbn [List.length seq combine chain] in *. destruct H as [[= <- <-]|H].
  - exists old. split; [left; auto|auto].
  - destruct (IH (S i) (Some t) H) as (o & H1 & H2). exists o. split; [right; auto|]. right. destruct H2 as [->|(j & u & p & -> & H2)].
    + exists i, t, old. split; auto. left; auto.
    + exists j, u, p. split; auto. right; auto.
Qed.
Lemma Forall2_in_l {A B} (R : A -> B -> Prop) l l' x : Forall2 R l l' -> In x l -> exists y, In y l' /\ R x y.
Proof. induction 1 as [|a b l l' H F IH]; intros Hx; [destruct Hx|]. destruct Hx as [->|Hx]; [exists b; split; [left|]; auto|]. destruct (IH Hx) as (y & H1 & H2). exists y. split; [right|]; auto. Qed.

(** * The network *)
Definition power_net (haz : dict Qc) (pfs : dict (list Qc)) (rep : list string) (lins : dict (list (list string))) (N : list node) : Prop :=
  exists Nn Nc NS, N = Nhaz haz :: map (Nx haz) pfs ++ Nn ++ Nc ++ List.concat NS /\ topo N /\
    Forall2 n_node (chain 0 None rep) Nn /\ Forall2 c_node (combine (seq 0 (List.length rep)) rep) Nc /\ Forall2 house_nodes lins NS.

Lemma quant_main haz pfs rep lins : power_ok haz pfs rep lins -> exists N, quant_cpms haz pfs rep lins = Ok (st_of N) /\ power_net haz pfs rep lins N.
Proof.
  intros (HL & HR & ND & HP & HI & HH & P1 & _ & P3). unfold node_names in ND.
  assert (ND0 := ND). change ("haz" :: map (append "x") (keys pfs) ++ map (append "n") rep ++ map (append "c") rep ++ flat_map house_names lins) with
    (["haz"] ++ map (append "x") (keys pfs) ++ map (append "n") rep ++ map (append "c") rep ++ flat_map house_names lins) in ND.
  destruct (haz_ok haz HL P1) as [E1 O1]. assert (T1 : topo [Nhaz haz]) by (apply (topo_snoc [] (Nhaz haz)); [constructor|auto|intros []]).
  assert (NDx : NoDup (keys pfs)) by (apply nodup_app_r, nodup_app_l in ND; apply NoDup_map_inv in ND; auto).
  destruct (structs_ok haz pfs [Nhaz haz] HL T1) as [E2 T2]; auto.
  { left; auto. }
  { intros s _ [X|[]]. discriminate X. }
  { intros s pf H. split; [eapply HP; eauto|]. intros p Hp. eapply P3; eauto. }
  assert (NMx : map nd_name (map (Nx haz) pfs) = map (append "x") (keys pfs)) by (unfold keys; rewrite !map_map; auto).
  set (N1 := [Nhaz haz] ++ map (Nx haz) pfs) in *.
  assert (NM1 : map nd_name N1 = ["haz"] ++ map (append "x") (keys pfs)) by (unfold N1; rewrite map_app, NMx; auto).
  rewrite app_assoc in ND. rewrite <- NM1 in ND.
  assert (NDr : NoDup rep) by (apply nodup_app_r, nodup_app_l in ND; apply NoDup_map_inv in ND; auto).
  assert (Hx : forall s, In s rep -> has_node N1 (vx s) None).
  { intros s Hs. apply HI in Hs. apply in_map_iff in Hs as ([t pf] & <- & Hs). exists (Nx haz (t, pf)). split; [|split; auto]. unfold N1. apply in_app_iff. right. apply in_map; auto. }
  destruct (numbers_ok rep N1 0 None "" ltac:(cbn; lia) T2 Hx eq_refl NDr) as (Nn & n' & E3 & T3 & F3).
  { intros s Hs X. apply (nodup_app_d _ _ _ ND X). apply in_app_iff. left. apply in_map; auto. }
  assert (NMn := chain_names _ _ _ _ F3). rewrite app_assoc, <- NMn, <- map_app in ND.
  destruct (closures_ok rep (N1 ++ Nn) 0 ltac:(cbn; lia) T3) as (Nc & E4 & T4 & F4); auto.
  { intros s Hs. apply has_app; auto. }
  { intros k s Hk. destruct (chain_in 0 None rep k s Hk) as (o & H1 & H2). destruct (Forall2_in_l _ _ _ _ F3 H1) as (d & Hd & I). exists o. split.
    - exists d. split; [apply in_app_iff; auto|]. exact I.
    - destruct H2 as [->|(j & t & p & -> & H2)]; auto. destruct (Forall2_in_l _ _ _ _ F3 H2) as (d' & Hd' & I'). exists j, (Some (Fn p t)). exists d'. split; [apply in_app_iff; auto|]. exact I'. }
  { intros s Hs X. apply (nodup_app_d _ _ _ ND X). apply in_app_iff. left. apply in_map; auto. }
  assert (NMc := c_names _ _ _ F4). rewrite app_assoc, <- NMc, <- map_app in ND.
  destruct (houses_ok lins ((N1 ++ Nn) ++ Nc) T4) as (NS & E5 & T5 & F5); auto.
  { intros h sets Hh. destruct (HH h sets Hh) as [H1 H2]. split; auto. intros s Hs. destruct (H2 s Hs) as (A1 & A2 & A3). split; auto. split; auto.
    intros x Hxs. apply A3 in Hxs. apply (In_nth_error rep) in Hxs as [i Hi]. assert (Li : (i < List.length rep)%nat) by (apply nth_error_Some; congruence).
    assert (Hc : In (i, x) (combine (seq 0 (List.length rep)) rep)).
    { clear -Hi. assert (G : forall l k i, nth_error l i = Some x -> In ((k + i)%nat, x) (combine (seq k (List.length l)) l)).
      { induction l as [|y l IH]; intros k [|j] H; cbn in H; try discriminate; cbn.
        - injection H as ->. left. f_equal. lia.
        - right. replace (k + S j)%nat with (S k + j)%nat by lia. apply IH; auto. }
      apply (G rep 0%nat i Hi). }
    destruct (Forall2_in_l _ _ _ _ F4 Hc) as (d & Hd & I). exists i, (Some (Fc x)). split; [lia|]. exists d. split; [apply in_app_iff; auto|exact I]. }
  exists (((N1 ++ Nn) ++ Nc) ++ List.concat NS). split.
  - unfold quant_cpms. rewrite E1. cbn [bind]. rewrite E2. cbn [bind]. fold N1. rewrite E3. cbn [bind]. rewrite E4. cbn [bind]. exact E5.
  - exists Nn, Nc, NS. split; [unfold N1; rewrite <- !app_assoc; auto|]. split; auto.
Qed.

(** * Roots and functional nodes *)
Lemma all_det N : (forall d, In d N -> is_det d = true) -> roots N = [] /\ dets N = N.
Proof.
  induction N as [|d N IH]; intros H; cbn; auto. destruct IH as [I1 I2]; [intros; apply H; right; auto|]. unfold roots, dets in *. cbn [filter]. rewrite H by (left; auto). cbn. rewrite I1, I2. auto.
Qed.
Lemma set_node_det ns d : set_node ns d -> is_det d = true.
Proof. intros (w & _ & _ & _ & E). unfold is_det. rewrite E. auto. Qed.
Lemma house_det hs N' : house_nodes hs N' -> forall d, In d N' -> is_det d = true.
Proof.
  intros [(s & e & _ & -> & S)|(D & e & w & _ & -> & F & _ & _ & I)] d Hd.
  - destruct Hd as [<-|[]]. eapply set_node_det; eauto.
  - apply in_app_iff in Hd as [Hd|[<-|[]]]; [|unfold is_det; destruct I as [_ ->]; auto]. destruct (Forall2_in_r _ _ _ _ F Hd) as (x & _ & S). eapply set_node_det; eauto.
Qed.
Lemma power_roots haz pfs rep lins N : power_net haz pfs rep lins N -> roots N = Nhaz haz :: map (Nx haz) pfs /\ forall d, In d N -> In d (roots N) \/ is_det d = true.
Proof.
  intros (Nn & Nc & NS & -> & _ & F1 & F2 & F3). assert (D : forall d, In d (Nn ++ Nc ++ List.concat NS) -> is_det d = true).
  { intros d Hd. apply in_app_iff in Hd as [Hd|Hd]; [|apply in_app_iff in Hd as [Hd|Hd]].
    - destruct (Forall2_in_r _ _ _ _ F1 Hd) as ([[i o] s] & _ & I). unfold is_det. destruct I as [_ ->]. auto.
    - destruct (Forall2_in_r _ _ _ _ F2 Hd) as (x & _ & I). unfold is_det. destruct I as [_ ->]. auto.
    - apply in_concat in Hd as (N' & H1 & H2). destruct (Forall2_in_r _ _ _ _ F3 H1) as (x & _ & I). eapply house_det; eauto. }
  assert (R : roots (Nhaz haz :: map (Nx haz) pfs ++ Nn ++ Nc ++ List.concat NS) = Nhaz haz :: map (Nx haz) pfs).
  { unfold roots. cbn [filter Nhaz is_det nd_F negb]. f_equal. rewrite filter_app. destruct (all_det _ D) as [X _]. unfold roots in X. rewrite X, app_nil_r.
    clear. induction pfs as [|x l IH]; cbn; auto. f_equal. auto. }
  split; auto. rewrite R. intros d [<-|Hd]; [left; left; auto|]. apply in_app_iff in Hd as [Hd|Hd]; [left; right; auto|right; auto].
Qed.

(** * Values *)
Definition pat (b : joint) : pattern := fun s => b ("x" ++ s)%string =? 0.
Lemma run_root N b d : topo N -> In d (roots N) -> run N b (nd_name d) = b (nd_name d).
Proof.
  intros T Hd. apply run_other. intros X. apply in_map_iff in X as (e & E & He). unfold roots in Hd. apply filter_In in Hd as [H1 H2]. apply filter_In in He as [H3 H4].
  assert (e = d); [|subst; rewrite H4 in H2; discriminate]. assert (ND := topo_nodup N T). clear -ND E H1 H3. induction N as [|x N IH]; [destruct H1|]. cbn in ND. inversion ND as [|? ? N1 N2]; subst.
  destruct H1 as [->|H1], H3 as [->|H3]; auto; exfalso; apply N1; [rewrite <- E|rewrite E]; apply in_map; auto.
Qed.
Lemma filter_length_Z (f : pattern) s l : Z.of_nat (List.length (filter f (s :: l))) = (if f s then 1 else 0) + Z.of_nat (List.length (filter f l)).
Proof. cbn. destruct (f s); cbn [List.length]; lia. Qed.

Section Values.
Variables (haz : dict Qc) (pfs : dict (list Qc)) (rep : list string) (lins : dict (list (list string))) (N : list node) (b : joint).
Hypothesis PN : power_net haz pfs rep lins N.
Hypothesis HI : incl rep (keys pfs).
Let A := run N b.

Lemma net_topo : topo N.
Proof. destruct PN as (Nn & Nc & NS & _ & T & _). auto. Qed.
Lemma val_x s : In s (keys pfs) -> A ("x" ++ s)%string = b ("x" ++ s)%string.
Proof.
  intros Hs. apply in_map_iff in Hs as ([t pf] & <- & Hs). apply (run_root N b (Nx haz (t, pf)) net_topo). rewrite (proj1 (power_roots _ _ _ _ _ PN)). right. apply in_map; auto.
Qed.
Lemma val_n_chain l : forall i old Nn, Forall2 n_node (chain i old l) Nn -> (forall d, In d Nn -> In d N) -> incl l (keys pfs) ->
  forall s, In s l -> A ("n" ++ s)%string = (match old with None => 0 | Some o => A ("n" ++ o)%string end) + Z.of_nat (List.length (filter (pat b) (upto s l))).
Proof.
  induction l as [|t l IH]; intros i old Nn F I HL s Hs; [destruct Hs|]. cbn [chain] in F. inversion F as [|? d ? N' H1 H2]; subst.
  assert (Vt : A ("n" ++ t)%string = (match old with None => 0 | Some o => A ("n" ++ o)%string end) + (if pat b t then 1 else 0)).
  { destruct H1 as [E1 E2]. assert (X := run_fix N b d _ net_topo (I d (or_introl eq_refl)) E2). unfold nd_name in X. rewrite E1 in X. cbn [vn v_name mk_variable] in X. fold A in X.
    rewrite X. unfold Fn, fails. rewrite (val_x t) by (apply HL; left; auto). unfold pat. destruct old; lia. }
  cbn [upto]. rewrite filter_length_Z. destruct (String.eqb_spec t s) as [->|Hne].
  - cbn. cbn in Vt. lia.
  - destruct Hs as [->|Hs]; [congruence|]. rewrite (IH (S i) (Some t) N' H2 (fun d Hd => I d (or_intror Hd)) (fun x Hx => HL x (or_intror Hx)) s Hs). lia.
Qed.
Lemma val_n s : In s rep -> A ("n" ++ s)%string = Z.of_nat (List.length (filter (pat b) (upto s rep))).
Proof.
  intros Hs. destruct PN as (Nn & Nc & NS & EN & _ & F1 & _). rewrite (val_n_chain rep 0 None Nn F1); auto; try lia.
  intros d Hd. rewrite EN. right. apply in_app_iff. right. apply in_app_iff. auto.
Qed.
Lemma val_c s : In s rep -> A ("c" ++ s)%string = Z.of_nat (day (pat b) rep s).
Proof.
  intros Hs. destruct PN as (Nn & Nc & NS & EN & _ & _ & F2 & _).
  assert (NMc := c_names _ _ _ F2). assert (Hc : In ("c" ++ s)%string (map nd_name Nc)) by (rewrite NMc; apply (in_map (append "c")); auto).
  apply in_map_iff in Hc as (d & Ed & Hd). destruct (Forall2_in_r _ _ _ _ F2 Hd) as ([i t] & _ & E1 & E2). cbn [fst snd] in *.
  assert (t = s) as -> by (unfold nd_name in Ed; rewrite E1 in Ed; cbn in Ed; congruence).
  assert (HdN : In d N) by (rewrite EN; right; apply in_app_iff; right; apply in_app_iff; right; apply in_app_iff; auto).
  assert (X := run_fix N b d _ net_topo HdN E2). fold A in X. rewrite Ed in X. rewrite X. unfold Fc. rewrite val_x by auto. rewrite val_n by auto. unfold day, pat. destruct (_ =? 0); auto.
Qed.
Lemma zmax_nat l : zmax (map Z.of_nat l) = Z.of_nat (list_max l).
Proof. induction l as [|x l IH]; cbn; auto. unfold zmax in IH. rewrite IH. fold (list_max l). lia. Qed.
Lemma zmin_nat x l : zmin (map Z.of_nat (x :: l)) = Z.of_nat (fold_right Nat.min x l).
Proof. cbn. induction l as [|y l IH]; cbn; auto. rewrite IH. lia. Qed.
Lemma val_set n s d : set_node (n, s) d -> In d N -> incl s rep -> A n = Z.of_nat (set_day (pat b) rep s).
Proof.
  intros (w & Nw & _ & E1 & E2) Hd I. cbn [fst snd] in *. assert (X := run_fix N b d _ net_topo Hd E2). fold A in X. unfold nd_name in X. rewrite E1, Nw in X.
  rewrite X. unfold Fe, set_day. rewrite <- zmax_nat. rewrite !map_map. f_equal. apply map_ext_in. intros x Hx. apply val_c; auto.
Qed.
Lemma val_house h sets : In (h, sets) lins -> (sets <> [] /\ forall s, In s sets -> incl s rep) -> A h = Z.of_nat (cut_days (pat b) rep sets).
Proof.
  intros Hh [Hne HS]. destruct PN as (Nn & Nc & NS & EN & _ & _ & _ & F3). destruct (Forall2_in_l _ _ _ _ F3 Hh) as (N' & HN' & HD).
  assert (IN : forall d, In d N' -> In d N).
  { intros d Hd. rewrite EN. right. apply in_app_iff. right. apply in_app_iff. right. apply in_app_iff. right. apply in_concat. eauto. }
  destruct HD as [(s & d & E & -> & S)|(D & d & w & _ & -> & F & Nw & _ & E1 & E2)]; cbn [fst snd] in *.
  - subst sets. rewrite (val_set h s d S); [|apply IN; left; auto|apply HS; left; auto]. auto.
  - assert (X := run_fix N b d _ net_topo (IN d ltac:(apply in_app_iff; right; left; auto)) E2). fold A in X. unfold nd_name in X. rewrite E1, Nw in X. rewrite X. unfold Fe.
    assert (MA : map A (sub_names h sets) = map Z.of_nat (map (set_day (pat b) rep) sets)).
    { assert (LN := sub_length h sets). assert (IND : forall d, In d D -> In d N) by (intros x Hx; apply IN, in_app_iff; auto). clear -F LN IND HS PN HI. revert D F IND HS LN. generalize (sub_names h sets). intros ns. revert ns.
      induction sets as [|s sets IH]; intros [|n ns] D F IND HS LN; cbn in LN; try discriminate; auto. cbn [combine] in F. inversion F as [|? d ? D' H1 H2]; subst. cbn [map]. f_equal.
      - apply (val_set n s d H1); [apply IND; left; auto|apply HS; left; auto].
      - apply (IH ns D'); auto; [intros x Hx; apply IND; right; auto|intros x Hx; apply HS; right; auto]. }
    rewrite MA. destruct sets as [|s0 sets]; [congruence|]. cbn [map]. apply zmin_nat.
Qed.
End Values.

(** * Sums over the roots *)
Lemma marg_ext_both l f g : NoDup (names l) -> forall a, (forall b, (forall n, ~ In n (names l) -> b n = a n) -> (forall v, In v l -> 0 <= b (v_name v) < nvals v) -> f b = g b) -> marg l f a = marg l g a.
Proof.
  induction l as [|v l IH]; intros N a H; cbn [marg]; [apply H; [auto|intros v []]|]. inversion N as [|? ? N1 N2]; subst. f_equal. apply map_ext_in. intros x Hx. apply In_zrange in Hx.
  apply IH; auto. intros b Hb Hr. apply H.
  - intros n Hn. rewrite Hb by (intros X; apply Hn; right; auto). unfold set_joint. destruct (String.eqb_spec n (v_name v)) as [->|]; auto. exfalso. apply Hn. left. auto.
  - intros w [<-|Hw]; auto. rewrite Hb by auto. unfold set_joint. rewrite String.eqb_refl. lia.
Qed.
Definition pointwise (phi : pattern -> Qc) : Prop := forall f g, (forall s, f s = g s) -> phi f = phi g.
Lemma expect_ext l phi : pointwise phi -> pointwise (expect l phi).
Proof.
  intros P. induction l as [|[s p] l IH]; intros f g H; cbn [expect]; auto.
  rewrite (IH (fail_to f s true) (fail_to g s true)), (IH (fail_to f s false) (fail_to g s false)); auto; intros t; unfold fail_to; destruct (String.eqb t s); auto.
Qed.
Lemma pat_set b s x t : pat (set_joint b (vx s) x) t = if String.eqb t s then x =? 0 else pat b t.
Proof.
  unfold pat, set_joint. change (v_name (vx s)) with ("x" ++ s)%string. destruct (String.eqb_spec ("x" ++ t)%string ("x" ++ s)%string) as [E|E], (String.eqb_spec t s) as [E'|E']; auto; try congruence.
  - exfalso. cbn in E. congruence.
Qed.
Lemma marg_structs haz phi l : (1 <= List.length haz <= 6)%nat -> pointwise phi -> NoDup (keys l) -> (forall s pf, In (s, pf) l -> List.length pf = List.length haz) ->
  forall b0 G, 0 <= b0 "haz" < Z.of_nat (List.length haz) ->
  (forall b, (forall n, ~ In n (names (map (fun sp => vx (fst sp)) l)) -> b n = b0 n) -> (forall v, In v (map (fun sp => vx (fst sp)) l) -> 0 <= b (v_name v) < nvals v) -> G b = phi (pat b)) ->
  marg (map (fun sp => vx (fst sp)) l) (fun b => (qprod (map (fun sp => mass (Mx haz sp) b) l) * G b)%Qc) b0 = expect (scenario l (Z.to_nat (b0 "haz"))) phi (pat b0).
Proof.
  intros HL HPhi. induction l as [|[s pf] l IH]; intros ND HP b0 G Hb HG.
  - cbn [map marg qprod expect scenario]. rewrite HG; [ring|auto|intros v []].
  - cbn in ND. inversion ND as [|? ? N1 N2]; subst. cbn [map]. cbn [marg scenario expect map fst snd]. rewrite nvals_vx. change (zrange 0 2) with [0; 1]. cbn [map qsum].
    assert (NDv : NoDup (names (map (fun sp => vx (fst sp)) l))).
    { unfold names. rewrite map_map. cbn [vx v_name mk_variable]. rewrite <- (map_map fst (append "x")). apply FinFun.Injective_map_NoDup; auto. intros x y H. cbn in H. congruence. }
    assert (FS : ~ In ("x" ++ s)%string (names (map (fun sp => vx (fst sp)) l))).
    { unfold names. rewrite map_map. cbn [vx v_name mk_variable]. intros X. apply in_map_iff in X as ([t q] & E & X). cbn [fst] in E. cbn in E. apply N1. apply (in_map fst) in X. cbn in X. assert (t = s) by congruence. subst. auto. }
    assert (FH : ~ In "haz" (names (map (fun sp => vx (fst sp)) l))).
    { unfold names. rewrite map_map. intros X. apply in_map_iff in X as ([t q] & E & X). discriminate E. }
    assert (STEP : forall x, 0 <= x < 2 -> marg (map (fun sp => vx (fst sp)) l) (fun b => (qprod (mass (Mx haz (s, pf)) b :: map (fun sp => mass (Mx haz sp) b) l) * G b)%Qc) (set_joint b0 (vx s) x) =
      ((if x =? 0 then nth (Z.to_nat (b0 "haz")) pf 0 else 1 - nth (Z.to_nat (b0 "haz")) pf 0) * expect (scenario l (Z.to_nat (b0 "haz"))) phi (fail_to (pat b0) s (x =? 0)))%Qc).
    { intros x Hx. set (m := (if x =? 0 then nth (Z.to_nat (b0 "haz")) pf 0 else 1 - nth (Z.to_nat (b0 "haz")) pf 0)%Qc).
      assert (Hh : set_joint b0 (vx s) x "haz" = b0 "haz") by (unfold set_joint; destruct (String.eqb_spec "haz" (v_name (vx s))) as [E|]; [discriminate E|auto]).
      rewrite (marg_ext_both _ _ (fun b => (qprod (map (fun sp => mass (Mx haz sp) b) l) * G b * m)%Qc)); auto.
      - rewrite marg_factor_list by (intros v _ a y; auto). rewrite Qcmult_comm. f_equal. rewrite <- Hh.
        rewrite (IH N2 (fun t q Hq => HP t q (or_intror Hq)) (set_joint b0 (vx s) x) G).
        + rewrite Hh. apply expect_ext; auto. intros t. rewrite pat_set. unfold fail_to. auto.
        + rewrite Hh. auto.
        + intros b H1 H2. apply HG.
          * intros n Hn. cbn [names map] in Hn. rewrite H1 by (intros X; apply Hn; right; auto). unfold set_joint. destruct (String.eqb_spec n (v_name (vx s))) as [->|]; auto. exfalso. apply Hn. left. auto.
          * intros v [<-|Hv]; auto. cbn [fst]. rewrite H1 by exact FS. unfold set_joint. rewrite String.eqb_refl. rewrite nvals_vx. auto.
      - intros b H1 H2. assert (Bx : b ("x" ++ s)%string = x) by (rewrite H1 by exact FS; unfold set_joint; cbn [vx v_name mk_variable]; rewrite String.eqb_refl; auto).
        assert (Bh : b "haz" = b0 "haz") by (rewrite H1 by exact FH; auto).
        cbn [qprod]. rewrite struct_mass; auto; cbn [fst snd]; [|apply (HP s pf); left; auto|rewrite Bh; auto|rewrite Bx; auto]. cbn zeta. rewrite Bx, Bh. fold m. ring. }
    rewrite (STEP 0), (STEP 1) by lia. cbn [Z.eqb]. fold (scenario l (Z.to_nat (b0 "haz"))). ring.
Qed.
