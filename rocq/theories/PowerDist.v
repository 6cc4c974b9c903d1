(** The distribution of the number of days without power. *)
From Coq Require Import ZArith List String Bool Arith Lia Permutation QArith Qcanon.
From Verif Require Import Py PyFacts Num Vari VariFacts Cpm CpmFacts SpecCpm CpmSum CpmMarg CpmElim CpmProb SysVal SpecSys SysValFacts CpmCond PropSys HybEst VeFacts Bnb Power SpecPower BnetFacts PowerNodes PowerFacts PowerHouse PowerMain.
Import ListNotations.
Open Scope string_scope.
Open Scope Z_scope.
Open Scope list_scope.

Lemma filter_ext_in' {A} (f g : A -> bool) l : (forall x, In x l -> f x = g x) -> filter f l = filter g l.
Proof. induction l as [|x l IH]; intros H; cbn; auto. rewrite H, IH; auto; [intros; apply H; right|left]; auto. Qed.
Lemma upto_incl s l : incl (upto s l) l.
Proof. induction l as [|t l IH]; intros x H; auto. cbn in H. destruct H as [->|H]; [left; auto|]. right. destruct (String.eqb t s); [destruct H|auto]. Qed.
Lemma day_ext f g rep s : (forall t, In t rep -> f t = g t) -> In s rep -> day f rep s = day g rep s.
Proof. intros H Hs. unfold day. rewrite (H s Hs). rewrite (filter_ext_in' f g); auto. intros x Hx. apply H. eapply upto_incl; eauto. Qed.
Lemma set_day_ext f g rep s : (forall t, In t rep -> f t = g t) -> incl s rep -> set_day f rep s = set_day g rep s.
Proof. intros H Hs. unfold set_day. f_equal. apply map_ext_in. intros x Hx. apply day_ext; auto. Qed.
Lemma cut_days_ext f g rep sets : (forall t, In t rep -> f t = g t) -> (forall s, In s sets -> incl s rep) -> cut_days f rep sets = cut_days g rep sets.
Proof.
  intros H Hs. unfold cut_days. destruct sets as [|s sets]; auto. rewrite (set_day_ext f g) by (auto; apply Hs; left; auto). f_equal. apply map_ext_in. intros x Hx. apply set_day_ext; auto. apply Hs. right; auto.
Qed.
Lemma expect_init K phi : (forall f g : pattern, (forall s, In s K -> f s = g s) -> phi f = phi g) ->
  forall l f g, (forall s, In s K -> ~ In s (map fst l) -> f s = g s) -> expect l phi f = expect l phi g.
Proof.
  intros HP. induction l as [|[s p] l IH]; intros f g H; cbn [expect]; [apply HP; intros s Hs; apply H; auto|].
  rewrite (IH (fail_to f s true) (fail_to g s true)), (IH (fail_to f s false) (fail_to g s false)); auto;
    intros t Ht Hn; unfold fail_to; destruct (String.eqb_spec t s) as [->|Hne]; auto; apply H; auto; cbn; intros [X|X]; [congruence|auto| congruence|auto].
Qed.
Lemma sum_scenarios (P : list Qc) (E : nat -> Qc) : forall i,
  qsum (map (fun x => (nth (Z.to_nat (x - Z.of_nat i)) P 0 * E (Z.to_nat x))%Qc) (zrange (Z.of_nat i) (Z.of_nat (i + List.length P)))) =
  qsum (map (fun kp => (snd kp * E (fst kp))%Qc) (combine (seq i (List.length P)) P)).
Proof.
  induction P as [|p P IH]; intros i; cbn [List.length seq combine map].
  - rewrite Nat.add_0_r. unfold zrange. rewrite Z.sub_diag. auto.
  - rewrite zrange_cons by lia. cbn [map qsum fst snd]. rewrite Z.sub_diag, Nat2Z.id. cbn [Z.to_nat nth]. f_equal. rewrite <- IH.
    replace (Z.of_nat i + 1) with (Z.of_nat (S i)) by lia. replace (S i + List.length P)%nat with (i + S (List.length P))%nat by lia. f_equal. apply map_ext_in. intros x Hx. apply In_zrange in Hx.
    replace (Z.to_nat (x - Z.of_nat i)) with (S (Z.to_nat (x - Z.of_nat (S i)))) by lia. auto.
Qed.

Section Dist.
Variables (haz : dict Qc) (pfs : dict (list Qc)) (rep : list string) (lins : dict (list (list string))) (N : list node).
Hypothesis POK : power_ok haz pfs rep lins.
Hypothesis PN : power_net haz pfs rep lins N.

Let HL : (1 <= List.length haz <= 6)%nat := proj1 POK.
Let HPf : forall s pf, In (s, pf) pfs -> List.length pf = List.length haz := proj1 (proj2 (proj2 (proj2 POK))).
Let HI : incl rep (keys pfs) := proj1 (proj2 (proj2 (proj2 (proj2 POK)))).
Let T : topo N := net_topo haz pfs rep lins N PN.
Let RT : roots N = Nhaz haz :: map (Nx haz) pfs := proj1 (power_roots _ _ _ _ _ PN).

Lemma keys_nodup : NoDup (keys pfs).
Proof. assert (POK1 := POK); destruct POK1 as (_ & _ & ND & _). unfold node_names in ND. inversion ND as [|? ? _ ND']; subst. apply nodup_app_l in ND'. apply NoDup_map_inv in ND'. auto. Qed.
Lemma roots_vars : nvars (roots N) = vhaz haz :: map (fun sp => vx (fst sp)) pfs.
Proof. rewrite RT. unfold nvars. cbn [map nd_v Nhaz]. rewrite map_map. f_equal. Qed.
Lemma run_haz b : run N b "haz" = b "haz".
Proof. apply (run_root N b (Nhaz haz) T). rewrite RT. left; auto. Qed.
Lemma run_x b s : In s (keys pfs) -> run N b ("x" ++ s)%string = b ("x" ++ s)%string.
Proof. apply (val_x haz pfs rep lins N b PN). Qed.
Lemma roots_mass b : 0 <= b "haz" < Z.of_nat (List.length haz) -> (forall s, In s (keys pfs) -> 0 <= b ("x" ++ s)%string < 2) ->
  pmass (ncpms (roots N)) (run N b) = (nth (Z.to_nat (b "haz")) (map snd haz) 0 * qprod (map (fun sp => mass (Mx haz sp) b) pfs))%Qc.
Proof.
  intros Hh Hx. rewrite RT. unfold pmass, ncpms. cbn [map qprod nd_M Nhaz]. rewrite haz_mass by (rewrite ?run_haz; auto). rewrite run_haz. f_equal. rewrite !map_map. f_equal. apply map_ext_in. intros [s pf] Hs.
  assert (Ks : In s (keys pfs)) by (apply (in_map fst) in Hs; auto). cbn [Nx nd_M]. rewrite !struct_mass; cbn [fst snd]; rewrite ?run_haz, ?run_x by auto; auto; eapply HPf; eauto.
Qed.
Lemma alive_state : exists a0, states_in (nvars (roots N)) a0 /\ forall d, In d (roots N) -> (0 < mass (nd_M d) (run N a0))%Qc.
Proof.
  assert (POK1 := POK); destruct POK1 as (_ & _ & _ & _ & _ & _ & _ & (kk & p & Hp & Pp) & P3). apply (In_nth_error haz) in Hp as [k Hk]. assert (Lk : (k < List.length haz)%nat) by (apply nth_error_Some; congruence).
  set (a0 := fun n => if String.eqb n "haz" then Z.of_nat k else match find (fun sp => String.eqb ("x" ++ fst sp) n) pfs with Some sp => if Qc_eq_dec (nth k (snd sp) 0%Qc) 0 then 1 else 0 | None => 0 end).
  assert (Ah : a0 "haz" = Z.of_nat k) by auto.
  assert (Ax : forall s pf, In (s, pf) pfs -> a0 ("x" ++ s)%string = if Qc_eq_dec (nth k pf 0%Qc) 0 then 1 else 0).
  { intros s pf Hs. unfold a0. destruct (String.eqb_spec ("x" ++ s)%string "haz") as [E|_]; [discriminate E|].
    assert (Ef : find (fun sp => String.eqb ("x" ++ fst sp) ("x" ++ s)) pfs = Some (s, pf)); [|rewrite Ef; auto].
    assert (K := keys_nodup). clear -K Hs. induction pfs as [|[t q] l IH]; [destruct Hs|]. cbn [find fst]. cbn in K. inversion K as [|? ? K1 K2]; subst. destruct Hs as [[= -> ->]|Hs]; [rewrite String.eqb_refl; auto|].
    destruct (String.eqb_spec ("x" ++ t)%string ("x" ++ s)%string) as [E|_]; auto. exfalso. apply K1. cbn in E. assert (t = s) by congruence. subst. apply (in_map fst) in Hs. auto. }
  assert (Rx : forall s, In s (keys pfs) -> 0 <= a0 ("x" ++ s)%string < 2).
  { intros s Hs. apply in_map_iff in Hs as ([t pf] & <- & Hs). cbn [fst]. rewrite (Ax _ _ Hs). destruct (Qc_eq_dec _ _); lia. }
  exists a0. split.
  - rewrite roots_vars. intros v [<-|Hv]; [change (v_name (vhaz haz)) with "haz"; rewrite Ah, nvals_haz; lia|]. apply in_map_iff in Hv as ([s pf] & <- & Hs). cbn [fst]. rewrite nvals_vx. apply (Rx s). apply (in_map fst) in Hs; auto.
  - rewrite RT. intros d [<-|Hd].
    + cbn [nd_M Nhaz]. rewrite haz_mass by (rewrite ?run_haz, ?Ah; lia). rewrite run_haz, Ah, Nat2Z.id. assert (En : nth k (map snd haz) 0%Qc = p); [|rewrite En; auto].
      apply nth_error_nth. rewrite nth_error_map, Hk. auto.
    + apply in_map_iff in Hd as ([s pf] & <- & Hs). assert (Ks : In s (keys pfs)) by (apply (in_map fst) in Hs; auto). cbn [nd_M Nx]. assert (Lp := HPf s pf Hs).
      rewrite struct_mass; cbn [fst snd]; rewrite ?run_haz, ?run_x by auto; rewrite ?Ah; auto; try lia. cbn zeta. rewrite (Ax _ _ Hs), Nat2Z.id.
      assert (B : (0 <= nth k pf 0 <= 1)%Qc) by (apply (P3 s pf); auto; apply nth_In; lia).
      destruct (Qc_eq_dec (nth k pf 0%Qc) 0) as [E|E]; cbn [Z.eqb].
      * rewrite E. reflexivity.
      * destruct B as [B _]. apply Qcle_lt_or_eq in B as [B|B]; auto. congruence.
Qed.

Lemma house_var h sets : In (h, sets) lins -> exists d, In d (dets N) /\ nd_name d = h /\ counts (nd_v d).
Proof.
  intros Hh. assert (PN1 := PN); destruct PN1 as (Nn & Nc & NS & EN & _ & _ & _ & F3). destruct (Forall2_in_l _ _ _ _ F3 Hh) as (N' & HN' & HD).
  assert (IN : forall d, In d N' -> In d (dets N)).
  { intros d Hd. apply filter_In. split; [|eapply house_det; eauto]. rewrite EN. right. apply in_app_iff. right. apply in_app_iff. right. apply in_app_iff. right. apply in_concat. eauto. }
  destruct HD as [(s & d & E & -> & (w & Nw & Cw & E1 & E2))|(D & d & w & _ & -> & F & Nw & Cw & E1 & E2)]; cbn [fst snd] in *.
  - exists d. unfold nd_name. rewrite E1. split; auto. apply IN. left; auto.
  - exists d. unfold nd_name. rewrite E1. split; auto. apply IN, in_app_iff. right. left; auto.
Qed.

Section House.
Variables (h : string) (sets : list (list string)).
Hypothesis Hh : In (h, sets) lins.
Lemma sets_ok' : sets <> [] /\ forall s, In s sets -> incl s rep.
Proof. assert (POK1 := POK); destruct POK1 as (_ & _ & _ & _ & _ & HH & _). destruct (HH h sets Hh) as [H1 H2]. split; auto. intros s Hs. apply H2; auto. Qed.

Lemma house_dist a : ~ In h (map nd_name (roots N)) ->
  marg (nvars (roots N)) (fun b => if b h =? run N b h then pmass (ncpms (roots N)) (run N b) else 0%Qc) a = average haz pfs (fun f => indicator (Z.of_nat (cut_days f rep sets) =? a h)).
Proof.
  intros HR. assert (HR' : ~ In h (names (nvars (roots N)))) by (unfold names, nvars; rewrite map_map; exact HR). rewrite roots_vars in *. cbn [names map] in HR'.
  set (phi := fun f => indicator (Z.of_nat (cut_days f rep sets) =? a h)). cbn [marg]. rewrite nvals_haz by lia. destruct sets_ok' as [S1 S2].
  assert (PE : forall f g : pattern, (forall s, In s rep -> f s = g s) -> phi f = phi g) by (intros f g H; unfold phi; rewrite (cut_days_ext f g); auto).
  unfold average. rewrite <- (map_length snd haz). rewrite <- (sum_scenarios (map snd haz) (fun k => expect (scenario pfs k) phi (fun _ => false)) 0). cbn [Nat.add Z.of_nat]. f_equal. rewrite map_length. apply map_ext_in. intros x Hx. apply In_zrange in Hx.
  rewrite Z.sub_0_r. set (b0 := set_joint a (vhaz haz) x). assert (Bh : b0 "haz" = x) by (unfold b0, set_joint; cbn [vhaz v_name mk_variable]; rewrite String.eqb_refl; auto).
  assert (NDv : NoDup (names (map (fun sp => vx (fst sp)) pfs))).
  { unfold names. rewrite map_map. cbn [vx v_name mk_variable]. rewrite <- (map_map fst (append "x")). apply FinFun.Injective_map_NoDup; [intros y z H; cbn in H; congruence|apply keys_nodup]. }
  assert (NH : forall n, In n (names (map (fun sp => vx (fst sp)) pfs)) -> exists s, n = ("x" ++ s)%string).
  { unfold names. rewrite map_map. intros n Hn. apply in_map_iff in Hn as ([s q] & <- & _). exists s. auto. }
  rewrite (marg_ext_both _ _ (fun b => (qprod (map (fun sp => mass (Mx haz sp) b) pfs) * phi (pat b) * nth (Z.to_nat x) (map snd haz) 0)%Qc)); auto.
  - rewrite marg_factor_list by (intros v _ c y; auto). rewrite Qcmult_comm. f_equal.
    rewrite (marg_structs haz phi pfs HL (fun f g H => PE f g (fun s _ => H s)) keys_nodup HPf b0 (fun b => phi (pat b))); [|rewrite Bh; lia|auto].
    rewrite Bh. apply (expect_init rep); auto. intros s Hs Hn. exfalso. apply Hn. unfold scenario. rewrite map_map. cbn [fst]. apply HI; auto.
  - intros b H1 H2. assert (Eh : b h = a h).
    { rewrite H1 by (intros X; apply HR'; right; auto). unfold b0, set_joint. destruct (String.eqb_spec h (v_name (vhaz haz))) as [->|]; auto. exfalso. apply HR'. left; auto. }
    assert (Eb : b "haz" = x). { rewrite H1; auto. intros X. apply NH in X as [s X]. discriminate X. }
    assert (Ex : forall s, In s (keys pfs) -> 0 <= b ("x" ++ s)%string < 2).
    { intros s Hs. apply in_map_iff in Hs as ([t q] & <- & Hs). assert (X := H2 (vx t) ltac:(apply (in_map (fun sp => vx (fst sp)) pfs (t, q)); auto)). rewrite nvals_vx in X. exact X. }
    rewrite Eh. rewrite (val_house haz pfs rep lins N b PN HI h sets Hh sets_ok'). rewrite roots_mass by (rewrite ?Eb; auto; lia). rewrite Eb. unfold phi, indicator. rewrite (Z.eqb_sym (a h)).
    destruct (_ =? _); ring.
Qed.

Lemma house_bound f : exists d, In d (dets N) /\ nd_name d = h /\ counts (nd_v d) /\ (cut_days f rep sets < List.length (v_values (nd_v d)))%nat.
Proof.
  destruct (house_var h sets Hh) as (d & Hd & Nd & Cd). exists d. split; auto. split; auto. split; auto.
  set (b := fun n => match find (fun s => String.eqb ("x" ++ s) n) (keys pfs) with Some s => if f s then 0 else 1 | None => 0 end).
  assert (Bx : forall s, In s (keys pfs) -> b ("x" ++ s)%string = if f s then 0 else 1).
  { intros s Hs. unfold b. destruct (find _ _) as [t|] eqn:E.
    - apply find_some in E as [_ E]. apply String.eqb_eq in E. cbn in E. assert (t = s) by congruence. subst. auto.
    - apply (find_none _ _ E) in Hs. rewrite String.eqb_refl in Hs. discriminate. }
  assert (Bh : b "haz" = 0). { unfold b. destruct (find _ _) as [t|] eqn:E; auto. apply find_some in E as [_ E]. apply String.eqb_eq in E. discriminate E. }
  assert (RG := run_range N b T). assert (R1 : states_in (nvars (roots N)) b).
  { rewrite roots_vars. intros v [<-|Hv]; [change (v_name (vhaz haz)) with "haz"; rewrite Bh, nvals_haz; lia|]. apply in_map_iff in Hv as ([s pf] & <- & Hs). cbn [fst]. rewrite nvals_vx.
    change (v_name (vx s)) with ("x" ++ s)%string. rewrite Bx by (apply (in_map fst) in Hs; auto). destruct (f s); lia. }
  specialize (RG R1 (nd_v d)). assert (HdN : In d N) by (apply filter_In in Hd; tauto). specialize (RG (in_map nd_v _ _ HdN)). change (v_name (nd_v d)) with (nd_name d) in RG. rewrite Nd in RG.
  rewrite (val_house haz pfs rep lins N b PN HI h sets Hh sets_ok') in RG. unfold nvals in RG.
  rewrite (cut_days_ext f (pat b)); [lia| |apply sets_ok']. intros t Ht. unfold pat. rewrite Bx by auto. destruct (f t); auto.
Qed.
End House.

Lemma power_dist h sets : In (h, sets) lins -> exists vh, dget (snd (st_of N)) h = Ok vh /\ v_name vh = h /\
  (forall k w, nth_error (v_values vh) k = Some w -> w = VNum (qz (Z.of_nat k))) /\ (forall f, (cut_days f rep sets < List.length (v_values vh))%nat) /\
  forall ord, Permutation (vh :: ord) (map snd (snd (st_of N))) -> exists M, variable_elim (map snd (fst (st_of N))) ord = Ok M /\ c_vars M = [vh] /\ wf_cpm M /\
    forall a, mass M a = average haz pfs (fun f => indicator (Z.of_nat (cut_days f rep sets) =? a h)).
Proof.
  intros Hh. assert (ND := topo_nodup N T). destruct (house_bound h sets Hh (fun _ => true)) as (d & Hd & Nd & Cd & _). assert (HdN : In d N) by (apply filter_In in Hd; tauto).
  exists (nd_v d). split; [rewrite <- Nd; apply dget_node; auto|]. split; [exact Nd|]. split; [|split].
  - intros k w Hk. destruct (counts_num _ Cd) as [E _]. assert (Lk : (k < List.length (v_values (nd_v d)))%nat) by (apply nth_error_Some; congruence).
    rewrite E in Hk. assert (X := num_values_nth (List.length (v_values (nd_v d))) (Z.of_nat k) ltac:(lia)). rewrite Nat2Z.id in X. congruence.
  - intros f. destruct (house_bound h sets Hh f) as (d' & Hd' & Nd' & _ & B). assert (d' = d); [|subst; auto]. assert (HdN' : In d' N) by (apply filter_In in Hd'; tauto).
    clear -ND Nd Nd' HdN HdN'. rewrite <- Nd in Nd'. induction N as [|e N' IH]; [destruct HdN|]. cbn in ND. inversion ND as [|? ? N1 N2]; subst.
    destruct HdN as [->|H1], HdN' as [->|H2]; auto; exfalso; apply N1; [rewrite <- Nd'|rewrite Nd']; apply in_map; auto.
  - intros ord P. unfold st_of in *. cbn [fst snd] in *. rewrite map_map in *. cbn [snd] in *. change (map (fun x => nd_v x) N) with (nvars N) in P. change (map (fun x => nd_M x) N) with (ncpms N).
    destruct alive_state as (a0 & A1 & A2). destruct (bn_elim N (nd_v d) ord a0 T (in_map nd_v _ _ Hd) P A1 A2) as (M & E & Ev & W & D). exists M. split; auto. split; auto. split; auto.
    intros a. rewrite D. change (v_name (nd_v d)) with (nd_name d). rewrite Nd. apply house_dist; auto.
    rewrite <- Nd. intros X. apply in_map_iff in X as (e & Ee & He). unfold roots in He. apply filter_In in He as [He1 He2]. apply filter_In in Hd as [_ Hd].
    assert (e = d); [|subst; rewrite Hd in He2; discriminate]. clear -ND Ee He1 HdN. induction N as [|y N' IH]; [destruct HdN|]. cbn in ND. inversion ND as [|? ? N1 N2]; subst.
    destruct HdN as [->|H1], He1 as [->|H2]; auto; exfalso; apply N1; [rewrite <- Ee|rewrite Ee]; apply in_map; auto.
Qed.
End Dist.
