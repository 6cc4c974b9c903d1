(** Networks of CPMs with one child each, given in topological order, where some nodes are
    functions of their parents.  Used for the power-cut network (Power.v). *)
From Coq Require Import ZArith List String Bool Arith Lia Permutation QArith Qcanon.
From Verif Require Import Py PyFacts Num Vari VariFacts Cpm CpmFacts SpecCpm CpmCond CpmSum CpmMarg CpmElim CpmProb SpecSys HybEst.
Import ListNotations.
Open Scope string_scope.
Open Scope Z_scope.
Open Scope list_scope.

(** [nd_F]: the state as a function of the others; [None] for a random node *)
Record node : Type := mkNode { nd_v : variable; nd_M : cpm; nd_F : option (joint -> Z) }.
Definition nd_name (d : node) : string := v_name (nd_v d).
Definition nvars (N : list node) : list variable := map nd_v N.
Definition ncpms (N : list node) : list cpm := map nd_M N.

Definition holds (N : list node) (a : joint) : Prop := forall d F, In d N -> nd_F d = Some F -> a (nd_name d) = F a.
Definition node_ok (prev : list node) (d : node) : Prop :=
  exists pars, c_vars (nd_M d) = nd_v d :: pars /\ incl pars (nvars prev) /\ (prev = [] \/ pars <> []) /\ c_nch (nd_M d) = 1%nat /\
    wf_cpm (nd_M d) /\ has_p (nd_M d) /\ basic_in (nd_M d) (nd_v d) /\ (forall q, In q (c_p (nd_M d)) -> 0 <= q)%Qc /\
    match nd_F d with
    | None => True
    | Some F =>
        (forall a b, (forall p, In p pars -> a (v_name p) = b (v_name p)) -> F a = F b) /\
        (forall a, states_in pars a -> 0 <= F a < nvals (nd_v d)) /\
        (forall a, states_in (nd_v d :: nvars prev) a -> mass (nd_M d) a <> 0%Qc -> a (nd_name d) = F a) /\
        (forall a, states_in (nd_v d :: nvars prev) a -> holds prev a -> a (nd_name d) = F a -> mass (nd_M d) a = 1%Qc)
    end.

Inductive topo : list node -> Prop :=
| topo_nil : topo []
| topo_snoc : forall N d, topo N -> node_ok N d -> ~ In (nd_name d) (map nd_name N) -> topo (N ++ [d]).

Lemma names_nvars N : names (nvars N) = map nd_name N.
Proof. unfold names, nvars. rewrite map_map. auto. Qed.
Lemma topo_nodup N : topo N -> NoDup (map nd_name N).
Proof.
  induction 1 as [|N d T IH OK F]; [constructor|]. rewrite map_app. apply NoDup_app_intro; auto; [constructor; [intros []|constructor]|].
  intros x H1 [<-|[]]. auto.
Qed.
Lemma nvars_inj N v w : NoDup (map nd_name N) -> In v (nvars N) -> In w (nvars N) -> v_name v = v_name w -> v = w.
Proof.
  intros ND Hv Hw E. rewrite <- names_nvars in ND. unfold names in ND. revert ND Hv Hw. induction (nvars N) as [|u l IH]; intros ND Hv Hw; [destruct Hv|].
  cbn in ND. inversion ND as [|? ? N1 N2]; subst. destruct Hv as [->|Hv], Hw as [->|Hw]; auto.
  - exfalso. apply N1. rewrite E. apply in_map; auto.
  - exfalso. apply N1. rewrite <- E. apply in_map; auto.
Qed.
Lemma node_at N d : topo N -> In d N -> exists N1 N2, N = N1 ++ d :: N2 /\ node_ok N1 d /\ topo N1.
Proof.
  induction 1 as [|N e T IH OK F]; intros H; [destruct H|]. apply in_app_iff in H as [H|[->|[]]].
  - destruct (IH H) as (N1 & N2 & -> & H1). exists N1, (N2 ++ [e]). rewrite <- app_assoc. auto.
  - exists N, []. auto.
Qed.
Lemma node_vars N d : topo N -> In d N -> exists pars, c_vars (nd_M d) = nd_v d :: pars /\ incl pars (nvars N).
Proof.
  intros T H. destruct (node_at N d T H) as (N1 & N2 & -> & (pars & H1 & H2 & _) & _). exists pars. split; auto.
  intros x Hx. unfold nvars. rewrite map_app. apply in_app_iff. left. apply H2. auto.
Qed.
Lemma scope_in N M v : topo N -> In M (ncpms N) -> In v (c_vars M) -> In v (nvars N).
Proof.
  intros T H Hv. apply in_map_iff in H as (d & <- & H). destruct (node_vars N d T H) as (pars & E & I). rewrite E in Hv. destruct Hv as [<-|Hv]; auto.
  apply in_map; auto.
Qed.

Lemma pairwise_snoc (R : cpm -> cpm -> Prop) l x : pairwise R l -> (forall y, In y l -> R y x) -> pairwise R (l ++ [x]).
Proof.
  induction l as [|y l IH]; intros H HR; cbn; [split; [intros z []|auto]|]. destruct H as [H1 H2]. split.
  - intros z Hz. apply in_app_iff in Hz as [Hz|[<-|[]]]; auto. apply HR. left; auto.
  - apply IH; auto. intros z Hz. apply HR. right; auto.
Qed.
Lemma topo_children N d : topo N -> In d N -> children (nd_M d) = [nd_v d].
Proof. intros T H. destruct (node_at N d T H) as (N1 & N2 & -> & (pars & H1 & _ & _ & H2 & _) & _). unfold children. rewrite H1, H2. auto. Qed.

Lemma topo_fit N : topo N -> fit_list (ncpms N).
Proof.
  intros T. split.
  - apply Forall_forall. intros M HM. apply in_map_iff in HM as (d & <- & H). destruct (node_at N d T H) as (N1 & N2 & -> & (pars & _ & _ & _ & _ & W & _) & _). auto.
  - induction T as [|N d T IH OK F]; [cbn; auto|]. assert (T' : topo (N ++ [d])) by (constructor; auto). unfold ncpms in *. rewrite map_app. cbn [map]. apply pairwise_snoc; auto.
    intros M HM. apply in_map_iff in HM as (e & <- & He). split.
    + intros v1 v2 H1 H2. apply (nvars_inj (N ++ [d])); [apply topo_nodup; auto| |].
      * eapply scope_in; [exact T'| |exact H1]. apply in_map, in_app_iff; auto.
      * eapply scope_in; [exact T'| |exact H2]. apply in_map, in_app_iff; right; left; auto.
    + intros v w H1 H2. rewrite (topo_children (N ++ [d])) in H1, H2; auto; try (apply in_app_iff; cbn; auto).
      destruct H1 as [<-|[]], H2 as [<-|[]]. intros E. apply F. fold (nd_name d) in E. rewrite <- E. apply (in_map nd_name); auto.
Qed.
Lemma topo_ve_ok N vs : topo N -> incl vs (nvars N) -> NoDup (names vs) -> ve_ok (ncpms N) vs.
Proof.
  intros T I ND. split; [apply topo_fit; auto|]. split; [|split; [|split; auto]].
  - apply Forall_forall. intros M HM. apply in_map_iff in HM as (d & <- & H). destruct (node_at N d T H) as (N1 & N2 & -> & (pars & _ & _ & _ & _ & _ & P & _) & _). auto.
  - intros v Hv. apply I, in_map_iff in Hv as (d & <- & H). exists (nd_M d). split; [apply in_map; auto|].
    destruct (node_at N d T H) as (N1 & N2 & -> & (pars & E & _ & _ & _ & _ & _ & B & _) & _). rewrite E. split; [left|]; auto.
  - intros v Hv. apply I, in_map_iff in Hv as (d & <- & H). exists (nd_M d). split; [apply in_map; auto|]. rewrite (topo_children N d T H). left; auto.
Qed.

(** * Connection *)
Lemma linked_incl l l' x y : incl l l' -> linked l x y -> linked l' x y.
Proof. intros I. induction 1 as [|M x y z H1 H2 H3 H4 IH]; [apply linked_refl|]. apply (linked_step l' M x y z); auto. Qed.
Lemma linked_sym l x y : linked l x y -> linked l y x.
Proof.
  induction 1 as [|M x y z H1 H2 H3 H4 IH]; [apply linked_refl|]. apply (linked_trans l z y x); auto. apply (linked_step l M y x x); auto. apply linked_refl.
Qed.
Lemma topo_linked N d0 N' : topo N -> N = d0 :: N' -> forall v, In v (nvars N) -> linked (ncpms N) (v_name v) (nd_name d0).
Proof.
  intros T. revert d0 N'. induction T as [|N d T IH OK F]; intros d0 N' E v Hv; [discriminate|].
  assert (I : incl (ncpms N) (ncpms (N ++ [d]))) by (unfold ncpms; rewrite map_app; intros x Hx; apply in_app_iff; auto).
  unfold nvars in Hv. rewrite map_app in Hv. apply in_app_iff in Hv as [Hv|[<-|[]]].
  - destruct N as [|e N]; [destruct Hv|]. cbn in E. assert (E' : e = d0) by congruence. clear E. subst e. apply (linked_incl (ncpms (d0 :: N))); auto. apply (IH d0 N); auto.
  - destruct N as [|e N]; [cbn in E; injection E as -> ->; apply linked_refl|]. cbn in E. assert (E' : e = d0) by congruence. clear E. subst e.
    destruct OK as (pars & E1 & E2 & [E3|E3] & _); [discriminate|]. destruct pars as [|p pars]; [congruence|].
    assert (Hp : In p (nvars (d0 :: N))) by (apply E2; left; auto).
    apply (linked_step _ (nd_M d) _ (v_name p)).
    + unfold ncpms. rewrite map_app. apply in_app_iff. right. left. auto.
    + rewrite E1. left. auto.
    + rewrite E1. right. left. auto.
    + apply (linked_incl (ncpms (d0 :: N))); auto. apply (IH d0 N); auto.
Qed.

(** * Evaluation *)
Definition run_step (a : joint) (d : node) : joint := match nd_F d with None => a | Some F => set_joint a (nd_v d) (F a) end.
Definition run (N : list node) (a : joint) : joint := fold_left run_step N a.
Definition is_det (d : node) : bool := match nd_F d with Some _ => true | None => false end.
Definition dets (N : list node) : list node := filter is_det N.
Definition roots (N : list node) : list node := filter (fun d => negb (is_det d)) N.

Lemma run_snoc N d a : run (N ++ [d]) a = run_step (run N a) d.
Proof. unfold run. rewrite fold_left_app. auto. Qed.
Lemma run_other N a n : ~ In n (map nd_name (dets N)) -> run N a n = a n.
Proof.
  unfold run. revert a. induction N as [|d N IH]; intros a H; cbn [fold_left]; auto. unfold dets in *. cbn [filter] in H. unfold is_det at 1 in H.
  unfold run_step at 2. destruct (nd_F d) as [F|]; cbn in H.
  - rewrite IH by tauto. unfold set_joint. destruct (String.eqb_spec n (v_name (nd_v d))) as [->|]; auto. exfalso. apply H. left. auto.
  - apply IH; auto.
Qed.
Lemma dets_in N n : In n (map nd_name (dets N)) -> In n (map nd_name N).
Proof. intros H. apply in_map_iff in H as (d & <- & H). apply filter_In in H as [H _]. apply in_map; auto. Qed.
Lemma run_step_other a d n : n <> nd_name d -> run_step a d n = a n.
Proof. intros H. unfold run_step, set_joint. destruct (nd_F d); auto. destruct (String.eqb_spec n (v_name (nd_v d))); auto. exfalso. auto. Qed.
Lemma run_fix N a d F : topo N -> In d N -> nd_F d = Some F -> run N a (nd_name d) = F (run N a).
Proof.
  intros T. revert d F. induction T as [|N e T IH OK Fr]; intros d F Hd HF; [destruct Hd|]. rewrite run_snoc.
  assert (HE : forall f, (forall p, In p (nvars N) -> run_step (run N a) e (v_name p) = run N a (v_name p)) -> f = run_step (run N a) e -> forall p, In p (nvars N) -> f (v_name p) = run N a (v_name p)) by (intros; subst; auto).
  assert (KE : forall p, In p (nvars N) -> run_step (run N a) e (v_name p) = run N a (v_name p)).
  { intros p Hp. apply run_step_other. intros X. apply Fr. rewrite <- X, <- names_nvars. apply in_map; auto. }
  apply in_app_iff in Hd as [Hd|[->|[]]].
  - rewrite run_step_other by (intros X; apply Fr; rewrite <- X; apply in_map; auto). rewrite (IH d F Hd HF).
    destruct (node_at N d T Hd) as (N1 & N2 & EN & (pars & _ & I & _ & _ & _ & _ & _ & _ & G) & _). rewrite HF in G. destruct G as (G & _).
    apply G. intros p Hp. symmetry. apply KE. rewrite EN. unfold nvars. rewrite map_app. apply in_app_iff. left. apply I; auto.
  - destruct OK as (pars & _ & I & _ & _ & _ & _ & _ & _ & G). rewrite HF in G. destruct G as (G & _).
    transitivity (F (run N a)); [|apply G; intros p Hp; symmetry; apply KE; apply I; auto].
    unfold run_step. rewrite HF. unfold set_joint, nd_name. rewrite String.eqb_refl. auto.
Qed.
Lemma run_range N a : topo N -> states_in (nvars (roots N)) a -> states_in (nvars N) (run N a).
Proof.
  induction 1 as [|N d T IH OK Fr]; intros H; [intros p []|]. unfold roots in H. rewrite filter_app in H. cbn [filter] in H.
  assert (H0 : states_in (nvars (roots N)) a). { intros p Hp. apply H. unfold nvars. rewrite map_app. apply in_app_iff. auto. }
  specialize (IH H0). intros p Hp. rewrite run_snoc. unfold nvars in Hp. rewrite map_app in Hp. apply in_app_iff in Hp as [Hp|[<-|[]]].
  - rewrite run_step_other; [apply IH; auto|]. intros X. apply Fr. rewrite <- X, <- names_nvars. apply in_map; auto.
  - destruct OK as (pars & _ & I & _ & _ & _ & _ & _ & _ & G). unfold run_step. destruct (nd_F d) as [F|] eqn:E.
    + unfold set_joint. rewrite String.eqb_refl. apply G. intros q Hq. apply IH, I; auto.
    + rewrite run_other; [|intros X; apply Fr; apply dets_in; auto]. apply H. unfold is_det. rewrite E. cbn [negb].
      unfold nvars. rewrite map_app. apply in_app_iff. right. left. auto.
Qed.
(** a joint state in which every function holds is the evaluation of its roots *)
Lemma run_unique N a b : topo N -> (forall d, In d (roots N) -> b (nd_name d) = a (nd_name d)) ->
  holds N b -> forall d, In d N -> b (nd_name d) = run N a (nd_name d).
Proof.
  induction 1 as [|N d T IH OK Fr]; intros HR HF e He; [destruct He|]. unfold roots in HR. rewrite filter_app in HR.
  assert (IH' : forall e, In e N -> b (nd_name e) = run N a (nd_name e)).
  { apply IH; [intros x Hx; apply HR, in_app_iff; auto|intros x F Hx; apply HF, in_app_iff; auto]. }
  rewrite run_snoc. apply in_app_iff in He as [He|[<-|[]]].
  - rewrite run_step_other; auto. intros X. apply Fr. rewrite <- X. apply in_map; auto.
  - destruct OK as (pars & _ & I & _ & _ & _ & _ & _ & _ & G). unfold run_step. destruct (nd_F d) as [F|] eqn:E.
    + unfold set_joint. fold (nd_name d). rewrite String.eqb_refl. rewrite (HF d F) by (auto; apply in_app_iff; right; left; auto). apply G.
      intros p Hp. apply I, in_map_iff in Hp as (x & <- & Hx). fold (nd_name x). auto.
    + rewrite run_other; [|intros X; apply Fr; apply dets_in; auto]. apply HR. apply in_app_iff. right. unfold is_det. cbn [filter]. rewrite E. left. auto.
Qed.

(** * The product *)
Lemma qprod_zero l : In 0%Qc l -> qprod l = 0%Qc.
Proof. induction l as [|x l IH]; intros H; [destruct H|]. cbn [qprod]. destruct H as [->|H]; [|rewrite IH by auto]; ring. Qed.
Lemma qprod_one {A} (f : A -> Qc) l : (forall x, In x l -> f x = 1%Qc) -> qprod (map f l) = 1%Qc.
Proof. induction l as [|x l IH]; intros H; cbn [map qprod]; auto. rewrite IH, H; [ring|left; auto|intros; apply H; right; auto]. Qed.
Lemma pmass_split N a : pmass (ncpms N) a = (pmass (ncpms (roots N)) a * pmass (ncpms (dets N)) a)%Qc.
Proof.
  unfold pmass, ncpms, roots, dets. induction N as [|d N IH]; cbn [map filter qprod]; [ring|]. rewrite IH. destruct (is_det d); cbn [negb map qprod]; ring.
Qed.
(** where the product is not zero every state is in range and every function holds *)
Lemma pmass_support N b : topo N -> pmass (ncpms N) b <> 0%Qc ->
  states_in (nvars N) b /\ holds N b.
Proof.
  intros T H. assert (NZ : forall d, In d N -> mass (nd_M d) b <> 0%Qc).
  { intros d Hd E. apply H. unfold pmass, ncpms. rewrite map_map. apply qprod_zero. rewrite <- E. apply (in_map (fun x => mass (nd_M x) b)); auto. }
  assert (R : states_in (nvars N) b).
  { intros v Hv. apply in_map_iff in Hv as (d & <- & Hd). destruct (node_at N d T Hd) as (N1 & N2 & _ & (pars & E & _ & _ & _ & W & _ & B & _) & _).
    apply (basic_range (nd_M d)); auto. rewrite E. left; auto. }
  split; auto. intros d F Hd HF. destruct (node_at N d T Hd) as (N1 & N2 & EN & (pars & E & I & _ & _ & W & _ & B & _ & G) & _). rewrite HF in G.
  destruct G as (_ & _ & G & _). apply G; auto.
  intros p [<-|Hp]; apply R; [apply in_map; auto|]. rewrite EN. unfold nvars. rewrite map_app. apply in_app_iff. left. auto.
Qed.
Lemma pmass_run N b : topo N -> states_in (nvars N) b -> holds N b ->
  pmass (ncpms N) b = pmass (ncpms (roots N)) b.
Proof.
  intros T R HF. rewrite pmass_split. assert (X : pmass (ncpms (dets N)) b = 1%Qc); [|rewrite X; ring].
  unfold pmass, ncpms. rewrite map_map. apply qprod_one. intros d Hd. unfold dets in Hd. apply filter_In in Hd as [Hd Hi]. unfold is_det in Hi.
  destruct (nd_F d) as [F|] eqn:E; [|discriminate]. destruct (node_at N d T Hd) as (N1 & N2 & EN & (pars & _ & I & _ & _ & _ & _ & _ & _ & G) & _). rewrite E in G.
  destruct G as (_ & _ & _ & G). apply G; [|intros e F' He; apply HF; rewrite EN; apply in_app_iff; auto|apply HF; auto].
  intros p [<-|Hp]; apply R; [apply in_map; auto|]. rewrite EN. unfold nvars. rewrite map_app. apply in_app_iff. left. auto.
Qed.
Lemma pmass_local N a b : topo N -> (forall v, In v (nvars N) -> a (v_name v) = b (v_name v)) -> pmass (ncpms N) a = pmass (ncpms N) b.
Proof.
  intros T H. unfold pmass. f_equal. apply map_ext_in. intros M HM. apply mass_ext. intros v Hv. apply H. eapply scope_in; eauto.
Qed.

(** a sum with at most one term *)
Lemma marg_det l f (s : joint) : ext f -> NoDup (names l) -> (forall v, In v l -> 0 <= s (v_name v) < nvals v) ->
  forall a, (forall b, (forall n, ~ In n (names l) -> b n = a n) -> (exists v, In v l /\ b (v_name v) <> s (v_name v)) -> f b = 0%Qc) ->
  marg l f a = f (fun n => if mem_str n (names l) then s n else a n).
Proof.
  intros He. induction l as [|v l IH]; intros N R a Z; cbn [marg].
  - apply He. intros n. reflexivity.
  - inversion N as [|? ? N1 N2]; subst.
    assert (OUT : forall x b, (forall n, ~ In n (names l) -> b n = set_joint a v x n) -> forall n, ~ In n (names (v :: l)) -> b n = a n).
    { intros x b Hb n Hn. rewrite Hb by (intros X; apply Hn; right; auto). unfold set_joint. destruct (String.eqb_spec n (v_name v)) as [->|]; auto.
      exfalso. apply Hn. left. auto. }
    assert (E : forall x, marg l f (set_joint a v x) = if x =? s (v_name v) then f (fun n => if mem_str n (names (v :: l)) then s n else a n) else 0%Qc).
    { intros x. destruct (Z.eqb_spec x (s (v_name v))) as [->|Hne].
      - rewrite IH; auto; [|intros w Hw; apply R; right; auto|].
        + apply He. intros n. cbn [names map mem_str existsb]. unfold set_joint. unfold mem_str.
          destruct (String.eqb_spec n (v_name v)) as [->|Hnn]; cbn [orb].
          * destruct (existsb (String.eqb (v_name v)) (names l)); auto.
          * reflexivity.
        + intros b Hb (w & Hw & Hd). apply Z; [eapply OUT; eauto|]. exists w. split; [right|]; auto.
      - apply marg_zero. intros b Hb. apply Z; [eapply OUT; eauto|]. exists v. split; [left; auto|]. rewrite Hb by auto.
        unfold set_joint. rewrite String.eqb_refl. auto. }
    rewrite (map_ext _ _ E). apply qsum_single; [apply zrange_NoDup|]. apply zrange_In. apply R. left; auto.
Qed.

(** the sum over all functional nodes but one *)
Lemma bn_marg_dets N vh L a : topo N -> Permutation (vh :: L) (nvars (dets N)) -> states_in (nvars (roots N)) a ->
  marg L (pmass (ncpms N)) a = if a (v_name vh) =? run N a (v_name vh) then pmass (ncpms (roots N)) (run N a) else 0%Qc.
Proof.
  intros T P RA. assert (ND := topo_nodup N T).
  assert (NDd : NoDup (names (vh :: L))).
  { apply (Permutation_NoDup (l := names (nvars (dets N)))); [apply Permutation_sym, Permutation_map; auto|]. rewrite names_nvars.
    unfold dets. clear -ND. induction N as [|d N IH]; cbn; auto. cbn in ND. inversion ND as [|? ? N1 N2]; subst. destruct (is_det d); cbn; auto.
    constructor; auto. intros X. apply N1. apply in_map_iff in X as (e & E & X). apply filter_In in X as [X _]. rewrite <- E. apply in_map; auto. }
  assert (INL : forall v, In v (vh :: L) -> exists d F, In d N /\ nd_F d = Some F /\ v = nd_v d).
  { intros v Hv. apply (Permutation_in _ P), in_map_iff in Hv as (d & <- & Hd). unfold dets in Hd. apply filter_In in Hd as [Hd Hi]. unfold is_det in Hi.
    destruct (nd_F d) as [F|] eqn:E; [|discriminate]. eauto. }
  assert (RR := run_range N a T RA).
  assert (ROOT : forall b d, (forall n, ~ In n (names L) -> b n = a n) -> In d (roots N) -> b (nd_name d) = a (nd_name d)).
  { intros b d Hb Hd. apply Hb. intros X. apply in_map_iff in X as (v & E & Hv). destruct (INL v (or_intror Hv)) as (e & F & He & HF & ->).
    apply filter_In in Hd as [Hd Hi]. assert (X := nvars_inj N (nd_v e) (nd_v d) ND (in_map _ _ _ He) (in_map _ _ _ Hd) E).
    assert (e = d); [|subst; unfold is_det in Hi; rewrite HF in Hi; discriminate].
    clear -ND He Hd E. unfold nd_name in *. revert ND He Hd. induction N as [|x N IH]; intros ND He Hd; [destruct He|]. cbn in ND. inversion ND as [|? ? N1 N2]; subst.
    destruct He as [->|He], Hd as [->|Hd]; auto; exfalso; apply N1; [rewrite E|rewrite <- E]; apply (in_map (fun d => v_name (nd_v d))); auto. }
  assert (ZERO : forall b, (forall n, ~ In n (names L) -> b n = a n) -> (exists d, In d N /\ b (nd_name d) <> run N a (nd_name d)) -> pmass (ncpms N) b = 0%Qc).
  { intros b Hb (d & Hd & Hne). destruct (Qc_eq_dec (pmass (ncpms N) b) 0%Qc) as [|NZ]; auto. exfalso. apply Hne.
    destruct (pmass_support N b T NZ) as [R HF]. apply (run_unique N a b T); auto. }
  rewrite (marg_det L (pmass (ncpms N)) (run N a)).
  - set (c := fun n => if mem_str n (names L) then run N a n else a n).
    assert (Hc : forall n, ~ In n (names L) -> c n = a n).
    { intros n Hn. unfold c. destruct (mem_str n (names L)) eqn:X; auto. apply mem_str_In in X. tauto. }
    assert (Hvh : c (v_name vh) = a (v_name vh)) by (apply Hc; inversion NDd; auto).
    destruct (Z.eqb_spec (a (v_name vh)) (run N a (v_name vh))) as [E|E].
    + assert (ALL : forall d, In d N -> c (nd_name d) = run N a (nd_name d)).
      { intros d Hd. destruct (mem_str (nd_name d) (names L)) eqn:X; [unfold c; rewrite X; auto|].
        assert (NL : ~ In (nd_name d) (names L)) by (intros Y; apply mem_str_In in Y; congruence). rewrite Hc by auto.
        destruct (String.eqb_spec (nd_name d) (v_name vh)) as [->|Hne]; auto. symmetry. apply run_other.
        intros Y. rewrite <- names_nvars in Y. apply (Permutation_in _ (Permutation_sym (Permutation_map v_name P))) in Y.
        cbn [map] in Y. destruct Y as [Y|Y]; auto. }
      assert (AV : forall v, In v (nvars N) -> c (v_name v) = run N a (v_name v)).
      { intros v Hv. apply in_map_iff in Hv as (d & <- & Hd). apply ALL; auto. }
      assert (EXT : forall d F, In d N -> nd_F d = Some F -> c (nd_name d) = F c).
      { intros d F Hd HF. rewrite ALL by auto. rewrite (run_fix N a d F T Hd HF).
        destruct (node_at N d T Hd) as (N1 & N2 & EN & (pars & _ & I & _ & _ & _ & _ & _ & _ & G) & _). rewrite HF in G. destruct G as (G & _).
        apply G. intros p Hp. symmetry. apply AV. rewrite EN. unfold nvars. rewrite map_app. apply in_app_iff. left. apply I; auto. }
      rewrite pmass_run; auto; [|intros v Hv; rewrite AV by auto; apply RR; auto].
      unfold pmass. f_equal. apply map_ext_in. intros M HM. apply in_map_iff in HM as (d & <- & Hd). apply filter_In in Hd as [Hd Hi].
      apply mass_ext. intros v Hv. apply AV. eapply scope_in; [exact T|apply in_map; exact Hd|exact Hv].
    + apply ZERO; auto. destruct (INL vh (or_introl eq_refl)) as (d & F & Hd & HF & Ev). exists d. split; auto. unfold nd_name. rewrite <- Ev, Hvh. auto.
  - apply pmass_ext.
  - inversion NDd; auto.
  - intros v Hv. apply RR. destruct (INL v (or_intror Hv)) as (d & F & Hd & _ & ->). apply in_map; auto.
  - intros b Hb (v & Hv & Hne). apply ZERO; auto. destruct (INL v (or_intror Hv)) as (d & F & Hd & _ & ->). eauto.
Qed.

Lemma nodup_filter (h : node -> bool) N : NoDup (map nd_name N) -> NoDup (map nd_name (filter h N)).
Proof.
  induction N as [|d N IH]; cbn; intros ND; auto. inversion ND as [|? ? N1 N2]; subst. destruct (h d); cbn; auto.
  constructor; auto. intros X. apply N1. apply in_map_iff in X as (e & E & X). apply filter_In in X as [X _]. rewrite <- E. apply in_map; auto.
Qed.
Lemma run_holds N a : topo N -> holds N (run N a).
Proof. intros T d F Hd HF. apply run_fix; auto. Qed.
Lemma split_perm N : Permutation (nvars N) (nvars (roots N) ++ nvars (dets N)).
Proof.
  induction N as [|d N IH]; cbn; auto. unfold roots, dets in *. cbn [filter]. destruct (is_det d); cbn [negb nvars map app]; auto.
  apply Permutation_cons_app. auto.
Qed.

(** variable elimination on such a network *)
Lemma bn_elim N vh ord a0 : topo N -> In vh (nvars (dets N)) -> Permutation (vh :: ord) (nvars N) ->
  states_in (nvars (roots N)) a0 -> (forall d, In d (roots N) -> 0 < mass (nd_M d) (run N a0))%Qc ->
  exists M, variable_elim (ncpms N) ord = Ok M /\ c_vars M = [vh] /\ wf_cpm M /\
    forall a, mass M a = marg (nvars (roots N)) (fun b => if b (v_name vh) =? run N b (v_name vh) then pmass (ncpms (roots N)) (run N b) else 0%Qc) a.
Proof.
  intros T Hh P RA PA. assert (ND := topo_nodup N T). assert (ND' : NoDup (names (vh :: ord))).
  { apply (Permutation_NoDup (l := names (nvars N))); [apply Permutation_sym, Permutation_map; auto|]. rewrite names_nvars. auto. }
  assert (I : incl ord (nvars N)) by (intros v Hv; apply (Permutation_in _ P); right; auto).
  assert (NDo : NoDup (names ord)) by (inversion ND'; auto).
  assert (NE : exists d0 N', N = d0 :: N') by (destruct N as [|d0 N']; [destruct Hh|eauto]). destruct NE as (d0 & N' & EN).
  assert (V := topo_ve_ok N ord T I NDo).
  assert (AL : alive (ncpms N) (run N a0)).
  { intros M HM. apply in_map_iff in HM as (d & <- & Hd). destruct (node_at N d T Hd) as (N1 & N2 & EN' & (pars & E & IP & _ & _ & W & HP & _ & PP & G) & _).
    split; [|split].
    - intros b. rewrite mass_if. apply qsum_nonneg. intros q Hq. apply in_map_iff in Hq as ([r p] & <- & HI). cbn [fst snd].
      assert (0 <= p)%Qc; [|destruct (row_match _ r b); [auto|apply Qcle_refl]]. apply in_combine_r in HI. unfold weights in HI.
      destruct (c_p (nd_M d)) as [|x l] eqn:X; [|apply PP; auto]. apply in_map_iff in HI as (y & <- & _). discriminate.
    - destruct (nd_F d) as [F|] eqn:X.
      + destruct G as (_ & _ & _ & G). rewrite G; [reflexivity| | |].
        * assert (R := run_range N a0 T RA). intros p [<-|Hp]; apply R; [apply in_map; auto|]. rewrite EN'. unfold nvars. rewrite map_app. apply in_app_iff. auto.
        * intros e F' He HF. apply run_fix; auto. rewrite EN'. apply in_app_iff. auto.
        * apply run_fix; auto.
      + apply PA. unfold roots. apply filter_In. split; auto. unfold is_det. rewrite X. auto.
    - rewrite E. discriminate. }
  assert (EX : exists M, variable_elim (ncpms N) ord = Ok M).
  { apply (variable_elim_iff (ncpms N) ord (run N a0) V); auto; [rewrite EN; discriminate|].
    intros v Hv. exists (v_name vh). split; [|inversion ND'; auto].
    apply (linked_trans _ _ (nd_name d0)); [eapply topo_linked; eauto|]. apply linked_sym. eapply topo_linked; eauto. apply (Permutation_in _ P). left; auto. }
  destruct EX as [M HM]. exists M. split; auto. destruct (variable_elim_ok (ncpms N) ord M V HM) as (W & HMs & HV & _).
  split; [|split; auto].
  - assert (X : forall w, In w (c_vars M) <-> w = vh).
    { intros w. rewrite HV. split.
      - intros ((M' & H1 & H2) & H3). assert (Hw := scope_in N M' w T H1 H2). apply (Permutation_in _ (Permutation_sym P)) in Hw as [<-|Hw]; tauto.
      - intros ->. assert (H := Permutation_in _ P (or_introl eq_refl)). split.
        + apply in_map_iff in H as (d & <- & Hd). exists (nd_M d). split; [apply in_map; auto|]. destruct (node_vars N d T Hd) as (pars & -> & _). left; auto.
        + intros Y. inversion ND' as [|? ? Y1 _]; subst. apply Y1. apply (in_map v_name); auto. }
    destruct W as (WN & _). destruct (c_vars M) as [|u [|w l]].
    + exfalso. apply (X vh). auto.
    + f_equal. apply X. left; auto.
    + exfalso. assert (u = vh) by (apply X; left; auto). assert (w = vh) by (apply X; right; left; auto). subst. cbn in WN. inversion WN as [|? ? Y _]. apply Y. left; auto.
  - intros a. rewrite HMs. apply in_split in Hh as (D1 & D2 & ED). assert (PL : Permutation (vh :: D1 ++ D2) (nvars (dets N))) by (rewrite ED; apply Permutation_middle).
    assert (PO : Permutation ord (nvars (roots N) ++ (D1 ++ D2))).
    { apply (Permutation_cons_inv (a := vh)). rewrite P, split_perm, <- PL. apply Permutation_sym, Permutation_middle. }
    rewrite (marg_perm ord (nvars (roots N) ++ (D1 ++ D2))); auto; [|apply pmass_ext]. rewrite marg_app.
    apply marg_ext_range; [rewrite names_nvars; apply nodup_filter; auto|].
    intros b Hb. apply bn_marg_dets; auto.
Qed.
