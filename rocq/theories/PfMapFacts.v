(** Proofs about the failure probabilities of the roads. *)
From Coq Require Import ZArith List String Bool QArith Qcanon Lia Lqa.
From Verif Require Import Py PyFacts Num PfMap SpecMap PfMapGeom.
Import ListNotations.
Open Scope string_scope.
Open Scope Z_scope.
Open Scope list_scope.

(** * Covariances *)
Lemma combine_map_l {A B C} (f : A -> B) (l : list A) (w : list C) : combine (map f l) w = map (fun p => (f (fst p), snd p)) (combine l w).
Proof. revert w. induction l as [|a l IH]; intros [|c w]; cbn; auto. rewrite IH. reflexivity. Qed.
Lemma combine_fst {A B} (l : list A) (w : list B) : List.length w = List.length l -> map fst (combine l w) = l.
Proof. revert w. induction l as [|a l IH]; intros [|b w]; cbn; intros H; try discriminate; auto. rewrite IH; auto. Qed.
Lemma combine_snd {A B} (l : list A) (w : list B) : List.length w = List.length l -> map snd (combine l w) = w.
Proof. revert w. induction l as [|a l IH]; intros [|b w]; cbn; intros H; try discriminate; auto. rewrite IH; auto. Qed.
Lemma dot_swap u w : dot u w = dot w u.
Proof. unfold dot. revert w. induction u as [|a u IH]; intros [|b w]; cbn; auto. rewrite IH. ring. Qed.

Definition zrow (c : Qc) (z : list (string * Qc * Qc)) (kv : string * Qc) : Qc :=
  qsum (map (fun p => (if String.eqb (fst kv) (fst (fst p)) then snd kv else c) * snd p)%Qc z).
Lemma zrow_out c z k v : ~ In k (map (fun p => fst (fst p)) z) -> zrow c z (k, v) = (c * qsum (map snd z))%Qc.
Proof.
  induction z as [|[[k1 v1] w1] z IH]; cbn; intros H; [ring|]. destruct (String.eqb_spec k k1) as [->|N]; [tauto|].
  unfold zrow in IH. cbn [fst snd] in IH. rewrite IH; [ring|tauto].
Qed.
Lemma zrow_in c z k v w : NoDup (map (fun p => fst (fst p)) z) -> In (k, v, w) z -> zrow c z (k, v) = (c * qsum (map snd z) + (v - c) * w)%Qc.
Proof.
  induction z as [|[[k1 v1] w1] z IH]; cbn [map]; intros N I; [destruct I|]. inversion N as [|? ? N1 N2]; subst. destruct I as [I|I].
  - injection I as -> -> ->. pose proof (zrow_out c z k v N1) as Z. unfold zrow in *. cbn [fst snd map] in *. rewrite String.eqb_refl.
    change (qsum (?x :: ?l)) with (x + qsum l)%Qc. rewrite Z. ring.
  - unfold zrow in *. cbn [fst snd map] in *. destruct (String.eqb_spec k k1) as [->|Nk].
    + destruct N1. apply in_map_iff. exists (k1, v, w). auto.
    + change (qsum (?x :: ?l)) with (x + qsum l)%Qc. rewrite (IH N2 I). ring.
Qed.
Lemma quad_form c (es : list (string * Qc)) w : List.length w = List.length es -> NoDup (keys es) ->
  quad (map (fun e => map (fun e2 => if String.eqb (fst e) (fst e2) then snd e else c) es) es) w =
    (c * (qsum w * qsum w) + qsum (map (fun p => (snd (fst p) - c) * (snd p * snd p)) (combine es w)))%Qc.
Proof.
  intros L N. unfold quad. rewrite map_map. set (z := combine es w).
  assert (R : forall e, dot (map (fun e2 => if String.eqb (fst e) (fst e2) then snd e else c) es) w = zrow c z e).
  { intros e. unfold dot, zrow, z. rewrite combine_map_l, map_map. reflexivity. }
  rewrite (map_ext _ _ R). rewrite dot_swap. unfold dot. rewrite combine_map_l, map_map. cbn [fst snd]. fold z.
  assert (Nz : NoDup (map (fun p => fst (fst p)) z)).
  { rewrite <- map_map. unfold z. rewrite combine_fst; auto. }
  assert (W : qsum (map snd z) = qsum w) by (unfold z; rewrite combine_snd; auto).
  rewrite (qsum_map_ext _ (fun p => c * qsum w * snd p + (snd (fst p) - c) * (snd p * snd p))%Qc).
  - rewrite qsum_map_plus, qsum_map_scale, W. ring.
  - intros [[k v] wi] I. cbn [fst snd]. rewrite (zrow_in c z k v wi Nz I), W. ring.
Qed.
Lemma quad_pos c (es : list (string * Qc)) w : List.length w = List.length es -> NoDup (keys es) -> (0 <= c)%Qc -> (forall k v, In (k, v) es -> (c <= v)%Qc) ->
  (0 <= quad (map (fun e => map (fun e2 => if String.eqb (fst e) (fst e2) then snd e else c) es) es) w)%Qc.
Proof.
  intros L N C H. rewrite quad_form; auto. assert (A : (0 <= c * (qsum w * qsum w))%Qc) by (apply qcmult_nonneg; auto; apply qc_sq_pos).
  assert (B : (0 <= qsum (map (fun p => (snd (fst p) - c) * (snd p * snd p)) (combine es w)))%Qc).
  { apply qsum_nonneg. intros x Hx. apply in_map_iff in Hx as ([[k v] wi] & <- & I). apply in_combine_l in I. cbn [fst snd].
    apply qcmult_nonneg; [|apply qc_sq_pos]. specialize (H k v I). qc_lra. }
  qc_lra.
Qed.

(** * Failure probabilities *)
Section Edges.
Variables (np_sqrt np_log : Qc -> Qc) (norm_cdf : Qc -> Qc -> Qc -> Qc) (gm_ln_sa : Qc -> Qc -> Qc) (gm_std_al : Qc -> Qc) (gm_std_ep : Qc -> Qc -> Qc).
Notation edge_dist := (cal_edge_dist np_sqrt np_log norm_cdf gm_ln_sa gm_std_al gm_std_ep).

Lemma rrup_inv f epi rr : rrup np_sqrt f epi = Ok rr ->
  Forall2 (fun kr kd => fst kd = fst kr /\ exists a b, dfind (pm_nodes f) (r_from (snd kr)) = Some a /\ dfind (pm_nodes f) (r_to (snd kr)) = Some b /\
    shortest_distance np_sqrt a b epi = Ok (snd kd)) (pm_roads f) rr.
Proof.
  intros H. unfold rrup in H. apply mapM_inv in H. eapply Forall2_impl; [|exact H]. intros [k r] [k' d] E. cbn [fst snd] in *.
  destruct (dget (pm_nodes f) (r_from r)) as [a|] eqn:Ea; [|discriminate]. cbn [bind] in E.
  destruct (dget (pm_nodes f) (r_to r)) as [b|] eqn:Eb; [|discriminate]. cbn [bind] in E.
  destruct (shortest_distance np_sqrt a b epi) as [d'|] eqn:Ed; [|discriminate]. cbn [bind] in E. injection E as <- <-.
  split; auto. exists a, b. apply dget_ok in Ea, Eb. auto.
Qed.
Lemma Forall2_keys {A B} (l : dict A) (l' : dict B) (R : string * A -> string * B -> Prop) :
  Forall2 (fun x y => fst y = fst x /\ R x y) l l' -> keys l' = keys l.
Proof. induction 1 as [|[k a] [k' b] l l' [E _] _ IH]; cbn; auto. cbn in E. subst. unfold keys in IH. rewrite IH. reflexivity. Qed.

Definition road_pf (f : mapfile) (e : quake) (kr : string * road) (k : string) (pf m var : Qc) : Prop :=
  k = fst kr /\ exists a b fr med R,
    dfind (pm_nodes f) (r_from (snd kr)) = Some a /\ dfind (pm_nodes f) (r_to (snd kr)) = Some b /\
    dfind (pm_frag f) (r_frag (snd kr)) = Some fr /\ nth_error (sa_g fr) 2 = Some med /\
    shortest_distance np_sqrt a b (epicentre e) = Ok R /\
    var = (gm_std_al (mw e) * gm_std_al (mw e) + gm_std_ep (mw e) R * gm_std_ep (mw e) R + sa_g_dispersion fr * sa_g_dispersion fr)%Qc /\
    m = (np_log med - gm_ln_sa (mw e) R)%Qc /\ pf = norm_cdf 0%Qc m (np_sqrt var).

Lemma py_index2 {A} (l : list A) x : py_index l 2 = Ok x <-> nth_error l 2 = Some x.
Proof.
  destruct l as [|a [|b [|c l]]]; cbn; try (split; discriminate). unfold py_index. cbn [Z.ltb Z.compare].
  replace ((0 <=? 2) && (2 <? Z.of_nat (List.length (a :: b :: c :: l)))) with true.
  - cbn. split; intros [= ->]; reflexivity.
  - symmetry. apply andb_true_iff. split; auto. apply Z.ltb_lt. cbn [List.length]. lia.
Qed.

Lemma edge_dist_inv f name pf mean cov : NoDup (keys (pm_roads f)) -> edge_dist f name = Ok (pf, mean, cov) ->
  exists e es, dfind (pm_eq f) name = Some e /\ mw_ok (mw e) = true /\
    Forall2 (fun kr en => road_pf f e kr (fst en) (fst (fst (snd en))) (snd (fst (snd en))) (snd (snd en))) (pm_roads f) es /\
    pf = map (fun e => (fst e, fst (fst (snd e)))) es /\ mean = map (fun e => (fst e, snd (fst (snd e)))) es /\
    cov = map (fun en => map (fun e2 => if String.eqb (fst en) (fst e2) then snd (snd en) else (gm_std_al (mw e) * gm_std_al (mw e))%Qc) es) es.
Proof.
  intros N H. unfold cal_edge_dist in H. destruct (dget (pm_eq f) name) as [e|] eqn:Ee; [|discriminate]. cbn [bind] in H.
  destruct (rrup np_sqrt f (epicentre e)) as [rr|] eqn:Er; [|discriminate]. cbn [bind] in H. apply rrup_inv in Er.
  destruct (mw_ok (mw e)) eqn:Em; [|discriminate].
  match type of H with bind ?m _ = _ => destruct m as [es|] eqn:Es; [|discriminate] end. cbn [bind] in H. injection H as <- <- <-.
  apply dget_ok in Ee. exists e, es. split; auto. split; auto. split; [|auto].
  assert (Nr : NoDup (keys rr)).
  { replace (keys rr) with (keys (pm_roads f)); auto. symmetry. eapply Forall2_keys. eapply Forall2_impl; [|exact Er]. intros x y Hxy. exact Hxy. }
  apply mapM_inv in Es.
  assert (F : Forall2 (fun kr en => In kr (pm_roads f) -> road_pf f e kr (fst en) (fst (fst (snd en))) (snd (fst (snd en))) (snd (snd en))) (pm_roads f) es).
  { eapply Forall2_impl; [|exact Es]. intros [k r] [k' [[p m] va]] E I. cbn [fst snd] in *.
    destruct (dget (pm_frag f) (r_frag r)) as [fr|] eqn:Ef; [|discriminate]. cbn [bind] in E.
    destruct (py_index (sa_g fr) 2) as [med|] eqn:Ei; [|discriminate]. cbn [bind] in E.
    destruct (dget rr k) as [R|] eqn:ER; [|discriminate]. cbn [bind] in E. injection E as <- <- <- <-.
    destruct (Forall2_in_l _ _ _ _ Er I) as ([k2 d] & I2 & (K2 & a & b & A & B & S)). cbn [fst snd] in *. subst k2.
    apply dget_ok in ER. rewrite (In_dfind _ _ _ Nr I2) in ER. injection ER as ->.
    apply dget_ok in Ef. apply py_index2 in Ei. split; auto. exists a, b, fr, med, R. repeat split; auto. }
  clear - F. remember (pm_roads f) as l eqn:El. assert (I : forall x, In x l -> In x (pm_roads f)) by (subst; auto). rewrite <- El in *. clear El.
  revert es F. generalize dependent l. intros l _ es F.
  assert (X : forall l0 es, (forall x, In x l0 -> In x l) -> Forall2 (fun kr en => In kr l -> road_pf f e kr (fst en) (fst (fst (snd en))) (snd (fst (snd en))) (snd (snd en))) l0 es ->
     Forall2 (fun kr en => road_pf f e kr (fst en) (fst (fst (snd en))) (snd (fst (snd en))) (snd (snd en))) l0 es).
  { clear. intros l0 es I F. induction F as [|kr en l0 es H F IH]; constructor; [apply H, I; left; auto|apply IH; intros x Hx; apply I; right; auto]. }
  apply X; auto.
Qed.
End Edges.
