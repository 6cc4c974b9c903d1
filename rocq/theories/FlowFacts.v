(** Proofs about [max_flow]. *)
From Coq Require Import ZArith List String Bool Arith Lia QArith Qcanon.
From Verif Require Import Py PyFacts Num Vari VariFacts Brc SpecBrc BrcFacts NetSys TransFacts BnbDir McsFacts Flow SpecFlow Lp.
Import ListNotations.
Open Scope string_scope.
Open Scope Z_scope.
Open Scope list_scope.

(** * Flows *)
Definition share (n : string) (uv : string * string) (w : Qc) : Qc :=
  ((if String.eqb (fst uv) n then w else 0) - (if String.eqb (snd uv) n then w else 0))%Qc.
Lemma net_cons e g w phi n : net (e :: g) (w :: phi) n = (share n (fst e) w + net g phi n)%Qc.
Proof. reflexivity. Qed.
Lemma net_nil phi n : net [] phi n = 0%Qc.
Proof. reflexivity. Qed.
Lemma net_app g phi g' phi' n : List.length g = List.length phi -> net (g ++ g') (phi ++ phi') n = (net g phi n + net g' phi' n)%Qc.
Proof.
  revert phi. induction g as [|e g IH]; intros [|w phi] L; try discriminate L; cbn [app].
  - rewrite net_nil. ring.
  - rewrite !net_cons, IH by (injection L; auto). ring.
Qed.
Lemma net_fresh g phi n : ~ is_node g n -> net g phi n = 0%Qc.
Proof.
  revert phi. induction g as [|e g IH]; intros [|w phi] H; auto.
  rewrite net_cons, IH by (intros (e' & I & J); apply H; exists e'; split; auto; right; auto).
  unfold share. destruct (String.eqb (fst (fst e)) n) eqn:E1.
  { exfalso. apply H. exists e. split; [left; auto|]. left. apply String.eqb_eq. auto. }
  destruct (String.eqb (snd (fst e)) n) eqn:E2.
  { exfalso. apply H. exists e. split; [left; auto|]. right. apply String.eqb_eq. auto. }
  ring.
Qed.
Lemma qsum_one (ns : list string) (m : string) (w : Qc) : NoDup ns -> In m ns -> qsum (map (fun n => if String.eqb m n then w else 0%Qc) ns) = w.
Proof.
  induction ns as [|n ns IH]; intros N I; [destruct I|]. inversion N as [|? ? N1 N2]; subst. cbn [map qsum]. destruct (String.eqb_spec m n) as [->|D].
  - rewrite qsum_map_zero; [ring|]. intros y Hy. destruct (String.eqb_spec n y) as [->|]; auto. contradiction.
  - destruct I as [->|I]; [congruence|]. rewrite IH by auto. ring.
Qed.
Lemma net_total ns g phi : NoDup ns -> (forall e, In e g -> In (fst (fst e)) ns /\ In (snd (fst e)) ns) -> qsum (map (net g phi) ns) = 0%Qc.
Proof.
  intros N. revert phi. induction g as [|e g IH]; intros [|w phi] H; try (apply qsum_map_zero; auto; fail).
  rewrite (qsum_map_ext _ (fun n => (share n (fst e) w + net g phi n)%Qc)) by auto.
  rewrite qsum_map_plus, IH by (intros; apply H; right; auto). destruct (H e (or_introl eq_refl)) as [H1 H2].
  unfold share. rewrite (qsum_map_ext _ (fun n => ((if String.eqb (fst (fst e)) n then w else 0) + (-(1)) * (if String.eqb (snd (fst e)) n then w else 0))%Qc)).
  2:{ intros n _. ring. }
  rewrite qsum_map_plus, qsum_map_scale, !qsum_one by auto. ring.
Qed.
Lemma net_sink g phi s t v : s <> t -> sends g phi s t v -> net g phi t = (- v)%Qc.
Proof.
  intros D (_ & C & V). set (ns := nodup string_dec (s :: t :: map (fun e => fst (fst e)) g ++ map (fun e => snd (fst e)) g)).
  assert (T : qsum (map (net g phi) ns) = 0%Qc).
  { apply net_total; [apply NoDup_nodup|]. intros e I. split; apply nodup_In; right; right; apply in_app_iff; [left|right].
    - apply (in_map (fun e => fst (fst e))). auto.
    - apply (in_map (fun e => snd (fst e))). auto. }
  rewrite (qsum_map_ext _ (fun n => ((if String.eqb s n then v else 0) + (if String.eqb t n then net g phi t else 0))%Qc)) in T.
  - rewrite qsum_map_plus, !qsum_one in T; try (apply NoDup_nodup); try (apply nodup_In; cbn; auto). qc_lra.
  - intros n _. destruct (String.eqb_spec s n) as [E1|E1]; destruct (String.eqb_spec t n) as [E2|E2]; try congruence.
    + subst n. rewrite V. ring.
    + subst n. ring.
    + rewrite C by auto. ring.
Qed.

Lemma app_inv_length {A} (a b c d : list A) : List.length a = List.length c -> a ++ b = c ++ d -> a = c /\ b = d.
Proof.
  revert c. induction a as [|x a IH]; intros [|y c] L E; try discriminate L; auto. cbn [app] in E. injection E as -> E.
  destruct (IH c) as [-> ->]; auto.
Qed.

Section Sink.
Variables (g : cgraph) (o d T : string) (c : Qc).
Hypothesis (Ho : o <> d) (HT : ~ is_node g T) (HoT : o <> T) (HdT : d <> T).

Lemma to_sink phi v : sends g phi o d v -> fits c v -> sends (g ++ [(d, T, c)]) (phi ++ [v]) o T v.
Proof.
  intros S F. assert (K := net_sink _ _ _ _ _ Ho S). destruct S as (A & C & V). assert (L := A). apply Forall2_length in L.
  split; [apply Forall2_app; auto|]. split.
  - intros n N1 N2. rewrite net_app by auto. rewrite net_cons, net_nil. unfold share. cbn [fst snd].
    destruct (String.eqb_spec T n) as [->|_]; [congruence|]. destruct (String.eqb_spec d n) as [<-|N3].
    + rewrite K. ring.
    + rewrite C by auto. ring.
  - rewrite net_app by auto. rewrite net_cons, net_nil, V. unfold share. cbn [fst snd].
    destruct (String.eqb_spec d o) as [E|_]; [congruence|]. destruct (String.eqb_spec T o) as [E|_]; [congruence|]. ring.
Qed.
Lemma from_sink phi w v : List.length g = List.length phi -> sends (g ++ [(d, T, c)]) (phi ++ [w]) o T v -> sends g phi o d v /\ v = w /\ fits c w.
Proof.
  intros L S. assert (K := net_sink _ _ _ _ _ HoT S). destruct S as (A & C & V).
  apply Forall2_app_inv_l in A as (p1 & p2 & A1 & A2 & E). assert (L1 := A1). apply Forall2_length in L1.
  assert (X : p1 = phi /\ p2 = [w]). { apply app_inv_length in E as [E1 E2]; [auto|congruence]. }
  destruct X as [-> ->]. inversion A2 as [|? ? ? ? F _]; subst. cbn [snd] in F.
  rewrite net_app, net_cons, net_nil in K by auto. rewrite (net_fresh g phi T) in K by auto. unfold share in K. cbn [fst snd] in K.
  rewrite String.eqb_refl in K. destruct (String.eqb_spec d T) as [E2|_]; [congruence|].
  assert (V' : net g phi o = net (g ++ [(d, T, c)]) (phi ++ [w]) o).
  { rewrite net_app, net_cons, net_nil by auto. unfold share. cbn [fst snd].
    destruct (String.eqb_spec d o) as [E2|_]; [congruence|]. destruct (String.eqb_spec T o) as [E2|_]; [congruence|]. ring. }
  split; [|split; [qc_lra|auto]]. split; auto. split; auto. intros n N1 N2. destruct (String.eqb_spec n T) as [->|N3]; [apply net_fresh; auto|].
  specialize (C n N1 N3). rewrite net_app, net_cons, net_nil in C by auto. unfold share in C. cbn [fst snd] in C.
  destruct (String.eqb_spec d n) as [E2|_]; [congruence|]. destruct (String.eqb_spec T n) as [E2|_]; [congruence|]. qc_lra.
Qed.
End Sink.

Lemma net_scale c g phi n : net g (map (Qcmult c) phi) n = (c * net g phi n)%Qc.
Proof.
  revert phi. induction g as [|e g IH]; intros [|w phi]; try (unfold net; cbn; ring). cbn [map]. rewrite !net_cons, IH. unfold share.
  destruct (String.eqb _ _), (String.eqb _ _); ring.
Qed.
Lemma sends_scale c g phi s t v : (0 <= c)%Qc -> (c <= 1)%Qc -> (forall e, In e g -> (0 <= snd e)%Qc) -> sends g phi s t v ->
  sends g (map (Qcmult c) phi) s t (c * v)%Qc.
Proof.
  intros C0 C1 N (A & B & V). split; [|split].
  - clear B V. induction A as [|e w g phi F A IH]; cbn [map]; constructor; auto.
    + assert (E0 : (0 <= snd e)%Qc) by (apply N; left; auto). destruct F as [F1 F2].
      assert (X : (c * w <= c * snd e)%Qc) by (rewrite !(Qcmult_comm c); apply Qcmult_le_compat_r; auto).
      assert (Y : (c * - snd e <= c * w)%Qc) by (rewrite !(Qcmult_comm c); apply Qcmult_le_compat_r; auto).
      assert (Z : (c * snd e <= 1 * snd e)%Qc) by (apply Qcmult_le_compat_r; auto).
      replace (c * - snd e)%Qc with (- (c * snd e))%Qc in Y by ring. rewrite Qcmult_1_l in Z.
      split; set (p := (c * snd e)%Qc) in *; set (q := (c * w)%Qc) in *; clearbody p q; qc_lra.
    + apply IH. intros; apply N; right; auto.
  - intros n N1 N2. rewrite net_scale, B by auto. ring.
  - rewrite net_scale, V. auto.
Qed.

(** * The graph *)
Lemma simple_mid g1 u v c g2 : simple (g1 ++ (u, v, c) :: g2) -> existsb (same_ends u v) g1 = false.
Proof.
  induction g1 as [|[[a b] e] g1 IH]; auto. cbn [app simple existsb]. intros (_ & H & S). apply orb_false_iff. split; auto.
  destruct (H u v c) as [H1 H2]; [apply in_app_iff; right; left; auto|]. unfold same_ends. cbn [fst snd].
  destruct (String.eqb_spec a u), (String.eqb_spec b v), (String.eqb_spec a v), (String.eqb_spec b u); subst; cbn; auto; exfalso; auto.
Qed.
Lemma add_edge_new g u v c : simple (g ++ [(u, v, c)]) -> add_edge g u v c = g ++ [(u, v, c)].
Proof. intros S. unfold add_edge. rewrite (simple_mid _ _ _ _ _ S). auto. Qed.
Lemma simple_app g1 g2 : simple (g1 ++ g2) -> simple g1.
Proof.
  induction g1 as [|[[a b] c] g1 IH]; cbn [app simple]; auto. intros (H1 & H2 & H3). split; auto. split; auto.
  intros u v w I. apply (H2 u v w). apply in_app_iff. auto.
Qed.

Section Net.
Variables (edges : dict (string * string)) (varis : dict variable).
Hypothesis (He : edges_ok edges varis) (Hc : caps_ok varis) (Hv : wf_varis varis).

Lemma comp_state x k s : In x (space (comps_of varis)) -> In (k, s) x ->
  exists v cs, dfind varis k = Some v /\ v_values v = map VNum cs /\ 0 <= s < Z.of_nat (List.length cs) /\
    nth_error cs (Z.to_nat s) = Some (cap varis k s) /\ (0 <= cap varis k s)%Qc.
Proof.
  intros Hx I. destruct (space_states varis x Hv Hx) as [[_ St] K].
  assert (Ik : In k (keys varis)). { rewrite <- K. apply in_map_iff. exists (k, s). auto. }
  apply in_map_iff in Ik as ([k' v] & <- & Iv). cbn [fst] in *. destruct (St k' v Iv) as (s' & E & R).
  assert (E2 : dfind x k' = Some s). { apply In_dfind; auto. rewrite K. apply Hv. }
  assert (s' = s) by congruence. subst s'. destruct (Hc k' v Iv) as (cs & Ev & P & _). exists v, cs.
  assert (Fv : dfind varis k' = Some v) by (apply In_dfind; auto; apply Hv). split; auto. split; auto.
  unfold nvals in R. rewrite Ev, map_length in R. split; auto.
  destruct (nth_error cs (Z.to_nat s)) as [c|] eqn:Ec; [|apply nth_error_None in Ec; lia].
  assert (C : cap varis k' s = c). { unfold cap. rewrite Fv, Ev, nth_error_map, Ec. auto. }
  rewrite C. split; auto. apply P. apply nth_error_In in Ec. auto.
Qed.

Lemma comp_ends k : In k (keys varis) -> exists u v, dfind edges k = Some (u, v) /\ ends edges k = (u, v) /\ u <> v /\ u <> "new_t" /\ v <> "new_t".
Proof. intros I. destruct (proj1 He k I) as (u & v & E & R). exists u, v. unfold ends. rewrite E. auto. Qed.

Lemma network_simple x : NoDup (keys x) -> incl (keys x) (keys varis) -> simple (network edges varis x).
Proof.
  unfold network. induction x as [|[k s] x IH]; intros N I; cbn [map simple]; auto. cbn [fst snd].
  inversion N as [|? ? N1 N2]; subst. assert (Ik : In k (keys varis)) by (apply I; left; auto).
  destruct (comp_ends k Ik) as (u & v & E & -> & D & _). split; auto. split; [|apply IH; auto; intros z Hz; apply I; right; auto].
  intros a b c J. apply in_map_iff in J as ([k' s'] & J1 & J2). cbn [fst snd] in J1.
  assert (Ik' : In k' (keys x)) by (apply in_map_iff; exists (k', s'); auto).
  assert (Kv : In k' (keys varis)) by (apply I; right; auto).
  destruct (comp_ends k' Kv) as (u' & v' & E' & X & D' & _). rewrite X in J1. injection J1 as -> -> _.
  split; intros [-> ->]; assert (k = k') by (eapply (proj2 He); eauto); subst; contradiction.
Qed.
Lemma network_node x n : incl (keys x) (keys varis) -> is_node (network edges varis x) n -> n <> "new_t".
Proof.
  intros I (e & J & H). apply in_map_iff in J as ([k s] & <- & J). cbn [fst snd] in H.
  destruct (comp_ends k) as (u & v & _ & X & _ & U & V). { apply I. apply in_map_iff. exists (k, s). auto. }
  rewrite X in H. cbn [fst snd] in H. destruct H as [<-|<-]; auto.
Qed.
Lemma simple_snoc g u v c : simple g -> u <> v -> ~ is_node g v -> simple (g ++ [(u, v, c)]).
Proof.
  intros S D N. induction g as [|[[a b] e] g IH]; cbn [app simple]; [split; auto; split; auto; intros ? ? ? []|].
  destruct S as (S1 & S2 & S3). split; auto. split.
  - intros p q r I. apply in_app_iff in I as [I|[E|[]]]; [eauto|]. injection E as <- <- <-.
    split; intros [E1 E2]; apply N; exists (a, b, e); (split; [left; auto|]); cbn [fst snd]; auto.
  - apply IH; auto. intros (e' & I & J). apply N. exists e'. split; auto. right. auto.
Qed.

Lemma flow_graph_ok x : In x (space (comps_of varis)) -> flow_graph x edges varis = Ok (network edges varis x).
Proof.
  intros Hx. destruct (space_states varis x Hv Hx) as [_ K].
  assert (X : forall xs g, incl xs x -> simple (g ++ network edges varis xs) ->
    foldM (fun g kx => uv <- dget edges (fst kx) ;; v <- dget varis (fst kx) ;; w <- py_index (v_values v) (snd kx) ;; c <- num w ;;
      Ok (add_edge g (fst uv) (snd uv) c)) xs g = Ok (g ++ network edges varis xs)).
  { induction xs as [|[k s] xs IH]; intros g I S; cbn [foldM network map]; [rewrite app_nil_r; auto|]. cbn [fst snd].
    assert (Ix : In (k, s) x) by (apply I; left; auto). destruct (comp_state x k s Hx Ix) as (v & cs & Fv & Ev & R & Nc & _).
    destruct (comp_ends k) as (a & b & Ea & Eb & _). { rewrite <- K. apply in_map_iff. exists (k, s). auto. }
    rewrite (proj2 (dget_ok _ _ _) Ea), (proj2 (dget_ok _ _ _) Fv). cbn [bind]. rewrite Ev.
    assert (P : py_index (map VNum cs) s = Ok (VNum (cap varis k s))).
    { destruct (py_index_nth2 (map VNum cs) s) as (w & P1 & P2); [rewrite map_length; auto|]. rewrite P1. rewrite nth_error_map, Nc in P2. cbn in P2. congruence. }
    rewrite P. cbn [bind num fst snd]. cbn [network map] in S. cbn [fst snd] in S. rewrite Eb in S.
    change (map (fun ks => (ends edges (fst ks), cap varis (fst ks) (snd ks))) xs) with (network edges varis xs) in *.
    rewrite add_edge_new.
    - rewrite IH; [rewrite <- app_assoc, Eb; auto|intros z Hz; apply I; right; auto|]. rewrite <- app_assoc. auto.
    - apply (simple_app _ (network edges varis xs)). rewrite <- app_assoc. auto. }
  apply (X x []); [intros z Hz; auto|]. apply network_simple; rewrite K; [apply Hv|intros z Hz; auto].
Qed.

(** * The rule *)
Lemma dfind_dset_if {A} (d : dict A) k a k' : dfind (dset d k a) k' = if String.eqb k' k then Some a else dfind d k'.
Proof. destruct (String.eqb_spec k' k) as [->|D]; [apply dfind_dset_eq|apply dfind_dset_neq; auto]. Qed.
Lemma foldM_dset (h : string * Z -> option Z) (step : dict Z -> string * Z -> res (dict Z)) xs : NoDup (keys xs) ->
  (forall kx, In kx xs -> forall m, step m kx = Ok (match h kx with Some z => dset m (fst kx) z | None => m end)) -> forall m,
  exists r, foldM step xs m = Ok r /\ (NoDup (keys m) -> NoDup (keys r)) /\
    forall k, dfind r k = match dfind xs k with Some s => match h (k, s) with Some z => Some z | None => dfind m k end | None => dfind m k end.
Proof.
  induction xs as [|[k s] xs IH]; intros N H m; cbn [foldM]; [exists m; split; auto|].
  inversion N as [|? ? N1 N2]; subst. rewrite H by (left; auto). cbn [fst]. cbn [bind].
  destruct (IH N2 (fun kx I => H kx (or_intror I)) (match h (k, s) with Some z => dset m k z | None => m end)) as (r & E & Nr & F).
  exists r. split; auto. split.
  - intros Nm. apply Nr. destruct (h (k, s)); auto. apply dset_nodup. auto.
  - intros k'. rewrite F. cbn [dfind]. destruct (String.eqb_spec k' k) as [->|D].
    + assert (X : dfind xs k = None) by (apply dfind_none; auto). rewrite X. destruct (h (k, s)) as [z|]; auto. rewrite dfind_dset_if, String.eqb_refl. auto.
    + assert (X : dfind (match h (k, s) with Some z => dset m k z | None => m end) k' = dfind m k').
      { destruct (h (k, s)); auto. rewrite dfind_dset_if. destruct (String.eqb_spec k' k); [contradiction|]. auto. }
      rewrite X. auto.
Qed.
End Net.

Lemma net_ends g g' phi n : map fst g = map fst g' -> net g phi n = net g' phi n.
Proof.
  revert g' phi. induction g as [|e g IH]; intros [|e' g'] phi E; try discriminate E; auto. injection E as E1 E2.
  destruct phi as [|w phi]; auto. rewrite !net_cons, E1, (IH g') by auto. auto.
Qed.
Lemma Forall2_nth_error {A B} (P : A -> B -> Prop) l l' : List.length l = List.length l' ->
  (forall i a b, nth_error l i = Some a -> nth_error l' i = Some b -> P a b) -> Forall2 P l l'.
Proof.
  revert l'. induction l as [|a l IH]; intros [|b l'] L H; try discriminate L; constructor.
  - apply (H O); auto.
  - apply IH; auto. intros i x y Hx Hy. apply (H (S i)); auto.
Qed.
Lemma Forall2_nth_inv {A B} (P : A -> B -> Prop) l l' i a b : Forall2 P l l' -> nth_error l i = Some a -> nth_error l' i = Some b -> P a b.
Proof.
  intros H. revert i. induction H as [|x y l l' Hx H IH]; intros [|i]; cbn [nth_error]; try discriminate; [congruence|apply IH].
Qed.

Lemma qmax_fits a b c : (0 <= a)%Qc -> (0 <= b)%Qc -> a = 0%Qc \/ b = 0%Qc -> (fits c (a - b)%Qc <-> (qmax a b <= c)%Qc).
Proof.
  intros A B H. unfold fits, qmax. destruct (qc_leb a b) eqn:E; [apply qc_leb_le in E|apply qc_leb_gt in E]; destruct H as [-> | ->]; split; intros; try split; qc_lra || (destruct H; qc_lra).
Qed.
Lemma qmax_pos a b : (0 <= a)%Qc -> (0 <= b)%Qc -> a = 0%Qc \/ b = 0%Qc -> ((0 < qmax a b)%Qc <-> (a - b)%Qc <> 0%Qc).
Proof.
  intros A B H. unfold qmax. destruct (qc_leb a b) eqn:E; [apply qc_leb_le in E|apply qc_leb_gt in E]; destruct H as [-> | ->]; split.
  - intros P X. qc_lra.
  - intros P. destruct (Qclt_le_dec 0 b); auto. exfalso. apply P. qc_lra.
  - intros P X. qc_lra.
  - intros P. exfalso. apply P. qc_lra.
  - intros P X. qc_lra.
  - intros P. qc_lra.
  - intros P X. qc_lra.
  - intros P. qc_lra.
Qed.

Section Main.
Variables (edges : dict (string * string)) (varis : dict variable) (o d : string) (target : Qc).
Variable nx_flow : cgraph -> string -> string -> res (Qc * (string -> string -> Qc)).
Hypothesis (He : edges_ok edges varis) (Hc : caps_ok varis) (Hv : wf_varis varis) (Hn : nx_flow_ok nx_flow).
Hypothesis (Ho : exists k, In k (keys varis) /\ (fst (ends edges k) = o \/ snd (ends edges k) = o)) (Hod : o <> d) (Hd : d <> "new_t") (Ht : (0 <= target)%Qc).

Let N := network edges varis.
Let G x := N x ++ [(d, "new_t", target)].

Lemma keys_incl x : In x (space (comps_of varis)) -> NoDup (keys x) /\ incl (keys x) (keys varis).
Proof. intros Hx. destruct (space_states varis x Hv Hx) as [_ K]. rewrite K. split; [apply Hv|intros z Hz; auto]. Qed.
Lemma fresh_t x : In x (space (comps_of varis)) -> ~ is_node (N x) "new_t".
Proof. intros Hx I. destruct (keys_incl x Hx) as [_ K]. apply (network_node edges varis He x _ K) in I. congruence. Qed.
Lemma o_node x : In x (space (comps_of varis)) -> is_node (N x) o.
Proof.
  intros Hx. destruct Ho as (k & Ik & E). destruct (space_states varis x Hv Hx) as [_ K]. rewrite <- K in Ik.
  apply in_map_iff in Ik as ([k' s] & <- & I). cbn [fst] in E. exists (ends edges k', cap varis k' s). split; auto.
  apply in_map_iff. exists (k', s). auto.
Qed.
Lemma o_not_t x : In x (space (comps_of varis)) -> o <> "new_t".
Proof. intros Hx E. apply (fresh_t x Hx). rewrite <- E. apply o_node; auto. Qed.
Lemma caps_pos x e : In x (space (comps_of varis)) -> In e (N x) -> (0 <= snd e)%Qc.
Proof.
  intros Hx I. apply in_map_iff in I as ([k s] & <- & I). cbn [fst snd]. destruct (comp_state varis Hc Hv x k s Hx I) as (_ & _ & _ & _ & _ & _ & P). auto.
Qed.

Lemma flow_call x : In x (space (comps_of varis)) -> exists val f, nx_flow (G x) o "new_t" = Ok (val, f) /\
  (forall k s, In (k, s) x -> let a := f (fst (ends edges k)) (snd (ends edges k)) in let b := f (snd (ends edges k)) (fst (ends edges k)) in
     (0 <= a)%Qc /\ (0 <= b)%Qc /\ (a = 0%Qc \/ b = 0%Qc)) /\
  sends (N x) (signed f (N x)) o d val /\ (val <= target)%Qc /\
  (forall phi v, sends (N x) phi o d v -> (v <= val)%Qc \/ (target <= val)%Qc).
Proof.
  intros Hx. assert (T := fresh_t x Hx). assert (OT := o_not_t x Hx). destruct (keys_incl x Hx) as [Nk Ik].
  destruct (Hn (G x) o "new_t") as (val & f & E & P & S & M).
  - apply simple_snoc; auto. apply network_simple; auto.
  - intros e I. apply in_app_iff in I as [I|[<-|[]]]; [apply (caps_pos x); auto|auto].
  - destruct (o_node x Hx) as (e & I & J). exists e. split; auto. apply in_app_iff. auto.
  - exists (d, "new_t", target). split; [apply in_app_iff; right; left; auto|]. cbn. auto.
  - auto.
  - exists val, f. split; auto. split; [|].
    { intros k s I. cbv zeta. apply (P _ _ (cap varis k s)). apply in_app_iff. left. rewrite <- surjective_pairing. apply in_map_iff. exists (k, s). auto. }
    assert (S' : sends (G x) (signed f (N x) ++ [(f d "new_t" - f "new_t" d)%Qc]) o "new_t" val).
    { unfold G in S. unfold signed in S at 1. rewrite map_app in S. exact S. }
    apply from_sink in S' as (S1 & S2 & S3); auto; [|unfold signed; rewrite map_length; auto].
    split; auto. split; [destruct S3; rewrite S2; auto|].
    intros phi v V. destruct (Qclt_le_dec val target) as [L|L]; auto. left.
    destruct (Qclt_le_dec target v) as [L2|L2].
    + (* scale the flow down to the target *)
      exfalso. assert (V0 : (0 < v)%Qc) by qc_lra. assert (Vn : v <> 0%Qc) by (intros X; rewrite X in V0; qc_lra).
      assert (I0 : (0 < / v)%Qc). { destruct (Qclt_le_dec 0 (/ v)); auto. exfalso.
        assert (X : (/ v * v <= 0 * v)%Qc) by (apply Qcmult_le_compat_r; auto; qc_lra). rewrite (Qcmult_comm (/ v)), Qcmult_inv_r, Qcmult_0_l in X by auto. qc_lra. }
      set (c := (target * / v)%Qc).
      assert (C : (c * v = target)%Qc) by (unfold c; rewrite <- Qcmult_assoc, (Qcmult_comm (/ v)), Qcmult_inv_r by auto; ring).
      assert (C0 : (0 <= c)%Qc). { unfold c. replace 0%Qc with (0 * / v)%Qc by ring. apply Qcmult_le_compat_r; auto. apply Qclt_le_weak; auto. }
      assert (C1 : (c <= 1)%Qc). { destruct (Qclt_le_dec 1 c) as [X|]; auto. exfalso.
        assert (Y : (1 * v <= c * v)%Qc) by (apply Qcmult_le_compat_r; apply Qclt_le_weak; auto). rewrite C in Y. qc_lra. }
      assert (V2 := sends_scale c _ _ _ _ _ C0 C1 (fun e => caps_pos x e Hx) V). rewrite C in V2.
      assert (F : fits target target) by (split; qc_lra).
      assert (X := M _ _ (to_sink _ _ _ "new_t" target Hod T OT Hd _ _ V2 F)). qc_lra.
    + destruct (Qclt_le_dec val v) as [L3|]; auto. exfalso.
      destruct (Qclt_le_dec v 0) as [V0|V0].
      * (* the zero flow *)
        assert (O1 : (0 <= 1)%Qc) by qc_lra.
        assert (Z := sends_scale 0 _ _ _ _ _ (Qcle_refl 0) O1 (fun e => caps_pos x e Hx) V). rewrite Qcmult_0_l in Z.
        assert (F : fits target 0) by (split; [qc_lra|auto]).
        assert (X := M _ _ (to_sink _ _ _ "new_t" target Hod T OT Hd _ _ Z F)). qc_lra.
      * assert (F : fits target v) by (split; [qc_lra|auto]).
        assert (X := M _ _ (to_sink _ _ _ "new_t" target Hod T OT Hd _ _ V F)). qc_lra.
Qed.

Lemma signed_nth f x i k s : nth_error x i = Some (k, s) ->
  nth_error (signed f (N x)) i = Some (f (fst (ends edges k)) (snd (ends edges k)) - f (snd (ends edges k)) (fst (ends edges k)))%Qc.
Proof. intros E. unfold signed, N, network. rewrite map_map, nth_error_map, E. reflexivity. Qed.

Lemma flow_rule_ok x f : In x (space (comps_of varis)) ->
  (forall k s, In (k, s) x -> let a := f (fst (ends edges k)) (snd (ends edges k)) in let b := f (snd (ends edges k)) (fst (ends edges k)) in
     (0 <= a)%Qc /\ (0 <= b)%Qc /\ (a = 0%Qc \/ b = 0%Qc)) ->
  Forall2 (fun e w => fits (snd e) w) (N x) (signed f (N x)) ->
  exists r, flow_rule f x edges varis = Ok r /\ carries varis x (signed f (N x)) r.
Proof.
  intros Hx Hf F. destruct (keys_incl x Hx) as [Nk Ik]. cbv zeta in Hf.
  set (kf := fun k => qmax (f (fst (ends edges k)) (snd (ends edges k))) (f (snd (ends edges k)) (fst (ends edges k)))).
  set (cs := fun k => match dfind varis k with Some v => match mapM num (v_values v) with Ok l => l | Err _ => [] end | None => [] end).
  set (h := fun ks : string * Z => if qc_ltb 0%Qc (kf (fst ks)) then
              match find_idx (fun c => qc_leb (kf (fst ks)) c) (cs (fst ks)) with Some i => Some (Z.of_nat i) | None => None end else None).
  assert (Cs : forall k s, In (k, s) x -> exists v, dfind varis k = Some v /\ mapM num (v_values v) = Ok (cs k) /\
    0 <= s < Z.of_nat (List.length (cs k)) /\ (forall z, 0 <= z < Z.of_nat (List.length (cs k)) -> nth_error (cs k) (Z.to_nat z) = Some (cap varis k z))).
  { intros k s I. destruct (comp_state varis Hc Hv x k s Hx I) as (v & l & Fv & Ev & R & Nc & _). exists v. split; auto.
    assert (X : mapM num (v_values v) = Ok l). { rewrite Ev. clear. induction l as [|c l IH]; cbn [map mapM]; auto. cbn [num bind]. rewrite IH. auto. }
    assert (Y : cs k = l) by (unfold cs; rewrite Fv, X; auto). rewrite Y. split; auto. split; auto.
    intros z Hz. unfold cap. rewrite Fv, Ev, nth_error_map. destruct (nth_error l (Z.to_nat z)) eqn:E; auto. apply nth_error_None in E. lia. }
  assert (Fk : forall k s, In (k, s) x -> (kf k <= cap varis k s)%Qc).
  { intros k s I. destruct (Hf k s I) as (A & B & C). unfold kf. apply qmax_fits; auto. apply In_nth_error in I as [i I].
    assert (E1 : nth_error (N x) i = Some (ends edges k, cap varis k s)) by (unfold N, network; rewrite nth_error_map, I; auto).
    exact (Forall2_nth_inv _ _ _ _ _ _ F E1 (signed_nth f x i k s I)). }
  destruct (foldM_dset h (fun m kx =>
    uv <- dget edges (fst kx) ;;
    let kf := qmax (f (fst uv) (snd uv)) (f (snd uv) (fst uv)) in
    if qc_ltb 0%Qc kf then
      v <- dget varis (fst kx) ;; cs <- mapM num (v_values v) ;;
      match find_idx (fun c => qc_leb kf c) cs with Some i => Ok (dset m (fst kx) (Z.of_nat i)) | None => Err TypeError end
    else Ok m) x Nk) with (m := @nil (string * Z)) as (r & E & Nr & D).
  { intros [k s] I m. cbn [fst]. destruct (comp_ends edges varis He k) as (u & v & E1 & E2 & _). { apply Ik. apply in_map_iff. exists (k, s). auto. }
    rewrite (proj2 (dget_ok _ _ _) E1). cbn [bind]. cbn zeta. unfold h. cbn [fst]. unfold kf. rewrite E2. cbn [fst snd].
    destruct (qc_ltb 0 (qmax (f u v) (f v u))) eqn:P; auto. destruct (Cs k s I) as (va & V1 & V2 & V3 & V4).
    rewrite (proj2 (dget_ok _ _ _) V1). cbn [bind]. rewrite V2. cbn [bind].
    destruct (find_idx (fun c => qc_leb (qmax (f u v) (f v u)) c) (cs k)) eqn:X; auto. exfalso.
    assert (Y := proj1 (find_idx_none _ _) X (cap varis k s)). rewrite (proj2 (qc_leb_le _ _)) in Y.
    - discriminate Y. apply (nth_error_In _ (Z.to_nat s)). auto.
    - assert (Z := Fk k s I). unfold kf in Z. rewrite E2 in Z. auto. }
  exists r. split; auto. split; [apply Nr; constructor|]. split.
  - intros k I. destruct (dfind r k) as [z|] eqn:X; [|apply dfind_none in X; contradiction]. rewrite D in X.
    destruct (dfind x k) eqn:Y; [apply found_key in Y; auto|discriminate X].
  - intros i k s w E1 E2. rewrite (signed_nth f x i k s E1) in E2. injection E2 as <-. assert (I := nth_error_In _ _ E1).
    rewrite D, (In_dfind _ _ _ Nk I). destruct (Hf k s I) as (A & B & C). destruct (Cs k s I) as (va & V1 & V2 & V3 & V4).
    unfold h. cbn [fst]. destruct (qc_ltb 0 (kf k)) eqn:P.
    + destruct (find_idx (fun c => qc_leb (kf k) c) (cs k)) as [j|] eqn:X.
      * apply find_idx_some in X as (c & X1 & X2 & X3). apply qc_ltb_lt in P. apply qc_leb_le in X2. split; [apply qmax_pos; auto|].
        assert (Lj : (j < List.length (cs k))%nat) by (apply nth_error_Some; congruence).
        assert (Js : (j <= Z.to_nat s)%nat).
        { destruct (le_lt_dec j (Z.to_nat s)); auto. exfalso. assert (Y := X3 (Z.to_nat s) _ l (V4 s V3)). apply qc_leb_gt in Y. assert (Z := Fk k s I). qc_lra. }
        split; [lia|]. assert (Cj := V4 (Z.of_nat j) ltac:(lia)). rewrite Nat2Z.id in Cj. split.
        -- apply qmax_fits; auto. fold (kf k). congruence.
        -- intros z' Hz Fz. apply qmax_fits in Fz; auto. fold (kf k) in Fz. assert (Y := X3 (Z.to_nat z') _ ltac:(lia) (V4 z' ltac:(lia))). apply qc_leb_gt in Y. qc_lra.
      * exfalso. assert (Y : qc_leb (kf k) (cap varis k s) = false) by (apply (proj1 (find_idx_none _ _) X); apply (nth_error_In _ (Z.to_nat s)); auto).
        apply qc_leb_gt in Y. assert (Z := Fk k s I). qc_lra.
    + apply qc_ltb_ge in P. cbn [dfind]. destruct (Qc_eq_dec (f (fst (ends edges k)) (snd (ends edges k)) - f (snd (ends edges k)) (fst (ends edges k)))%Qc 0%Qc) as [|Z]; auto.
      exfalso. apply qmax_pos in Z; auto. fold (kf k) in Z. qc_lra.
Qed.

Theorem max_flow_ok x : In x (space (comps_of varis)) ->
  exists val s m, max_flow nx_flow x target o d edges varis = Ok (val, s, m) /\
    (val <= target)%Qc /\ (exists phi, sends (N x) phi o d val) /\ (forall phi v, sends (N x) phi o d v -> (v <= val)%Qc \/ val = target) /\
    ((s = S_ /\ val = target /\ exists r phi, m = Some r /\ sends (N x) phi o d target /\ carries varis x phi r) \/
     (s = F_ /\ (val < target)%Qc /\ m = None)).
Proof.
  intros Hx. destruct (flow_call x Hx) as (val & f & E & P & S & L & M). unfold max_flow.
  rewrite (flow_graph_ok edges varis He Hc Hv x Hx). cbn [bind]. rewrite add_edge_new.
  2:{ destruct (keys_incl x Hx) as [Nk Ik]. apply simple_snoc; auto; [apply network_simple; auto|apply (fresh_t x Hx)]. }
  unfold G, N in E. rewrite E. cbn [bind].
  assert (M' : forall phi v, sends (N x) phi o d v -> (v <= val)%Qc \/ val = target).
  { intros phi v V. destruct (M phi v V) as [|Y]; auto. right. qc_lra. }
  destruct (qc_leb target val) eqn:Q.
  - apply qc_leb_le in Q. assert (Ev : val = target) by qc_lra.
    destruct (flow_rule_ok x f Hx P (proj1 S)) as (r & R1 & R2). rewrite R1. cbn [bind]. exists val, S_, (Some r).
    split; auto. split; auto. split; [eauto|]. split; auto. left. split; auto. split; auto. exists r, (signed f (N x)). rewrite <- Ev. auto.
  - apply qc_leb_gt in Q. exists val, F_, None. split; auto. split; auto. split; [eauto|]. split; auto.
Qed.

(** a vector at or above the rule sends the same flow *)
Lemma carries_sound x y phi r v : In x (space (comps_of varis)) -> In y (space (comps_of varis)) -> sends (N x) phi o d v -> carries varis x phi r ->
  (forall k z, dfind r k = Some z -> z <= coord y k) -> sends (N y) phi o d v.
Proof.
  intros Hx Hy (A & B & V) (_ & _ & R) L.
  destruct (space_states varis x Hv Hx) as [_ Kx]. destruct (space_states varis y Hv Hy) as [_ Ky].
  assert (K : keys y = keys x) by congruence.
  assert (E : map fst (N y) = map fst (N x)).
  { unfold N, network. rewrite !map_map. cbn [fst]. unfold keys in K. rewrite <- (map_map fst (ends edges)), <- (map_map fst (ends edges) x), K. auto. }
  assert (Ln : List.length y = List.length x) by (apply (f_equal (@List.length string)) in K; unfold keys in K; rewrite !map_length in K; auto).
  split; [|split].
  - assert (La := A). apply Forall2_length in La. unfold N, network in La. rewrite map_length in La.
    apply Forall2_nth_error; [unfold N, network; rewrite map_length; congruence|].
    intros i e w E1 E2. unfold N, network in E1. rewrite nth_error_map in E1. destruct (nth_error y i) as [[k s']|] eqn:Ei; [|discriminate E1].
    injection E1 as <-. cbn [fst snd].
    assert (Xi : exists s, nth_error x i = Some (k, s)).
    { assert (Z := f_equal (fun l => nth_error l i) K). unfold keys in Z. cbn beta in Z. rewrite !nth_error_map, Ei in Z.
      destruct (nth_error x i) as [[k2 s]|]; [|discriminate Z]. injection Z as ->. eauto. }
    destruct Xi as [s Xi]. assert (Q := R i k s w Xi E2). assert (Iy := nth_error_In _ _ Ei).
    destruct (comp_state varis Hc Hv y k s' Hy Iy) as (va & cs & Fv & Ev & Rs & Nc & P).
    destruct (dfind r k) as [z|] eqn:Dz.
    + destruct Q as (_ & Z1 & Z2 & _). specialize (L k z Dz).
      assert (Cy : coord y k = s'). { unfold coord. rewrite (In_dfind y k s'); auto. rewrite Ky. apply Hv. }
      rewrite Cy in L. destruct (Hc k va) as (cs' & Ev' & _ & Mono); [apply dfind_In; auto|].
      assert (cs' = cs). { rewrite Ev in Ev'. clear -Ev'. revert cs' Ev'. induction cs as [|c cs IH]; intros [|c' cs'] X; try discriminate X; auto. injection X as -> X. f_equal. auto. }
      subst cs'. assert (Nz : nth_error cs (Z.to_nat z) = Some (cap varis k z)).
      { unfold cap. rewrite Fv, Ev, nth_error_map. destruct (nth_error cs (Z.to_nat z)) eqn:X; auto. apply nth_error_None in X. lia. }
      assert (Zl : (Z.to_nat z <= Z.to_nat s')%nat) by lia. assert (Le := Mono _ _ _ _ Zl Nz Nc). destruct Z2 as [Z2 Z3]. split; qc_lra.
    + rewrite Q. split; qc_lra.
  - intros n N1 N2. rewrite (net_ends _ _ phi n E). auto.
  - rewrite (net_ends _ _ phi o E). auto.
Qed.

Lemma flow_sys_ok phi : (forall x, In x (space (comps_of varis)) -> (phi x = true <-> exists w v, sends (N x) w o d v /\ (target <= v)%Qc)) ->
  sys_ok varis phi (flow_sysfun nx_flow target o d edges varis).
Proof.
  intros Hp.
  assert (Dec : forall x, In x (space (comps_of varis)) -> exists val s m, max_flow nx_flow x target o d edges varis = Ok (val, s, m) /\
    ((s = S_ /\ phi x = true /\ exists r w, m = Some r /\ sends (N x) w o d target /\ carries varis x w r) \/ (s = F_ /\ phi x = false /\ m = None))).
  { intros x Hx. destruct (max_flow_ok x Hx) as (val & s & m & E & L & W & M & C). exists val, s, m. split; auto.
    destruct C as [(-> & -> & r & w & Em & Sw & Cr)|(-> & Lt & ->)].
    - left. split; auto. split; [apply Hp; auto; exists w, target; split; auto; apply Qcle_refl|]. eauto.
    - right. split; auto. split; auto. destruct (phi x) eqn:P; auto. apply Hp in P as (w & v & S & T); auto.
      destruct (M w v S) as [X|X]; exfalso; [qc_lra|]. rewrite X in Lt. qc_lra. }
  split.
  - intros x y Hx Hy Le Px. destruct (Dec x Hx) as (val & s & m & _ & [(_ & _ & r & w & _ & Sw & Cr)|(_ & P & _)]); [|congruence].
    apply Hp; auto. exists w, target. split; [|apply Qcle_refl]. apply (carries_sound x y w r); auto.
    intros k z Ez. destruct Cr as (_ & I & R). assert (Ik : In k (keys x)) by (apply I; apply found_key in Ez; auto).
    assert (Ky : In k (keys varis)) by (rewrite <- (proj2 (space_states varis x Hv Hx)); auto). specialize (Le k Ky).
    apply in_map_iff in Ik as ([k' s'] & <- & Ik). cbn [fst] in *. assert (Cx : coord x k' = s').
    { unfold coord. rewrite (In_dfind x k' s'); auto. apply (keys_incl x Hx). }
    apply In_nth_error in Ik as [i Ik].
    assert (Li : (i < List.length w)%nat). { destruct Sw as [A _]. apply Forall2_length in A. unfold N, network in A. rewrite map_length in A. rewrite <- A. apply nth_error_Some. congruence. }
    destruct (nth_error w i) as [wi|] eqn:Ew; [|apply nth_error_None in Ew; lia]. assert (Q := R i k' s' wi Ik Ew). rewrite Ez in Q. lia.
  - intros x Hx. destruct (Dec x Hx) as (val & s & m & E & C). unfold flow_sysfun. rewrite E. exists val, m.
    split. { destruct C as [(-> & -> & _)|(-> & -> & _)]; auto. }
    intros r -> Nr. destruct C as [(-> & P & r' & w & Em & Sw & Cr)|(_ & _ & Em)]; [|discriminate Em]. injection Em as <-.
    destruct (space_states varis x Hv Hx) as [_ Kx]. split; [split; [apply Cr|rewrite <- Kx; apply Cr]|]. split; [|congruence]. intros _. split.
    + unfold sat_s. apply forallb_forall. intros [k z] I. apply In_dfind in I; [|apply Cr]. cbn [fst snd]. apply Z.leb_le.
      destruct Cr as (_ & Ir & R). assert (Ik : In k (keys x)) by (apply Ir; apply found_key in I; auto).
      apply in_map_iff in Ik as ([k' s'] & <- & Ik). cbn [fst] in *. assert (Cx : coord x k' = s').
      { unfold coord. rewrite (In_dfind x k' s'); auto. apply (keys_incl x Hx). }
      apply In_nth_error in Ik as [i Ik].
      assert (Li : (i < List.length w)%nat). { destruct Sw as [A _]. apply Forall2_length in A. unfold N, network in A. rewrite map_length in A. rewrite <- A. apply nth_error_Some. congruence. }
      destruct (nth_error w i) as [wi|] eqn:Ew; [|apply nth_error_None in Ew; lia]. assert (Q := R i k' s' wi Ik Ew). rewrite I in Q. lia.
    + intros y Hy Sy. apply Hp; auto. exists w, target. split; [|apply Qcle_refl]. apply (carries_sound x y w r); auto.
      intros k z Ez. unfold sat_s in Sy. rewrite forallb_forall in Sy. apply dfind_In in Ez. specialize (Sy _ Ez). apply Z.leb_le in Sy. auto.
Qed.
End Main.
