(** Proofs about [max_flow_fun]. *)
From Coq Require Import ZArith List String Bool Arith Lia QArith Qcanon.
From Verif Require Import Py PyFacts Num Vari VariFacts Brc SpecBrc BrcFacts NetSys TransFacts BnbDir McsFacts Flow SpecFlow Lp FlowFacts MaxFlow SpecMaxFlow.
Import ListNotations.
Open Scope string_scope.
Open Scope Z_scope.
Open Scope list_scope.

(** * Flows *)
Lemma net_sink2 bi g phi s t v : s <> t -> sends2 bi g phi s t v -> net g phi t = (- v)%Qc.
Proof.
  intros D (_ & C & V). set (ns := nodup string_dec (s :: t :: map (fun e => fst (fst e)) g ++ map (fun e => snd (fst e)) g)).
  assert (T : qsum (map (net g phi) ns) = 0%Qc).
  { apply net_total; [apply NoDup_nodup|]. intros e I. split; apply nodup_In; right; right; apply in_app_iff; [left|right].
    - apply (in_map (fun e => fst (fst e))). auto.
    - apply (in_map (fun e => snd (fst e))). auto. }
  rewrite (qsum_map_ext _ (fun n => ((if String.eqb s n then v else 0) + (if String.eqb t n then net g phi t else 0))%Qc)) in T.
  - rewrite qsum_map_plus, !qsum_one in T; try (apply NoDup_nodup); try (apply nodup_In; cbn; auto). qc_lra.
  - intros n _. destruct (String.eqb_spec s n) as [E1|E1]; destruct (String.eqb_spec t n) as [E2|E2]; try congruence.
    + subst n. rewrite V. ring.
    + subst n. ring.
    + rewrite C by auto. ring.
Qed.

Section Sink.
Variables (bi : bool) (g : cgraph) (o d T : string) (c : Qc).
Hypothesis (Ho : o <> d) (HT : ~ is_node g T) (HoT : o <> T) (HdT : d <> T).

Lemma to_sink2 phi v : sends2 bi g phi o d v -> fits2 bi c v -> sends2 bi (g ++ [(d, T, c)]) (phi ++ [v]) o T v.
Proof.
  intros S F. assert (K := net_sink2 _ _ _ _ _ _ Ho S). destruct S as (A & C & V). assert (L := A). apply Forall2_length in L.
  split; [apply Forall2_app; auto|]. split.
  - intros n N1 N2. rewrite net_app by auto. rewrite net_cons, net_nil. unfold share. cbn [fst snd].
    destruct (String.eqb_spec T n) as [->|_]; [congruence|]. destruct (String.eqb_spec d n) as [<-|N3].
    + rewrite K. ring.
    + rewrite C by auto. ring.
  - rewrite net_app by auto. rewrite net_cons, net_nil, V. unfold share. cbn [fst snd].
    destruct (String.eqb_spec d o) as [E|_]; [congruence|]. destruct (String.eqb_spec T o) as [E|_]; [congruence|]. ring.
Qed.
Lemma from_sink2 phi w v : List.length g = List.length phi -> sends2 bi (g ++ [(d, T, c)]) (phi ++ [w]) o T v -> sends2 bi g phi o d v /\ v = w /\ fits2 bi c w.
Proof.
  intros L S. assert (K := net_sink2 _ _ _ _ _ _ HoT S). destruct S as (A & C & V).
  apply Forall2_app_inv_l in A as (p1 & p2 & A1 & A2 & E). assert (L1 := A1). apply Forall2_length in L1.
  assert (X : p1 = phi /\ p2 = [w]). { apply app_inv_length in E as [E1 E2]; [auto|congruence]. }
  destruct X as [-> ->]. inversion A2 as [|? ? ? ? F _]; subst. cbn [snd] in F.
  rewrite net_app, net_cons, net_nil in K by auto. rewrite (net_fresh g phi T) in K by auto. unfold share in K. cbn [fst snd] in K.
  rewrite String.eqb_refl in K. destruct (String.eqb_spec d T) as [E2|_]; [congruence|].
  assert (V' : net g phi o = net (g ++ [(d, T, c)]) (phi ++ [w]) o).
  { rewrite net_app, net_cons, net_nil by auto. unfold share. cbn [fst snd].
    destruct (String.eqb_spec d o) as [E2|_]; [congruence|]. destruct (String.eqb_spec T o) as [E2|_]; [congruence|]. ring. }
  split; [|split; [qc_lra|auto]]. split; auto. split; auto. intros n N1 N2. destruct (String.eqb_spec n T) as [->|N3]; [apply net_fresh; auto|].
  specialize (C n N1 N3). rewrite net_app, net_cons, net_nil in C by auto. unfold share in C. cbn [fst snd] in C.
  destruct (String.eqb_spec d n) as [E2|_]; [congruence|]. destruct (String.eqb_spec T n) as [E2|_]; [congruence|]. qc_lra.
Qed.
End Sink.

Lemma sends2_scale bi c g phi s t v : (0 <= c)%Qc -> (c <= 1)%Qc -> (forall e, In e g -> (0 <= snd e)%Qc) -> sends2 bi g phi s t v ->
  sends2 bi g (map (Qcmult c) phi) s t (c * v)%Qc.
Proof.
  intros C0 C1 N (A & B & V). split; [|split].
  - clear B V. induction A as [|e w g phi F A IH]; cbn [map]; constructor; auto.
    + assert (E0 : (0 <= snd e)%Qc) by (apply N; left; auto). destruct F as [F1 F2].
      assert (X : (c * w <= c * snd e)%Qc) by (rewrite !(Qcmult_comm c); apply Qcmult_le_compat_r; auto).
      assert (Z : (c * snd e <= 1 * snd e)%Qc) by (apply Qcmult_le_compat_r; auto). rewrite Qcmult_1_l in Z. destruct bi.
      * assert (Y : (c * - snd e <= c * w)%Qc) by (rewrite !(Qcmult_comm c); apply Qcmult_le_compat_r; auto).
        replace (c * - snd e)%Qc with (- (c * snd e))%Qc in Y by ring.
        split; set (p := (c * snd e)%Qc) in *; set (q := (c * w)%Qc) in *; clearbody p q; qc_lra.
      * assert (Y : (c * 0 <= c * w)%Qc) by (rewrite !(Qcmult_comm c); apply Qcmult_le_compat_r; auto). rewrite Qcmult_0_r in Y.
        split; set (p := (c * snd e)%Qc) in *; set (q := (c * w)%Qc) in *; clearbody p q; qc_lra.
    + apply IH. intros; apply N; right; auto.
  - intros n N1 N2. rewrite net_scale, B by auto. ring.
  - rewrite net_scale, V. auto.
Qed.

(** * The graph *)
Lemma simple2_mid bi g1 u v c g2 : simple2 bi (g1 ++ (u, v, c) :: g2) -> existsb (same_edge bi u v) g1 = false.
Proof.
  induction g1 as [|[[a b] e] g1 IH]; auto. cbn [app simple2 existsb]. intros (_ & H & S). apply orb_false_iff. split; auto.
  destruct (H u v c) as [H1 H2]; [apply in_app_iff; right; left; auto|]. unfold same_edge, same_ends. cbn [fst snd].
  destruct bi; destruct (String.eqb_spec a u), (String.eqb_spec b v), (String.eqb_spec a v), (String.eqb_spec b u); subst; cbn; auto; exfalso; auto; apply H2; auto.
Qed.
Lemma put_edge_new bi g u v c : simple2 bi (g ++ [(u, v, c)]) -> put_edge bi g u v c = g ++ [(u, v, c)].
Proof. intros S. unfold put_edge. rewrite (simple2_mid _ _ _ _ _ _ S). auto. Qed.
Lemma simple2_app bi g1 g2 : simple2 bi (g1 ++ g2) -> simple2 bi g1.
Proof.
  induction g1 as [|[[a b] c] g1 IH]; cbn [app simple2]; auto. intros (H1 & H2 & H3). split; auto. split; auto.
  intros u v w I. apply (H2 u v w). apply in_app_iff. auto.
Qed.
Lemma simple2_snoc bi g u v c : simple2 bi g -> u <> v -> ~ is_node g v -> simple2 bi (g ++ [(u, v, c)]).
Proof.
  intros S D N. induction g as [|[[a b] e] g IH]; cbn [app simple2]; [split; auto; split; auto; intros ? ? ? []|].
  destruct S as (S1 & S2 & S3). split; auto. split.
  - intros p q r I. apply in_app_iff in I as [I|[E|[]]]; [eauto|]. injection E as <- <- <-.
    split; [|intros _]; intros [E1 E2]; apply N; exists (a, b, e); (split; [left; auto|]); cbn [fst snd]; auto.
  - apply IH; auto. intros (e' & I & J). apply N. exists e'. split; auto. right. auto.
Qed.

(** flow and signed flow on an edge *)
Definition sg (bi : bool) (f : string -> string -> Qc) (u v : string) : Qc := if bi then (f u v - f v u)%Qc else f u v.
Lemma flow_fits bi f u v c : one_way bi f u v -> (fits2 bi c (sg bi f u v) <-> (flow_on bi f u v <= c)%Qc).
Proof.
  intros [A B]. destruct bi; cbn [sg flow_on].
  - destruct (B eq_refl) as [B1 B2]. apply (qmax_fits (f u v) (f v u) c A B1 B2).
  - unfold fits2. split; [intros [_ H]; auto|auto].
Qed.
Lemma flow_pos bi f u v : one_way bi f u v -> ((0 < flow_on bi f u v)%Qc <-> sg bi f u v <> 0%Qc).
Proof.
  intros [A B]. destruct bi; cbn [sg flow_on].
  - destruct (B eq_refl) as [B1 B2]. apply (qmax_pos (f u v) (f v u) A B1 B2).
  - split; [intros H X; rewrite X in H; qc_lra|]. intros H. apply Qcle_lt_or_eq in A as [A|A]; auto. congruence.
Qed.

Lemma mf_graph_fold bi x edges varis : edges <> [] -> mf_graph bi x edges varis =
  foldM (fun g kuv => v <- dget varis (fst kuv) ;; s <- dget x (fst kuv) ;; w <- py_index (v_values v) s ;; c <- num w ;;
      Ok (put_edge bi g (fst (snd kuv)) (snd (snd kuv)) c)) edges [].
Proof. destruct edges; [contradiction|reflexivity]. Qed.

Section Main.
Variables (bi : bool) (edges : dict (string * string)) (varis : dict variable) (o d : string) (target : Qc).
Variable nx_flow : bool -> cgraph -> string -> string -> res (Qc * (string -> string -> Qc)).
Hypothesis (He : edges2_ok bi edges varis) (Hc : caps_ok varis) (Hv : wf_varis varis) (Hn : nx_flow2_ok nx_flow).
Hypothesis (Ho : exists k u v, In (k, (u, v)) edges /\ (u = o \/ v = o)) (Hod : o <> d) (Hd : d <> "t_new") (Ht : (0 <= target)%Qc).

Let N := network2 edges varis.
Let G x := N x ++ [(d, "t_new", target)].

Lemma ekeys : NoDup (keys edges).
Proof. rewrite (proj1 He). apply Hv. Qed.
Lemma comp_at x k uv : In x (space (comps_of varis)) -> In (k, uv) edges ->
  exists v cs, dfind varis k = Some v /\ dfind x k = Some (coord x k) /\ v_values v = map VNum cs /\ 0 <= coord x k < Z.of_nat (List.length cs) /\
    nth_error cs (Z.to_nat (coord x k)) = Some (cap varis k (coord x k)) /\ (0 <= cap varis k (coord x k))%Qc.
Proof.
  intros Hx I. destruct (space_states varis x Hv Hx) as [_ K]. assert (Ik : In k (keys x)) by (rewrite K, <- (proj1 He); apply (in_map fst) in I; auto).
  apply in_map_iff in Ik as ([k' s] & E & I'). cbn in E. subst k'. assert (D : dfind x k = Some s) by (apply In_dfind; auto; rewrite K; apply Hv).
  assert (C : coord x k = s) by (unfold coord; rewrite D; auto). rewrite C. destruct (comp_state varis Hc Hv x k s Hx I') as (v & cs & H1 & H2 & H3 & H4 & H5). exists v, cs. auto 10.
Qed.
Lemma net_simple x : simple2 bi (N x).
Proof.
  unfold N, network2. assert (ND := ekeys). destruct He as (_ & H1 & H2).
  assert (X : forall l, incl l edges -> NoDup (keys l) -> simple2 bi (map (fun kuv => (snd kuv, cap varis (fst kuv) (coord x (fst kuv)))) l)); [|apply X; auto; intros z Hz; auto].
  induction l as [|[k [u v]] l IH]; intros I D; cbn [map simple2]; auto. cbn [fst snd]. cbn in D. inversion D as [|? ? D1 D2]; subst. split; [apply (H1 k); apply I; left; auto|].
  split; [|apply IH; auto; intros z Hz; apply I; right; auto]. intros a b c J. apply in_map_iff in J as ([k' [u' v']] & J1 & J2). cbn [fst snd] in J1. injection J1 as -> -> _.
  assert (Ik : In k' (keys l)) by (apply (in_map fst) in J2; auto).
  split; [intros [-> ->]|intros B [-> ->]]; apply D1; [rewrite (H2 k k' u v)|rewrite (H2 k k' u v)]; auto; try (apply I; left; auto); [left; apply I; right; auto|right; split; auto; apply I; right; auto].
Qed.
Lemma fresh_t x : ~ is_node (N x) "t_new".
Proof.
  intros (e & I & J). apply in_map_iff in I as ([k [u v]] & <- & I). cbn [fst snd] in J. destruct (proj1 (proj2 He) k u v I) as (_ & A & B). destruct J; congruence.
Qed.
Lemma o_node x : is_node (N x) o.
Proof.
  destruct Ho as (k & u & v & I & E). exists (u, v, cap varis k (coord x k)). split; auto. apply in_map_iff. exists (k, (u, v)). auto.
Qed.
Lemma o_not_t : o <> "t_new".
Proof. destruct Ho as (k & u & v & I & E). destruct (proj1 (proj2 He) k u v I) as (_ & A & B). destruct E; congruence. Qed.
Lemma caps_pos x e : In x (space (comps_of varis)) -> In e (N x) -> (0 <= snd e)%Qc.
Proof. intros Hx I. apply in_map_iff in I as ([k uv] & <- & I). cbn [fst snd]. destruct (comp_at x k uv Hx I) as (_ & _ & _ & _ & _ & _ & _ & P). auto. Qed.

Lemma mf_graph_ok x : In x (space (comps_of varis)) -> mf_graph bi x edges varis = Ok (N x).
Proof.
  intros Hx. rewrite mf_graph_fold by (destruct Ho as (? & ? & ? & I & _); intros X; rewrite X in I; destruct I).
  assert (X : forall es g, incl es edges -> simple2 bi (g ++ map (fun kuv => (snd kuv, cap varis (fst kuv) (coord x (fst kuv)))) es) ->
    foldM (fun g kuv => v <- dget varis (fst kuv) ;; s <- dget x (fst kuv) ;; w <- py_index (v_values v) s ;; c <- num w ;;
      Ok (put_edge bi g (fst (snd kuv)) (snd (snd kuv)) c)) es g = Ok (g ++ map (fun kuv => (snd kuv, cap varis (fst kuv) (coord x (fst kuv)))) es)).
  { induction es as [|[k [u v]] es IH]; intros g I S; cbn [foldM map]; [rewrite app_nil_r; auto|]. cbn [fst snd].
    destruct (comp_at x k (u, v) Hx (I _ (or_introl eq_refl))) as (va & cs & F1 & F2 & Ev & R & Nc & _).
    rewrite (proj2 (dget_ok _ _ _) F1), (proj2 (dget_ok _ _ _) F2). cbn [bind]. rewrite Ev.
    assert (P : py_index (map VNum cs) (coord x k) = Ok (VNum (cap varis k (coord x k)))).
    { destruct (py_index_nth2 (map VNum cs) (coord x k)) as (w & P1 & P2); [rewrite map_length; auto|]. rewrite P1. rewrite nth_error_map, Nc in P2. cbn in P2. congruence. }
    rewrite P. cbn [bind num]. cbn [map fst snd] in S. rewrite put_edge_new.
    - rewrite IH; [rewrite <- app_assoc; auto|intros z Hz; apply I; right; auto|]. rewrite <- app_assoc. auto.
    - apply (simple2_app bi _ (map (fun kuv => (snd kuv, cap varis (fst kuv) (coord x (fst kuv)))) es)). rewrite <- app_assoc. auto. }
  apply (X edges []); [intros z Hz; auto|]. apply net_simple.
Qed.

Lemma flow_call2 x : In x (space (comps_of varis)) -> exists val f, nx_flow bi (G x) o "t_new" = Ok (val, f) /\
  (forall k u v, In (k, (u, v)) edges -> one_way bi f u v) /\
  sends2 bi (N x) (signed2 bi f (N x)) o d val /\ (val <= target)%Qc /\
  (forall phi v, sends2 bi (N x) phi o d v -> (v <= val)%Qc \/ (target <= val)%Qc).
Proof.
  intros Hx. assert (T := fresh_t x). assert (OT := o_not_t).
  destruct (Hn bi (G x) o "t_new") as (val & f & E & P & S & M).
  - apply simple2_snoc; auto. apply net_simple.
  - intros e I. apply in_app_iff in I as [I|[<-|[]]]; [apply (caps_pos x); auto|auto].
  - destruct (o_node x) as (e & I & J). exists e. split; auto. apply in_app_iff. auto.
  - exists (d, "t_new", target). split; [apply in_app_iff; right; left; auto|]. cbn. auto.
  - auto.
  - exists val, f. split; auto. split; [|].
    { intros k u v I. apply (P _ _ (cap varis k (coord x k))). apply in_app_iff. left. apply in_map_iff. exists (k, (u, v)). auto. }
    assert (S' : sends2 bi (G x) (signed2 bi f (N x) ++ [sg bi f d "t_new"]) o "t_new" val).
    { unfold G in S. unfold signed2 in S at 1. rewrite map_app in S. exact S. }
    apply from_sink2 in S' as (S1 & S2 & S3); auto; [|unfold signed2; rewrite map_length; auto].
    split; auto. split; [destruct S3; rewrite S2; auto|].
    intros phi v V. destruct (Qclt_le_dec val target) as [L|L]; auto. left.
    assert (FF : forall z, (0 <= z)%Qc -> (z <= target)%Qc -> fits2 bi target z) by (intros z Z1 Z2; split; auto; destruct bi; qc_lra).
    destruct (Qclt_le_dec target v) as [L2|L2].
    + exfalso. assert (V0 : (0 < v)%Qc) by qc_lra. assert (Vn : v <> 0%Qc) by (intros X; rewrite X in V0; qc_lra).
      assert (I0 : (0 < / v)%Qc). { destruct (Qclt_le_dec 0 (/ v)); auto. exfalso.
        assert (X : (/ v * v <= 0 * v)%Qc) by (apply Qcmult_le_compat_r; auto; qc_lra). rewrite (Qcmult_comm (/ v)), Qcmult_inv_r, Qcmult_0_l in X by auto. qc_lra. }
      set (c := (target * / v)%Qc).
      assert (C : (c * v = target)%Qc) by (unfold c; rewrite <- Qcmult_assoc, (Qcmult_comm (/ v)), Qcmult_inv_r by auto; ring).
      assert (C0 : (0 <= c)%Qc). { unfold c. replace 0%Qc with (0 * / v)%Qc by ring. apply Qcmult_le_compat_r; auto. apply Qclt_le_weak; auto. }
      assert (C1 : (c <= 1)%Qc). { destruct (Qclt_le_dec 1 c) as [X|]; auto. exfalso.
        assert (Y : (1 * v <= c * v)%Qc) by (apply Qcmult_le_compat_r; apply Qclt_le_weak; auto). rewrite C in Y. qc_lra. }
      assert (V2 := sends2_scale bi c _ _ _ _ _ C0 C1 (fun e => caps_pos x e Hx) V). rewrite C in V2.
      assert (X := M _ _ (to_sink2 bi _ _ _ "t_new" target Hod T OT Hd _ _ V2 (FF target Ht (Qcle_refl _)))). qc_lra.
    + destruct (Qclt_le_dec val v) as [L3|]; auto. exfalso.
      destruct (Qclt_le_dec v 0) as [V0|V0].
      * assert (O1 : (0 <= 1)%Qc) by qc_lra.
        assert (Z := sends2_scale bi 0 _ _ _ _ _ (Qcle_refl 0) O1 (fun e => caps_pos x e Hx) V). rewrite Qcmult_0_l in Z.
        assert (X := M _ _ (to_sink2 bi _ _ _ "t_new" target Hod T OT Hd _ _ Z (FF 0%Qc (Qcle_refl _) Ht))). qc_lra.
      * assert (X := M _ _ (to_sink2 bi _ _ _ "t_new" target Hod T OT Hd _ _ V (FF v V0 L2))). qc_lra.
Qed.

Lemma signed2_nth f x i k u v : nth_error edges i = Some (k, (u, v)) -> nth_error (signed2 bi f (N x)) i = Some (sg bi f u v).
Proof. intros E. unfold signed2, N, network2. rewrite map_map, nth_error_map, E. reflexivity. Qed.

Lemma foldM_dset2 {A} (h : string * A -> option Z) (step : dict Z -> string * A -> res (dict Z)) xs : NoDup (keys xs) ->
  (forall kx, In kx xs -> forall m, step m kx = Ok (match h kx with Some z => dset m (fst kx) z | None => m end)) -> forall m,
  exists r, foldM step xs m = Ok r /\ (NoDup (keys m) -> NoDup (keys r)) /\
    forall k, dfind r k = match dfind xs k with Some s => match h (k, s) with Some z => Some z | None => dfind m k end | None => dfind m k end.
Proof.
  induction xs as [|[k s] xs IH]; intros ND H m; cbn [foldM]; [exists m; split; auto|].
  inversion ND as [|? ? N1 N2]; subst. rewrite H by (left; auto). cbn [fst]. cbn [bind].
  destruct (IH N2 (fun kx I => H kx (or_intror I)) (match h (k, s) with Some z => dset m k z | None => m end)) as (r & E & Nr & F).
  exists r. split; auto. split.
  - intros Nm. apply Nr. destruct (h (k, s)); auto. apply dset_nodup. auto.
  - intros k'. rewrite F. cbn [dfind]. destruct (String.eqb_spec k' k) as [->|D].
    + assert (X : dfind xs k = None) by (apply dfind_none; auto). rewrite X. destruct (h (k, s)) as [z|]; auto. rewrite dfind_dset_if, String.eqb_refl. auto.
    + assert (X : dfind (match h (k, s) with Some z => dset m k z | None => m end) k' = dfind m k').
      { destruct (h (k, s)); auto. rewrite dfind_dset_if. destruct (String.eqb_spec k' k); [contradiction|]. auto. }
      rewrite X. auto.
Qed.

Lemma mf_rule_ok x f : In x (space (comps_of varis)) -> (forall k u v, In (k, (u, v)) edges -> one_way bi f u v) ->
  Forall2 (fun e w => fits2 bi (snd e) w) (N x) (signed2 bi f (N x)) ->
  exists r, mf_rule bi f edges varis = Ok r /\ carries2 bi varis edges x (signed2 bi f (N x)) r.
Proof.
  intros Hx Hf F. assert (ND := ekeys).
  set (cs := fun k => match dfind varis k with Some v => match mapM num (v_values v) with Ok l => l | Err _ => [] end | None => [] end).
  set (h := fun ks : string * (string * string) => let kf := flow_on bi f (fst (snd ks)) (snd (snd ks)) in if qc_ltb 0%Qc kf then
              match find_idx (fun c => qc_leb kf c) (cs (fst ks)) with Some i => Some (Z.of_nat i) | None => None end else None).
  assert (Cs : forall k uv, In (k, uv) edges -> exists v, dfind varis k = Some v /\ mapM num (v_values v) = Ok (cs k) /\
    0 <= coord x k < Z.of_nat (List.length (cs k)) /\ (forall z, 0 <= z < Z.of_nat (List.length (cs k)) -> nth_error (cs k) (Z.to_nat z) = Some (cap varis k z))).
  { intros k uv I. destruct (comp_at x k uv Hx I) as (v & l & Fv & _ & Ev & R & Nc & _). exists v. split; auto.
    assert (X : mapM num (v_values v) = Ok l). { rewrite Ev. clear. induction l as [|c l IH]; cbn [map mapM]; auto. cbn [num bind]. rewrite IH. auto. }
    assert (Y : cs k = l) by (unfold cs; rewrite Fv, X; auto). rewrite Y. split; auto. split; auto.
    intros z Hz. unfold cap. rewrite Fv, Ev, nth_error_map. destruct (nth_error l (Z.to_nat z)) eqn:E; auto. apply nth_error_None in E. lia. }
  assert (Fk : forall k u v, In (k, (u, v)) edges -> (flow_on bi f u v <= cap varis k (coord x k))%Qc).
  { intros k u v I. apply flow_fits; [eapply Hf; eauto|]. apply In_nth_error in I as [i I].
    assert (E1 : nth_error (N x) i = Some ((u, v), cap varis k (coord x k))) by (unfold N, network2; rewrite nth_error_map, I; auto).
    exact (Forall2_nth_inv _ _ _ _ _ _ F E1 (signed2_nth f x i k u v I)). }
  unfold mf_rule. edestruct (foldM_dset2 h) with (m := @nil (string * Z)) as (r & E & Nr & D); [exact ND| |exists r; split; [exact E|]].
  { intros [k [u v]] I m. cbn [fst snd]. cbv zeta. unfold h. cbn [fst snd].
    destruct (qc_ltb 0 (flow_on bi f u v)) eqn:P; auto. destruct (Cs k (u, v) I) as (va & V1 & V2 & V3 & V4).
    rewrite (proj2 (dget_ok _ _ _) V1). cbn [bind]. rewrite V2. cbn [bind].
    destruct (find_idx (fun c => qc_leb (flow_on bi f u v) c) (cs k)) eqn:X; auto. exfalso.
    assert (Y := proj1 (find_idx_none _ _) X (cap varis k (coord x k))). rewrite (proj2 (qc_leb_le _ _)) in Y.
    - discriminate Y. apply (nth_error_In _ (Z.to_nat (coord x k))). auto.
    - apply Fk; auto. }
  split; [apply Nr; constructor|]. split.
  - intros k I. destruct (dfind r k) as [z|] eqn:X; [|apply dfind_none in X; contradiction]. rewrite D in X.
    destruct (dfind edges k) eqn:Y; [apply found_key in Y; auto|discriminate X].
  - intros i k [u v] w E1 E2. rewrite (signed2_nth f x i k u v E1) in E2. injection E2 as <-. assert (I := nth_error_In _ _ E1).
    rewrite D, (In_dfind _ _ _ ND I). assert (OW := Hf k u v I). destruct (Cs k (u, v) I) as (va & V1 & V2 & V3 & V4).
    unfold h. cbn [fst snd]. cbv zeta. destruct (qc_ltb 0 (flow_on bi f u v)) eqn:P.
    + destruct (find_idx (fun c => qc_leb (flow_on bi f u v) c) (cs k)) as [j|] eqn:X.
      * apply find_idx_some in X as (c & X1 & X2 & X3). apply qc_ltb_lt in P. apply qc_leb_le in X2. split; [apply flow_pos; auto|].
        assert (Lj : (j < List.length (cs k))%nat) by (apply nth_error_Some; congruence).
        assert (Js : (j <= Z.to_nat (coord x k))%nat).
        { destruct (le_lt_dec j (Z.to_nat (coord x k))); auto. exfalso. assert (Y := X3 (Z.to_nat (coord x k)) _ l (V4 _ V3)). apply qc_leb_gt in Y. assert (Z := Fk k u v I). qc_lra. }
        split; [lia|]. assert (Cj := V4 (Z.of_nat j) ltac:(lia)). rewrite Nat2Z.id in Cj. split.
        -- apply flow_fits; auto. congruence.
        -- intros z' Hz Fz. apply flow_fits in Fz; auto. assert (Y := X3 (Z.to_nat z') _ ltac:(lia) (V4 z' ltac:(lia))). apply qc_leb_gt in Y. qc_lra.
      * exfalso. assert (Y : qc_leb (flow_on bi f u v) (cap varis k (coord x k)) = false) by (apply (proj1 (find_idx_none _ _) X); apply (nth_error_In _ (Z.to_nat (coord x k))); auto).
        apply qc_leb_gt in Y. assert (Z := Fk k u v I). qc_lra.
    + apply qc_ltb_ge in P. cbn [dfind]. destruct (Qc_eq_dec (sg bi f u v) 0%Qc) as [|Z]; auto.
      exfalso. apply flow_pos in Z; auto. qc_lra.
Qed.

Theorem max_flow_fun_ok x : In x (space (comps_of varis)) ->
  exists val s m, max_flow_fun nx_flow x o d edges varis target bi = Ok (val, s, Some m) /\
    (val <= target)%Qc /\ (exists phi, sends2 bi (N x) phi o d val) /\ (forall phi v, sends2 bi (N x) phi o d v -> (v <= val)%Qc \/ val = target) /\
    ((s = S_ /\ val = target /\ exists phi, sends2 bi (N x) phi o d target /\ carries2 bi varis edges x phi m) \/
     (s = F_ /\ (val < target)%Qc /\ m = [])).
Proof.
  intros Hx. destruct (flow_call2 x Hx) as (val & f & E & P & S & L & M). unfold max_flow_fun.
  rewrite (mf_graph_ok x Hx). cbn [bind]. rewrite put_edge_new by (apply simple2_snoc; auto; [apply net_simple|apply (fresh_t x)]).
  unfold G, N in E. fold (N x) in E. rewrite E. cbn [bind].
  assert (M' : forall phi v, sends2 bi (N x) phi o d v -> (v <= val)%Qc \/ val = target).
  { intros phi v V. destruct (M phi v V) as [|Y]; auto. right. qc_lra. }
  destruct (qc_ltb val target) eqn:Q.
  - apply qc_ltb_lt in Q. exists val, F_, []. split; auto. split; auto. split; [eauto|]. split; auto.
  - apply qc_ltb_ge in Q. assert (Ev : val = target) by qc_lra.
    destruct (mf_rule_ok x f Hx P (proj1 S)) as (r & R1 & R2). rewrite R1. cbn [bind]. exists val, S_, r.
    split; auto. split; auto. split; [eauto|]. split; auto. left. split; auto. split; auto. exists (signed2 bi f (N x)). rewrite <- Ev. auto.
Qed.

(** a vector at or above the rule sends the same flow *)
Lemma carries2_sound x y phi r v : In x (space (comps_of varis)) -> In y (space (comps_of varis)) -> sends2 bi (N x) phi o d v -> carries2 bi varis edges x phi r ->
  (forall k z, dfind r k = Some z -> z <= coord y k) -> sends2 bi (N y) phi o d v.
Proof.
  intros Hx Hy (A & B & V) (_ & _ & R) L.
  assert (E : map fst (N y) = map fst (N x)) by (unfold N, network2; rewrite !map_map; auto).
  split; [|split].
  - assert (La := A). apply Forall2_length in La. unfold N, network2 in La. rewrite map_length in La.
    apply Forall2_nth_error; [unfold N, network2; rewrite map_length; congruence|].
    intros i e w E1 E2. unfold N, network2 in E1. rewrite nth_error_map in E1. destruct (nth_error edges i) as [[k uv]|] eqn:Ei; [|discriminate E1].
    injection E1 as <-. cbn [fst snd]. assert (Q := R i k uv w Ei E2). assert (Iy := nth_error_In _ _ Ei).
    destruct (comp_at x k uv Hx Iy) as (va' & cs' & Fv' & _ & Ev' & Rs' & _).
    destruct (comp_at y k uv Hy Iy) as (va & cs & Fv & _ & Ev & Rs & Nc & P). assert (va' = va) by congruence. subst va'.
    assert (INJ : forall a b, map VNum a = map VNum b -> a = b) by (induction a as [|c a IH]; intros [|c' b] X; try discriminate X; auto; injection X as -> X; f_equal; auto).
    assert (cs' = cs) by (apply INJ; congruence). subst cs'.
    destruct (dfind r k) as [z|] eqn:Dz.
    + destruct Q as (_ & Z1 & Z2 & _). specialize (L k z Dz).
      destruct (Hc k va) as (cs'' & Ev'' & _ & Mono); [apply dfind_In; auto|]. assert (cs'' = cs) by (apply INJ; congruence). subst cs''.
      assert (Nz : nth_error cs (Z.to_nat z) = Some (cap varis k z)).
      { unfold cap. rewrite Fv, Ev, nth_error_map. destruct (nth_error cs (Z.to_nat z)) eqn:X; auto. apply nth_error_None in X. lia. }
      assert (Zl : (Z.to_nat z <= Z.to_nat (coord y k))%nat) by lia. assert (Le := Mono _ _ _ _ Zl Nz Nc). destruct Z2 as [Z2 Z3]. split; [destruct bi|]; qc_lra.
    + rewrite Q. split; [destruct bi|]; qc_lra.
  - intros n N1 N2. rewrite (net_ends _ _ phi n E). auto.
  - rewrite (net_ends _ _ phi o E). auto.
Qed.

Lemma carries2_at x w r k z v : In x (space (comps_of varis)) -> sends2 bi (N x) w o d v -> carries2 bi varis edges x w r -> dfind r k = Some z -> z <= coord x k.
Proof.
  intros Hx Sw (_ & I & R) Ez. assert (Ik : In k (keys edges)) by (apply I; apply found_key in Ez; auto).
  apply in_map_iff in Ik as ([k' uv] & <- & Ik). cbn [fst] in *. apply In_nth_error in Ik as [i Ik].
  assert (Li : (i < List.length w)%nat). { destruct Sw as [A _]. apply Forall2_length in A. unfold N, network2 in A. rewrite map_length in A. rewrite <- A. apply nth_error_Some. congruence. }
  destruct (nth_error w i) as [wi|] eqn:Ew; [|apply nth_error_None in Ew; lia]. assert (Q := R i k' uv wi Ik Ew). rewrite Ez in Q. lia.
Qed.

Lemma mf_sys_ok phi : (forall x, In x (space (comps_of varis)) -> (phi x = true <-> exists w v, sends2 bi (N x) w o d v /\ (target <= v)%Qc)) ->
  sys_ok varis phi (mf_sysfun nx_flow o d edges varis target bi).
Proof.
  intros Hp.
  assert (Dec : forall x, In x (space (comps_of varis)) -> exists val s m, max_flow_fun nx_flow x o d edges varis target bi = Ok (val, s, Some m) /\
    ((s = S_ /\ phi x = true /\ exists w, sends2 bi (N x) w o d target /\ carries2 bi varis edges x w m) \/ (s = F_ /\ phi x = false /\ m = []))).
  { intros x Hx. destruct (max_flow_fun_ok x Hx) as (val & s & m & E & L & W & M & C). exists val, s, m. split; auto.
    destruct C as [(-> & -> & w & Sw & Cr)|(-> & Lt & ->)].
    - left. split; auto. split; [apply Hp; auto; exists w, target; split; auto; apply Qcle_refl|]. eauto.
    - right. split; auto. split; auto. destruct (phi x) eqn:P; auto. apply Hp in P as (w & v & S & T); auto.
      destruct (M w v S) as [X|X]; exfalso; [qc_lra|]. rewrite X in Lt. qc_lra. }
  split.
  - intros x y Hx Hy Le Px. destruct (Dec x Hx) as (val & s & m & _ & [(_ & _ & w & Sw & Cr)|(_ & P & _)]); [|congruence].
    apply Hp; auto. exists w, target. split; [|apply Qcle_refl]. apply (carries2_sound x y w m); auto.
    intros k z Ez. assert (Z1 := carries2_at x w m k z _ Hx Sw Cr Ez). assert (Ky : In k (keys varis)). { rewrite <- (proj1 He). destruct Cr as (_ & I & _). apply I. apply found_key in Ez; auto. }
    specialize (Le k Ky). lia.
  - intros x Hx. destruct (Dec x Hx) as (val & s & m & E & C). unfold mf_sysfun. rewrite E. exists val, (Some m).
    split. { destruct C as [(-> & -> & _)|(-> & -> & _)]; auto. }
    intros r [= <-] Nr. destruct C as [(-> & P & w & Sw & Cr)|(_ & _ & Em)]; [|congruence].
    split; [split; [apply Cr|rewrite <- (proj1 He); apply Cr]|]. split; [|congruence]. intros _. split.
    + unfold sat_s. apply forallb_forall. intros [k z] I. apply In_dfind in I; [|apply Cr]. cbn [fst snd]. apply Z.leb_le. apply (carries2_at x w m k z target); auto.
    + intros y Hy Sy. apply Hp; auto. exists w, target. split; [|apply Qcle_refl]. apply (carries2_sound x y w m); auto.
      intros k z Ez. unfold sat_s in Sy. rewrite forallb_forall in Sy. apply dfind_In in Ez. specialize (Sy _ Ez). apply Z.leb_le in Sy. auto.
Qed.
End Main.

(** * The input file *)
Lemma zfind_seq (l : list Qc) a x : a <= x < a + Z.of_nat (List.length l) -> zfind (combine (zrange a (a + Z.of_nat (List.length l))) l) x = nth_error l (Z.to_nat (x - a)).
Proof.
  revert a. induction l as [|q l IH]; intros a H; [cbn in H; lia|]. rewrite zrange_cons by (cbn [List.length]; lia).
  cbn [combine zfind]. destruct (Z.eqb_spec x a) as [->|D]; [rewrite Z.sub_diag; auto|].
  replace (a + Z.of_nat (List.length (q :: l))) with (a + 1 + Z.of_nat (List.length l)) by (cbn [List.length]; lia).
  cbn [List.length] in H. rewrite IH by lia. replace (Z.to_nat (x - a)) with (S (Z.to_nat (x - (a + 1)))) by lia. auto.
Qed.
Section Links.
Variables (bi : bool) (ls : dict link).
Hypothesis H : links_ok bi ls.

Lemma init_keys : keys (init_varis ls) = keys ls /\ keys (init_edges ls) = keys ls /\ keys (init_probs ls) = keys ls.
Proof. unfold keys, init_varis, init_edges, init_probs. rewrite !map_map. auto. Qed.
Lemma init_comps : comps_of (init_varis ls) = map (fun kl => (fst kl, Z.of_nat (List.length (l_caps (snd kl))))) ls.
Proof. unfold comps_of, init_varis. rewrite map_map. apply map_ext. intros [k l]. unfold nvals. cbn. rewrite map_length. auto. Qed.
Lemma init_edges_ok : edges2_ok bi (init_edges ls) (init_varis ls).
Proof.
  destruct init_keys as (K1 & K2 & _). destruct H as (N & L & U). split; [congruence|]. split.
  - intros k u v I. apply in_map_iff in I as ([k' l] & E & I). injection E as <- <- <-. cbn [snd]. destruct (L k' l I) as (A & B & C & _). auto.
  - intros k k' u v I J. apply in_map_iff in I as ([k1 l] & E & I). injection E as <- <- <-. cbn [fst snd] in *. destruct J as [J|[B J]]; apply in_map_iff in J as ([k2 l'] & E & J); injection E as <- E1 E2; cbn [fst snd] in *; eauto 6.
Qed.
Lemma init_caps_ok : caps_ok (init_varis ls).
Proof.
  intros k v I. apply in_map_iff in I as ([k' l] & E & I). injection E as <- <-. cbn [fst snd]. destruct (proj1 (proj2 H) k' l I) as (_ & _ & _ & _ & A & B & _).
  exists (l_caps l). auto.
Qed.
Lemma init_nonempty k l : In (k, l) ls -> l_prob l <> [].
Proof. intros I X. destruct (proj1 (proj2 H) k l I) as (_ & _ & _ & _ & _ & _ & _ & S). rewrite X in S. discriminate S. Qed.
Lemma init_wf : wf_varis (init_varis ls).
Proof.
  split; [rewrite (proj1 init_keys); apply H|]. intros k v I. apply in_map_iff in I as ([k' l] & E & I). injection E as <- <-. unfold nvals. cbn. rewrite map_length.
  assert (X := init_nonempty k' l I). destruct (proj1 (proj2 H) k' l I) as (_ & _ & _ & -> & _). destruct (l_prob l); [congruence|]. cbn [List.length]. lia.
Qed.
Lemma init_pr k l z : In (k, l) ls -> 0 <= z < Z.of_nat (List.length (l_prob l)) -> exists d, dfind (init_probs ls) k = Some d /\ pget d z = Ok (nth (Z.to_nat z) (l_prob l) 0%Qc).
Proof.
  intros I Hz. eexists. split; [apply In_dfind; [rewrite (proj2 (proj2 init_keys)); apply H|apply in_map_iff; exists (k, l); split; [reflexivity|auto]]|].
  cbn [snd pget]. assert (Z := zfind_seq (l_prob l) 0 z ltac:(lia)). rewrite Z.add_0_l, Z.sub_0_r in Z. rewrite Z.
  destruct (nth_error (l_prob l) (Z.to_nat z)) eqn:X; [rewrite (nth_error_nth _ _ _ X); auto|apply nth_error_None in X; lia].
Qed.
Lemma init_wf_probs : wf_probs (init_varis ls) (init_probs ls).
Proof.
  intros k v I. apply in_map_iff in I as ([k' l] & E & I). injection E as <- <-. cbn [fst snd]. unfold nvals. cbn [v_values mk_variable]. rewrite map_length.
  destruct (proj1 (proj2 H) k' l I) as (_ & _ & _ & E & _ & _ & P & S). rewrite E. split.
  - eexists. split; [apply In_dfind; [rewrite (proj2 (proj2 init_keys)); apply H|apply in_map_iff; exists (k', l); split; [reflexivity|auto]]|].
    intros x Hx. destruct (init_pr k' l x I Hx) as (d & D1 & D2). assert (D3 : dfind (init_probs ls) k' = Some (PDict (combine (zrange 0 (Z.of_nat (List.length (l_prob l)))) (l_prob l)))).
    { apply In_dfind; [rewrite (proj2 (proj2 init_keys)); apply H|]. apply in_map_iff. exists (k', l). auto. }
    rewrite D3 in D1. injection D1 as <-. cbn [snd]. eexists. split; [exact D2|]. apply P. apply nth_In. lia.
  - rewrite <- S. assert (X : forall (f : Z -> Qc) (l : list Qc) a, (forall z, a <= z < a + Z.of_nat (List.length l) -> f z = nth (Z.to_nat (z - a)) l 0%Qc) -> map f (zrange a (a + Z.of_nat (List.length l))) = l).
    { clear. intros f l. induction l as [|q l IH]; intros a F; [rewrite zrange_nil by (cbn; lia); auto|]. cbn [List.length] in *.
      rewrite zrange_cons by lia. cbn [map]. f_equal; [rewrite F by lia; rewrite Z.sub_diag; auto|].
      replace (a + Z.of_nat (Datatypes.S (List.length l))) with (a + 1 + Z.of_nat (List.length l)) by lia. apply IH. intros z Hz. rewrite F by lia.
      replace (Z.to_nat (z - a)) with (Datatypes.S (Z.to_nat (z - (a + 1)))) by lia. auto. }
    specialize (X (pr (init_probs ls) k') (l_prob l) 0). rewrite Z.add_0_l in X. rewrite X; auto.
    intros z Hz. rewrite Z.sub_0_r. unfold pr. destruct (init_pr k' l z I) as (d & -> & ->); auto; lia.
Qed.
Lemma init_net x : In x (link_space ls) -> network2 (init_edges ls) (init_varis ls) x = link_net ls x.
Proof.
  intros Hx. unfold network2, init_edges, link_net. rewrite map_map. apply map_ext_in. intros [k l] I. cbn [fst snd]. f_equal.
  unfold cap. assert (D : dfind (init_varis ls) k = Some (mk_variable k (map VNum (l_caps l)) None)).
  { apply In_dfind; [rewrite (proj1 init_keys); apply H|]. apply in_map_iff. exists (k, l). auto. }
  rewrite D. cbn [v_values mk_variable]. rewrite nth_error_map.
  destruct (nth_error (l_caps l) (Z.to_nat (coord x k))) eqn:X; cbn [option_map]; [rewrite (nth_error_nth _ _ _ X); auto|].
  apply nth_error_None in X. rewrite nth_overflow by auto. auto.
Qed.
Lemma init_prob x : In x (link_space ls) -> prob_of (init_probs ls) x = link_pr ls x.
Proof.
  intros Hx. unfold prob_of, link_pr. f_equal. assert (W := init_wf). assert (Hx' : In x (space (comps_of (init_varis ls)))) by (rewrite init_comps; auto).
  destruct (space_states _ x W Hx') as [_ K]. rewrite (proj1 init_keys) in K.
  assert (N : NoDup (keys x)) by (rewrite K; apply H).
  assert (C : forall k l, In (k, l) ls -> 0 <= coord x k < Z.of_nat (List.length (l_prob l))).
  { intros k l I. destruct (proj1 (proj2 H) k l I) as (_ & _ & _ & <- & _). apply (space_coord _ x k _) with (2 := Hx).
    - unfold keys. rewrite map_map. cbn [fst]. apply H.
    - apply in_map_iff. exists (k, l). auto. }
  transitivity (map (fun k => pr (init_probs ls) k (coord x k)) (keys x)).
  { unfold keys. rewrite map_map. apply map_ext_in. intros [k z] I. cbn [fst snd]. unfold coord. rewrite (In_dfind _ _ _ N I). auto. }
  rewrite K. unfold keys. rewrite map_map. apply map_ext_in. intros [k l] I. cbn [fst snd]. unfold pr.
  destruct (init_pr k l (coord x k) I (C k l I)) as (d & -> & ->). auto.
Qed.
Lemma init_fail meets : p_fail (init_varis ls) (init_probs ls) meets = p_short ls meets.
Proof.
  unfold p_fail, p_short, prob_event. rewrite init_comps. fold (link_space ls). f_equal. apply map_ext_in. intros x I. apply filter_In in I as [I _]. apply init_prob. auto.
Qed.
End Links.
