(** Greatest flow and least cut. *)
From Coq Require Import ZArith List String Bool Arith Lia QArith Qcanon.
From Verif Require Import Py PyFacts Num Flow SpecFlow FlowFacts MaxFlow SpecMaxFlow SpecCut.
Import ListNotations.
Open Scope string_scope.
Open Scope list_scope.

(** * What leaves one side *)
Definition part (side : string -> bool) (uv : string * string) (w : Qc) : Qc :=
  ((if side (fst uv) then w else 0) - (if side (snd uv) then w else 0))%Qc.
Fixpoint out (side : string -> bool) (g : cgraph) (phi : list Qc) : Qc :=
  match g, phi with e :: g', w :: phi' => (part side (fst e) w + out side g' phi')%Qc | _, _ => 0%Qc end.

Lemma one_in (side : string -> bool) ns m w : NoDup ns -> In m ns -> qsum (map (fun n => if side n then (if String.eqb m n then w else 0%Qc) else 0%Qc) ns) = if side m then w else 0%Qc.
Proof.
  intros N I. rewrite (qsum_map_ext _ (fun n => if String.eqb m n then (if side m then w else 0%Qc) else 0%Qc)); [apply qsum_one; auto|].
  intros n _. destruct (String.eqb_spec m n) as [->|]; auto. destruct (side n); auto.
Qed.
Lemma out_net (side : string -> bool) ns g phi : NoDup ns -> (forall e, In e g -> In (fst (fst e)) ns /\ In (snd (fst e)) ns) ->
  qsum (map (fun n => if side n then net g phi n else 0%Qc) ns) = out side g phi.
Proof.
  intros N. revert phi. induction g as [|e g IH]; intros [|w phi] H; try (apply qsum_map_zero; intros n _; destruct (side n); reflexivity).
  cbn [out]. rewrite <- IH by (intros; apply H; right; auto). destruct (H e (or_introl eq_refl)) as [H1 H2].
  rewrite (qsum_map_ext _ (fun n => ((if side n then (if String.eqb (fst (fst e)) n then w else 0) else 0) +
     ((-(1)) * (if side n then (if String.eqb (snd (fst e)) n then w else 0) else 0) + (if side n then net g phi n else 0)))%Qc)).
  2:{ intros n _. rewrite net_cons. unfold share. destruct (side n); ring. }
  rewrite qsum_map_plus, qsum_map_plus, qsum_map_scale, !one_in by auto. unfold part. ring.
Qed.
Lemma out_value bi side g phi s t v : splits side s t -> sends2 bi g phi s t v -> out side g phi = v.
Proof.
  intros [Ss St] (_ & C & V). set (ns := nodup string_dec (s :: map (fun e => fst (fst e)) g ++ map (fun e => snd (fst e)) g)).
  rewrite <- (out_net side ns g phi (NoDup_nodup string_dec _)).
  2:{ intros e I. split; apply nodup_In; right; apply in_app_iff; [left; apply (in_map (fun e => fst (fst e)))|right; apply (in_map (fun e => snd (fst e)))]; auto. }
  rewrite (qsum_map_ext _ (fun n => if String.eqb s n then v else 0%Qc)).
  - apply qsum_one; [apply NoDup_nodup|apply nodup_In; left; auto].
  - intros n _. destruct (String.eqb_spec s n) as [<-|D]; [rewrite Ss; auto|]. destruct (side n) eqn:E; auto. apply C; auto. intros ->. congruence.
Qed.

Lemma cut_cons bi e g side : cut_cap bi (e :: g) side = ((if crosses bi side e then snd e else 0) + cut_cap bi g side)%Qc.
Proof. unfold cut_cap. cbn [filter]. destruct (crosses bi side e); cbn [map qsum]; ring. Qed.

(** no flow exceeds a cut *)
Lemma weak_cut bi g phi s t v side : sends2 bi g phi s t v -> splits side s t -> (v <= cut_cap bi g side)%Qc.
Proof.
  intros S H. rewrite <- (out_value bi side g phi s t v H S). destruct S as (F & _). clear v H. induction F as [|e w g phi [F1 F2] F IH]; cbn [out].
  - unfold cut_cap. cbn. qc_lra.
  - rewrite cut_cons. unfold part, crosses. destruct (side (fst (fst e))), (side (snd (fst e))), bi; cbn [andb orb negb]; qc_lra.
Qed.

(** * Greatest flows *)
Section Max.
Context (bi : bool) (g : cgraph) (s t : string) (D : s <> t) (Hc : forall e, In e g -> (0 <= snd e)%Qc).
Context (phi : list Qc) (val : Qc) (Sp : sends2 bi g phi s t val) (Mx : forall p v, sends2 bi g p s t v -> (v <= val)%Qc).

Definition low (c : Qc) : Qc := (if bi then - c else 0)%Qc.
Definition feas (p : list Qc) : Prop := Forall2 (fun e w => fits2 bi (snd e) w) g p.
Definition at_node (n m : string) (w : Qc) : Qc := if String.eqb n m then w else 0%Qc.
(** more can be brought from the origin to [n] *)
Definition moves (a n : string) : Prop := exists p eps, (0 < eps)%Qc /\ feas p /\ forall m, net g p m = (net g phi m + (at_node a m eps - at_node n m eps))%Qc.

Definition comb (a : Qc) (p q : list Qc) : list Qc := map (fun xy => (a * fst xy + (1 - a) * snd xy)%Qc) (combine p q).
Lemma feas_comb a p q : (0 <= a)%Qc -> (a <= 1)%Qc -> feas p -> feas q -> feas (comb a p q).
Proof.
  intros A0 A1 P. unfold feas. revert q. clear Hc Sp Mx phi. induction P as [|e x g' p' [F1 F2] P IH]; intros q Q; inversion Q as [|? y ? q' [G1 G2] Q']; subst; cbn [comb combine map]; constructor.
  - cbn [fst snd].
    assert (Y : forall lo, (lo <= x)%Qc -> (lo <= y)%Qc -> (lo <= a * x + (1 - a) * y)%Qc).
    { intros lo L1 L2. assert (a * lo <= a * x)%Qc by (rewrite !(Qcmult_comm a); apply Qcmult_le_compat_r; auto).
      assert ((1 - a) * lo <= (1 - a) * y)%Qc by (rewrite !(Qcmult_comm (1 - a)); apply Qcmult_le_compat_r; auto; qc_lra).
      assert (E : lo = (a * lo + (1 - a) * lo)%Qc) by ring. rewrite E. apply Qcplus_le_compat; auto. }
    assert (Z : forall hi, (x <= hi)%Qc -> (y <= hi)%Qc -> (a * x + (1 - a) * y <= hi)%Qc).
    { intros hi L1 L2. assert (a * x <= a * hi)%Qc by (rewrite !(Qcmult_comm a); apply Qcmult_le_compat_r; auto).
      assert ((1 - a) * y <= (1 - a) * hi)%Qc by (rewrite !(Qcmult_comm (1 - a)); apply Qcmult_le_compat_r; auto; qc_lra).
      assert (E : hi = (a * hi + (1 - a) * hi)%Qc) by ring. rewrite E. apply Qcplus_le_compat; auto. }
    split; auto.
  - apply IH; auto.
Qed.
Lemma net_comb a p q n : List.length p = List.length g -> List.length q = List.length g -> net g (comb a p q) n = (a * net g p n + (1 - a) * net g q n)%Qc.
Proof.
  clear. revert p q. induction g as [|e g' IH]; intros [|x p] [|y q] L1 L2; try discriminate; [unfold net; cbn; ring|].
  unfold comb. cbn [combine map]. rewrite !net_cons. change (map _ (combine p q)) with (comb a p q). rewrite IH by (cbn in *; lia).
  unfold share. cbn [fst snd]. destruct (String.eqb _ _), (String.eqb _ _); ring.
Qed.
Lemma feas_len p : feas p -> List.length p = List.length g.
Proof. intros F. apply Forall2_length in F. auto. Qed.
Lemma phi_feas : feas phi.
Proof. apply Sp. Qed.

Lemma moves_refl : moves s s.
Proof. exists phi, 1%Qc. split; [reflexivity|]. split; [apply phi_feas|]. intros m. ring. Qed.
Lemma moves_trans n m : moves s n -> moves n m -> moves s m.
Proof.
  intros (p & e1 & P1 & F1 & N1) (q & e2 & P2 & F2 & N2). set (a := (e2 / (e1 + e2))%Qc).
  assert (NZ : (e1 + e2)%Qc <> 0%Qc) by (intros X; qc_lra).
  assert (A0 : (0 <= a)%Qc). { unfold a, Qcdiv. apply (Qcmult_lt_0_le_reg_r _ _ (e1 + e2)); [qc_lra|]. rewrite Qcmult_0_l, <- Qcmult_assoc, (Qcmult_comm (/ _)), Qcmult_inv_r, Qcmult_1_r by auto. qc_lra. }
  assert (A1 : (a <= 1)%Qc). { unfold a, Qcdiv. apply (Qcmult_lt_0_le_reg_r _ _ (e1 + e2)); [qc_lra|]. rewrite Qcmult_1_l, <- Qcmult_assoc, (Qcmult_comm (/ _)), Qcmult_inv_r, Qcmult_1_r by auto. qc_lra. }
  assert (Ea : (a * e1 = (1 - a) * e2)%Qc). { unfold a. field. auto. }
  exists (comb a p q), (a * e1)%Qc. split; [|split].
  - assert (Pa : (0 < a)%Qc). { destruct (Qcle_lt_or_eq _ _ A0) as [X|X]; auto. exfalso. assert (e2 = 0)%Qc; [|qc_lra].
      rewrite <- X in Ea. rewrite Qcmult_0_l in Ea. rewrite Ea. ring. }
    rewrite <- (Qcmult_0_l e1). apply Qcmult_lt_compat_r; auto.
  - apply feas_comb; auto.
  - intros x. rewrite net_comb by (apply feas_len; auto). rewrite N1, N2. unfold at_node. assert (Ez : (a * e1 - (1 - a) * e2 = 0)%Qc) by (rewrite Ea; ring).
    destruct (String.eqb s x), (String.eqb n x), (String.eqb m x);
      match goal with |- _ = ?r => first [ring | transitivity (r + (a * e1 - (1 - a) * e2))%Qc; [ring|rewrite Ez; ring] | transitivity (r - (a * e1 - (1 - a) * e2))%Qc; [ring|rewrite Ez; ring]] end.
Qed.

Lemma split_at i e w : nth_error (combine g phi) i = Some (e, w) ->
  exists g1 g2 p1 p2, g = g1 ++ e :: g2 /\ phi = p1 ++ w :: p2 /\ List.length g1 = List.length p1.
Proof.
  clear. revert phi i. induction g as [|e' g' IH]; intros [|w' p] [|i] H; try discriminate H; cbn [combine nth_error] in H.
  - injection H as -> ->. exists [], g', [], p. auto.
  - destruct (IH p i H) as (g1 & g2 & p1 & p2 & -> & -> & L). exists (e' :: g1), g2, (w' :: p1), p2. cbn. auto.
Qed.
Lemma one_move e w w' : In (e, w) (combine g phi) -> fits2 bi (snd e) w' ->
  exists p, feas p /\ forall m, net g p m = (net g phi m + (at_node (fst (fst e)) m (w' - w) - at_node (snd (fst e)) m (w' - w)))%Qc.
Proof.
  intros I F. apply In_nth_error in I as [i I]. destruct (split_at i e w I) as (g1 & g2 & p1 & p2 & E1 & E2 & L).
  exists (p1 ++ w' :: p2). pose proof phi_feas as P. unfold feas in *. rewrite E1, E2 in *. split.
  - apply Forall2_app_inv_l in P as (q1 & q2 & Q1 & Q2 & E). assert (L1 := Q1). apply Forall2_length in L1.
    destruct (app_inv_length p1 (w :: p2) q1 q2) as [<- <-]; auto; [congruence|]. inversion Q2; subst. apply Forall2_app; auto.
  - intros m. rewrite !net_app, !net_cons by auto. unfold share, at_node. destruct (String.eqb _ _), (String.eqb _ _); ring.
Qed.
Lemma edge_moves e w : In (e, w) (combine g phi) ->
  ((w < snd e)%Qc -> moves (fst (fst e)) (snd (fst e))) /\ ((low (snd e) < w)%Qc -> moves (snd (fst e)) (fst (fst e))).
Proof.
  intros I. assert (C := Hc e (in_combine_l _ _ _ _ I)). split; intros L.
  - destruct (one_move e w (snd e) I) as (p & F & N). { split; [destruct bi; qc_lra|apply Qcle_refl]. }
    exists p, (snd e - w)%Qc. split; [qc_lra|]. auto.
  - destruct (one_move e w (low (snd e)) I) as (p & F & N). { unfold low. split; [apply Qcle_refl|destruct bi; qc_lra]. }
    exists p, (w - low (snd e))%Qc. split; [qc_lra|]. split; auto. intros m. rewrite N. unfold at_node. destruct (String.eqb _ _), (String.eqb _ _); ring.
Qed.

Definition mem (l : list string) (n : string) : bool := existsb (String.eqb n) l.
Lemma mem_in l n : mem l n = true <-> In n l.
Proof. unfold mem. rewrite existsb_exists. split; [intros (x & I & E); apply String.eqb_eq in E; subst; auto|intros I; exists n; split; auto; apply String.eqb_refl]. Qed.
Lemma mem_out l n : mem l n = false <-> ~ In n l.
Proof. rewrite <- mem_in. destruct (mem l n); split; congruence. Qed.

(** an edge that can take more, across the side [l] *)
Definition open (l : list string) (ew : (string * string * Qc) * Qc) : bool :=
  (mem l (fst (fst (fst ew))) && negb (mem l (snd (fst (fst ew)))) && qc_ltb (snd ew) (snd (fst ew))) ||
  (mem l (snd (fst (fst ew))) && negb (mem l (fst (fst (fst ew)))) && qc_ltb (low (snd (fst ew))) (snd ew)).
Definition all_nodes : list string := map (fun e => fst (fst e)) g ++ map (fun e => snd (fst e)) g.
Definition left_out (l : list string) : nat := List.length (filter (fun n => negb (mem l n)) all_nodes).

Lemma left_less l n : In n all_nodes -> ~ In n l -> (left_out (n :: l) < left_out l)%nat.
Proof.
  intros I O. unfold left_out. revert I. induction all_nodes as [|m ms IH]; intros I; [destruct I|]. cbn [filter].
  assert (Le : (List.length (filter (fun x => negb (mem (n :: l) x)) ms) <= List.length (filter (fun x => negb (mem l x)) ms))%nat).
  { clear. induction ms as [|x ms IH]; auto. cbn [filter]. unfold mem at 1. cbn [existsb]. fold (mem l x). destruct (String.eqb x n), (mem l x); cbn [orb negb List.length]; lia. }
  unfold mem at 1. cbn [existsb]. fold (mem l m). destruct (String.eqb_spec m n) as [->|Dn]; cbn [orb negb].
  - apply mem_out in O. rewrite O. cbn [negb List.length]. lia.
  - destruct I as [I|I]; [congruence|]. specialize (IH I). destruct (mem l m); cbn [negb List.length]; lia.
Qed.
Lemma grow k : forall l, (left_out l <= k)%nat -> In s l -> (forall n, In n l -> moves s n) ->
  exists l', In s l' /\ (forall n, In n l' -> moves s n) /\ existsb (open l') (combine g phi) = false.
Proof.
  induction k as [|k IH]; intros l Lk Is M; (destruct (existsb (open l) (combine g phi)) eqn:E; [|exists l; auto]);
    apply existsb_exists in E as ([e w] & I & O); unfold open in O; cbn [fst snd] in O;
    (assert (X : exists n, In n all_nodes /\ ~ In n l /\ moves s n);
     [destruct (edge_moves e w I) as [M1 M2]; assert (Ie := in_combine_l _ _ _ _ I); apply orb_true_iff in O as [O|O];
        apply andb_true_iff in O as [O1 O3]; apply andb_true_iff in O1 as [O1 O2]; apply mem_in in O1; apply negb_true_iff, mem_out in O2; apply qc_ltb_lt in O3;
        [exists (snd (fst e))|exists (fst (fst e))]; (split; [unfold all_nodes; apply in_app_iff; first [left; apply (in_map (fun e => fst (fst e))); exact Ie | right; apply (in_map (fun e => snd (fst e))); exact Ie]|split; auto; eapply moves_trans; [apply M; eauto|auto]])
     |destruct X as (n & In1 & In2 & In3); assert (Ll := left_less l n In1 In2)]).
  - lia.
  - apply (IH (n :: l)); [lia|right; auto|]. intros m [<-|Hm]; auto.
Qed.

Lemma no_more : ~ moves s t.
Proof.
  intros (p & eps & Pe & F & N). assert (X : sends2 bi g p s t (val + eps)%Qc).
  { split; [exact F|]. destruct Sp as (_ & C & V). split.
    - intros n N1 N2. rewrite N, C by auto. unfold at_node. destruct (String.eqb_spec s n), (String.eqb_spec t n); try congruence. ring.
    - rewrite N, V. unfold at_node. rewrite String.eqb_refl. destruct (String.eqb_spec t s); try congruence. ring. }
  apply Mx in X. qc_lra.
Qed.

Lemma closed_out l ph gg : (forall ew, In ew (combine gg ph) -> open l ew = false) -> Forall2 (fun e w => fits2 bi (snd e) w) gg ph -> out (mem l) gg ph = cut_cap bi gg (mem l).
Proof.
  intros O F. induction F as [|e w gg ph [F1 F2] F IH]; [unfold cut_cap; reflexivity|]. cbn [out]. rewrite cut_cons, IH by (intros; apply O; right; auto). f_equal.
  specialize (O (e, w) (or_introl eq_refl)). unfold open in O. cbn [fst snd] in O. unfold part, crosses.
  destruct (mem l (fst (fst e))), (mem l (snd (fst e))); cbn [andb orb negb] in *; rewrite ?andb_false_r, ?andb_true_r in *; cbn [orb] in *; try ring.
  - apply orb_false_iff in O as [O _]. apply qc_ltb_ge in O. assert (w = snd e) by (apply Qcle_antisym; auto). subst w. ring.
  - apply qc_ltb_ge in O. unfold low in O. assert (w = if bi then - snd e else 0)%Qc by (apply Qcle_antisym; auto). subst w. destruct bi; ring.
Qed.
Lemma strong_cut : exists side, splits side s t /\ cut_cap bi g side = val.
Proof.
  destruct (grow (left_out [s]) [s]) as (l & Is & M & O); auto; [left; auto|intros n [<-|[]]; apply moves_refl|].
  exists (mem l). assert (H : splits (mem l) s t). { split; [apply mem_in; auto|apply mem_out; intros I; apply no_more; auto]. }
  split; auto. rewrite <- (out_value bi (mem l) g phi s t val H Sp). symmetry. apply closed_out; [|apply phi_feas].
  intros ew I. destruct (open l ew) eqn:E; auto. assert (X : existsb (open l) (combine g phi) = true) by (apply existsb_exists; eauto). congruence.
Qed.
End Max.
